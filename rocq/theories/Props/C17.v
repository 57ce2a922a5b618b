(** C17: parasitic extraction cuts every wire into consecutive cells, and the total wire resistance
    and capacitance depend only on the wires.  Needs every wire that has a port beyond its start
    to have one inside ([ports_ok]); refuted without. *)
From Coq Require Import String Ascii QArith ZifyBool.
From Verif Require Import Base.Prelude Base.PyDict Base.PyStr Model.Transformation Model.PySort Model.RemoveDuplicates Model.Pex
  Spec.RemoveDuplicatesSpec Spec.DrcSpec Spec.PexSpec Proofs.PySortP Proofs.PexP Proofs.PexRunP.
Local Open Scope Z_scope.

(** The part of a wire rectangle between [a] and [b] along the wire. *)
Definition cut (d : sdir) (r : Rect) (a b : Z) : Rect :=
  match d with DH => mkRect a (lly r) b (ury r) | _ => mkRect (llx r) a (urx r) b end.

(** Every wire is covered by cells that follow each other without gap or overlap, none longer than
    the poly pitch, each ending in the node the next one starts with. *)
Theorem C17_wire_cells env sto res w :
  pex_input env sto -> ports_ok env sto -> pex_run env sto = Some res -> is_wire env sto w ->
  exists (node : Z -> chars) ivs,
    tiles (pe_pitch env) (start_of (w_dir w) (px_rect (w_px w))) (end_of (w_dir w) (px_rect (w_px w))) ivs /\
    forall a b, In (a, b) ivs -> In ((node a, node b), (w_layer w, cut (w_dir w) (px_rect (w_px w)) a b)) (x_cells res).
Proof.
  intros PI PO HR Hw. unfold pex_run in HR. destruct (compute_ports env sto) as [t|] eqn:CP; [|discriminate].
  destruct (mapO _ sto) as [css|] eqn:EM; [|discriminate].
  set (cells := fold_left _ (concat css) []) in HR. destruct (foldM _ cells _) as [((cs, nr), nc)|]; [|discriminate].
  injection HR as <-. cbn [x_cells].
  destruct (dict_metal env sto t PI PO CP css EM) as (D1 & _). fold cells in D1.
  destruct Hw as (vv & rs & q & Hin & Hl & Hr & Hd & Hns & Hq & HM).
  set (it := mkItem (w_layer w) (w_dir w) q (w_track w) (w_px w) (0, 0)).
  exists (i_node it), (wire_ivs env (sort_ports t) (w_layer w) (w_dir w) (w_track w) (w_px w)). split.
  - apply (wire_tiles env sto t PI PO CP w q); [exists vv, rs, q; auto 8|assumption].
  - intros a b Hab. set (j := mkItem (w_layer w) (w_dir w) q (w_track w) (w_px w) (a, b)).
    assert (Hj : In j (items env (sort_ports t) sto)).
    { unfold items. apply in_flat_map. exists (w_layer w, vv). split; [assumption|]. unfold layer_items. cbn [fst snd].
      rewrite (pdk_get env sto PI _ _ Hq), (dir_get env sto PI _ _ Hd). rewrite (proj2 (starts_ok _ _) HM).
      assert (Hx : In j (flat_map (line_items env (sort_ports t) q (w_layer w) (w_dir w)) vv)).
      { apply in_flat_map. exists (w_track w, rs). split; [assumption|]. unfold line_items. cbn [fst snd].
        apply in_flat_map. exists (w_px w). split; [assumption|]. unfold wire_items. apply in_map_iff. exists (a, b). auto. }
      destruct (w_dir w); [exact Hx..|congruence]. }
    assert (Hc : In (cell_of j) cells).
    { assert (X : In (cell_of j) (filter isM cells)) by (rewrite D1; apply in_map; assumption). apply filter_In in X. tauto. }
    assert (E : cell_of j = ((i_node it a, i_node it b), (w_layer w, cut (w_dir w) (px_rect (w_px w)) a b))).
    { rewrite (surjective_pairing (cell_of j)). rewrite (item_key env sto t PI PO CP j Hj). reflexivity. }
    rewrite <- E. exact Hc.
Qed.

(** Every metal cell is a piece of a wire. *)
Theorem C17_cells_from_wires env sto res k layer r :
  pex_input env sto -> ports_ok env sto -> pex_run env sto = Some res ->
  In (k, (layer, r)) (x_cells res) -> (exists tl, layer = String "M"%char tl) ->
  exists w a b, is_wire env sto w /\ w_layer w = layer /\ r = cut (w_dir w) (px_rect (w_px w)) a b /\
    start_of (w_dir w) (px_rect (w_px w)) <= a < b /\ b <= end_of (w_dir w) (px_rect (w_px w)).
Proof.
  intros PI PO HR Hk HM. unfold pex_run in HR. destruct (compute_ports env sto) as [t|] eqn:CP; [|discriminate].
  destruct (mapO _ sto) as [css|] eqn:EM; [|discriminate].
  set (cells := fold_left _ (concat css) []) in HR. destruct (foldM _ cells _) as [((cs, nr), nc)|]; [|discriminate].
  injection HR as <-. cbn [x_cells] in Hk.
  destruct (dict_metal env sto t PI PO CP css EM) as (D1 & _). fold cells in D1.
  assert (X : In (k, (layer, r)) (filter isM cells)) by (apply filter_In; split; [assumption|]; apply starts_ok; exact HM).
  rewrite D1 in X. apply in_map_iff in X as (i & Ei & Hi).
  destruct (items_in env sto t i Hi) as (vv & rs & Hin & Hl & Hr & Hq & Hd & Hns & HM' & Hiv).
  set (w := mkWire (i_layer i) (i_d i) (i_c i) (i_r i)).
  assert (Hw : is_wire env sto w) by (exists vv, rs, (i_q i); simpl; auto 8).
  assert (T := wire_tiles env sto t PI PO CP w (i_q i) Hw Hq). cbv zeta in T.
  exists w, (fst (i_iv i)), (snd (i_iv i)). split; [assumption|].
  unfold cell_of, metal_cell in Ei. apply (f_equal snd) in Ei. cbn [snd] in Ei. injection Ei as El Er. subst layer r.
  split; [reflexivity|]. split; [reflexivity|].
  destruct (i_iv i) as (a, b). apply (tiles_in _ _ _ _ (pi_pitch _ _ PI) T) in Hiv. simpl in *. lia.
Qed.

Theorem C17_total_capacitance env sto res :
  pex_input env sto -> ports_ok env sto -> pex_run env sto = Some res ->
  (sumQ (capacitors (x_comps res)) == sumQ (map (per_length env q_unitC) (wires_of env sto)))%Q.
Proof.
  intros PI PO HR. unfold pex_run in HR. destruct (compute_ports env sto) as [t|] eqn:CP; [|discriminate].
  destruct (mapO _ sto) as [css|] eqn:EM; [|discriminate].
  set (cells := fold_left _ (concat css) []) in HR. destruct (foldM _ cells _) as [((cs, nr), nc)|] eqn:EF; [|discriminate].
  injection HR as <-. cbn [x_comps]. destruct (comp_sums _ _ _ _ _ _ _ _ EF) as (C1 & _).
  rewrite C1. destruct (dict_metal env sto t PI PO CP css EM) as (D1 & _). fold cells in D1.
  rewrite (sumQ_filter isM); [|intros (k, (l, r)) _ E; unfold isM in E; simpl in E; unfold cell_val; simpl; rewrite E; reflexivity].
  rewrite D1, (all_total env sto t PI PO CP). simpl. ring.
Qed.

Theorem C17_total_resistance env sto res :
  pex_input env sto -> ports_ok env sto -> pex_run env sto = Some res ->
  (sumQ (resistors (x_comps res)) == sumQ (map (per_length env q_unitR) (wires_of env sto)) + sumQ (map (via_R env) (x_cells res)))%Q.
Proof.
  intros PI PO HR. unfold pex_run in HR. destruct (compute_ports env sto) as [t|] eqn:CP; [|discriminate].
  destruct (mapO _ sto) as [css|] eqn:EM; [|discriminate].
  set (cells := fold_left _ (concat css) []) in HR. destruct (foldM _ cells _) as [((cs, nr), nc)|] eqn:EF; [|discriminate].
  injection HR as <-. cbn [x_comps x_cells]. destruct (comp_sums _ _ _ _ _ _ _ _ EF) as (_ & C1).
  rewrite C1. destruct (dict_metal env sto t PI PO CP css EM) as (D1 & _). fold cells in D1.
  rewrite (sumQ_filter isM (cell_val env q_unitR)); [|intros (k, (l, r)) _ E; unfold isM in E; simpl in E; unfold cell_val; simpl; rewrite E; reflexivity].
  rewrite D1, (all_total env sto t PI PO CP). simpl. ring.
Qed.

(** Two layouts with the same wires have the same total capacitance, wherever their vias are. *)
Corollary C17_ports_irrelevant env sto1 sto2 res1 res2 :
  pex_input env sto1 -> ports_ok env sto1 -> pex_run env sto1 = Some res1 ->
  pex_input env sto2 -> ports_ok env sto2 -> pex_run env sto2 = Some res2 ->
  wires_of env sto1 = wires_of env sto2 ->
  (sumQ (capacitors (x_comps res1)) == sumQ (capacitors (x_comps res2)))%Q.
Proof.
  intros P1 O1 R1 P2 O2 R2 E. rewrite (C17_total_capacitance _ _ _ P1 O1 R1), (C17_total_capacitance _ _ _ P2 O2 R2), E. reflexivity.
Qed.

(** * Instances *)
Definition ex_pdk : list (string * pxrules) :=
  [("M1"%string, mkPxR (None, None) "h" (7 # 1) (3 # 1) 0%Q);
   ("M2"%string, mkPxR (None, None) "v" (5 # 1) (2 # 1) 0%Q);
   ("V1"%string, mkPxR (Some "M1"%string, Some "M2"%string) "" 0%Q 0%Q (9 # 1))].
Definition ex_env : pxenv := mkPxE ex_pdk [("M1"%string, DH); ("M2"%string, DV); ("V1"%string, DStar)] 10.
Definition ex_net (s : string) (r : Rect) : pxr := mkPx r (Some s) None.
(** Two horizontal wires, a vertical one, and a via at (25, 0) joining the second with the vertical. *)
Definition ex_sto : px_store :=
  [("M1"%string, [(0, [ex_net "a" (mkRect 0 (-2) 13 2); ex_net "b" (mkRect 20 (-2) 50 2)])]);
   ("M2"%string, [(50, [ex_net "b" (mkRect 23 (-10) 27 30)])]);
   ("V1"%string, [(50, [ex_net "b" (mkRect 23 (-2) 27 2)])])].
(** The same with the via, and the vertical wire, at the left wire. *)
Definition ex_sto_ok : px_store :=
  [("M1"%string, [(0, [ex_net "a" (mkRect 0 (-2) 13 2); ex_net "b" (mkRect 20 (-2) 50 2)])]);
   ("M2"%string, [(10, [ex_net "a" (mkRect 3 (-10) 7 30)])]);
   ("V1"%string, [(10, [ex_net "a" (mkRect 3 (-2) 7 2)])])].

Lemma ex_input sto :
  sto = ex_sto \/ sto = ex_sto_ok -> pex_input ex_env sto.
Proof.
  intros Hs. assert (Hk : map fst sto = ["M1"%string; "M2"%string; "V1"%string]) by (destruct Hs as [->| ->]; reflexivity).
  split.
  - reflexivity.
  - repeat constructor; simpl; intuition discriminate.
  - repeat constructor; simpl; intuition discriminate.
  - rewrite Hk. repeat constructor; simpl; intuition discriminate.
  - intros layer vv H. destruct Hs as [->| ->]; destruct H as [H|[H|[H|[]]]]; injection H as <- <-; repeat constructor; simpl; intuition discriminate.
  - intros layer vv q d H Hq Hd Hns Hck.
    assert (Pl : forall s, s = "M1"%string \/ s = "M2"%string -> plain_name s).
    { intros s [->| ->]; (split; [discriminate|]; intros c Hc; simpl in Hc; destruct Hc as [<-|[<-|[]]]; split; discriminate). }
    simpl in Hd. destruct Hd as [Hd|[Hd|[Hd|[]]]]; injection Hd as <- <-; [| |congruence].
    + split; [eexists; reflexivity|]. split; [auto|]. simpl in Hq. destruct Hq as [Hq|[Hq|[Hq|[]]]]; try discriminate Hq. injection Hq as <-.
      split; [reflexivity|]. intros c rs Hc. destruct Hs as [->| ->]; (simpl in H; destruct H as [H|[H|[H|[]]]]; try discriminate H; injection H as <-;
        destruct Hc as [Hc|[]]; injection Hc as <- <-; split; [reflexivity|]; split;
        [repeat constructor; simpl; lia|intros r Hr; simpl in Hr; destruct Hr as [<-|[<-|[]]]; simpl; lia]).
    + split; [eexists; reflexivity|]. split; [auto|]. simpl in Hq. destruct Hq as [Hq|[Hq|[Hq|[]]]]; try discriminate Hq. injection Hq as <-.
      split; [reflexivity|]. intros c rs Hc. destruct Hs as [->| ->]; (simpl in H; destruct H as [H|[H|[H|[]]]]; try discriminate H; injection H as <-;
        destruct Hc as [Hc|[]]; injection Hc as <- <-; split; [reflexivity|]; split;
        [repeat constructor; simpl; lia|intros r Hr; simpl in Hr; destruct Hr as [<-|[]]; simpl; lia]).
  - intros layer vv q H Hq Hd Hck. simpl in Hd. destruct Hd as [Hd|[Hd|[Hd|[]]]]; try discriminate Hd. injection Hd as <-.
    split; [intros tl E; discriminate|]. simpl in Hq. destruct Hq as [Hq|[Hq|[Hq|[]]]]; try discriminate Hq. injection Hq as <-.
    split; [discriminate|]. split.
    + intros l Hl. simpl in Hl. destruct Hl as [Hl|Hl]; injection Hl as <-; (split; [|discriminate]; split; [discriminate|];
        intros c Hc; simpl in Hc; destruct Hc as [<-|[<-|[]]]; split; discriminate).
    + intros c rs r inst pin Hc Hr Ht. exfalso.
      destruct Hs as [->| ->]; (simpl in H; destruct H as [H|[H|[H|[]]]]; try discriminate H; injection H as <-;
        destruct Hc as [Hc|[]]; injection Hc as <- <-; destruct Hr as [<-|[]]; discriminate Ht).
Qed.

(** The conditions hold and the run succeeds for a layout with wires on both metals and a via. *)
Example C17_nonvacuous : pex_input ex_env ex_sto_ok /\ ports_ok ex_env ex_sto_ok /\
  exists res, pex_run ex_env ex_sto_ok = Some res /\ List.length (x_cells res) = 10%nat /\ List.length (wires_of ex_env ex_sto_ok) = 3%nat.
Proof.
  pose proof (ex_input ex_sto_ok (or_intror eq_refl)) as PI. split; [exact PI|]. split.
  - destruct (compute_ports ex_env ex_sto_ok) as [t|] eqn:CP; [|vm_compute in CP; discriminate].
    assert (EP : forall l c p, port_on ex_env ex_sto_ok l c p <-> In p (ports_at (sort_ports t) l c)).
    { intros l c p. symmetry. apply port_on_iff; [apply PI|apply PI|exact CP]. }
    vm_compute in CP. injection CP as <-.
    intros w (vv & rs & q & H & Hl & Hr & Hd & Hns & _ & _). cbv zeta.
    destruct w as [layer d c r]. simpl in *.
    destruct H as [H|[H|[H|[]]]]; injection H as <- <-.
    + destruct Hd as [Hd|[Hd|[Hd|[]]]]; try discriminate Hd. injection Hd as <-.
      destruct Hl as [Hl|[]]. injection Hl as <- <-. destruct Hr as [<-|[<-|[]]].
      * right. exists 5. split; [|simpl; lia]. apply EP. vm_compute. auto.
      * left. intros p Hp. apply EP in Hp. vm_compute in Hp. destruct Hp as [<-|[]]. simpl. lia.
    + destruct Hd as [Hd|[Hd|[Hd|[]]]]; try discriminate Hd. injection Hd as <-.
      destruct Hl as [Hl|[]]. injection Hl as <- <-. destruct Hr as [<-|[]].
      right. exists 0. split; [|simpl; lia]. apply EP. vm_compute. auto.
    + destruct Hd as [Hd|[Hd|[Hd|[]]]]; try discriminate Hd. injection Hd as <-. congruence.
  - eexists. split; [vm_compute; reflexivity|]. split; reflexivity.
Qed.

(** Without the port condition the claim fails: the only via of the track lies on its second wire,
    and the cells of the first wire [0, 13] run on to the via at 25. *)
Theorem C17_overrun_refuted : exists env sto res, pex_input env sto /\ pex_run env sto = Some res /\
  ~ (sumQ (capacitors (x_comps res)) == sumQ (map (per_length env q_unitC) (wires_of env sto)))%Q /\
  In ((str "a_M1_20_0", str "a_M1_25_0"), ("M1"%string, mkRect 20 (-2) 25 2)) (x_cells res) /\
  forall w, is_wire env sto w -> px_net (w_px w) = Some "a"%string -> urx (px_rect (w_px w)) <= 13.
Proof.
  exists ex_env, ex_sto. eexists. split; [apply ex_input; now left|]. split; [vm_compute; reflexivity|]. split; [vm_compute; discriminate|].
  split; [vm_compute; do 2 right; left; reflexivity|].
  intros [layer d c r] (vv & rs & q & H & Hl & Hr & Hd & Hns & _ & _) El. simpl in *.
  destruct H as [H|[H|[H|[]]]]; injection H as <- <-; (destruct Hl as [Hl|[]]; injection Hl as <- <-);
    [destruct Hr as [<-|[<-|[]]]|destruct Hr as [<-|[]]..]; simpl in *; try discriminate El; lia.
Qed.

Print Assumptions C17_wire_cells.
Print Assumptions C17_cells_from_wires.
Print Assumptions C17_total_capacitance.
Print Assumptions C17_total_resistance.
Print Assumptions C17_ports_irrelevant.
Print Assumptions C17_overrun_refuted.
