(** C87: the layout that is checked is the flat layout. *)
From Coq Require Import String Ascii ZifyBool.
From Verif Require Import Base.Prelude Base.PyDict Model.Transformation Model.Grid Model.RemoveDuplicates Model.Viewer.
From Verif Require Import Spec.Geometry Spec.GridSpec Spec.RemoveDuplicatesSpec Spec.FlatLayout Proofs.TransformationP Proofs.ViewerP Proofs.ViewerHierP Props.C06_C08.
Local Open Scope Z_scope.

Section C87.
  Context {P : Type}.
  Variables (file : string -> option (lay P)) (grids : string -> option Grid) (sf : Z) (cf : rdcfg) (post : list term -> list term).

  (** When the check has no messages of its own, the list handed to the checks is: for every block, one copy of every terminal of its layout file (except the layer "boundary"), at its position and with the name of its net; and the shapes drawn for the nets and the power grid. *)
  Theorem C87_layout h bb ts ds : 0 < sf -> well_named h -> scaled file grids sf h = Some (bb, ts, ds, []) ->
    exists xss own, ts = (concat xss ++ own)%list /\
      Forall2 (fun b xs => match file (k_master b) with
                           | None => xs = []
                           | Some l => Forall2 (copy sf h b) (filter (fun t => negb (String.eqb (t_layer t) "boundary")) (ly_terms l)) xs
                           end) (h_blocks h) xss /\
      (forall x, In x own <-> exists nm s r, draws h nm s /\ shape_in_pdk sf (sh_box s) r /\ x = mkTerm (sh_layer s) (Some nm) r "drawing" None).
  Proof. intros Hs W H. exact (scaled_parts file grids sf Hs h bb ts ds W H). Qed.

  (** The name of a net of a block is determined, and two nets of blocks get the same name only if the netlist or a supply joins them. *)
  Theorem C87_names h ts ds es b nm x : well_named h -> assemble file grids sf h = Some (ts, ds, es) -> In b (h_blocks h) -> named h b nm x ->
    (forall y, named h b nm y -> y = x) /\
    (forall c mm, In c (h_blocks h) -> named h c mm x ->
       (b = c /\ nm = mm) \/ (joins h b nm x /\ (joins h c mm x \/ (mm = x /\ is_power h x))) \/ (nm = x /\ is_power h x /\ (joins h c mm x \/ mm = x))).
  Proof.
    intros W H Hb HN. split.
    - intros y HY. unfold assemble in H. destruct (fa_map h) as [fa|] eqn:E; [|discriminate]. eapply named_unique; eassumption.
    - intros c mm Hc HM. now apply named_distinct.
  Qed.

  (** Through any number of levels: a wire of a layout file at the bottom lies inside a wire of the checked layout, at the product of the positions, and with the name found by following the netlists upwards. *)
  Theorem C87_nets_through_levels node layer d h top out T m nm x l s : 0 < sf -> cfg_ok cf -> wire_layer cf layer d -> layer <> "boundary"%string ->
    consistent file grids sf cf post node -> tidy file layer -> (forall m h, node m = Some h -> wires_only file grids sf layer h) ->
    clean file grids sf cf post top h out -> wires_only file grids sf layer h ->
    seen node sf h T m nm x -> file m = Some l -> In s (ly_terms l) -> t_layer s = layer -> t_net s = Some nm ->
    exists o, In o (r_terms (o_rd out)) /\ t_layer o = layer /\ t_net o = Some x /\ inside (canonical (hitRect T (t_rect s))) (t_rect o).
  Proof. intros. eapply seen_ok; eassumption. Qed.

  (** Through any number of levels: on a wiring layer, the metal of the checked layout is exactly the metal of all placed layouts and of all routes. *)
  Theorem C87_metal_through_levels node layer d k rank h top out p : 0 < sf -> cfg_ok cf -> wire_layer cf layer d -> layer <> "boundary"%string -> 0 < k ->
    consistent file grids sf cf post node -> tidy file layer ->
    (forall m h b, node m = Some h -> In b (h_blocks h) -> node (k_master b) <> None -> (rank (k_master b) < rank m)%nat) ->
    clean file grids sf cf post top h out ->
    (exists t, In t (r_terms (o_rd out)) /\ t_layer t = layer /\ covers k (t_rect t) p) <-> drawn file node sf layer k h p.
  Proof.
    intros Hs Hc Hl Hb Hk HK HT HR HC. split.
    - intros HM. eapply metal_drawn; eassumption.
    - intros HD. eapply drawn_metal in HD; eassumption.
  Qed.

  (** The track of a wire in units of the database, counted double: along x for the odd layers, along y for the even ones. *)
  Definition track2 (layer : string) (r : Rect) (c : Z) : Prop :=
    (In layer ["M1"; "M3"; "M5"]%string /\ c = llx r + urx r) \/ (In layer ["M2"; "M4"; "M6"]%string /\ c = lly r + ury r).
  (** An off-grid message for the wire. *)
  Definition reported (es : list verr) (layer net : string) (r : Rect) : Prop := exists v, In (EOdd layer net r v) es \/ In (EOff layer net r v) es.

  Lemma scaling_errors mul div bb ts bb' ts' es : rational_scaling mul div bb ts = Some (bb', ts', es) -> forall e, In e es -> exists t, e = EScale t.
  Proof. unfold rational_scaling. destruct (all4 _ bb); [|discriminate]. intros [= _ _ <-] e He. apply in_map_iff in He as (t & <- & _). eauto. Qed.

  (** A route on M1 to M6 is reported exactly when its centre, rounded down to a unit of the database, is odd or lies on no grid line. *)
  Theorem C87_grid top dnr h out nm s g p c : 0 < sf -> viewer file grids sf cf post top dnr h = Some out -> draws h nm s ->
    track2 (sh_layer s) (sh_box s) c -> grids (sh_layer s) = Some g -> periodic g p ->
    reported (o_errors out) (sh_layer s) nm (sh_box s) <-> ~ exists e x, c / 2 = 2 * e /\ x = sf * e /\ on_line g p x.
  Proof.
    intros Hs HV HD HT HG HP. unfold viewer, scaled in HV.
    destruct (assemble file grids sf h) as [[[ts ds] es]|] eqn:EA; [|discriminate].
    destruct (rational_scaling sf 2 (h_box h) ts) as [[[bb ts'] es']|] eqn:ER; [|discriminate].
    destruct (remove_duplicates _ ts') as [r|]; [|discriminate]. injection HV as <-. cbn [o_errors].
    apply assemble_parts in EA as (fa & xs & L & e' & Hfa & F & _ & _ & -> & HL & A1 & A2).
    assert (HIn : In (nm, s) L) by (now apply HL).
    assert (HKV : checked (sh_layer s) (sh_box s) = [(sh_layer s, c / 2)]).
    { unfold checked. destruct HT as [[Hl ->]|[Hl ->]]; cbn in Hl; destruct Hl as [<-|[<-|[<-|[]]]]; reflexivity. }
    assert (HX : forall e, In e (concat (map snd xs)) -> exists t, e = EScale t).
    { intros e He. apply in_concat in He as (y & Hy & He). apply in_map_iff in Hy as ([[y1 y2] y3] & <- & Hy). destruct (F2_pick_r _ _ _ F _ Hy) as (b & _ & HI).
      unfold imported, import_block in HI. destruct (file (k_master b)) as [l|]; [|injection HI as <- <- <-; destruct He].
      destruct (rational_scaling 2 sf (ly_bbox l) (ly_terms l)) as [[[b1 t1] e1]|] eqn:E1; [|discriminate]. injection HI as <- <- <-. exact (scaling_errors _ _ _ _ _ _ _ E1 e He). }
    assert (HR : reported ((concat (map snd xs) ++ e') ++ es') (sh_layer s) nm (sh_box s) <-> reported e' (sh_layer s) nm (sh_box s)).
    { unfold reported. split; intros (v & Hv); exists v; rewrite !in_app_iff in *.
      - destruct Hv as [[[Hv|Hv]|Hv]|[[Hv|Hv]|Hv]]; auto; exfalso; first [destruct (HX _ Hv); discriminate|destruct (scaling_errors _ _ _ _ _ _ _ ER _ Hv); discriminate].
      - tauto. }
    rewrite HR. clear HR.
    assert (HV : forall ns kv e x, In ns L -> In kv (checked (sh_layer (snd ns)) (sh_box (snd ns))) -> verdict grids sf ns kv = Some e -> In x e ->
       exists v, x = EOdd (sh_layer (snd ns)) (fst ns) (sh_box (snd ns)) v \/ x = EOff (sh_layer (snd ns)) (fst ns) (sh_box (snd ns)) v).
    { intros ns kv e x _ _ HVd Hx. unfold verdict, check_value in HVd. destruct (grids (fst kv)); [|discriminate]. destruct (snd kv mod 2 =? 0).
      - destruct (inverseBounds _ _) as [[a b]|]; [|discriminate]. injection HVd as <-. destruct (_ && _); [destruct Hx|]. destruct Hx as [<-|[]]. eauto.
      - injection HVd as <-. destruct Hx as [<-|[]]. eauto. }
    assert (HE : reported e' (sh_layer s) nm (sh_box s) <-> verdict grids sf (nm, s) (sh_layer s, c / 2) <> Some []).
    { destruct (A1 (nm, s) (sh_layer s, c / 2) HIn) as (e & He & Hi); [cbn [snd]; rewrite HKV; now left|]. rewrite He. split.
      - intros (v & Hv) E. injection E as ->.
        assert (HQ : exists x, In x e' /\ (x = EOdd (sh_layer s) nm (sh_box s) v \/ x = EOff (sh_layer s) nm (sh_box s) v)) by (destruct Hv as [Hv|Hv]; eexists; (split; [exact Hv|auto])).
        destruct HQ as (x & Hx & Ex). destruct (A2 x Hx) as (ns & kv & e & Hns & Hkv & Hvd & Hxe). destruct (HV _ _ _ _ Hns Hkv Hvd Hxe) as (v' & Ev).
        assert (E3 : sh_layer (snd ns) = sh_layer s /\ fst ns = nm /\ sh_box (snd ns) = sh_box s) by (destruct Ex as [-> | ->], Ev as [Ev|Ev]; try discriminate; injection Ev; auto).
        destruct E3 as (E1 & E2 & E3). rewrite E1, E3, HKV in Hkv. destruct Hkv as [<-|[]]. unfold verdict in Hvd, He. cbn [fst snd] in Hvd, He. rewrite E1, E2, E3, He in Hvd. injection Hvd as <-. destruct Hxe.
      - intros Hne. destruct e as [|x e]; [contradiction|]. destruct (HV (nm, s) (sh_layer s, c / 2) (x :: e) x HIn) as (v & Hv); [cbn [snd]; rewrite HKV; now left|assumption|now left|].
        exists v. cbn [fst snd] in Hv. destruct Hv as [<-|<-]; [left|right]; apply Hi; now left. }
    rewrite HE. unfold verdict, check_value. cbn [fst snd]. rewrite HG. destruct (c / 2 mod 2 =? 0) eqn:EM.
    - apply Z.eqb_eq in EM. set (e0 := c / 2 / 2). assert (Ec : c / 2 = 2 * e0) by (unfold e0; lia). clearbody e0. rewrite Ec.
      replace (2 * e0 * sf / 2) with (sf * e0) by (replace (2 * e0 * sf) with (sf * e0 * 2) by ring; now rewrite Z.div_mul).
      destruct (C06_inverseBounds_brackets g p (sf * e0) HP) as (q & i & j & ci & cj & -> & _ & _ & _ & HO & _). cbn [fst snd]. rewrite Z.eqb_refl. cbn [andb].
      destruct (i =? j) eqn:EI.
      + apply Z.eqb_eq in EI. split; [intros K; now destruct K|]. intros K _. apply K. exists e0, (sf * e0). split; [lia|]. split; [reflexivity|]. now apply HO.
      + apply Z.eqb_neq in EI. split; [|discriminate]. intros _ (e & x & He & -> & HL'). assert (e = e0) by lia. subst e. apply HO in HL'. contradiction.
    - apply Z.eqb_neq in EM. split; [|discriminate]. intros _ (e & x & He & _). rewrite He in EM. apply EM. rewrite Z.mul_comm. now apply Z.mod_mul.
  Qed.
End C87.
Print Assumptions C87_layout.
Print Assumptions C87_names.
Print Assumptions C87_nets_through_levels.
Print Assumptions C87_metal_through_levels.
Print Assumptions C87_grid.

(** * Concrete cases *)
Local Open Scope string_scope.
Local Open Scope list_scope.
Definition ex_cf : rdcfg := mkRC [("M1", DV); ("M2", DH)] [] [] [] false.
Definition ex_grids (l : string) : option Grid := Some (UncoloredCenterLineGrid 80 30 40 1).
Definition ex_post (ts : list term) : list term := ts.
Definition no_pg (n : string) : grid_ := mkPG n [] [].
(** A leaf with two wires and a device, a routed block MID with a copy and a mirrored copy of it, and a block above with a mirrored copy of MID. Ten units of the PDK are two of the database. *)
Definition ex_leaf : lay nat :=
  mkLay (mkRect 0 0 160 200) [mkTerm "M1" (Some "D") (mkRect 25 0 55 200) "drawing" None; mkTerm "M1" (Some "S") (mkRect 105 0 135 200) "drawing" None; mkTerm "boundary" None (mkRect 0 0 160 200) "drawing" None] [("M0", 7%nat)].
Definition ex_f0 (m : string) : option (lay nat) := if String.eqb m "L" then Some ex_leaf else None.
Definition ex_blk (o : tag) (x : Z) : Blk := mkBlk o 32 40 (mkRect 0 0 32 40) (mkRect x 0 (x + 32) 40).
Definition ex_u0 : block := mkBlock "U0" "L" (ex_blk N 0) [("D", [mkShape "M1" (mkRect 5 0 11 40)]); ("S", [])].
Definition ex_u1 : block := mkBlock "U1" "L" (ex_blk FN 32) [("D", []); ("S", [])].
Definition ex_mid : hnode :=
  mkNode [mkNet "N" [CBlock 0 0; CBlock 0 1; CTerm 0] [mkShape "M2" (mkRect 0 5 64 11)] [] []] [mkNet "VDD" [] [] [] []] [ex_u0; ex_u1] ["N"] (no_pg "") (no_pg "") (mkRect 0 0 64 40).
Definition ex_run (f : string -> option (lay nat)) (top : bool) (h : hnode) := viewer f ex_grids 10 ex_cf ex_post top [] h.
Definition ex_none {A} (x : option A) (d : A) : A := match x with Some y => y | None => d end.
Definition ex_dummy : @outcome nat := mkOut (mkLay (mkRect 0 0 0 0) [] []) [] (mkRes [] [] [] 0 [] rst0) [].
Definition ex_mid_out : outcome := Eval vm_compute in ex_none (ex_run ex_f0 false ex_mid) ex_dummy.
Definition ex_file (m : string) : option (lay nat) := if String.eqb m "MID" then Some (o_file ex_mid_out) else ex_f0 m.
Definition ex_node (m : string) : option hnode := if String.eqb m "MID" then Some ex_mid else None.
Definition ex_v : block := mkBlock "V" "MID" (mkBlk FS 64 40 (mkRect 0 0 64 40) (mkRect 16 48 80 88)) [("N", [])].
Definition ex_top : hnode := mkNode [mkNet "OUT" [CBlock 0 0] [] [] []] [] [ex_v] [] (no_pg "vss") (no_pg "vdd") (mkRect 0 0 96 96).
Definition ex_top_out : outcome := Eval vm_compute in ex_none (ex_run ex_file true ex_top) ex_dummy.


Lemma ex_wn_mid : well_named ex_mid.
Proof.
  split; [|split].
  - cbn. constructor; [cbn; intros [E|[]]; discriminate|]. constructor; [intros []|constructor].
  - intros b [<-|[<-|[]]]; cbn; intuition discriminate.
  - intros n [[<-|[]]|[<-|[]]]; cbn; intuition discriminate.
Qed.
Lemma ex_wn_top : well_named ex_top.
Proof.
  split; [|split].
  - cbn. constructor; [intros []|constructor].
  - intros b [<-|[]]; cbn; intuition discriminate.
  - intros n [[<-|[]]|[]]; cbn; intuition discriminate.
Qed.

Lemma ex_clean_mid : clean ex_file ex_grids 10 ex_cf ex_post false ex_mid ex_mid_out.
Proof. exists []. split; [vm_compute; reflexivity|]. split; [reflexivity|apply ex_wn_mid]. Qed.
Lemma ex_clean_top : clean ex_file ex_grids 10 ex_cf ex_post true ex_top ex_top_out.
Proof. exists []. split; [vm_compute; reflexivity|]. split; [reflexivity|apply ex_wn_top]. Qed.
Lemma ex_consistent : consistent ex_file ex_grids 10 ex_cf ex_post ex_node.
Proof.
  intros m h E. unfold ex_node in E. destruct (String.eqb_spec m "MID") as [->|]; [|discriminate]. injection E as <-.
  exists ex_mid_out. split; [apply ex_clean_mid|reflexivity].
Qed.
Lemma ex_tidy : tidy ex_file "M1".
Proof.
  intros m l s E Hs Hl. unfold ex_file, ex_f0 in E. destruct (String.eqb m "MID").
  - injection E as <-. cbn in Hs. repeat (destruct Hs as [<-|Hs]; [vm_compute; intuition congruence|]). destruct Hs.
  - destruct (String.eqb m "L"); [|discriminate]. injection E as <-. cbn in Hs. repeat (destruct Hs as [<-|Hs]; [first [vm_compute; intuition congruence|discriminate]|]). destruct Hs.
Qed.
Lemma ex_wires h : h = ex_mid \/ h = ex_top -> wires_only ex_file ex_grids 10 "M1" h.
Proof.
  intros Hh bb ts ds es x H Hx _.
  assert (forall y, In y ts -> plain y) as K; [|auto].
  destruct Hh as [-> | ->]; vm_compute in H; injection H as _ <- _ _; cbn; intros y Hy;
    repeat (destruct Hy as [<-|Hy]; [split; [cbn; intros n [= <-]; cbn; intuition discriminate|discriminate]|]); destruct Hy.
Qed.
Lemma ex_joins_mid : joins ex_mid ex_u1 "D" "N".
Proof. exists (mkNet "N" [CBlock 0 0; CBlock 0 1; CTerm 0] [mkShape "M2" (mkRect 0 5 64 11)] [] []), 0%nat, 1%nat, []. cbn. auto 10. Qed.
Lemma ex_joins_top : joins ex_top ex_v "N" "OUT".
Proof. exists (mkNet "OUT" [CBlock 0 0] [] [] []), 0%nat, 0%nat, []. cbn. auto 10. Qed.

(** Drain of the mirrored leaf, seen from the top: mirrored twice, shifted by 16 and 48 units of the database. *)
Example C87_nonvacuous :
  let T1 := mkTr 80 440 1 (-1) in let T2 := mkTr 320 0 (-1) 1 in
  consistent ex_file ex_grids 10 ex_cf ex_post ex_node /\ tidy ex_file "M1" /\ cfg_ok ex_cf /\ wire_layer ex_cf "M1" DV /\
  clean ex_file ex_grids 10 ex_cf ex_post true ex_top ex_top_out /\
  seen ex_node 10 ex_top (mult T1 T2) "L" "D" "OUT" /\
  canonical (hitRect (mult T1 T2) (mkRect 25 0 55 200)) = mkRect 345 240 375 440 /\
  In (mkTerm "M1" (Some "OUT") (mkRect 345 240 375 440) "drawing" None) (r_terms (o_rd ex_top_out)) /\
  In (mkTerm "M1" (Some "V/U1/S") (mkRect 265 240 295 440) "drawing" None) (r_terms (o_rd ex_top_out)) /\
  drawn ex_file ex_node 10 "M1" 1 ex_top (360, 300) /\
  (forall m h b, ex_node m = Some h -> In b (h_blocks h) -> ex_node (k_master b) <> None -> (0 < 0)%nat).
Proof.
  intros T1 T2.
  assert (HP1 : position 10 ex_v T1) by (vm_compute; auto).
  assert (HP2 : position 10 ex_u1 T2) by (vm_compute; auto).
  split; [apply ex_consistent|]. split; [apply ex_tidy|]. split; [cbn; repeat constructor; cbn; intuition discriminate|].
  split; [split; [cbn; auto|intros []]|]. split; [apply ex_clean_top|].
  split. { eapply seen_below; [left; reflexivity|reflexivity|exact HP1| |apply named_net, ex_joins_top]. apply (seen_here _ _ ex_mid ex_u1); [cbn; auto|exact HP2|apply named_net, ex_joins_mid]. }
  split; [reflexivity|]. split; [vm_compute; auto 10|]. split; [vm_compute; auto 10|]. split.
  - change (360, 300) with (move 1 T1 (280, 140)). eapply drawn_below; [left; reflexivity|reflexivity|exact HP1|].
    change (280, 140) with (move 1 T2 (40, 140)). eapply (drawn_leaf _ _ _ _ _ ex_mid ex_u1 ex_leaf); [cbn; auto|reflexivity|reflexivity|left; reflexivity|reflexivity|exact HP2|vm_compute; intuition discriminate].
  - intros m h b E Hb K. unfold ex_node in E. destruct (String.eqb m "MID"); [|discriminate]. injection E as <-. destruct Hb as [<-|[<-|[]]]; now destruct K.
Qed.

(** The theorems, applied to this case. *)
Example C87_nonvacuous_use : exists o, In o (r_terms (o_rd ex_top_out)) /\ t_layer o = "M1" /\ t_net o = Some "OUT" /\ inside (mkRect 345 240 375 440) (t_rect o).
Proof.
  destruct C87_nonvacuous as (H1 & H2 & H3 & H4 & H5 & H6 & H7 & _). rewrite <- H7.
  eapply (C87_nets_through_levels ex_file ex_grids 10 ex_cf ex_post ex_node "M1" DV) with (s := mkTerm "M1" (Some "D") (mkRect 25 0 55 200) "drawing" None) (l := ex_leaf);
    [lia|exact H3|exact H4|discriminate|exact H1|exact H2| |exact H5|apply ex_wires; auto|exact H6|reflexivity|left; reflexivity|reflexivity|reflexivity].
  intros m h E. unfold ex_node in E. destruct (String.eqb m "MID"); [|discriminate]. injection E as <-. apply ex_wires. auto.
Qed.

(** The routes of MID are on the grid: nothing reported, and the condition of [C87_grid] holds. *)
Example C87_grid_nonvacuous :
  draws ex_mid "N" (mkShape "M1" (mkRect 5 0 11 40)) /\ track2 "M1" (mkRect 5 0 11 40) 16 /\ periodic (UncoloredCenterLineGrid 80 30 40 1) 80 /\
  on_line (UncoloredCenterLineGrid 80 30 40 1) 80 40 /\ o_errors ex_mid_out = [].
Proof.
  split. { apply (draws_pin ex_mid (mkNet "N" [CBlock 0 0; CBlock 0 1; CTerm 0] [mkShape "M2" (mkRect 0 5 64 11)] [] []) 0 0 ex_u0 "D" [mkShape "M1" (mkRect 5 0 11 40)]); cbn; auto. }
  split; [left; cbn; auto|]. split.
  - split; [lia|]. exists 40, (Some (30, None)), [(120, Some (30, None))]. split; [reflexivity|]. split; [exists [(40, Some (30, None))], (Some (30, None)); reflexivity|]. intros c a [E|[E|[]]]; injection E as <- _; lia.
  - split; [|reflexivity]. exists 0, 0. split; [lia|]. exists 40, (Some (30, None)). split; reflexivity.
Qed.

(** A block whose layout file is missing leaves no shape and no message in the list of errors. *)
Theorem C87_missing_refuted : exists (h : hnode) (out : @outcome nat),
  viewer (fun _ => None) ex_grids 10 ex_cf ex_post true [] h = Some out /\ In ex_u0 (h_blocks h) /\ o_errors out = [] /\ ~ (exists t, In t (r_terms (o_rd out))) /\ error_lines out 0 0 = 0%nat.
Proof.
  eexists (mkNode [] [] [ex_u0] [] (no_pg "vss") (no_pg "vdd") (mkRect 0 0 32 40)). eexists. split; [vm_compute; reflexivity|].
  split; [cbn; auto|]. split; [reflexivity|]. split; [intros (t & [])|reflexivity].
Qed.

(** A route whose centre lies half a unit of the database beside the grid line is not reported. *)
Definition ex_route (layer : string) (r : Rect) : hnode := mkNode [mkNet "N" [] [mkShape layer r] [] []] [] [] [] (no_pg "vss") (no_pg "vdd") (mkRect 0 0 64 40).
Theorem C87_half_refuted : exists h out r,
  ex_run ex_f0 true h = Some out /\ draws h "N" (mkShape "M1" r) /\ (llx r + urx r = 2 * 8 + 1) /\ o_errors out = [].
Proof.
  exists (ex_route "M1" (mkRect 5 0 12 40)). eexists. exists (mkRect 5 0 12 40). split; [vm_compute; reflexivity|].
  split; [apply (draws_metal _ (mkNet "N" [] [mkShape "M1" (mkRect 5 0 12 40)] [] [])); cbn; auto|]. split; reflexivity.
Qed.

(** Layers from M7 on are never checked against the grid. *)
Theorem C87_high_refuted file grids sf cf post top dnr h (out : @outcome nat) l n r : viewer file grids sf cf post top dnr h = Some out ->
  In l ["M7"; "M8"; "M9"] -> ~ reported (o_errors out) l n r.
Proof.
  intros HV Hl (v & Hv). unfold viewer, scaled in HV.
  destruct (assemble file grids sf h) as [[[ts ds] es]|] eqn:EA; [|discriminate].
  destruct (rational_scaling sf 2 (h_box h) ts) as [[[bb ts'] es']|] eqn:ER; [|discriminate].
  destruct (remove_duplicates _ ts') as [rr|]; [|discriminate]. injection HV as <-. cbn [o_errors] in Hv.
  apply assemble_parts in EA as (fa & xs & L & e' & Hfa & F & _ & _ & -> & HL & A1 & A2).
  assert (HX : forall e, In e (concat (map snd xs)) -> exists t, e = EScale t).
  { intros e He. apply in_concat in He as (y & Hy & He). apply in_map_iff in Hy as ([[y1 y2] y3] & <- & Hy). destruct (F2_pick_r _ _ _ F _ Hy) as (b & _ & HI).
    unfold imported, import_block in HI. destruct (file (k_master b)) as [ly|]; [|injection HI as <- <- <-; destruct He].
    destruct (rational_scaling 2 sf (ly_bbox ly) (ly_terms ly)) as [[[b1 t1] e1]|] eqn:E1; [|discriminate]. injection HI as <- <- <-. exact (scaling_errors _ _ _ _ _ _ _ E1 e He). }
  assert (HQ : exists x, In x e' /\ (x = EOdd l n r v \/ x = EOff l n r v)).
  { rewrite !in_app_iff in Hv. destruct Hv as [[[Hv|Hv]|Hv]|[[Hv|Hv]|Hv]]; try (exfalso; first [destruct (HX _ Hv); discriminate|destruct (scaling_errors _ _ _ _ _ _ _ ER _ Hv); discriminate]); eexists; (split; [exact Hv|auto]). }
  destruct HQ as (x & Hx & Ex). destruct (A2 x Hx) as (ns & kv & e & _ & Hkv & Hvd & Hxe).
  assert (sh_layer (snd ns) = l) as El.
  { unfold verdict, check_value in Hvd. destruct (grids (fst kv)); [|discriminate]. destruct (snd kv mod 2 =? 0)%Z.
    - destruct (inverseBounds _ _) as [[a b]|]; [|discriminate]. injection Hvd as <-. destruct (_ && _); [destruct Hxe|]. destruct Hxe as [<-|[]], Ex as [E|E]; try discriminate; injection E; auto.
    - injection Hvd as <-. destruct Hxe as [<-|[]], Ex as [E|E]; try discriminate; injection E; auto. }
  rewrite El in Hkv. destruct Hl as [<-|[<-|[<-|[]]]]; exact Hkv.
Qed.

(** The devices of a block are handed to the canvas but not written: one level further up they are gone. *)
Theorem C87_devices_refuted :
  o_devices ex_mid_out = [("U0/M0", 7%nat); ("U1/M0", 7%nat)] /\ ly_sub (o_file ex_mid_out) = [] /\ o_devices ex_top_out = [] /\
  ex_run ex_file false ex_mid = Some ex_mid_out /\ ex_run ex_file true ex_top = Some ex_top_out.
Proof. split; [reflexivity|]. split; [reflexivity|]. split; [reflexivity|]. split; vm_compute; reflexivity. Qed.

(** Wires of different widths on one track are written to the file of errors but not counted. *)
Definition ex_cfv : rdcfg := mkRC [("M1", DV); ("M2", DH); ("V1", DStar)] [] [("V1", (Some "M1", Some "M2"))] [] false.
Theorem C87_count_refuted : exists h (out : @outcome nat), viewer ex_f0 ex_grids 10 ex_cfv ex_post true [] h = Some out /\ o_errors out = [] /\ error_lines out 0 0 = 1%nat /\ error_count out 0 = 0%nat.
Proof.
  exists (mkNode [mkNet "N" [] [mkShape "M1" (mkRect 5 0 11 20); mkShape "M1" (mkRect 4 10 12 40); mkShape "M2" (mkRect 0 5 60 11); mkShape "M2" (mkRect 0 21 60 27);
                  mkShape "V1" (mkRect 5 5 11 11); mkShape "V1" (mkRect 5 21 11 27); mkShape "M1" (mkRect 21 0 27 40); mkShape "V1" (mkRect 21 5 27 11); mkShape "V1" (mkRect 21 21 27 27)] [] []]
                 [] [] [] (no_pg "vss") (no_pg "vdd") (mkRect 0 0 64 40)).
  eexists. split; [vm_compute; reflexivity|]. split; [reflexivity|]. split; reflexivity.
Qed.

(** Nets of two blocks that nothing connects, called like a supply of the node, become one net. *)
Theorem C87_supply_refuted : exists h b c x, well_named h /\ In b (h_blocks h) /\ In c (h_blocks h) /\ b <> c /\
  (forall y, ~ joins h b x y) /\ (forall y, ~ joins h c x y) /\ named h b x x /\ named h c x x.
Proof.
  exists ex_mid, ex_u0, ex_u1, "VDD". split; [apply ex_wn_mid|]. split; [cbn; auto|]. split; [cbn; auto|]. split; [discriminate|].
  assert (K : forall b y, b = ex_u0 \/ b = ex_u1 -> ~ joins ex_mid b "VDD" y).
  { intros b y Hb (n & i & j & ps & Hn & _ & Hc & Hj & Hi). destruct Hb as [-> | ->]; destruct i as [|[|[|]]]; cbn in Hi; discriminate. }
  split; [auto|]. split; [auto|]. split; apply named_power; auto; exists (mkNet "VDD" [] [] [] []); cbn; auto.
Qed.
Print Assumptions C87_missing_refuted.
Print Assumptions C87_half_refuted.
Print Assumptions C87_high_refuted.
Print Assumptions C87_devices_refuted.
Print Assumptions C87_count_refuted.
Print Assumptions C87_supply_refuted.
