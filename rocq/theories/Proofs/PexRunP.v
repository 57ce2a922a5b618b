(** The whole extraction run. *)
From Coq Require Import String Ascii QArith ZifyBool.
From Verif Require Import Base.Prelude Base.PyDict Base.PyStr Model.Transformation Model.PySort Model.RemoveDuplicates Model.Pex
  Spec.RemoveDuplicatesSpec Spec.DrcSpec Spec.PexSpec Proofs.PySortP Proofs.PexP.
Local Open Scope Z_scope.

Record item := mkItem { i_layer : string; i_d : sdir; i_q : pxrules; i_c : Z; i_r : pxr; i_iv : Z * Z }.
Definition cell_of (i : item) : cell := metal_cell (i_q i) (i_layer i) (i_d i) (i_c i) (i_r i) (i_iv i).
Definition i_tag (i : item) : string * (Z * Z) := (i_layer i, (i_c i, fst (i_iv i))).

Definition wire_ivs (env : pxenv) (t : ports) (layer : string) (d : sdir) (c : Z) (r : pxr) : list (Z * Z) :=
  port_loop (pe_pitch env) (dlo d (px_rect r)) (dhi d (px_rect r)) None (ports_at t layer c).
Definition wire_items env t q layer d c r : list item := map (mkItem layer d q c r) (wire_ivs env t layer d c r).
Definition line_items env t q layer d (l : Z * list pxr) : list item := flat_map (wire_items env t q layer d (fst l)) (snd l).
Definition layer_items env t (lv : string * list (Z * list pxr)) : list item :=
  match dget String.eqb (pe_pdk env) (fst lv), dget String.eqb (pe_layers env) (fst lv) with
  | Some q, Some DStar => []
  | Some q, Some d => if starts "M"%char (fst lv) then flat_map (line_items env t q (fst lv) d) (snd lv) else []
  | _, _ => []
  end.
Definition items env t sto : list item := flat_map (layer_items env t) sto.

Definition isM (cl : key * (string * Rect)) : bool := starts "M"%char (fst (snd cl)).

Lemma starts_ok c s : starts c s = true <-> exists tl, s = String c tl.
Proof.
  destruct s as [|c' tl]; simpl; [split; [discriminate|intros (tl & E); discriminate]|].
  rewrite Ascii.eqb_eq. split; [intros ->; eauto|intros (tl' & [= -> _]); reflexivity].
Qed.

Lemma filter_all {A} (P : A -> bool) l : (forall x, In x l -> P x = true) -> filter P l = l.
Proof. induction l as [|a l IH]; simpl; intros H; [reflexivity|]. rewrite H, IH by auto. reflexivity. Qed.
Lemma filter_none {A} (P : A -> bool) l : (forall x, In x l -> P x = false) -> filter P l = [].
Proof. induction l as [|a l IH]; simpl; intros H; [reflexivity|]. rewrite H, IH by auto. reflexivity. Qed.

Lemma mapO_in {A B} (f : A -> option B) l bs : mapO f l = Some bs -> forall b, In b bs -> exists a, In a l /\ f a = Some b.
Proof.
  revert bs. induction l as [|a l IH]; simpl; intros bs H b Hb; [injection H as <-; destruct Hb|].
  destruct (f a) as [b0|] eqn:E; [|discriminate]. destruct (mapO f l) as [bs'|] eqn:E'; [|discriminate].
  injection H as <-. destruct Hb as [<-|Hb]; [eauto|]. destruct (IH _ eq_refl b Hb) as (a' & Ha & Ea). eauto.
Qed.

Lemma map_flat_map {A B C} (g : B -> C) (f : A -> list B) l : map g (flat_map f l) = flat_map (fun x => map g (f x)) l.
Proof. induction l as [|a l IH]; simpl; [reflexivity|]. now rewrite map_app, IH. Qed.
Lemma flat_map_ext' {A B} (f g : A -> list B) l : (forall x, In x l -> f x = g x) -> flat_map f l = flat_map g l.
Proof. induction l as [|a l IH]; simpl; intros H; [reflexivity|]. rewrite H, IH by auto. reflexivity. Qed.

Section Run.
  Variables (env : pxenv) (sto : px_store) (t : ports).
  Hypothesis PI : pex_input env sto.
  Hypothesis PO : ports_ok env sto.
  Hypothesis CP : compute_ports env sto = Some t.
  Notation st := (sort_ports t).

  Lemma pdk_get l q : In (l, q) (pe_pdk env) -> dget String.eqb (pe_pdk env) l = Some q.
  Proof. apply (in_dget _ String.eqb_eq), (pi_pdk _ _ PI). Qed.
  Lemma dir_get l d : In (l, d) (pe_layers env) -> dget String.eqb (pe_layers env) l = Some d.
  Proof. apply (in_dget _ String.eqb_eq), (pi_dirs _ _ PI). Qed.

  Lemma layer_cells_metal lv cs : In lv sto -> layer_cells env st lv = Some cs ->
    filter isM cs = map cell_of (layer_items env st lv) /\
    forall cl, In cl cs -> isM cl = false ->
      exists q c rs r, In (fst lv, q) (pe_pdk env) /\ In (fst lv, DStar) (pe_layers env) /\ checked (fst lv) /\
        In (c, rs) (snd lv) /\ In r rs /\ via_cell env st (fst lv) r = Some cl.
  Proof.
    destruct lv as (layer, vv). intros Hin. unfold layer_cells, layer_items. cbn [fst snd].
    destruct (starts "V"%char layer || starts "M"%char layer) eqn:Es.
    2:{ intros [= <-]. apply orb_false_iff in Es as (_ & Em). rewrite Em. split; [|intros ? []].
        destruct (dget String.eqb (pe_pdk env) layer); [|reflexivity]. destruct (dget String.eqb (pe_layers env) layer) as [[| |]|]; reflexivity. }
    assert (Hck : checked layer).
    { apply orb_true_iff in Es as [E|E]; apply starts_ok in E as (tl & ->); eexists; eauto. }
    destruct (dget String.eqb (pe_pdk env) layer) as [q|] eqn:Eq; [|intros [= <-]; split; [reflexivity|intros ? []]].
    destruct (dget String.eqb (pe_layers env) layer) as [d|] eqn:Ed; [|discriminate].
    apply (dget_in _ String.eqb_eq) in Eq, Ed.
    assert (Hst : d = DStar \/ d <> DStar) by (destruct d; [right; discriminate..|now left]).
    destruct Hst as [->|Hns].
    - intros Hm. destruct (pi_via _ _ PI layer vv q Hin Eq Ed Hck) as (HnM & _).
      assert (HM : starts "M"%char layer = false).
      { destruct (starts "M"%char layer) eqn:E; [|reflexivity]. apply starts_ok in E as (tl & E). exfalso. exact (HnM tl E). }
      assert (Hvia : forall cl, In cl cs -> exists c rs r, In (c, rs) vv /\ In r rs /\ via_cell env st layer r = Some cl).
      { intros cl Hcl. destruct (mapO_in _ _ _ Hm cl Hcl) as (r & Hr & Er).
        apply in_concat in Hr as (rs & Hrs & Hr). apply in_map_iff in Hrs as ((c, rs') & <- & Hl). eauto 8. }
      split.
      + simpl. apply filter_none. intros cl Hcl. destruct (Hvia cl Hcl) as (c & rs & r & _ & _ & Ev).
        unfold via_cell in Ev. destruct (existsb _ _); [|discriminate]. destruct (dget _ _ layer); [|discriminate].
        unfold isM. destruct (px_term r) as [(inst, pin)|].
        * destruct (fst (q_stack p)); [discriminate|]. injection Ev as <-. exact HM.
        * injection Ev as <-. exact HM.
      + intros cl Hcl _. destruct (Hvia cl Hcl) as (c & rs & r & Hl & Hr & Ev). exists q, c, rs, r. auto 8.
    - destruct (pi_metal _ _ PI layer vv q d Hin Eq Ed Hns Hck) as ((tl & El) & _).
      assert (HM : starts "M"%char layer = true) by (apply starts_ok; eauto).
      intros Hc. assert (Ec : cs = metal_cells env st q layer d vv) by (destruct d; congruence). subst cs. clear Hc.
      assert (Hcells : metal_cells env st q layer d vv = map cell_of (flat_map (line_items env st q layer d) vv)).
      { unfold metal_cells. rewrite map_flat_map. apply flat_map_ext'. intros (c, rs) _. unfold line_items. rewrite map_flat_map.
        apply flat_map_ext'. intros r _. unfold wire_items. rewrite map_map. reflexivity. }
      assert (Hall : forall cl, In cl (metal_cells env st q layer d vv) -> isM cl = true).
      { intros cl Hcl. unfold metal_cells in Hcl. apply in_flat_map in Hcl as (l & _ & Hcl). apply in_flat_map in Hcl as (r & _ & Hcl).
        apply in_map_iff in Hcl as (iv & <- & _). exact HM. }
      split.
      + rewrite HM, filter_all by assumption. destruct d; [assumption..|congruence].
      + intros cl Hcl Hf. rewrite (Hall cl Hcl) in Hf. discriminate.
  Qed.

  Lemma all_cells css : mapO (layer_cells env st) sto = Some css ->
    filter isM (concat css) = map cell_of (items env st sto) /\
    forall cl, In cl (concat css) -> isM cl = false ->
      exists layer vv q c rs r, In (layer, vv) sto /\ In (layer, q) (pe_pdk env) /\ In (layer, DStar) (pe_layers env) /\ checked layer /\
        In (c, rs) vv /\ In r rs /\ via_cell env st layer r = Some cl.
  Proof.
    assert (G : forall s css, (forall lv, In lv s -> In lv sto) -> mapO (layer_cells env st) s = Some css ->
      filter isM (concat css) = map cell_of (items env st s) /\
      forall cl, In cl (concat css) -> isM cl = false -> exists layer vv q c rs r, In (layer, vv) sto /\ In (layer, q) (pe_pdk env) /\
        In (layer, DStar) (pe_layers env) /\ checked layer /\ In (c, rs) vv /\ In r rs /\ via_cell env st layer r = Some cl).
    { induction s as [|lv s IH]; simpl; intros css' Hs H; [injection H as <-; split; [reflexivity|intros ? []]|].
      destruct (layer_cells env st lv) as [cs|] eqn:E; [|discriminate]. destruct (mapO _ s) as [css2|] eqn:E2; [|discriminate].
      injection H as <-. destruct (layer_cells_metal lv cs) as (L1 & L2); [auto|assumption|].
      destruct (IH css2) as (I1 & I2); [auto|reflexivity|]. simpl. split.
      - unfold items. simpl. rewrite filter_app, map_app, L1. f_equal. exact I1.
      - intros cl Hcl Hf. apply in_app_or in Hcl as [Hcl|Hcl]; [|auto].
        destruct (L2 cl Hcl Hf) as (q & c & rs & r & X). destruct lv as (layer, vv). cbn [fst snd] in X.
        exists layer, vv, q, c, rs, r. split; [auto|]. tauto. }
    intros H. apply G; auto.
  Qed.

  Lemma items_in i : In i (items env st sto) ->
    exists vv rs, In (i_layer i, vv) sto /\ In (i_c i, rs) vv /\ In (i_r i) rs /\ In (i_layer i, i_q i) (pe_pdk env) /\
      In (i_layer i, i_d i) (pe_layers env) /\ i_d i <> DStar /\ (exists tl, i_layer i = String "M"%char tl) /\
      In (i_iv i) (wire_ivs env st (i_layer i) (i_d i) (i_c i) (i_r i)).
  Proof.
    unfold items. intros H. apply in_flat_map in H as ((layer, vv) & Hin & H). unfold layer_items in H. cbn [fst snd] in H.
    destruct (dget String.eqb (pe_pdk env) layer) as [q|] eqn:Eq; [|destruct H].
    destruct (dget String.eqb (pe_layers env) layer) as [d|] eqn:Ed; [|destruct H].
    apply (dget_in _ String.eqb_eq) in Eq, Ed.
    assert (Hns : d <> DStar) by (intros ->; destruct H).
    assert (H' : In i (if starts "M"%char layer then flat_map (line_items env st q layer d) vv else [])) by (destruct d; [exact H..|congruence]).
    clear H. destruct (starts "M"%char layer) eqn:Em; [|destruct H'].
    apply in_flat_map in H' as ((c, rs) & Hl & H). unfold line_items in H. cbn [fst snd] in H.
    apply in_flat_map in H as (r & Hr & H). unfold wire_items in H. apply in_map_iff in H as (iv & <- & Hiv). simpl.
    apply starts_ok in Em. exists vv, rs. auto 10.
  Qed.

  Lemma metal_checked layer : (exists tl, layer = String "M"%char tl) -> checked layer.
  Proof. intros (tl & E). exists tl. auto. Qed.

  Lemma wire_tiles w q : is_wire env sto w -> In (w_layer w, q) (pe_pdk env) ->
    let s := start_of (w_dir w) (px_rect (w_px w)) in let e := end_of (w_dir w) (px_rect (w_px w)) in
    tiles (pe_pitch env) s e (wire_ivs env st (w_layer w) (w_dir w) (w_track w) (w_px w)).
  Proof.
    intros Hw Hq. pose proof (PO w Hw) as HP. cbv zeta in *.
    destruct Hw as (vv & rs & q' & Hin & Hl & Hr & Hd & Hns & Hq' & HM).
    destruct (pi_metal _ _ PI _ _ _ _ Hin Hq Hd Hns (metal_checked _ HM)) as (_ & _ & _ & Hline).
    destruct (Hline _ _ Hl) as (_ & _ & Hle).
    unfold wire_ivs. apply port_loop_none.
    - exact (pi_pitch _ _ PI).
    - apply (Hle (px_rect (w_px w))). now apply in_map.
    - apply ports_sorted.
    - destruct HP as [HP|(p & Hp & Hr')]; [left; intros p Hp; apply HP|right; exists p; split; [|exact Hr']].
      + apply (port_on_iff _ _ _ _ _ _ (pi_dirs _ _ PI) (pi_pdk _ _ PI) CP). exact Hp.
      + apply (port_on_iff _ _ _ _ _ _ (pi_dirs _ _ PI) (pi_pdk _ _ PI) CP). exact Hp.
  Qed.

  Lemma line_nodup q layer d c (l : list pxr) vv rs : In (layer, vv) sto -> In (c, rs) vv -> In (layer, q) (pe_pdk env) -> In (layer, d) (pe_layers env) ->
    d <> DStar -> (exists tl, layer = String "M"%char tl) -> (forall r, In r l -> In r rs) ->
    StronglySorted (fun a b => end_of d a < start_of d b) (map px_rect l) ->
    NoDup (map i_tag (flat_map (wire_items env st q layer d c) l)).
  Proof.
    intros Hin Hl Hq Hd Hns HM. revert l.
    assert (T : forall r, In r rs -> tiles (pe_pitch env) (start_of d (px_rect r)) (end_of d (px_rect r)) (wire_ivs env st layer d c r)).
    { intros r Hr. apply (wire_tiles (mkWire layer d c r) q); [|assumption]. exists vv, rs, q. simpl. auto 8. }
    induction l as [|r l IH]; simpl; intros Hsub Hs; [constructor|].
    inversion Hs as [|? ? Hs' Hf]; subst. rewrite map_app. apply nodup_app.
    - unfold wire_items. rewrite map_map. apply (nodup_map_weak fst); [|intros a b _ _; unfold i_tag; simpl; congruence].
      eapply tiles_nodup; [exact (pi_pitch _ _ PI)|]. apply T. auto.
    - apply IH; auto.
    - intros x Hx Hx'. apply in_map_iff in Hx as (i & <- & Hi). unfold wire_items in Hi. apply in_map_iff in Hi as ((a, b) & <- & Hiv).
      apply in_map_iff in Hx' as (j & Ej & Hj). apply in_flat_map in Hj as (r' & Hr' & Hj). unfold wire_items in Hj.
      apply in_map_iff in Hj as ((a', b') & <- & Hiv'). unfold i_tag in Ej. simpl in Ej. injection Ej as ->.
      apply (tiles_in _ _ _ _ (pi_pitch _ _ PI) (T r (Hsub r (or_introl eq_refl)))) in Hiv.
      apply (tiles_in _ _ _ _ (pi_pitch _ _ PI) (T r' (Hsub r' (or_intror Hr')))) in Hiv'.
      rewrite Forall_forall in Hf. specialize (Hf (px_rect r') (in_map _ _ _ Hr')). lia.
  Qed.

  Lemma items_nodup : NoDup (map i_tag (items env st sto)).
  Proof.
    unfold items. apply (nodup_flat_map _ _ fst fst).
    - exact (pi_layers _ _ PI).
    - intros (layer, vv) Hin. unfold layer_items. cbn [fst snd].
      destruct (dget String.eqb (pe_pdk env) layer) as [q|] eqn:Eq; [|constructor].
      destruct (dget String.eqb (pe_layers env) layer) as [d|] eqn:Ed; [|constructor].
      apply (dget_in _ String.eqb_eq) in Eq, Ed.
      assert (Hst : d = DStar \/ d <> DStar) by (destruct d; [right; discriminate..|now left]).
      destruct Hst as [->|Hns]; [constructor|].
      enough (G : NoDup (map i_tag (if starts "M"%char layer then flat_map (line_items env st q layer d) vv else []))) by (destruct d; [exact G..|constructor]).
      destruct (starts "M"%char layer) eqn:Em; [|constructor]. apply starts_ok in Em.
      apply (nodup_flat_map _ _ (fun tg => fst (snd tg)) fst).
      + exact (pi_lines _ _ PI _ _ Hin).
      + intros (c, rs) Hl. unfold line_items. cbn [fst snd].
        destruct (pi_metal _ _ PI _ _ _ _ Hin Eq Ed Hns (metal_checked _ Em)) as (_ & _ & _ & Hline).
        destruct (Hline _ _ Hl) as (_ & Hs & _). eapply line_nodup; eauto.
      + intros (c, rs) i Hl Hi. unfold line_items in Hi. cbn [fst snd] in *. apply in_flat_map in Hi as (r & _ & Hi).
        unfold wire_items in Hi. apply in_map_iff in Hi as (iv & <- & _). reflexivity.
    - intros (layer, vv) i Hin Hi. assert (Hi' : In i (items env st [(layer, vv)])) by (unfold items; simpl; rewrite app_nil_r; exact Hi).
      unfold layer_items in Hi. cbn [fst snd] in *.
      destruct (dget String.eqb (pe_pdk env) layer) as [q|]; [|destruct Hi].
      destruct (dget String.eqb (pe_layers env) layer) as [d|]; [|destruct Hi].
      destruct d; [| |destruct Hi]; (destruct (starts "M"%char layer); [|destruct Hi]);
        apply in_flat_map in Hi as (l & _ & Hi); unfold line_items in Hi; apply in_flat_map in Hi as (r & _ & Hi);
        unfold wire_items in Hi; apply in_map_iff in Hi as (iv & <- & _); reflexivity.
  Qed.

  Lemma item_dir i : In i (items env st sto) -> plain_layer (Some (i_layer i)) /\ Z.even (i_c i) = true /\
    q_dir (i_q i) = match i_d i with DH => "h"%string | _ => "v"%string end /\ fst (i_iv i) < snd (i_iv i).
  Proof.
    intros Hi. destruct (items_in i Hi) as (vv & rs & Hin & Hl & Hr & Hq & Hd & Hns & HM & Hiv).
    destruct (pi_metal _ _ PI _ _ _ _ Hin Hq Hd Hns (metal_checked _ HM)) as (_ & Hp & Hqd & Hline).
    destruct (Hline _ _ Hl) as (He & _). split; [exact Hp|]. split; [exact He|]. split; [exact Hqd|].
    assert (T := wire_tiles (mkWire (i_layer i) (i_d i) (i_c i) (i_r i)) (i_q i)). simpl in T.
    destruct (i_iv i) as (a, b) eqn:E. eapply tiles_in in Hiv; [|exact (pi_pitch _ _ PI)|apply T; [|assumption]].
    - simpl. lia.
    - exists vv, rs, (i_q i). simpl. auto 8.
  Qed.

  Definition i_node (i : item) (z : Z) : chars :=
    match i_d i with DH => node_name (px_net (i_r i)) (Some (i_layer i)) z (i_c i / 2)
                   | _ => node_name (px_net (i_r i)) (Some (i_layer i)) (i_c i / 2) z end.

  Lemma item_key i : In i (items env st sto) -> fst (cell_of i) = (i_node i (fst (i_iv i)), i_node i (snd (i_iv i))).
  Proof.
    intros Hi. destruct (item_dir i Hi) as (_ & _ & Hq & _). unfold cell_of, metal_cell, i_node. cbn [fst]. rewrite Hq.
    destruct (i_d i); reflexivity.
  Qed.

  Lemma item_key_inj i j : In i (items env st sto) -> In j (items env st sto) -> fst (cell_of i) = fst (cell_of j) -> i_tag i = i_tag j.
  Proof.
    intros Hi Hj. rewrite (item_key i Hi), (item_key j Hj). intros E. apply (f_equal fst) in E. cbn [fst] in E.
    destruct (item_dir i Hi) as (Pi & Ei & _). destruct (item_dir j Hj) as (Pj & Ej & _).
    destruct (items_in i Hi) as (_ & _ & _ & _ & _ & _ & Di & Ni & _). destruct (items_in j Hj) as (_ & _ & _ & _ & _ & _ & Dj & Nj & _).
    apply dir_get in Di, Dj. unfold i_node in E. unfold i_tag.
    assert (EL : i_layer i = i_layer j).
    { destruct (i_d i), (i_d j); try congruence; apply node_name_inj in E as (E & _); auto; apply str_inj, E. }
    rewrite EL in Di. rewrite Di in Dj. injection Dj as Ed. rewrite <- Ed in E.
    assert (Ec : i_c i / 2 = i_c j / 2 /\ fst (i_iv i) = fst (i_iv j)).
    { destruct (i_d i); try congruence; apply node_name_inj in E as (_ & E1 & E2); auto. }
    destruct Ec as (Ec & ->). rewrite EL.
    assert (i_c i = i_c j); [|congruence].
    apply Z.even_spec in Ei as (a & Ea), Ej as (b & Eb). lia.
  Qed.

  Lemma via_not_metal i cl layer vv q c rs r :
    In i (items env st sto) -> In (layer, vv) sto -> In (layer, q) (pe_pdk env) -> In (layer, DStar) (pe_layers env) -> checked layer ->
    In (c, rs) vv -> In r rs -> via_cell env st layer r = Some cl -> fst (cell_of i) <> fst cl.
  Proof.
    intros Hi Hin Hq Hd Hck Hl Hr Hv E. rewrite (item_key i Hi) in E.
    destruct (item_dir i Hi) as (Pi & _). destruct (items_in i Hi) as (_ & _ & _ & _ & _ & _ & _ & Ni & _).
    destruct (pi_via _ _ PI _ _ _ Hin Hq Hd Hck) as (_ & Hne & Hpl & Hterm).
    unfold via_cell in Hv. destruct (existsb _ _); [|discriminate]. rewrite (pdk_get _ _ Hq) in Hv.
    set (x := (llx (px_rect r) + urx (px_rect r)) / 2) in *. set (y := (lly (px_rect r) + ury (px_rect r)) / 2) in *.
    assert (PL : forall o, (o = fst (q_stack q) \/ o = snd (q_stack q)) -> plain_layer o).
    { intros [l|] Ho; unfold plain_layer; [|split; [discriminate|]; intros ch Hch; repeat (destruct Hch as [<-|Hch]; [split; discriminate|]); destruct Hch].
      apply Hpl. intuition. }
    destruct (px_term r) as [(inst, pin)|] eqn:Et.
    - destruct (fst (q_stack q)) eqn:Ef; [discriminate|]. assert (Hv' : fst cl = (str "net_" ++ map (fun c0 => if Ascii.eqb c0 "/"%char then "_"%char else c0) (str inst) ++ "_"%char :: str pin, node_name (px_net r) (snd (q_stack q)) x y)).
      { injection Hv as <-. reflexivity. } rewrite Hv' in E.
      apply (f_equal fst) in E. cbn [fst] in E. destruct (Hterm _ _ _ _ _ Hl Hr Et) as (p & z & Ep & Hz). rewrite Ep in E.
      assert (N : exists p' c', i_node i (fst (i_iv i)) = p' ++ [c'] /\ is_digit c' = true) by (unfold i_node; destruct (i_d i); apply node_name_digit).
      destruct N as (p' & c' & En & Hc'). rewrite En in E.
      change (p' ++ [c'] = str "net_" ++ map (fun c0 => if Ascii.eqb c0 "/"%char then "_"%char else c0) (str inst) ++ ["_"%char] ++ p ++ [z]) in E.
      rewrite !app_assoc in E. apply app_inj_tail in E as (_ & E). congruence.
    - assert (Hv' : fst cl = (node_name (px_net r) (fst (q_stack q)) x y, node_name (px_net r) (snd (q_stack q)) x y)).
      { injection Hv as <-. reflexivity. } rewrite Hv' in E. clear Hv Hv'.
      assert (E1 := f_equal fst E). assert (E2 := f_equal snd E). cbn [fst snd] in E1, E2. unfold i_node in E1, E2.
      assert (S1 : show_layer (Some (i_layer i)) = show_layer (fst (q_stack q))).
      { destruct (i_d i); try congruence; apply node_name_inj in E1 as (E1 & _); auto. }
      assert (S2 : show_layer (Some (i_layer i)) = show_layer (snd (q_stack q))).
      { destruct (i_d i); try congruence; apply node_name_inj in E2 as (E2 & _); auto. }
      apply Hne. rewrite S1 in S2. unfold show_layer in S2. apply str_inj in S2.
      destruct (fst (q_stack q)) as [a|], (snd (q_stack q)) as [b|]; try congruence.
      + destruct (Hpl a (or_introl eq_refl)) as (_ & X). congruence.
      + destruct (Hpl b (or_intror eq_refl)) as (_ & X). congruence.
  Qed.

  Lemma dict_metal css : mapO (layer_cells env st) sto = Some css ->
    let d := fold_left (fun d cl => dset key_eqb d (fst cl) (snd cl)) (concat css) [] in
    filter isM d = map cell_of (items env st sto) /\ (forall x, In x d -> In x (concat css)).
  Proof.
    intros H. destruct (all_cells css H) as (A1 & A2).
    destruct (fold_dset_filter isM (concat css)) as (F1 & F2).
    - rewrite A1. rewrite map_map. apply (nodup_map_weak i_tag); [exact items_nodup|]. intros a b Ha Hb. apply item_key_inj; assumption.
    - intros a b Ha Hb Ma Mb. assert (Ha' : In a (map cell_of (items env st sto))) by (rewrite <- A1; apply filter_In; auto).
      apply in_map_iff in Ha' as (i & <- & Hi). destruct (A2 b Hb Mb) as (layer & vv & q & c & rs & r & H1 & H2 & H3 & H4 & H5 & H6 & H7).
      eapply via_not_metal; eauto.
    - cbv zeta. split; [|exact F2]. rewrite <- A1. exact F1.
  Qed.
End Run.

(** * Totals *)
Lemma sumQ_app a b : (sumQ (a ++ b) == sumQ a + sumQ b)%Q.
Proof. induction a as [|x a IH]; simpl; [ring|]. rewrite IH. ring. Qed.

Lemma sumQ_flat_map {A} (f : A -> list Q) l : (sumQ (flat_map f l) == sumQ (map (fun x => sumQ (f x)) l))%Q.
Proof. induction l as [|a l IH]; simpl; [reflexivity|]. rewrite sumQ_app, IH. reflexivity. Qed.

Lemma sumQ_ext {A} (f g : A -> Q) l : (forall x, In x l -> (f x == g x)%Q) -> (sumQ (map f l) == sumQ (map g l))%Q.
Proof. induction l as [|a l IH]; simpl; intros H; [reflexivity|]. rewrite (H a), IH by auto. reflexivity. Qed.

Lemma sumQ_filter {A} (P : A -> bool) (f : A -> Q) l : (forall x, In x l -> P x = false -> (f x == 0)%Q) ->
  (sumQ (map f l) == sumQ (map f (filter P l)))%Q.
Proof.
  induction l as [|a l IH]; simpl; intros H; [reflexivity|]. destruct (P a) eqn:E; simpl; rewrite IH by auto; [reflexivity|].
  rewrite (H a) by auto. ring.
Qed.

Lemma sumQ_add {A} (f g : A -> Q) l : (sumQ (map (fun x => f x + g x) l) == sumQ (map f l) + sumQ (map g l))%Q.
Proof. induction l as [|a l IH]; simpl; [ring|]. rewrite IH. ring. Qed.

Lemma find_dget {V} (d : list (string * V)) k : find (fun lq => String.eqb (fst lq) k) d = option_map (fun v => (k, v)) (dget String.eqb d k).
Proof.
  induction d as [|(k', v) d IH]; simpl; [reflexivity|]. rewrite (String.eqb_sym k k').
  destruct (String.eqb_spec k' k) as [->|]; [reflexivity|exact IH].
Qed.

Definition cell_val (env : pxenv) (f : pxrules -> Q) (cl : key * (string * Rect)) : Q :=
  let '(ly, r) := snd cl in
  if starts "M"%char ly then
    match dget String.eqb (pe_pdk env) ly with
    | Some q => (f q * ((if String.eqb (q_dir q) "h"%string then Z.abs (llx r - urx r) else Z.abs (lly r - ury r)) # 1000))%Q
    | None => 0%Q end
  else 0%Q.

Lemma starts_match {A} c s (a b : A) : (if starts c s then a else b) = match s with String c' _ => if Ascii.eqb c c' then a else b | EmptyString => b end.
Proof. destruct s; reflexivity. Qed.

Lemma via_R_alt env cl : via_R env cl = if starts "V"%char (fst (snd cl)) then match dget String.eqb (pe_pdk env) (fst (snd cl)) with Some q => q_R q | None => 0%Q end else 0%Q.
Proof.
  unfold via_R. rewrite find_dget. destruct (fst (snd cl)) as [|c s]; [reflexivity|]. simpl starts.
  destruct (Ascii.eqb_spec "V"%char c) as [<-|Hne].
  - destruct (dget _ _ _); reflexivity.
  - destruct c as [[] [] [] [] [] [] [] []]; try reflexivity. congruence.
Qed.

Lemma comp_sums env cells cs nr nc cs' nr' nc' : foldM (comp_step env) cells (cs, nr, nc) = Some (cs', nr', nc') ->
  (sumQ (capacitors cs') == sumQ (capacitors cs) + sumQ (map (cell_val env q_unitC) cells))%Q /\
  (sumQ (resistors cs') == sumQ (resistors cs) + sumQ (map (cell_val env q_unitR) cells) + sumQ (map (via_R env) cells))%Q.
Proof.
  revert cs nr nc. induction cells as [|((t0, t1), (ly, r)) cells IH]; intros cs nr nc H; cbn [foldM] in H.
  - injection H as <- _ _. simpl. split; ring.
  - match type of H with (match ?X with _ => _ end = _) => destruct X as [((cs1, nr1), nc1)|] eqn:E; [|discriminate] end.
    destruct (IH cs1 nr1 nc1 H) as (I1 & I2). unfold comp_step in E. cbn [map sumQ].
    rewrite via_R_alt. unfold cell_val at 1 3. cbn [fst snd].
    destruct (starts "M"%char ly) eqn:Em.
    + assert (Ev : starts "V"%char ly = false).
      { apply starts_ok in Em as (tl & ->). reflexivity. } rewrite Ev.
      destruct (dget String.eqb (pe_pdk env) ly) as [q|]; [|discriminate]. injection E as <- _ _.
      unfold capacitors, resistors in *. rewrite flat_map_app, sumQ_app in I1, I2. cbn [flat_map app sumQ] in I1, I2.
      set (D := (_ # 1000)%Q) in *. split; [rewrite I1; field|rewrite I2; ring].
    + destruct (starts "V"%char ly) eqn:Ev; [|discriminate].
      destruct (dget String.eqb (pe_pdk env) ly) as [q|]; [|discriminate]. injection E as <- _ _.
      unfold capacitors, resistors in *. rewrite flat_map_app, sumQ_app in I1, I2. cbn [flat_map app sumQ] in I1, I2.
      split; [rewrite I1; ring|rewrite I2; ring].
Qed.

Section Totals.
  Variables (env : pxenv) (sto : px_store) (t : ports).
  Hypothesis PI : pex_input env sto.
  Hypothesis PO : ports_ok env sto.
  Hypothesis CP : compute_ports env sto = Some t.
  Notation st := (sort_ports t).

  Lemma iv_values (u : Q) pitch s e l : 0 < pitch -> tiles pitch s e l -> (sumQ (map (fun iv => u * (Z.abs (fst iv - snd iv) # 1000)) l) == u * (e - s # 1000))%Q.
  Proof.
    intros Hp. revert s. induction l as [|(a, b) l IH]; simpl; intros s H.
    - subst. rewrite Z.sub_diag. unfold Qeq, Qmult. simpl. lia.
    - destruct H as (-> & Hb & H). rewrite (IH _ H). rewrite <- Qmult_plus_distr_r. apply Qmult_comp; [reflexivity|].
      unfold Qeq, Qplus. simpl. lia.
  Qed.

  Lemma layer_total f lv : In lv sto ->
    (sumQ (map (cell_val env f) (map cell_of (layer_items env st lv))) ==
     sumQ (map (per_length env f) (flat_map (fun ld =>
      if String.eqb (fst ld) (fst lv) then
        if metal_name (fst lv) && match snd ld with DStar => false | _ => true end
        then flat_map (fun l => map (mkWire (fst lv) (snd ld) (fst l)) (snd l)) (snd lv) else []
      else []) (pe_layers env))))%Q.
  Proof.
    destruct lv as (layer, vv). intros Hin. cbn [fst snd].
    assert (G : forall (g : sdir -> list wire) ls, NoDup (map fst ls) -> flat_map (fun ld => if String.eqb (fst ld) layer then g (snd ld) else []) ls =
                match dget String.eqb ls layer with Some d => g d | None => [] end).
    { intros g ls. induction ls as [|(k, d) ls IH]; simpl; intros Hnd; [reflexivity|]. inversion Hnd as [|? ? Hni Hnd']; subst.
      rewrite String.eqb_sym. destruct (String.eqb_spec layer k) as [->|].
      - assert (E : flat_map (fun ld => if String.eqb (fst ld) k then g (snd ld) else []) ls = []).
        { clear -Hni. induction ls as [|(k', d') ls IH]; simpl in *; [reflexivity|]. destruct (String.eqb_spec k' k) as [->|]; [tauto|]. apply IH. tauto. }
        rewrite E, app_nil_r. reflexivity.
      - apply IH. assumption. }
    assert (G' := G (fun d => if metal_name layer && match d with DStar => false | _ => true end
        then flat_map (fun l => map (mkWire layer d (fst l)) (snd l)) vv else []) (pe_layers env) (pi_dirs _ _ PI)).
    cbv beta in G'. rewrite G'. clear G G'. change (metal_name layer) with (starts "M"%char layer).
    unfold layer_items. cbn [fst snd].
    destruct (dget String.eqb (pe_layers env) layer) as [d|] eqn:Ed.
    2:{ destruct (dget String.eqb (pe_pdk env) layer); reflexivity. }
    assert (Hst : d = DStar \/ d <> DStar) by (destruct d; [right; discriminate..|now left]).
    destruct Hst as [->|Hns].
    { rewrite andb_false_r. destruct (dget String.eqb (pe_pdk env) layer); reflexivity. }
    replace (match d with DStar => false | _ => true end) with true by (destruct d; congruence). rewrite andb_true_r.
    destruct (starts "M"%char layer) eqn:Em.
    2:{ destruct (dget String.eqb (pe_pdk env) layer); [|reflexivity]. destruct d; reflexivity. }
    destruct (dget String.eqb (pe_pdk env) layer) as [q|] eqn:Eq.
    2:{ simpl. rewrite (sumQ_ext _ (fun _ => 0%Q)).
        - induction (flat_map _ vv); simpl; [reflexivity|]. rewrite <- IHl. ring.
        - intros w Hw. unfold per_length. rewrite find_dget. apply in_flat_map in Hw as (l & _ & Hw). apply in_map_iff in Hw as (r & <- & _).
          simpl. rewrite Eq. reflexivity. }
    assert (Hit : (match d with DStar => [] | _ => flat_map (line_items env st q layer d) vv end) = flat_map (line_items env st q layer d) vv) by (destruct d; [reflexivity..|congruence]).
    replace (match d with DStar => [] | _ => _ end) with (flat_map (line_items env st q layer d) vv) by (destruct d; congruence). clear Hit.
    apply starts_ok in Em. pose proof Eq as Eq'. pose proof Ed as Ed'. apply (dget_in _ String.eqb_eq) in Eq', Ed'.
    destruct (pi_metal _ _ PI _ _ _ _ Hin Eq' Ed' Hns (metal_checked _ Em)) as (_ & _ & Hqd & Hline).
    rewrite !map_flat_map. rewrite !sumQ_flat_map. apply sumQ_ext. intros (c, rs) Hl. unfold line_items. cbn [fst snd].
    rewrite !map_flat_map, sumQ_flat_map. rewrite map_map. apply sumQ_ext. intros r Hr.
    unfold wire_items. rewrite !map_map.
    assert (T : tiles (pe_pitch env) (start_of d (px_rect r)) (end_of d (px_rect r)) (wire_ivs env st layer d c r)).
    { apply (wire_tiles env sto t PI PO CP (mkWire layer d c r) q); [|assumption]. exists vv, rs, q. simpl. auto 8. }
    unfold per_length. rewrite find_dget. simpl w_layer. rewrite Eq. cbn [option_map]. unfold wire_len. simpl w_dir. simpl w_px.
    rewrite <- (iv_values (f q) _ _ _ _ (pi_pitch _ _ PI) T). apply sumQ_ext. intros (a, b) _.
    unfold cell_of, metal_cell, cell_val. cbn [fst snd i_q i_layer i_d i_c i_r i_iv].
    apply starts_ok in Em. rewrite Em, Eq, Hqd. destruct d; [reflexivity..|congruence].
  Qed.

  Lemma all_total f : (sumQ (map (cell_val env f) (map cell_of (items env st sto))) == sumQ (map (per_length env f) (wires_of env sto)))%Q.
  Proof.
    unfold items, wires_of. rewrite !map_flat_map, !sumQ_flat_map. apply sumQ_ext. intros lv Hlv.
    rewrite <- (layer_total f lv Hlv). reflexivity.
  Qed.
End Totals.
