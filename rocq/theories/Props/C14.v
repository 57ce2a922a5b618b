(** C14: the length and spacing checks of align/cell_fabric/drc.py report exactly the violations. *)
From Coq Require Import String Ascii.
From Verif Require Import Base.Prelude Base.PyDict Model.Transformation Model.PySort Model.Grid Model.RemoveDuplicates
  Model.Drc Spec.RemoveDuplicatesSpec Spec.DrcSpec Proofs.PySortP Proofs.RemoveDuplicatesP Proofs.RdLineP Proofs.RdPassP Proofs.RdViaP
  Proofs.RdRunP Proofs.RdIdemP Proofs.DrcP Proofs.DrcRunP Props.C10.
From Coq Require Import ZifyBool.
Local Open Scope Z_scope.

(** [layer] is a wire layer of direction [d] with rules [p] and scan lines [vv] in the store. *)
Definition wire_lines (env : drcenv) (sto : scan_store) (layer : string) (d : sdir) (p : rules) (vv : list (Z * list Rect)) : Prop :=
  NoDup (map fst sto) /\ In (layer, vv) sto /\ checked layer /\
  dget String.eqb (en_pdk env) layer = Some p /\ dget String.eqb (en_layers env) layer = Some d /\ d <> DStar.

Definition via_lines (env : drcenv) (sto : scan_store) (layer : string) (p : rules) (vv : list (Z * list Rect)) : Prop :=
  NoDup (map fst sto) /\ In (layer, vv) sto /\ checked layer /\
  dget String.eqb (en_pdk env) layer = Some p /\ dget String.eqb (en_layers env) layer = Some DStar.

(** A wire is reported as too short iff it is (and is not inside a boundary region). *)
Theorem C14_min_length :
  forall env sto errs layer d p vv, drc_run env sto = Some errs -> wire_lines env sto layer d p vv ->
  forall r, In (EMinLength layer r) errs <->
    exists c sl, In (c, sl) vv /\ In r sl /\ end_of d r - start_of d r < p_minl p /\ ~ exempt (en_regions env) r.
Proof.
  intros env sto errs layer d p vv H (H1 & H2 & H3 & H4 & H5 & H6) r.
  rewrite (run_metal env sto errs layer vv p d H H1 H2 H3 H4 H5 H6) by reflexivity.
  rewrite metal_in, attack_in. split.
  - intros [(c & sl & Hl & [He|He])|(?&?&?&?&?&?&?&E&_)]; [| |discriminate].
    + apply min_length_in in He. destruct He as (r' & E & ? & ? & ?). injection E as <-. eauto 8.
    + apply min_spacing_in in He. destruct He as (?&?&E&_). discriminate.
  - intros (c & sl & Hl & Hr & Hlen & Hx). left. exists c, sl. split; [exact Hl|]. left. apply min_length_in. eauto.
Qed.
Print Assumptions C14_min_length.

(** When the wires of every track are in order and apart, some spacing error is reported iff two
    wires of one track, neighbours or not, are too close. *)
Theorem C14_min_spacing :
  forall env sto errs layer d p vv, drc_run env sto = Some errs -> wire_lines env sto layer d p vv ->
  (forall c sl, In (c, sl) vv -> separated d sl) ->
  ((exists a b, In (EMinSpace layer a b) errs) <->
   exists c sl a b, In (c, sl) vv /\ In a sl /\ In b sl /\ 0 < start_of d b - end_of d a < p_ete p /\
                    ~ exempt (en_regions env) b).
Proof.
  intros env sto errs layer d p vv H (H1 & H2 & H3 & H4 & H5 & H6) Hsep. split.
  - intros (a & b & He). rewrite (run_metal env sto errs layer vv p d H H1 H2 H3 H4 H5 H6) in He by reflexivity.
    rewrite metal_in, attack_in in He. destruct He as [(c & sl & Hl & [He|He])|(?&?&?&?&?&?&?&E&_)]; [| |discriminate].
    + apply min_length_in in He. destruct He as (?&E&_). discriminate.
    + apply min_spacing_in in He. destruct He as (a' & b' & E & Hn & Hg & Hx). injection E as <- <-.
      apply neighbours_before in Hn. exists c, sl, a, b. repeat split; auto; try lia.
      * eapply before_in_l; eauto. * eapply before_in_r; eauto.
  - intros (c & sl & a & b & Hl & Ha & Hb & Hg & Hx). destruct (Hsep c sl Hl) as [HS Hle].
    assert (Hbef : before sl a b).
    { destruct (before_trichotomy sl a b Ha Hb) as [E|[E|E]]; [|exact E|].
      - subst. specialize (Hle b Hb). lia.
      - destruct E as (l1 & l2 & l3 & ->). apply SS_pair in HS. pose proof (Hle a Ha). pose proof (Hle b Hb). lia. }
    destruct (gap_neighbour (start_of d) (end_of d) sl a b HS Hle Hbef) as (c0 & Hn & Hc1 & Hc2).
    exists c0, b. rewrite (run_metal env sto errs layer vv p d H H1 H2 H3 H4 H5 H6) by reflexivity.
    left. apply metal_in. exists c, sl. split; [exact Hl|]. right. apply min_spacing_in.
    exists c0, b. repeat split; auto; lia.
Qed.
Print Assumptions C14_min_spacing.

(** Vias of one column: reported iff two of them are too close vertically. *)
Theorem C14_via_column_spacing :
  forall env sto errs layer p vv s, drc_run env sto = Some errs -> via_lines env sto layer p vv -> p_spacey p = Some s ->
  (forall c sl, In (c, sl) vv -> separated DV sl) ->
  ((exists a b, In (EVSpace layer a b) errs) <->
   exists c sl a b, In (c, sl) vv /\ In a sl /\ In b sl /\ 0 < lly b - ury a < s).
Proof.
  intros env sto errs layer p vv s H (H1 & H2 & H3 & H4 & H5) Hs Hsep.
  destruct (run_via env sto errs layer vv p H H1 H2 H3 H4 H5) as (ea & eb & Ea & Eb & Hin).
  assert (X : forall a b, In (EVSpace layer a b) errs <-> In (EVSpace layer a b) (check_space_y layer s vv)).
  { intros a b. rewrite Hin by reflexivity. apply via_rules_in in Ea. destruct Ea as (e3 & e4 & Ein & E3 & E4).
    apply enclosure_in in Eb. destruct Eb as [Eb _]. rewrite Ein. split.
    - intros [[(s0 & Es & He)|[(s0 & _ & He)|[He|He]]]|He].
      + congruence.
      + apply space_x_in in He. destruct He as (?&?&?&?&E&_). discriminate.
      + destruct (p_maxy p); [|subst; destruct He]. destruct E3 as (h & v & _ & E3).
        apply (adj_y_in _ _ _ _ _ E3) in He. destruct He as (?&?&?&?&E&_). discriminate.
      + destruct (p_maxx p); [|subst; destruct He]. destruct E4 as (h & v & _ & E4).
        apply (adj_x_in _ _ _ _ _ E4) in He. destruct He as (?&?&?&?&(?&E&_)&_). discriminate.
      + apply Eb in He. destruct He as (?&?&?&?&?&?&?&_&_&_&_&Es&Hi).
        destruct (single_layer _ _ _ _ _ _ _ _ Es Hi) as (f & E). discriminate.
    - intros He. left. left. eauto. }
  split.
  - intros (a & b & He). apply X in He. apply space_y_in in He. destruct He as (c & sl & a' & b' & E & Hl & Hn & Hg).
    injection E as <- <-. apply neighbours_before in Hn. exists c, sl, a, b. repeat split; auto; try lia.
    + eapply before_in_l; eauto. + eapply before_in_r; eauto.
  - intros (c & sl & a & b & Hl & Ha & Hb & Hg). destruct (Hsep c sl Hl) as [HS Hle]. simpl start_of in *. simpl end_of in *.
    assert (Hbef : before sl a b).
    { destruct (before_trichotomy sl a b Ha Hb) as [E|[E|E]]; [|exact E|].
      - subst. specialize (Hle b Hb). lia.
      - destruct E as (l1 & l2 & l3 & ->). apply SS_pair in HS. pose proof (Hle a Ha). pose proof (Hle b Hb). lia. }
    destruct (gap_neighbour lly ury sl a b HS Hle Hbef) as (c0 & Hn & Hc1 & Hc2).
    exists c0, b. apply X. apply space_y_in. exists c, sl, c0, b. repeat split; auto; lia.
Qed.
Print Assumptions C14_via_column_spacing.

(** Vias of one row (the same vertical centre), whichever columns they are stored in. *)
Theorem C14_via_row_spacing :
  forall env sto errs layer p vv s, drc_run env sto = Some errs -> via_lines env sto layer p vv -> p_spacex p = Some s ->
  let via r := exists c sl, In (c, sl) vv /\ In r sl in
  NoDup (concat (map snd vv)) ->
  (forall r, via r -> llx r <= urx r) ->
  (forall a b, via a -> via b -> lly a + ury a = lly b + ury b -> a <> b -> urx a < llx b \/ urx b < llx a) ->
  ((exists a b, In (EHSpace layer a b) errs) <->
   exists a b, via a /\ via b /\ lly a + ury a = lly b + ury b /\ 0 < llx b - urx a < s).
Proof.
  intros env sto errs layer p vv s H (H1 & H2 & H3 & H4 & H5) Hs via Hnd Hle Hdis.
  destruct (run_via env sto errs layer vv p H H1 H2 H3 H4 H5) as (ea & eb & Ea & Eb & Hin).
  assert (X : forall a b, In (EHSpace layer a b) errs <-> In (EHSpace layer a b) (check_space_x layer s vv)).
  { intros a b. rewrite Hin by reflexivity. apply via_rules_in in Ea. destruct Ea as (e3 & e4 & Ein & E3 & E4).
    apply enclosure_in in Eb. destruct Eb as [Eb _]. rewrite Ein. split.
    - intros [[(s0 & _ & He)|[(s0 & Es & He)|[He|He]]]|He].
      + apply space_y_in in He. destruct He as (?&?&?&?&E&_). discriminate.
      + congruence.
      + destruct (p_maxy p); [|subst; destruct He]. destruct E3 as (h & v & _ & E3).
        apply (adj_y_in _ _ _ _ _ E3) in He. destruct He as (?&?&?&?&E&_). discriminate.
      + destruct (p_maxx p); [|subst; destruct He]. destruct E4 as (h & v & _ & E4).
        apply (adj_x_in _ _ _ _ _ E4) in He. destruct He as (?&?&?&?&(?&E&_)&_). discriminate.
      + apply Eb in He. destruct He as (?&?&?&?&?&?&?&_&_&_&_&Es&Hi).
        destruct (single_layer _ _ _ _ _ _ _ _ Es Hi) as (f & E). discriminate.
    - intros He. left. right. left. eauto. }
  assert (HR : forall c sl, In (c, sl) (rows vv) ->
             StronglySorted (fun a b => urx a < llx b) sl /\ (forall r, In r sl -> llx r <= urx r)).
  { intros c sl Hl.
    assert (Hv : forall r, In r sl -> via r /\ lly r + ury r = c).
    { intros r Hr. destruct (rows_mem _ _ _ _ Hl Hr) as (E & c' & sl' & ? & ?). split; [exists c', sl'; auto|exact E]. }
    assert (Hn : NoDup sl).
    { unfold rows in Hl. apply in_map_iff in Hl. destruct Hl as ((k, b) & E & Hb). cbn [fst snd] in E. injection E as <- <-.
      eapply Permutation_NoDup; [apply sort_by_perm|]. apply (group_by_in _ _ Z.eqb_eq) in Hb. destruct Hb as [-> _].
      apply NoDup_filter. exact Hnd. }
    pose proof (rows_sorted _ _ _ Hl) as Hso. split.
    - clear Hl. revert Hv Hn. induction Hso as [|a l Hs0 IH Hf]; intros Hv Hn; constructor.
      + apply IH; [intros r Hr; apply Hv; now right|]. inversion Hn; assumption.
      + rewrite Forall_forall in *. intros b Hb. specialize (Hf b Hb).
        destruct (Hv a (or_introl eq_refl)) as [Va Ca]. destruct (Hv b (or_intror Hb)) as [Vb Cb].
        assert (a <> b) by (intros ->; inversion Hn; contradiction).
        pose proof (Hle a Va). pose proof (Hle b Vb).
        destruct (Hdis a b Va Vb ltac:(lia) H0); lia.
    - intros r Hr. apply Hle. apply Hv. exact Hr. }
  split.
  - intros (a & b & He). apply X in He. apply space_x_in in He. destruct He as (c & sl & a' & b' & E & Hl & Hn & Hg).
    injection E as <- <-. apply neighbours_before in Hn.
    destruct (rows_mem _ _ _ _ Hl (before_in_l _ _ _ Hn)) as (E1 & c1 & s1 & ? & ?).
    destruct (rows_mem _ _ _ _ Hl (before_in_r _ _ _ Hn)) as (E2 & c2 & s2 & ? & ?).
    exists a, b. split; [exists c1, s1; auto|]. split; [exists c2, s2; auto|]. lia.
  - intros (a & b & (c1 & s1 & Ha1 & Ha2) & (c2 & s2 & Hb1 & Hb2) & Ec & Hg).
    destruct (rows_find _ _ _ _ Ha1 Ha2) as (sl & Hl & Ha). destruct (rows_find _ _ _ _ Hb1 Hb2) as (sl' & Hl' & Hb).
    rewrite <- Ec in Hl'. rewrite (rows_unique _ _ _ _ Hl' Hl) in Hb. clear Hl' sl'.
    destruct (HR _ _ Hl) as [HS Hle'].
    assert (Hbef : before sl a b).
    { destruct (before_trichotomy sl a b Ha Hb) as [E|[E|E]]; [|exact E|].
      - subst. specialize (Hle' b Hb). lia.
      - destruct E as (l1 & l2 & l3 & ->). apply SS_pair in HS. pose proof (Hle' a Ha). pose proof (Hle' b Hb). lia. }
    destruct (gap_neighbour llx urx sl a b HS Hle' Hbef) as (c0 & Hn & Hc1 & Hc2).
    exists c0, b. apply X. apply space_x_in. exists (lly a + ury a), sl, c0, b. repeat split; auto; lia.
Qed.
Print Assumptions C14_via_row_spacing.

(** Together with removeDuplicates: on a clean layout without shorts, the checker run on the
    merged scan lines reports a spacing error on a wire layer iff two output wires of one track
    are closer than the rule allows. *)
Theorem C14_after_remove_duplicates :
  forall cf ts res env errs layer d p,
  cfg_ok cf -> remove_duplicates cf ts = Some res -> clean_input cf ts -> r_shorts res = [] ->
  (forall x, In x ts -> llx (t_rect x) <= urx (t_rect x) /\ lly (t_rect x) <= ury (t_rect x)) ->
  en_layers env = cf_layers cf -> en_regions env = [] ->
  wire_layer cf layer d -> d <> DStar -> checked layer -> dget String.eqb (en_pdk env) layer = Some p ->
  drc_run env (scan_of res) = Some errs ->
  ((exists a b, In (EMinSpace layer a b) errs) <->
   exists x y c, In x (r_terms res) /\ In y (r_terms res) /\ on_track layer d c x /\ on_track layer d c y /\
                 0 < start_of d (t_rect y) - end_of d (t_rect x) < p_ete p) /\
  ((exists a, In (EMinLength layer a) errs) <->
   exists x, In x (r_terms res) /\ t_layer x = layer /\ end_of d (t_rect x) - start_of d (t_rect x) < p_minl p).
Proof.
  intros cf ts res env errs layer d p Hcf HR HI Hsh Hval Hlay Hreg HL Hd Hck Hp Hrun.
  destruct (run_spec cf ts res Hcf HR) as (t & s1 & rep1 & ps & s2 & rep2 & R).
  assert (Hnd : NoDup (map fst (scan_of res))).
  { unfold scan_of. rewrite map_map. simpl. eapply store_keys; eauto. }
  assert (Hrec : forall i, rect_of (r_state res) i = rect_of s1 i).
  { intros i. unfold rect_of. rewrite (rn_final _ _ _ _ _ _ _ _ _ R). reflexivity. }
  assert (Hld : dget String.eqb (en_layers env) layer = Some d).
  { rewrite Hlay. eapply layer_dget; [exact Hcf|apply HL]. }
  (* the wires of the store and the output terminals *)
  assert (HT : forall x, In x (r_terms res) -> t_layer x = layer -> exists ls c ids i, In (layer, ls) (r_store res) /\ In (c, ids) ls /\
             In i ids /\ t_rect x = rect_of s1 i /\ twice_center d (rect_of s1 i) = c).
  { intros x Hx El. rewrite (rn_terms _ _ _ _ _ _ _ _ _ R) in Hx. apply in_app_iff in Hx. destruct Hx as [Hx|Hx].
    - apply filter_In in Hx. destruct Hx as [_ Hx]. apply in_strs_ok in Hx. rewrite El in Hx. destruct HL. contradiction.
    - apply in_map_iff in Hx. destruct Hx as ((l1, i) & <- & Hi). simpl in El. subst l1.
      apply layer_ids_in in Hi. destruct Hi as (ls & c & ids & A1 & A2 & A3).
      destruct (line_facts cf ts res t s1 rep1 ps s2 rep2 Hcf R HI Hsh _ _ _ _ A1 A2) as (d0 & HL0 & _ & _ & _ & _ & _ & Htc).
      assert (d0 = d) by (pose proof (layer_dget _ _ _ Hcf (proj1 HL0)); pose proof (layer_dget _ _ _ Hcf (proj1 HL)); congruence). subst d0.
      exists ls, c, ids, i. simpl. repeat split; auto. }
  assert (HT2 : forall ls c ids i, In (layer, ls) (r_store res) -> In (c, ids) ls -> In i ids ->
             exists x, In x (r_terms res) /\ t_layer x = layer /\ t_rect x = rect_of s1 i /\ twice_center d (rect_of s1 i) = c).
  { intros ls c ids i A1 A2 A3.
    destruct (line_facts cf ts res t s1 rep1 ps s2 rep2 Hcf R HI Hsh _ _ _ _ A1 A2) as (d0 & HL0 & _ & _ & _ & _ & _ & Htc).
    assert (d0 = d) by (pose proof (layer_dget _ _ _ Hcf (proj1 HL0)); pose proof (layer_dget _ _ _ Hcf (proj1 HL)); congruence). subst d0.
    assert (Hi : In (layer, i) (layer_ids (r_store res))) by (apply layer_ids_in; eauto 8).
    eexists. split.
    - rewrite (rn_terms _ _ _ _ _ _ _ _ _ R). apply in_app_iff. right. apply in_map_iff. exists (layer, i). split; [reflexivity|exact Hi].
    - simpl. auto. }
  destruct (in_dec String.string_dec layer (map fst (r_store res))) as [Hin|Hout].
  - apply in_map_iff in Hin. destruct Hin as ((l1, ls) & E & Hin). simpl in E. subst l1.
    set (vv := map (fun l => (fst l, map (rect_of (r_state res)) (snd l))) ls).
    assert (Hsto : In (layer, vv) (scan_of res)).
    { unfold scan_of. apply in_map_iff. exists (layer, ls). split; [reflexivity|exact Hin]. }
    assert (HW : wire_lines env (scan_of res) layer d p vv) by (repeat split; auto).
    assert (Hvv : forall c sl, In (c, sl) vv <-> exists ids, In (c, ids) ls /\ sl = map (rect_of s1) ids).
    { intros c sl. unfold vv. rewrite in_map_iff. split.
      - intros ((c', ids) & E & Hi). simpl in E. injection E as <- <-. exists ids. split; [exact Hi|]. apply map_ext. exact Hrec.
      - intros (ids & Hi & ->). exists (c, ids). simpl. split; [f_equal; apply map_ext; exact Hrec|exact Hi]. }
    assert (Hsep : forall c sl, In (c, sl) vv -> separated d sl).
    { intros c sl Hl. apply Hvv in Hl. destruct Hl as (ids & Hi & ->).
      destruct (line_facts cf ts res t s1 rep1 ps s2 rep2 Hcf R HI Hsh _ _ _ _ Hin Hi) as (d0 & HL0 & LN & _ & _ & SS & _ & _).
      assert (d0 = d) by (pose proof (layer_dget _ _ _ Hcf (proj1 HL0)); pose proof (layer_dget _ _ _ Hcf (proj1 HL)); congruence). subst d0.
      split.
      - clear -SS. induction SS as [|i l Hs IH Hf]; simpl; constructor; auto.
        rewrite Forall_forall in *. intros x Hx. apply in_map_iff in Hx. destruct Hx as (j & <- & Hj). specialize (Hf j Hj).
        unfold gap_order in Hf. rewrite <- dhi_end, <- dlo_start. tauto.
      - intros r Hr. apply in_map_iff in Hr. destruct Hr as (i & <- & Hii).
        destruct (ln_start _ _ _ _ _ _ LN i Hii) as (e & He & _ & _ & _ & _ & Hins).
        apply track_entries_in in He; [|apply HL]. destruct He as (x & Hx & _ & ->). simpl in Hins.
        destruct (Hval x Hx). unfold inside in Hins. unfold start_of, end_of. destruct d; lia. }
    split.
    + rewrite (C14_min_spacing env (scan_of res) errs layer d p vv Hrun HW Hsep). rewrite Hreg. split.
      * intros (c & sl & a & b & Hl & Ha & Hb & Hg & _). apply Hvv in Hl. destruct Hl as (ids & Hi & ->).
        apply in_map_iff in Ha, Hb. destruct Ha as (i & <- & Hii), Hb as (j & <- & Hj).
        destruct (HT2 _ _ _ _ Hin Hi Hii) as (x & X1 & X2 & X3 & X4). destruct (HT2 _ _ _ _ Hin Hi Hj) as (y & Y1 & Y2 & Y3 & Y4).
        exists x, y, c. unfold on_track. rewrite X3, Y3. unfold twice_center, wlo, whi in X4, Y4.
        repeat split; auto; try lia; destruct d; auto.
      * intros (x & y & c & X1 & Y1 & (X2 & X3) & (Y2 & Y3) & Hg).
        destruct (HT x X1 X2) as (ls1 & c1 & ids1 & i & A1 & A2 & A3 & A4 & A5).
        destruct (HT y Y1 Y2) as (ls2 & c2 & ids2 & j & B1 & B2 & B3 & B4 & B5).
        assert (Hk : NoDup (map fst (r_store res))) by (eapply store_keys; eauto).
        assert (ls1 = ls) by (apply (in_dget String.eqb String.eqb_eq) in A1; [|exact Hk]; apply (in_dget String.eqb String.eqb_eq) in Hin; [|exact Hk]; congruence).
        assert (ls2 = ls) by (apply (in_dget String.eqb String.eqb_eq) in B1; [|exact Hk]; apply (in_dget String.eqb String.eqb_eq) in Hin; [|exact Hk]; congruence).
        subst ls1 ls2.
        assert (Hc1 : c1 = c) by (rewrite <- A5, <- A4; unfold twice_center, wlo, whi; destruct d; lia).
        assert (Hc2 : c2 = c) by (rewrite <- B5, <- B4; unfold twice_center, wlo, whi; destruct d; lia).
        rewrite Hc1 in A2. rewrite Hc2 in B2.
        assert (Hk2 : NoDup (map fst ls)) by (eapply line_keys; eauto).
        assert (ids2 = ids1) by (apply (in_dget Z.eqb Z.eqb_eq) in A2; [|exact Hk2]; apply (in_dget Z.eqb Z.eqb_eq) in B2; [|exact Hk2]; congruence).
        subst ids2. exists c, (map (rect_of s1) ids1), (t_rect x), (t_rect y). split; [apply Hvv; eauto|].
        split; [rewrite A4; now apply in_map|]. split; [rewrite B4; now apply in_map|]. split; [lia|].
        intros (b & [] & _).
    + split.
      * intros (a & Ha). apply (C14_min_length env (scan_of res) errs layer d p vv Hrun HW) in Ha.
        destruct Ha as (c & sl & Hl & Ha & Hg & _). apply Hvv in Hl. destruct Hl as (ids & Hi & ->).
        apply in_map_iff in Ha. destruct Ha as (i & <- & Hii). destruct (HT2 _ _ _ _ Hin Hi Hii) as (x & X1 & X2 & X3 & X4).
        exists x. rewrite X3. auto.
      * intros (x & X1 & X2 & Hg). destruct (HT x X1 X2) as (ls1 & c1 & ids1 & i & A1 & A2 & A3 & A4 & A5).
        assert (Hk : NoDup (map fst (r_store res))) by (eapply store_keys; eauto).
        assert (ls1 = ls) by (apply (in_dget String.eqb String.eqb_eq) in A1; [|exact Hk]; apply (in_dget String.eqb String.eqb_eq) in Hin; [|exact Hk]; congruence).
        subst ls1. exists (t_rect x). apply (C14_min_length env (scan_of res) errs layer d p vv Hrun HW).
        exists c1, (map (rect_of s1) ids1). split; [apply Hvv; eauto|]. rewrite Hreg.
        split; [rewrite A4; now apply in_map|]. split; [exact Hg|]. intros (b & [] & _).
  - assert (Hno : forall x, In x (r_terms res) -> t_layer x <> layer).
    { intros x Hx El. destruct (HT x Hx El) as (ls & c & ids & i & A1 & _). apply Hout. apply in_map_iff. exists (layer, ls). auto. }
    assert (Hne : forall e, In e errs -> err_layer e <> layer).
    { intros e He El. pose proof Hrun as Hr2. apply flat_mapM_in in Hr2. destruct Hr2 as [Hr2 _]. apply Hr2 in He.
      destruct He as ((l', vv') & r & Hl & E & He). apply Hout. unfold scan_of in Hl. apply in_map_iff in Hl.
      destruct Hl as ((l2, ls) & E2 & Hl). simpl in E2. injection E2 as E2 E3. subst l2.
      replace layer with l'; [apply in_map_iff; exists (l', ls); auto|].
      rewrite <- El. eapply (entry_layer env (scan_of res)); eauto. }
    split; split.
    + intros (a & b & He). exfalso. exact (Hne _ He eq_refl).
    + intros (x & y & c & X1 & _ & (X2 & _) & _). exfalso. exact (Hno x X1 X2).
    + intros (a & He). exfalso. exact (Hne _ He eq_refl).
    + intros (x & X1 & X2 & _). exfalso. exact (Hno x X1 X2).
Qed.
Print Assumptions C14_after_remove_duplicates.

Definition ex_rules (minl ete : Z) (v : bool) := mkRules None None None None (None, None) 0 0 v minl ete None 10.

(** Three wires on one track: the first is too short, the last two too close. *)
Example C14_nonvacuous :
  let env := mkEnv [("M1"%string, ex_rules 20 8 false)] [("M1"%string, DH)] [] [] in
  let vv := [(0, [mkRect 0 (-2) 15 2; mkRect 30 (-2) 60 2; mkRect 65 (-2) 90 2])] in
  wire_lines env [("M1"%string, vv)] "M1" DH (ex_rules 20 8 false) vv /\
  (forall c sl, In (c, sl) vv -> separated DH sl) /\
  drc_run env [("M1"%string, vv)] =
    Some [EMinLength "M1" (mkRect 0 (-2) 15 2); EMinSpace "M1" (mkRect 30 (-2) 60 2) (mkRect 65 (-2) 90 2)].
Proof.
  split; [|split; [|reflexivity]].
  - repeat split; simpl; auto; try (exists "1"%string; auto); try discriminate. repeat constructor; simpl; intuition.
  - intros c sl [E|[]]. injection E as <- <-. split.
    + repeat constructor; simpl; lia.
    + intros r Hr. simpl in Hr. destruct Hr as [<-|[<-|[<-|[]]]]; simpl; lia.
Qed.

(** Scan lines that overlap hide a violation from the neighbour check: the first wire ends at 100,
    the third starts at 102, but only its neighbour [5, 6] is compared with it. *)
Theorem C14_overlapping_refuted : exists env sto errs layer d p vv,
  drc_run env sto = Some errs /\ wire_lines env sto layer d p vv /\
  (forall c sl, In (c, sl) vv -> StronglySorted (fun a b => start_of d a <= start_of d b) sl) /\
  (forall a b, ~ In (EMinSpace layer a b) errs) /\
  exists c sl a b, In (c, sl) vv /\ In a sl /\ In b sl /\ 0 < start_of d b - end_of d a < p_ete p.
Proof.
  set (vv := [(0, [mkRect 0 (-2) 100 2; mkRect 5 (-2) 6 2; mkRect 102 (-2) 130 2])]).
  exists (mkEnv [("M1"%string, ex_rules 1 8 false)] [("M1"%string, DH)] [] []), [("M1"%string, vv)], [], "M1"%string, DH,
    (ex_rules 1 8 false), vv.
  split; [reflexivity|]. split; [|split; [|split]].
  - repeat split; simpl; auto; try (exists "1"%string; auto); try discriminate. repeat constructor; simpl; intuition.
  - intros c sl [E|[]]. injection E as <- <-. repeat constructor; simpl; lia.
  - intros a b [].
  - exists 0, [mkRect 0 (-2) 100 2; mkRect 5 (-2) 6 2; mkRect 102 (-2) 130 2], (mkRect 0 (-2) 100 2), (mkRect 102 (-2) 130 2).
    simpl. repeat split; auto; lia.
Qed.
Print Assumptions C14_overlapping_refuted.
