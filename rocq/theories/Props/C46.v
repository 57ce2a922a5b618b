(** C46: dropping vias at crossings. *)
From Coq Require Import String ZifyBool.
From Verif Require Import Base.Prelude Model.Transformation Model.Grid Model.Canvas Model.RemoveDuplicates Model.CanvasEdit Spec.GridSpec Spec.CanvasEditSpec Proofs.GridP Props.C48.
Local Open Scope Z_scope.

Lemma zz_eqb_eq a b : zz_eqb a b = true <-> a = b.
Proof. destruct a, b. unfold zz_eqb. simpl. rewrite andb_true_iff, !Z.eqb_eq. split; [intros (-> & ->); reflexivity|intros E; injection E; auto]. Qed.
Lemma vm_set_new m k r : vm_mem m k = false -> vm_set m k r = m ++ [(k, r)].
Proof.
  induction m as [|e m IH]; [reflexivity|]. unfold vm_mem. simpl. intros H. apply orb_false_iff in H as (H1 & H2). rewrite H1. f_equal. auto.
Qed.
Lemma vm_mem_in m k : vm_mem m k = true <-> In k (map fst m).
Proof.
  unfold vm_mem. rewrite existsb_exists, in_map_iff. split.
  - intros (e & H & E). apply zz_eqb_eq in E. exists e. auto.
  - intros (e & E & H). exists e. split; [assumption|]. now apply zz_eqb_eq.
Qed.
Lemma vm_mem_not m k : vm_mem m k = false -> ~ In k (map fst m).
Proof. intros H Hi. apply vm_mem_in in Hi. congruence. Qed.

(** The crossings visited: wires of one selected net, and the crossing point on both. *)
Lemma cross_rects_in hcl h n vcl l x : In x (cross_rects hcl h n vcl l) ->
  x_hcl x = hcl /\ x_h x = h /\ x_net x = n /\ x_vcl x = vcl /\ In (x_v x) l /\ sr_net (x_v x) = Some n /\ 2 * lly (sr_rect (x_v x)) <= hcl <= 2 * ury (sr_rect (x_v x)).
Proof.
  induction l as [|v l IH]; [intros []|]. cbn [cross_rects]. destruct (name_eqb (sr_net v) (Some n)) eqn:En; cbn [negb].
  - destruct (2 * ury (sr_rect v) <? hcl) eqn:E1; [intros H; destruct (IH H) as (H1 & H2 & H3 & H4 & H5 & H6); repeat (split; [assumption|]); split; [now right|assumption]|].
    destruct (hcl <? 2 * lly (sr_rect v)) eqn:E2; [intros []|]. intros [<-|H].
    + cbn [x_hcl x_h x_net x_vcl x_v]. repeat (split; [reflexivity|]). split; [now left|]. split; [now apply name_eqb_eq|lia].
    + destruct (IH H) as (H1 & H2 & H3 & H4 & H5 & H6); repeat (split; [assumption|]); split; [now right|assumption].
  - intros H. destruct (IH H) as (H1 & H2 & H3 & H4 & H5 & H6); repeat (split; [assumption|]); split; [now right|assumption].
Qed.
Lemma crossings_in sel hls vls x : In x (crossings sel hls vls) ->
  (exists l, In (x_hcl x, l) hls /\ In (x_h x) l) /\ (exists l, In (x_vcl x, l) vls /\ In (x_v x) l) /\ selected sel (x_net x) = true /\ sr_net (x_h x) = Some (x_net x) /\ sr_net (x_v x) = Some (x_net x) /\
  2 * llx (sr_rect (x_h x)) <= x_vcl x <= 2 * urx (sr_rect (x_h x)) /\ 2 * lly (sr_rect (x_v x)) <= x_hcl x <= 2 * ury (sr_rect (x_v x)).
Proof.
  unfold crossings. intros H. apply in_flat_map in H as ((hcl, hl) & Hh & H). apply in_flat_map in H as (h & Hhl & H). cbn [fst snd] in *. destruct (sr_net h) as [n|] eqn:En; [|destruct H].
  destruct (selected sel n) eqn:Es; [|destruct H]. unfold cross_lines in H. apply in_flat_map in H as ((vcl, vl) & Hv & H). cbn [fst snd] in *. destruct (_ || _) eqn:Er; [destruct H|].
  apply cross_rects_in in H as (H1 & H2 & H3 & H4 & H5 & H6 & H7). subst. split; [eauto|]. split; [eauto|]. split; [assumption|]. split; [assumption|]. split; [assumption|]. lia.
Qed.

Section S.
  Variables (vd : viadef) (via : Via) (mh_lower : bool) (hclg vclg : Grid).
  Notation at_ k := (via_at vd (fst k) (snd k)).
  Definition ent (d : drop) : (Z * Z) * Rect := (d_key d, at_ (d_key d)).

  (** What held when a via was dropped; [m] are the vias known by then. *)
  Definition fine (xs : list crossing) (m : vmatrix) (d : drop) : Prop :=
    ~ In (d_key d) (map fst m) /\
    exists x b a cx cx' cy cy', In x xs /\ d_key d = (x_hcl x, x_vcl x) /\ d_net d = x_net x /\ d_h d = x_h x /\ d_v d = x_v x /\
      enclosed vd mh_lower (sr_rect (x_h x)) (sr_rect (x_v x)) (at_ (d_key d)) = true /\ row_clean vd m (x_hcl x) (at_ (d_key d)) = true /\
      line_below hclg (x_hcl x) = Some b /\ line_above hclg (x_hcl x) = Some a /\ col_clean vd m b a (x_vcl x) (at_ (d_key d)) = true /\
      inverseBounds vclg (x_vcl x / 2) = Some (cx, cx') /\ inverseBounds hclg (x_hcl x / 2) = Some (cy, cy') /\ via_segment via (Pair (fst cx) (snd cx)) (Pair (fst cy) (snd cy)) = Some (d_rect d).
  Definition good (xs : list crossing) (m0 : vmatrix) (out : list drop) : Prop := forall o1 d o2, out = o1 ++ d :: o2 -> fine xs (m0 ++ map ent o1) d.

  Lemma drop_one_spec xs m0 m out x st : In x xs -> m = m0 ++ map ent out -> good xs m0 out -> drop_one vd via mh_lower hclg vclg (m, out) x = Some st ->
    fst st = m0 ++ map ent (snd st) /\ good xs m0 (snd st).
  Proof.
    intros Hx Em Hg. unfold drop_one. destruct (vm_mem m _) eqn:E1; [intros E; injection E as <-; auto|]. destruct (enclosed _ _ _ _ _) eqn:E2; cbn [negb]; [|intros E; injection E as <-; auto].
    destruct (row_clean _ _ _ _) eqn:E3; cbn [negb]; [|intros E; injection E as <-; auto]. destruct (line_below _ _) as [b|] eqn:E4; [|discriminate]. destruct (line_above _ _) as [a|] eqn:E5; [|discriminate].
    destruct (col_clean _ _ _ _ _ _) eqn:E6; cbn [negb]; [|intros E; injection E as <-; auto]. destruct (inverseBounds vclg _) as [(cx, cx')|] eqn:E7; [|discriminate]. destruct (inverseBounds hclg _) as [(cy, cy')|] eqn:E8; [|discriminate].
    destruct (via_segment _ _ _) as [rect|] eqn:E9; [|discriminate]. intros E. injection E as <-. cbn [fst snd]. rewrite vm_set_new by assumption. split.
    - rewrite map_app, app_assoc, Em. reflexivity.
    - intros o1 d o2 Eo. destruct (rev o2) as [|z r2] eqn:Er.
      + assert (o2 = []) as -> by (rewrite <- (rev_involutive o2), Er; reflexivity). apply app_inj_tail in Eo as (<- & <-). split; [cbn [d_key]; rewrite <- Em; now apply vm_mem_not|].
        exists x, b, a, cx, cx', cy, cy'. cbn [d_key d_net d_h d_v d_rect fst snd]. rewrite <- Em. repeat (split; [first [assumption|reflexivity]|]). assumption.
      + assert (o2 = rev r2 ++ [z]) as -> by (rewrite <- (rev_involutive o2), Er; reflexivity). change (o1 ++ d :: rev r2 ++ [z]) with (o1 ++ (d :: rev r2) ++ [z]) in Eo. rewrite app_assoc in Eo. apply app_inj_tail in Eo as (Eo & _). exact (Hg _ _ _ Eo).
  Qed.
  Lemma drop_all_spec xs m0 m out : drop_all vd via mh_lower hclg vclg m0 xs = Some (m, out) -> m = m0 ++ map ent out /\ good xs m0 out.
  Proof.
    assert (G : forall ys st st', incl ys xs -> fst st = m0 ++ map ent (snd st) -> good xs m0 (snd st) -> foldM (drop_one vd via mh_lower hclg vclg) ys st = Some st' -> fst st' = m0 ++ map ent (snd st') /\ good xs m0 (snd st')).
    { induction ys as [|y ys IH]; intros st st' Hi H1 H2 E; [injection E as <-; auto|]. simpl in E. destruct (drop_one _ _ _ _ _ st y) as [st1|] eqn:E1; [|discriminate]. destruct st as (m1, o1).
      destruct (drop_one_spec xs m0 m1 o1 y st1 (Hi _ (or_introl eq_refl)) H1 H2 E1) as (H3 & H4). apply (IH st1); try assumption. intros z Hz. apply Hi. now right. }
    intros E. apply (G xs (m0, []) (m, out)); [apply incl_refl|simpl; now rewrite app_nil_r| |exact E]. intros o1 d o2 Eo. destruct o1; discriminate.
  Qed.

  Variables (sel : netsel) (hls vls : slines).
  Notation xs := (crossings sel hls vls).
  (** [m0]: the vias known at the beginning, by line of the horizontal and the vertical wire. *)
  Variables (m0 m : vmatrix) (out : list drop).
  Hypothesis Hrun : drop_all vd via mh_lower hclg vclg m0 xs = Some (m, out).

  (** No crossing gets two vias, and none that is in the matrix at the beginning gets another. *)
  Theorem C46_once : NoDup (map d_key out) /\ forall k, In k (map d_key out) -> ~ In k (map fst m0).
  Proof.
    destruct (drop_all_spec _ _ _ _ Hrun) as (_ & Hg). split.
    - clear Hrun. assert (G : forall l2 l1, out = l1 ++ l2 -> NoDup (map d_key l2) /\ True).
      { induction l2 as [|d l2 IH]; intros l1 E; [split; [constructor|exact I]|]. destruct (IH (l1 ++ [d])) as (Hn & _); [now rewrite <- app_assoc|]. split; [|exact I]. simpl. constructor; [|assumption].
        intros Hi. apply in_map_iff in Hi as (d' & Ek & Hi). apply in_split in Hi as (a & b & ->). destruct (Hg (l1 ++ d :: a) d' b) as (Hno & _); [rewrite E, <- app_assoc; reflexivity|].
        apply Hno. rewrite map_app, in_app_iff. right. rewrite map_map. apply in_map_iff. exists d. split; [symmetry; exact Ek|]. apply in_or_app. right. now left. }
      apply (G out []). reflexivity.
    - intros k Hk Hm. apply in_map_iff in Hk as (d & <- & Hd). apply in_split in Hd as (a & b & Eo). destruct (Hg _ _ _ Eo) as (Hno & _). apply Hno. rewrite map_app, in_app_iff. now left.
  Qed.

  (** Vias connect wires of one selected net and lie inside both, with the enclosure along each wire. *)
  Theorem C46_enclosed d : In d out -> chosen sel (d_net d) /\ sr_net (d_h d) = Some (d_net d) /\ sr_net (d_v d) = Some (d_net d) /\
    (exists l, In (fst (d_key d), l) hls /\ In (d_h d) l) /\ (exists l, In (snd (d_key d), l) vls /\ In (d_v d) l) /\ room_for mh_lower vd (sr_rect (d_h d)) (sr_rect (d_v d)) (at_ (d_key d)).
  Proof.
    intros Hd. destruct (drop_all_spec _ _ _ _ Hrun) as (_ & Hg). apply in_split in Hd as (a & b & Eo). destruct (Hg _ _ _ Eo) as (_ & x & b' & a' & cx & cx' & cy & cy' & Hx & Ek & En & Eh & Ev & He & _).
    apply crossings_in in Hx as (H1 & H2 & H3 & H4 & H5 & _). apply selected_chosen in H3. rewrite En, Eh, Ev, Ek. cbn [fst snd]. repeat (split; [assumption|]). rewrite Ek in He. cbn [fst snd] in He. unfold enclosed, venca_h, venca_v in He. unfold room_for. cbv zeta. destruct mh_lower; lia.
  Qed.

  (** Nothing is left out without a reason: a crossing has a via in the end, or the wires are too
      short for it, or it would be too close to a via. *)
  Lemma cross_rects_complete hcl h n vcl l v : StronglySorted (fun a b => ury (sr_rect a) < lly (sr_rect b)) l -> In v l -> sr_net v = Some n -> 2 * lly (sr_rect v) <= hcl <= 2 * ury (sr_rect v) ->
    (forall u, In u l -> lly (sr_rect u) <= ury (sr_rect u)) -> In (mkX hcl h vcl v n) (cross_rects hcl h n vcl l).
  Proof.
    intros Hs Hv Hn Hc Hp. induction Hs as [|u l Hs IH Hu]; [destruct Hv|]. rewrite Forall_forall in Hu. cbn [cross_rects].
    destruct Hv as [->|Hv]; [rewrite Hn; cbn [name_eqb]; rewrite String.eqb_refl; cbn [negb]; destruct (Z.ltb_spec (2 * ury (sr_rect v)) hcl); [lia|]; destruct (Z.ltb_spec hcl (2 * lly (sr_rect v))); [lia|now left]|].
    specialize (IH Hv (fun u Hu => Hp u (or_intror Hu))). destruct (negb _); [assumption|]. destruct (_ <? hcl); [assumption|]. specialize (Hu v Hv). pose proof (Hp u (or_introl eq_refl)). destruct (Z.ltb_spec hcl (2 * lly (sr_rect u))); [lia|now right].
  Qed.
  Definition blocked (m : vmatrix) (hcl vcl : Z) : Prop := let r := via_at vd hcl vcl in exists k q, In (k, q) m /\
    (fst k = hcl /\ (gap_below (vd_sx vd) (urx q) (llx r) \/ gap_below (vd_sx vd) (urx r) (llx q)) \/
     snd k = vcl /\ (gap_below (vd_sy vd) (ury q) (lly r) \/ gap_below (vd_sy vd) (ury r) (lly q))).
  Definition settled (m : vmatrix) (x : crossing) : Prop := In (x_hcl x, x_vcl x) (map fst m) \/ ~ room_for mh_lower vd (sr_rect (x_h x)) (sr_rect (x_v x)) (via_at vd (x_hcl x) (x_vcl x)) \/ blocked m (x_hcl x) (x_vcl x).
  Lemma settled_mono m1 m2 x : incl m1 m2 -> settled m1 x -> settled m2 x.
  Proof.
    intros Hi [H|[H|(k & q & H & K)]]; [left|right; left; assumption|right; right; exists k, q; auto]. apply in_map_iff in H as (e & E & H). apply in_map_iff. exists e. auto.
  Qed.
  Lemma forallb_not {A} (f : A -> bool) l : forallb f l = false -> exists x, In x l /\ f x = false.
  Proof. induction l as [|x l IH]; [discriminate|]. simpl. destruct (f x) eqn:E; [intros H; destruct (IH H) as (y & Hy & E'); eauto|intros _; eauto]. Qed.
  Lemma drop_one_settled m1 o1 x m2 o2 : drop_one vd via mh_lower hclg vclg (m1, o1) x = Some (m2, o2) -> incl m1 m2 /\ settled m2 x.
  Proof.
    unfold drop_one. destruct (vm_mem m1 _) eqn:E1; [intros E; injection E as <- _; split; [apply incl_refl|]; left; now apply vm_mem_in|].
    destruct (enclosed _ _ _ _ _) eqn:E2; cbn [negb]; [|intros E; injection E as <- _; split; [apply incl_refl|]; right; left; intros R; unfold room_for in R; cbv zeta in R; unfold enclosed, venca_h, venca_v in E2; destruct mh_lower; lia].
    destruct (row_clean _ _ _ _) eqn:E3; cbn [negb].
    - destruct (line_below _ _) as [b|] eqn:E4; [|discriminate]. destruct (line_above _ _) as [a|] eqn:E5; [|discriminate]. destruct (col_clean _ _ _ _ _ _) eqn:E6; cbn [negb].
      + destruct (inverseBounds vclg _) as [(cx, cx')|] eqn:E7; [|discriminate]. destruct (inverseBounds hclg _) as [(cy, cy')|] eqn:E8; [|discriminate].
        destruct (via_segment _ _ _) as [rect|] eqn:E9; [|discriminate]. intros E. injection E as <- _. rewrite vm_set_new by assumption. split; [apply incl_appl, incl_refl|]. left. rewrite map_app. apply in_or_app. right. now left.
      + intros E. injection E as <- _. split; [apply incl_refl|]. right; right. unfold col_clean in E6. apply andb_false_iff in E6 as [E6|E6]; apply forallb_not in E6 as ((k & q) & Hq & E6); apply filter_In in Hq as (Hq & _); exists k, q; (split; [assumption|]); right; cbn [fst snd] in E6; unfold gap_below; lia.
    - intros E. injection E as <- _. split; [apply incl_refl|]. right; right. apply forallb_not in E3 as ((k & q) & Hq & E3). apply filter_In in Hq as (Hq & Hk). exists k, q. split; [assumption|]. left. cbn [fst snd] in *. unfold gap_below. lia.
  Qed.
  Theorem C46_complete hcl hl h n vcl vl v : In (hcl, hl) hls -> In h hl -> sr_net h = Some n -> chosen sel n -> In (vcl, vl) vls -> In v vl -> sr_net v = Some n -> track V vl ->
    2 * llx (sr_rect h) <= vcl <= 2 * urx (sr_rect h) -> 2 * lly (sr_rect v) <= hcl <= 2 * ury (sr_rect v) ->
    In (hcl, vcl) (map fst m) \/ ~ room_for mh_lower vd (sr_rect h) (sr_rect v) (via_at vd hcl vcl) \/ blocked m hcl vcl.
  Proof.
    intros H1 H2 H3 H4 H5 H6 H7 (H8 & H9) H10 H11. apply selected_chosen in H4. change (settled m (mkX hcl h vcl v n)). assert (Hx : In (mkX hcl h vcl v n) xs).
    { unfold crossings. apply in_flat_map. exists (hcl, hl). split; [assumption|]. apply in_flat_map. exists h. split; [assumption|]. rewrite H3, H4. unfold cross_lines. apply in_flat_map. exists (vcl, vl). split; [assumption|]. cbn [fst snd].
      destruct (_ || _) eqn:E; [lia|]. apply cross_rects_complete; try assumption. rewrite Forall_forall in H8. intros u Hu. specialize (H8 u Hu). simpl in H8. lia. }
    assert (G : forall ys m1 o1 m2 o2, foldM (drop_one vd via mh_lower hclg vclg) ys (m1, o1) = Some (m2, o2) -> incl m1 m2 /\ forall y, In y ys -> settled m2 y).
    { induction ys as [|y ys IH]; intros m1 o1 m2 o2 E; [injection E as <- _; split; [apply incl_refl|intros y []]|]. cbn [foldM] in E. destruct (drop_one _ _ _ _ _ (m1, o1) y) as [(m3, o3)|] eqn:E1; [|discriminate].
      destruct (drop_one_settled _ _ _ _ _ E1) as (I1 & S1). destruct (IH _ _ _ _ E) as (I2 & S2). split; [eapply incl_tran; eassumption|]. intros z [<-|Hz]; [eapply settled_mono; eassumption|now apply S2]. }
    exact (proj2 (G _ _ _ _ _ Hrun) _ Hx).
  Qed.
  (** The drawn rectangle is the one checked, if the generators use one grid and the wires are on it. *)
  Theorem C46_rect p q d : In d out -> v_hclg via = hclg -> v_vclg via = vclg -> v_WidthX via = vd_wx vd -> v_WidthY via = vd_wy vd -> periodic hclg p -> periodic vclg q ->
    on_line hclg p (fst (d_key d) / 2) -> on_line vclg q (snd (d_key d) / 2) -> d_rect d = at_ (d_key d).
  Proof.
    intros Hd Gh Gv Wx Wy Hp Hq (w1 & f1 & O1) (w2 & f2 & O2). destruct (drop_all_spec _ _ _ _ Hrun) as (_ & Hg). apply in_split in Hd as (a & b & Eo).
    destruct (Hg _ _ _ Eo) as (_ & x & b' & a' & cx & cx' & cy & cy' & Hx & Ek & _ & _ & _ & _ & _ & _ & _ & _ & B1 & B2 & Es). rewrite Ek in *. cbn [fst snd] in *.
    assert (Hon : forall g r c w f i i', periodic g r -> coord g r w f c -> inverseBounds g c = Some (i, i') -> exists at0, value g (Pair (fst i) (snd i)) false = Some (c, at0)).
    { intros g r c w f i i' Hr Hc E. destruct (inverseBounds_spec _ _ c Hr) as (u & i1 & j1 & ci & cj & E' & C1 & C2 & C3 & C4). rewrite E in E'. injection E' as -> ->. specialize (C4 _ _ _ Hc).
      destruct C3 as [(_ & <-)|C3]; [|lia]. exact (value_pair _ _ _ _ _ Hr C1). }
    assert (Hv : forall g k v v', value g k true = Some v -> value g k false = Some v' -> v = v').
    { intros g k v v'. unfold value. destruct (n_lines g <=? 0); [discriminate|]. destruct (negb _); cbn [andb]; [discriminate|congruence]. }
    destruct (Hon _ _ _ _ _ _ _ Hq O2 B1) as (a1 & V1). destruct (Hon _ _ _ _ _ _ _ Hp O1 B2) as (a2 & V2). unfold via_segment in Es. rewrite Gh, Gv in Es.
    destruct (value vclg _ true) as [(xx & ax)|] eqn:X; [|discriminate]. destruct (value hclg _ true) as [(yy & ay)|] eqn:Y; [|discriminate]. pose proof (Hv _ _ _ _ X V1) as Q1. pose proof (Hv _ _ _ _ Y V2) as Q2.
    injection Q1 as -> _. injection Q2 as -> _. injection Es as <-. unfold via_at. now rewrite Wx, Wy.
  Qed.

  (** Spacing against every via known before: along the horizontal wire, *)
  Theorem C46_row_spacing o1 d o2 k r : out = o1 ++ d :: o2 -> In (k, r) (m0 ++ map ent o1) -> fst k = fst (d_key d) ->
    ~ gap_below (vd_sx vd) (urx r) (llx (at_ (d_key d))) /\ ~ gap_below (vd_sx vd) (urx (at_ (d_key d))) (llx r).
  Proof.
    intros Eo Hi Hk. destruct (drop_all_spec _ _ _ _ Hrun) as (_ & Hg). destruct (Hg _ _ _ Eo) as (_ & x & b' & a' & cx & cx' & cy & cy' & _ & Ek & _ & _ & _ & _ & Hr & _).
    unfold row_clean in Hr. rewrite forallb_forall in Hr. specialize (Hr (k, r)). cbn [snd] in Hr. unfold gap_below. rewrite Ek in Hk. cbn [fst] in Hk.
    assert (Hin : In (k, r) (vm_row (m0 ++ map ent o1) (x_hcl x))) by (apply filter_In; split; [assumption|]; cbn [fst]; lia). specialize (Hr Hin). lia.
  Qed.
  (** and on the neighbouring tracks of the horizontal layer. *)
  Theorem C46_column_spacing p o1 d o2 k r c c' : periodic hclg p -> out = o1 ++ d :: o2 -> In (k, r) (m0 ++ map ent o1) -> snd k = snd (d_key d) -> fst (d_key d) = 2 * c -> fst k = 2 * c' ->
    (next_line hclg p c' c -> ~ gap_below (vd_sy vd) (ury r) (lly (at_ (d_key d)))) /\
    (next_line hclg p c c' -> ~ gap_below (vd_sy vd) (ury (at_ (d_key d))) (lly r)).
  Proof.
    intros Hp Eo Hi Hs Hc Hc'. destruct (drop_all_spec _ _ _ _ Hrun) as (_ & Hg). destruct (Hg _ _ _ Eo) as (_ & x & b & a & cx & cx' & cy & cy' & _ & Ek & _ & _ & _ & _ & _ & Hb & Ha & Hcl & _).
    assert (Eh : x_hcl x / 2 = c) by (rewrite Ek in Hc; cbn [fst] in Hc; rewrite Hc; lia).
    assert (Hv : forall g k v v', value g k true = Some v -> value g k false = Some v' -> v = v').
    { intros g k0 v v'. unfold value. destruct (n_lines g <=? 0); [discriminate|]. destruct (negb _); cbn [andb]; [discriminate|congruence]. }
    unfold col_clean in Hcl. apply andb_true_iff in Hcl as (K1 & K2). rewrite forallb_forall in K1, K2. unfold gap_below. split; intros ((w1 & f1 & O1) & (w2 & f2 & O2) & Hlt & Hno) (G1 & G2).
    - unfold line_below in Hb. rewrite Eh in Hb. destruct (inverseBounds_spec _ _ (c - 1) Hp) as (u & i & j & ci & cj & E & C1 & C2 & C3 & C4). rewrite E in Hb. cbn [fst snd] in Hb.
      destruct (value_pair _ _ _ _ _ Hp C1) as (at0 & V). destruct (value hclg (Pair u i) true) as [v|] eqn:Ev; [|discriminate]. rewrite (Hv _ _ _ _ Ev V) in Hb. simpl in Hb. injection Hb as <-.
      assert (ci = c') as -> by (pose proof (C4 _ _ _ O1); pose proof (Hno ci (ex_intro _ u (ex_intro _ i C1))); destruct C3 as [(_ & C3)|C3]; lia).
      specialize (K1 (k, r)). cbn [fst snd] in K1. rewrite Ek in Hs. cbn [snd] in Hs. assert (Hin : In (k, r) (vm_row (m0 ++ map ent o1) (2 * c'))) by (apply filter_In; split; [assumption|]; cbn [fst]; lia). specialize (K1 Hin). lia.
    - unfold line_above in Ha. rewrite Eh in Ha. destruct (inverseBounds_spec _ _ (c + 1) Hp) as (u & i & j & ci & cj & E & C1 & C2 & C3 & C4). rewrite E in Ha. cbn [fst snd] in Ha.
      destruct (value_pair _ _ _ _ _ Hp C2) as (at0 & V). destruct (value hclg (Pair u j) true) as [v|] eqn:Ev; [|discriminate]. rewrite (Hv _ _ _ _ Ev V) in Ha. simpl in Ha. injection Ha as <-.
      assert (Hcij : i = j -> ci = cj) by (intros <-; exact (coord_fun _ _ _ _ _ _ C1 C2)).
      assert (cj = c') as -> by (pose proof (C4 _ _ _ O2); pose proof (Hno cj (ex_intro _ u (ex_intro _ j C2))); destruct C3 as [(C3 & C3')|C3]; [specialize (Hcij C3)|]; lia).
      specialize (K2 (k, r)). cbn [fst snd] in K2. rewrite Ek in Hs. cbn [snd] in Hs. assert (Hin : In (k, r) (vm_row (m0 ++ map ent o1) (2 * c'))) by (apply filter_In; split; [assumption|]; cbn [fst]; lia). specialize (K2 Hin). lia.
  Qed.
End S.

(** The vias of the canvas are entered under (x, y) but looked up under (y, x): *)
Theorem C46_matrix_keys vias : forall k r, In (k, r) (construct_via_matrix vias) -> In r vias /\ k = (llx r + urx r, lly r + ury r).
Proof.
  unfold construct_via_matrix. assert (G : forall l m k r, In (k, r) (fold_left (fun m r => vm_set m (llx r + urx r, lly r + ury r) r) l m) -> In (k, r) m \/ In r l /\ k = (llx r + urx r, lly r + ury r)).
  { induction l as [|q l IH]; intros m k r H; [auto|]. simpl in H. apply IH in H as [H|(H & E)]; [|right; split; [now right|assumption]].
    assert (S : forall m, In (k, r) (vm_set m (llx q + urx q, lly q + ury q) q) -> In (k, r) m \/ (k, r) = ((llx q + urx q, lly q + ury q), q)).
    { induction m0 as [|e m0 IHm]; simpl; [intros [<-|[]]; auto|]. destruct (zz_eqb _ _); intros [E|E]; auto. destruct (IHm E); auto. }
    destruct (S _ H) as [H'|E]; [auto|]. injection E as -> ->. right. split; [now left|reflexivity]. }
  intros k r H. destruct (G _ _ _ _ H) as [[]|H']. exact H'.
Qed.

Theorem C46_matrix_all vias r : In r vias -> In (llx r + urx r, lly r + ury r) (map fst (construct_via_matrix vias)).
Proof.
  unfold construct_via_matrix. assert (S : forall m k q k', In k' (map fst (vm_set m k q)) <-> k' = k \/ In k' (map fst m)).
  { induction m as [|e m IH]; intros k q k'; simpl; [firstorder|]. destruct (zz_eqb (fst e) k) eqn:E; simpl; [apply zz_eqb_eq in E; rewrite E; firstorder|rewrite IH; firstorder]. }
  assert (G : forall l m, (In r l \/ In (llx r + urx r, lly r + ury r) (map fst m)) -> In (llx r + urx r, lly r + ury r) (map fst (fold_left (fun m r => vm_set m (llx r + urx r, lly r + ury r) r) l m))).
  { induction l as [|q l IH]; intros m [H|H]; simpl; [destruct H|assumption| |]; apply IH; rewrite S; [destruct H as [->|H]; auto|auto]. }
  intros H. apply G. now left.
Qed.

Definition g10 := UncoloredCenterLineGrid 10 4 0 1.
Definition vd4 (s : Z) := mkVD 4 4 s s 0 0.
Definition via4 := mkVia g10 g10 4 4 2 2.
Definition hw (y : Z) (n : string) : Z * list srect := (2 * y, [mkSr (mkRect 0 (y - 2) 100 (y + 2)) (Some n) "drawing"]).
Definition vw (x : Z) (n : string) : Z * list srect := (2 * x, [mkSr (mkRect (x - 2) 0 (x + 2) 100) (Some n) "drawing"]).
(** so an existing via does not prevent a second one at the same place, *)
Theorem C46_existing_refuted : exists vd via hclg vclg hls vls vias m out d, drop_via vd via true hclg vclg (mkSel [] None) hls vls vias = Some (m, out) /\ In d out /\ In (d_rect d) vias.
Proof.
  exists (vd4 8), via4, g10, g10, [hw 20 "A"], [vw 50 "A"], [mkRect 48 18 52 22]. eexists _, _, _. split; [reflexivity|]. split; [now left|]. now left.
Qed.
(** nor one that is too close to it; *)
Theorem C46_existing_spacing_refuted : exists vd via hclg vclg hls vls vias m out d r, drop_via vd via true hclg vclg (mkSel [] None) hls vls vias = Some (m, out) /\ In d out /\ In r vias /\
  lly r = lly (d_rect d) /\ ury r = ury (d_rect d) /\ gap_below (vd_sx vd) (urx (d_rect d)) (llx r).
Proof.
  exists (vd4 8), via4, g10, g10, [hw 20 "A"], [vw 50 "A"], [mkRect 58 18 62 22]. eexists _, _, _, (mkRect 58 18 62 22). split; [reflexivity|]. split; [now left|]. split; [now left|]. unfold gap_below. simpl. lia.
Qed.
(** and a via elsewhere prevents one that would be legal. *)
Theorem C46_transposed_refuted : exists vd via hclg vclg hls vls r m, drop_via vd via true hclg vclg (mkSel [] None) hls vls [r] = Some (m, []) /\
  (exists m' d, drop_via vd via true hclg vclg (mkSel [] None) hls vls [] = Some (m', [d]) /\ clear_of r (d_rect d) /\ 8 < Z.abs (llx r - llx (d_rect d)) /\ 8 < Z.abs (lly r - lly (d_rect d))).
Proof.
  exists (vd4 8), via4, g10, g10, [hw 20 "A"], [vw 50 "A"], (mkRect 18 48 22 52). eexists. split; [reflexivity|]. eexists _, _. split; [reflexivity|]. unfold clear_of. simpl. lia.
Qed.
(** Only neighbouring tracks are checked in the vertical direction. *)
Theorem C46_two_tracks_refuted : exists vd via hclg vclg hls vls m out d d', drop_via vd via true hclg vclg (mkSel [] None) hls vls [] = Some (m, out) /\ In d out /\ In d' out /\
  llx (d_rect d) = llx (d_rect d') /\ gap_below (vd_sy vd) (ury (d_rect d)) (lly (d_rect d')).
Proof.
  exists (vd4 20), via4, g10, g10, [hw 20 "A"; hw 40 "A"], [vw 50 "A"]. eexists _, _, _, _. split; [reflexivity|]. split; [now left|]. split; [right; now left|]. unfold gap_below. simpl. lia.
Qed.

(** Two nets, four crossings, of which two join equal nets; the closer ones are left out. *)
Example C46_nonvacuous : periodic g10 10 /\ next_line g10 10 20 30 /\
  (exists m out, drop_via (vd4 4) via4 true g10 g10 (mkSel [] None) [hw 20 "A"; hw 30 "B"] [vw 50 "A"; vw 60 "A"; vw 70 "B"] [] = Some (m, out) /\ map d_key out = [(40, 100); (40, 120); (60, 140)]) /\
  (exists m out, drop_via (vd4 8) via4 true g10 g10 (mkSel [] None) [hw 20 "A"; hw 30 "A"] [vw 50 "A"; vw 60 "A"; vw 80 "A"] [] = Some (m, out) /\ map d_key out = [(40, 100); (40, 160); (60, 120)]).
Proof.
  assert (P : periodic g10 10).
  { split; [lia|]. exists 0, (Some (4, None)), [(10, Some (4, None))]. split; [reflexivity|]. split; [exists [(0, Some (4, None))], (Some (4, None)); reflexivity|]. intros c a [E|[E|[]]]; injection E as <- <-; lia. }
  split; [assumption|]. split; [|split].
  - split; [exists 2, 0; split; [lia|]; exists 0, (Some (4, None)); split; reflexivity|]. split; [exists 3, 0; split; [lia|]; exists 0, (Some (4, None)); split; reflexivity|]. split; [lia|].
    intros c (w & f & Hf & c0 & a & E & ->). apply nth_error_In in E. destruct E as [E|[E|[]]]; injection E as <- <-; lia.
  - eexists _, _. split; reflexivity.
  - eexists _, _. split; reflexivity.
Qed.

Print Assumptions C46_once.
Print Assumptions C46_enclosed.
Print Assumptions C46_complete.
Print Assumptions C46_rect.
Print Assumptions C46_row_spacing.
Print Assumptions C46_column_spacing.
Print Assumptions C46_matrix_keys.
Print Assumptions C46_matrix_all.
Print Assumptions C46_existing_refuted.
Print Assumptions C46_existing_spacing_refuted.
Print Assumptions C46_transposed_refuted.
Print Assumptions C46_two_tracks_refuted.
