From Verif Require Import Base.Prelude Model.Transformation Model.Grid Model.Canvas
  Spec.CanvasSpec Spec.GridSpec Proofs.TransformationP Proofs.GridP.
From Coq Require Import ZifyBool.
Local Open Scope Z_scope.

(** The product of a frame (innermost first): outer * ... * inner. *)
Definition prod (f : frame) : Tr := fold_left (fun acc t => mult t acc) f tr_default.

Lemma prod_acc f acc : fold_left (fun acc t => mult t acc) f acc = mult (prod f) acc.
Proof.
  unfold prod. revert acc. induction f as [|t f IH]; intros acc; simpl.
  - now rewrite mult_1_l.
  - rewrite IH. rewrite (IH (mult t tr_default)). rewrite mult_1_r, mult_assoc. reflexivity.
Qed.

Lemma prod_cons t f : prod (t :: f) = mult (prod f) t.
Proof. unfold prod at 1. simpl. rewrite prod_acc, mult_1_r. reflexivity. Qed.

Lemma through_prod f r : hitRect (prod f) r = through f r.
Proof.
  revert r. induction f as [|t f IH]; intros r.
  - unfold prod, through; simpl. rewrite hitRect_corners. destruct r; cbn -[Z.mul]; f_equal; lia.
  - rewrite prod_cons, hitRect_mult, IH. reflexivity.
Qed.

Definition crel (s : CState) (a : AState) : Prop :=
  trStack s = map prod (frames a) /\ terms s = out a.

Lemma cstep_refines s a o : crel s a ->
  match cstep s o, astep a o with
  | Some s', Some a' => crel s' a'
  | None, None => True
  | _, _ => False
  end.
Proof.
  destruct s as [st tm], a as [fr ou]. intros [H1 H2]; cbn [trStack terms frames out] in *. subst.
  destruct o as [t| |t|tag r]; destruct fr as [|f fr]; simpl; auto.
  - split; simpl; [|reflexivity]. rewrite prod_cons. reflexivity.
  - destruct fr as [|f2 fr]; simpl; [exact I|]. split; reflexivity.
  - split; simpl; [|reflexivity]. rewrite prod_cons. reflexivity.
  - split; simpl; [reflexivity|]. rewrite through_prod. reflexivity.
Qed.

Lemma crun_refines p : forall s a, crel s a ->
  match crun s p, arun a p with
  | Some s', Some a' => crel s' a'
  | None, None => True
  | _, _ => False
  end.
Proof.
  induction p as [|o p IH]; intros s a Hr; simpl; [assumption|].
  pose proof (cstep_refines s a o Hr) as Hs.
  destruct (cstep s o) as [s'|], (astep a o) as [a'|]; try contradiction; auto.
  exact (IH s' a' Hs).
Qed.

Lemma crun_app p q s : crun s (p ++ q) = match crun s p with Some s' => crun s' q | None => None end.
Proof.
  revert s. induction p as [|o p IH]; intros s; simpl; [reflexivity|].
  destruct (cstep s o); auto.
Qed.

Lemma neutral_run p : neutral p -> forall t st tm,
  exists t' tm', crun (mkC (t :: st) tm) p = Some (mkC (t' :: st) (tm ++ tm')).
Proof.
  induction 1 as [|tag r p Hp IH|t0 p Hp IH|t0 p q Hp IHp Hq IHq]; intros t st tm.
  - exists t, []. rewrite app_nil_r. reflexivity.
  - simpl. destruct (IH t st (tm ++ [(tag, canonical (hitRect t r))])) as (t' & tm' & E).
    exists t', ((tag, canonical (hitRect t r)) :: tm'). rewrite E, <- app_assoc. reflexivity.
  - simpl. destruct (IH (postMult t t0) st tm) as (t' & tm' & E). eauto.
  - simpl. rewrite crun_app.
    destruct (IHp (postMult t t0) (t :: st) tm) as (t1 & tm1 & E1). rewrite E1. simpl.
    destruct (IHq t st (tm ++ tm1)) as (t2 & tm2 & E2). rewrite E2.
    exists t2, (tm1 ++ tm2). rewrite app_assoc. reflexivity.
Qed.

Lemma block_restores t0 p : neutral p -> forall t st tm,
  exists tm', crun (mkC (t :: st) tm) (OPush t0 :: p ++ [OPop]) = Some (mkC (t :: st) (tm ++ tm')).
Proof.
  intros Hp t st tm. simpl. rewrite crun_app.
  destruct (neutral_run p Hp (postMult t t0) (t :: st) tm) as (t1 & tm1 & E1).
  rewrite E1. simpl. eauto.
Qed.

(** ** Wires and vias. *)
Lemma mapM_in {A B} (f : A -> option B) l bs a :
  mapM f l = Some bs -> In a l -> exists b, f a = Some b /\ In b bs.
Proof.
  revert bs. induction l as [|x l IH]; simpl; intros bs E Ha; [destruct Ha|].
  destruct (f x) as [b|] eqn:Ef; [|discriminate].
  destruct (mapM f l) as [bs'|]; [|discriminate]. injection E as <-.
  destruct Ha as [->|Ha]; [exists b; split; [assumption|left; reflexivity]|].
  destruct (IH bs' eq_refl Ha) as (b' & H1 & H2). exists b'. split; [assumption|right; assumption].
Qed.

Lemma mapM_length {A B} (f : A -> option B) l bs : mapM f l = Some bs -> length bs = length l.
Proof.
  revert bs. induction l as [|x l IH]; simpl; intros bs E; [injection E as <-; reflexivity|].
  destruct (f x); [|discriminate]. destruct (mapM f l) eqn:E2; [|discriminate].
  injection E as <-. simpl. f_equal. auto.
Qed.

Lemma zmin_list_le l m x : zmin_list l = Some m -> In x l -> m <= x.
Proof. intros E. apply zmin_list_spec in E. apply E. Qed.
Lemma zmax_list_ge l m x : zmax_list l = Some m -> In x l -> x <= m.
Proof. intros E. apply zmax_list_spec in E. apply E. Qed.

Lemma value_check_false g i c a : value g i true = Some (c, a) -> value g i false = Some (c, a).
Proof.
  unfold value. destruct (n_lines g <=? 0); [discriminate|]. cbn [andb].
  destruct (negb _); [discriminate|]. auto.
Qed.

(** Along-direction interval of a rectangle. *)
Definition lo (d : direction) (r : Rect) : Z := match d with H => llx r | V => lly r end.
Definition hi (d : direction) (r : Rect) : Z := match d with H => urx r | V => ury r end.

Definition spg_ok (g : Grid) (p : Z) : Prop :=
  periodic g p /\ increasing g /\ legal_range g /\ ends_agree g.

Lemma wire_covers_extent w c lp vr r p mnP mxP cs :
  spg_ok (w_spg w) p ->
  addWireAndMultiViaSet w c lp = Some (vr, r) ->
  mapM (via_center (w_dir w)) (flat_vias lp) = Some cs ->
  wire_extent (w_dir w) (flat_vias lp) cs = Some (mnP, mxP) ->
  lo (w_dir w) r <= mnP /\ mxP <= hi (w_dir w) r.
Proof.
  intros (Hp & Hi & Hl & He) Hadd Hcs Hext. unfold addWireAndMultiViaSet in Hadd.
  rewrite Hcs, Hext in Hadd.
  destruct (inverseBounds_spec (w_spg w) p mnP Hp) as (q1 & i1 & j1 & ci1 & cj1 & E1 & Hci1 & Hcj1 & Hb1 & _).
  destruct (inverseBounds_spec (w_spg w) p mxP Hp) as (q2 & i2 & j2 & ci2 & cj2 & E2 & Hci2 & Hcj2 & Hb2 & _).
  rewrite E1, E2 in Hadd.
  destruct (snap_down_coord _ _ _ _ _ Hp Hi Hl He Hci1) as (w1 & f1 & c1 & S1 & _ & Hc1 & Hle1 & _).
  destruct (snap_up_coord _ _ _ _ _ Hp Hi Hl He Hcj2) as (w2 & f2 & c2 & S2 & _ & Hc2 & Hle2 & _).
  rewrite S1, S2 in Hadd. cbn [fst snd] in Hadd.
  destruct (mapM _ (flat_vias lp)) as [vr'|]; [|discriminate].
  destruct (wire_segment w c (Pair w1 f1) (Pair w2 f2)) as [r'|] eqn:Er; [|discriminate].
  injection Hadd as <- <-. unfold wire_segment in Er.
  destruct (value (w_clg w) c true) as [[cc [[wd clr]|]]|]; [|discriminate|discriminate].
  destruct (value (w_spg w) (Pair w1 f1) true) as [[b ba]|] eqn:Eb; [|discriminate].
  destruct (value (w_spg w) (Pair w2 f2) true) as [[e ea]|] eqn:Ee; [|discriminate].
  injection Er as <-.
  apply value_check_false in Eb, Ee.
  destruct (value_pair _ _ _ _ _ Hp Hc1) as (a1 & V1). rewrite V1 in Eb. injection Eb as -> ->.
  destruct (value_pair _ _ _ _ _ Hp Hc2) as (a2 & V2). rewrite V2 in Ee. injection Ee as -> ->.
  assert (ci1 <= mnP) by lia.
  assert (mxP <= cj2) by (destruct Hb2 as [[E Ex]|]; [|lia]; subst j2;
    assert (ci2 = cj2) by (eapply coord_fun; eassumption); lia).
  destruct (w_dir w); simpl; lia.
Qed.

Lemma find_combine_in (v : Via) c (vias : list (Via*Idx)) cs :
  find (fun vc : Via * Z => snd vc =? c) (combine (map fst vias) cs) = Some (v, c) -> In v (map fst vias).
Proof. intros E. apply find_some in E as [E _]. apply in_combine_l in E. assumption. Qed.

Lemma wire_extent_uniform d vias cs mnP mxP e :
  (forall v, In v (map fst vias) -> center_to_metal_edge v d = e) ->
  wire_extent d vias cs = Some (mnP, mxP) ->
  exists mn mx, zmin_list cs = Some mn /\ zmax_list cs = Some mx /\ mnP = mn - e /\ mxP = mx + e.
Proof.
  intros He. unfold wire_extent.
  destruct (zmin_list cs) as [mn|]; [|discriminate].
  destruct (zmax_list cs) as [mx|]; [|discriminate].
  destruct (find (fun vc : Via*Z => snd vc =? mn) _) as [[v1 c1]|] eqn:F1; [|discriminate].
  destruct (find (fun vc : Via*Z => snd vc =? mx) _) as [[v2 c2]|] eqn:F2; [|discriminate].
  intros E. injection E as <- <-.
  apply find_some in F1 as [F1 _]. apply in_combine_l in F1.
  apply find_some in F2 as [F2 _]. apply in_combine_l in F2.
  exists mn, mx. rewrite !He by assumption. auto.
Qed.

(** General form: with per-via extensions, the wire covers every via whose own extension is
    not larger than that of the extreme vias chosen by the code. *)
Lemma wire_extent_general d vias cs mnP mxP :
  wire_extent d vias cs = Some (mnP, mxP) ->
  exists v1 v2 mn mx, In v1 (map fst vias) /\ In v2 (map fst vias) /\
    zmin_list cs = Some mn /\ zmax_list cs = Some mx /\
    mnP = mn - center_to_metal_edge v1 d /\ mxP = mx + center_to_metal_edge v2 d.
Proof.
  unfold wire_extent.
  destruct (zmin_list cs) as [mn|]; [|discriminate].
  destruct (zmax_list cs) as [mx|]; [|discriminate].
  destruct (find (fun vc : Via*Z => snd vc =? mn) _) as [[v1 c1]|] eqn:F1; [|discriminate].
  destruct (find (fun vc : Via*Z => snd vc =? mx) _) as [[v2 c2]|] eqn:F2; [|discriminate].
  intros E. injection E as <- <-.
  apply find_some in F1 as [F1 _]. apply in_combine_l in F1.
  apply find_some in F2 as [F2 _]. apply in_combine_l in F2.
  exists v1, v2, mn, mx. auto 10.
Qed.

Lemma add_success_inv w c lp vr r :
  addWireAndMultiViaSet w c lp = Some (vr, r) ->
  exists cs mnP mxP, mapM (via_center (w_dir w)) (flat_vias lp) = Some cs /\
    wire_extent (w_dir w) (flat_vias lp) cs = Some (mnP, mxP).
Proof.
  unfold addWireAndMultiViaSet.
  destruct (mapM (via_center (w_dir w)) (flat_vias lp)) as [cs|] eqn:E1; [|discriminate].
  destruct (wire_extent (w_dir w) (flat_vias lp) cs) as [[a b]|] eqn:E2; [|discriminate].
  intros _. exists cs, a, b. auto.
Qed.

Lemma value_legal g p w f c : spg_ok g p -> In f (legalIndices g) -> coord g p w f c ->
  exists a, value g (Pair w f) true = Some (c, a).
Proof.
  intros (Hp & Hi & (Hne & Hr) & He) Hf Hc.
  destruct (value_pair g p w f c Hp Hc) as (a & Hv). exists a. rewrite <- Hv.
  unfold value in *. destruct (n_lines g <=? 0) eqn:En; [discriminate|]. cbn [andb].
  assert (Hx : existsb (Z.eqb (idx_flat g (Pair w f) mod n_lines g)) (legalIndices g) = true).
  { apply existsb_exists. exists (idx_flat g (Pair w f) mod n_lines g). split; [|apply Z.eqb_refl].
    cbn [idx_flat]. pose proof (Hr f Hf) as Hrf.
    rewrite Z.add_comm, Z.mod_add by lia.
    destruct (Z.eq_dec f (n_lines g)) as [->|Hn].
    - rewrite Z.mod_same by lia. apply He. assumption.
    - rewrite Z.mod_small by lia. assumption. }
  rewrite Hx. reflexivity.
Qed.

Lemma mapM_some {A B} (f : A -> option B) l :
  (forall a, In a l -> f a <> None) -> exists bs, mapM f l = Some bs.
Proof.
  induction l as [|a l IH]; intros Hs; simpl; [eauto|].
  destruct (f a) as [b|] eqn:E; [|exfalso; exact (Hs a (or_introl eq_refl) E)].
  destruct IH as (bs & ->); [intros; apply Hs; right; assumption|]. eauto.
Qed.

Lemma find_combine_ex {A B} (vs : list A) (cs : list B) (f : B -> bool) c :
  length vs = length cs -> In c cs -> f c = true ->
  exists v c', find (fun vc => f (snd vc)) (combine vs cs) = Some (v, c').
Proof.
  revert cs. induction vs as [|v vs IH]; destruct cs as [|x cs]; simpl; intros Hl Hin Hf;
    try discriminate; [destruct Hin|].
  destruct (f x) eqn:E; [eauto|]. destruct Hin as [->|Hin]; [congruence|].
  apply IH; auto.
Qed.

Lemma wire_extent_some d vias cs : length cs = length vias -> vias <> [] ->
  exists a b, wire_extent d vias cs = Some (a, b).
Proof.
  intros Hl Hne. unfold wire_extent.
  destruct (zmin_list cs) as [mn|] eqn:E1.
  2:{ destruct cs as [|x cs]; [destruct vias; [congruence|discriminate]|].
      simpl in E1. destruct (zmin_list cs); discriminate. }
  destruct (zmax_list cs) as [mx|] eqn:E2.
  2:{ destruct cs as [|x cs]; [destruct vias; [congruence|discriminate]|].
      simpl in E2. destruct (zmax_list cs); discriminate. }
  apply zmin_list_spec in E1 as [I1 _]. apply zmax_list_spec in E2 as [I2 _].
  destruct (find_combine_ex (map fst vias) cs (fun c => c =? mn) mn) as (v1 & c1 & ->);
    [rewrite map_length; auto|assumption|apply Z.eqb_refl|].
  destruct (find_combine_ex (map fst vias) cs (fun c => c =? mx) mx) as (v2 & c2 & ->);
    [rewrite map_length; auto|assumption|apply Z.eqb_refl|].
  eauto.
Qed.

Lemma add_succeeds w c lp p :
  spg_ok (w_spg w) p -> flat_vias lp <> [] ->
  (exists cc wd col, value (w_clg w) c true = Some (cc, Some (wd, col))) ->
  (forall vi, In vi (flat_vias lp) ->
     match w_dir w with
     | H => value (v_vclg (fst vi)) (snd vi) true <> None /\ value (v_hclg (fst vi)) c true <> None
     | V => value (v_hclg (fst vi)) (snd vi) true <> None /\ value (v_vclg (fst vi)) c true <> None
     end) ->
  exists vr r, addWireAndMultiViaSet w c lp = Some (vr, r).
Proof.
  intros Hok Hne (cc & wd & col & Hc) Hv. unfold addWireAndMultiViaSet.
  destruct (mapM_some (via_center (w_dir w)) (flat_vias lp)) as (cs & Hcs).
  { intros vi Hvi. specialize (Hv vi Hvi). unfold via_center.
    destruct (w_dir w).
    - destruct (value (v_vclg (fst vi)) (snd vi) true) as [[x a]|] eqn:E; [|tauto].
      apply value_check_false in E. rewrite E. discriminate.
    - destruct (value (v_hclg (fst vi)) (snd vi) true) as [[x a]|] eqn:E; [|tauto].
      apply value_check_false in E. rewrite E. discriminate. }
  rewrite Hcs.
  destruct (wire_extent_some (w_dir w) (flat_vias lp) cs (mapM_length _ _ _ Hcs) Hne) as (mnP & mxP & ->).
  pose proof Hok as (Hp & Hi & Hl & He).
  destruct (inverseBounds_spec (w_spg w) p mnP Hp) as (q1 & i1 & j1 & ci1 & cj1 & E1 & Hci1 & Hcj1 & Hb1 & _).
  destruct (inverseBounds_spec (w_spg w) p mxP Hp) as (q2 & i2 & j2 & ci2 & cj2 & E2 & Hci2 & Hcj2 & Hb2 & _).
  rewrite E1, E2.
  destruct (snap_down_coord _ _ _ _ _ Hp Hi Hl He Hci1) as (w1 & f1 & c1 & S1 & Hf1 & Hc1 & _ & _).
  destruct (snap_up_coord _ _ _ _ _ Hp Hi Hl He Hcj2) as (w2 & f2 & c2 & S2 & Hf2 & Hc2 & _ & _).
  rewrite S1, S2. cbn [fst snd].
  match goal with |- context [mapM ?f (flat_vias lp)] => destruct (mapM_some f (flat_vias lp)) as (vr & ->) end.
  { intros vi Hvi. specialize (Hv vi Hvi). unfold via_segment. destruct (w_dir w).
    - destruct (value (v_vclg (fst vi)) (snd vi) true) as [[x a]|]; [|tauto].
      destruct (value (v_hclg (fst vi)) c true) as [[y b]|]; [|tauto]. discriminate.
    - destruct (value (v_hclg (fst vi)) (snd vi) true) as [[x a]|]; [|tauto].
      destruct (value (v_vclg (fst vi)) c true) as [[y b]|]; [|tauto]. discriminate. }
  unfold wire_segment. rewrite Hc.
  destruct (value_legal _ _ _ _ _ Hok Hf1 Hc1) as (a1 & ->).
  destruct (value_legal _ _ _ _ _ Hok Hf2 Hc2) as (a2 & ->). eauto.
Qed.

Lemma mapM_nth {A B} (f : A -> option B) l bs i b :
  mapM f l = Some bs -> nth_error bs i = Some b -> exists a, nth_error l i = Some a /\ f a = Some b.
Proof.
  revert bs i. induction l as [|x l IH]; simpl; intros bs i E Hn.
  - injection E as <-. destruct i; discriminate.
  - destruct (f x) as [b0|] eqn:Ef; [|discriminate]. destruct (mapM f l) as [bs'|]; [|discriminate].
    injection E as <-. destruct i as [|i]; simpl in *; [injection Hn as <-; eauto|]. eapply IH; eauto.
Qed.

Lemma via_rects w c lp vr r : addWireAndMultiViaSet w c lp = Some (vr, r) ->
  mapM (fun vi => match w_dir w with
                  | V => via_segment (fst vi) c (snd vi)
                  | H => via_segment (fst vi) (snd vi) c
                  end) (flat_vias lp) = Some vr.
Proof.
  unfold addWireAndMultiViaSet.
  destruct (mapM (via_center (w_dir w)) (flat_vias lp)) as [cs|]; [|discriminate].
  destruct (wire_extent (w_dir w) (flat_vias lp) cs) as [[a b]|]; [|discriminate].
  destruct (inverseBounds _ a) as [[mn ?]|]; [|discriminate].
  destruct (inverseBounds _ b) as [[? mx]|]; [|discriminate].
  destruct (snapToLegal _ mn Down); [|discriminate].
  destruct (snapToLegal _ mx Up); [|discriminate].
  destruct (mapM _ (flat_vias lp)) as [vr'|]; [|discriminate].
  destruct (wire_segment _ _ _ _); [|discriminate]. congruence.
Qed.

Lemma via_rect_extent w c vi q :
  match w_dir w with
  | V => via_segment (fst vi) c (snd vi)
  | H => via_segment (fst vi) (snd vi) c
  end = Some q ->
  exists cc, via_center (w_dir w) vi = Some cc /\
    lo (w_dir w) q = cc - (match w_dir w with H => v_WidthX (fst vi) | V => v_WidthY (fst vi) end) / 2 /\
    hi (w_dir w) q = cc + (match w_dir w with H => v_WidthX (fst vi) | V => v_WidthY (fst vi) end) / 2.
Proof.
  unfold via_segment, via_center. destruct (w_dir w); intros E.
  - destruct (value (v_vclg (fst vi)) (snd vi) true) as [[x a]|] eqn:E1; [|discriminate].
    destruct (value (v_hclg (fst vi)) c true) as [[y b]|]; [|discriminate]. injection E as <-.
    apply value_check_false in E1. rewrite E1. exists x. repeat split; reflexivity.
  - destruct (value (v_vclg (fst vi)) c true) as [[y b]|]; [|discriminate].
    destruct (value (v_hclg (fst vi)) (snd vi) true) as [[x a]|] eqn:E1; [|discriminate].
    injection E as <-. apply value_check_false in E1. rewrite E1. exists x. repeat split; reflexivity.
Qed.
