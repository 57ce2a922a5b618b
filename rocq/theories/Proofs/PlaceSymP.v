(** Proofs for C92: the rows of symmetric groups, alignments, orderings and nets. *)
From Coq Require Import ZArith QArith Lqa ZifyBool.
From Verif Require Import Base.Prelude Model.SeqEnum Model.SymmGroup Model.KeepOrder Model.SeqCheck Model.PlaceRows
  Spec.SeqEnumSpec Spec.SymmGroupSpec Spec.SeqCheckSpec Spec.PlaceRowsSpec Proofs.KeepOrderP Proofs.SeqCheckP Proofs.PlaceRowsP.
Local Open Scope Z_scope.

Section Part.
Variables (a : assign) (g : group) (V U fl same : nat -> ivar) (sz tz : nat -> Z).
Let v i := a_int a (V i).
Let u i := a_int a (U i).

Definition part_means : Prop :=
  (forall x y, In (x, y) (g_pairs g) -> a_int a (fl x) + a_int a (fl y) = 1 /\ a_int a (same x) = a_int a (same y) /\
     u x - u y = - Z.quot (tz x) 2 + Z.quot (tz y) 2) /\
  (forall x y z w, two_of (g_pairs g) (x, y) (z, w) ->
     v x + v y - v z - v w = 2 * (- Z.quot (sz x) 4 - Z.quot (sz y) 4 + Z.quot (sz z) 4 + Z.quot (sz w) 4)) /\
  (forall x y z, In (x, y) (g_pairs g) -> In z (selfs g) ->
     v x + v y - 2 * v z = 2 * (- Z.quot (sz x) 4 - Z.quot (sz y) 4 + Z.quot (sz z) 2)) /\
  (forall x y, two_of (selfs g) x y -> v x - v y = - Z.quot (sz x) 2 + Z.quot (sz y) 2).

Lemma part_iff : (forall r, In r (sym_part g V U fl same sz tz) -> meets a r) <-> part_means.
Proof.
  unfold sym_part, part_means, v, u. split.
  - intros H. split; [|split; [|split]].
    + intros x y Hp.
      assert (forall r, In r [irow [(fl x, 1); (fl y, 1)] SE 1; irow [(same x, 1); (same y, -1)] SE 0;
                irow [(U x, 1); (U y, -1)] SE (- Z.quot (tz x) 2 + Z.quot (tz y) 2)] -> meets a r) as K.
      { intros r Hr. apply H, in_app_iff. left. apply in_flat_map. exists (x, y). split; [exact Hp|exact Hr]. }
      pose proof (K _ (or_introl eq_refl)) as A. pose proof (K _ (or_intror (or_introl eq_refl))) as B. pose proof (K _ (or_intror (or_intror (or_introl eq_refl)))) as C.
      apply meets_irow in A, B, C. cbn [cmp isum fold_right fst snd] in A, B, C. lia.
    + intros x y z w Ht. apply twos_iff in Ht.
      assert (meets a (Row [(V x, 1); (V y, 1); (V z, -1); (V w, -1)] [] SE (- Z.quot (sz x) 4 - Z.quot (sz y) 4 + Z.quot (sz z) 4 + Z.quot (sz w) 4))) as K.
      { apply H. rewrite !in_app_iff. right; left. apply in_map_iff. exists ((x, y), (z, w)). split; [reflexivity|exact Ht]. }
      apply meets_int in K. cbn [cmp int_sum fold_right fst snd] in K. lia.
    + intros x y z Hp Hz.
      assert (meets a (Row [(V x, 1); (V y, 1); (V z, -2)] [] SE (- Z.quot (sz x) 4 - Z.quot (sz y) 4 + Z.quot (sz z) 2))) as K.
      { apply H. rewrite !in_app_iff. right; right; left. apply in_flat_map. exists (x, y). split; [exact Hp|]. apply in_map_iff. exists z. split; [reflexivity|exact Hz]. }
      apply meets_int in K. cbn [cmp int_sum fold_right fst snd] in K. lia.
    + intros x y Ht. apply twos_iff in Ht.
      assert (meets a (irow [(V x, 1); (V y, -1)] SE (- Z.quot (sz x) 2 + Z.quot (sz y) 2))) as K.
      { apply H. rewrite !in_app_iff. right; right; right. apply in_map_iff. exists (x, y). split; [reflexivity|exact Ht]. }
      apply meets_irow in K. cbn [cmp isum fold_right fst snd] in K. lia.
  - intros (H1 & H2 & H3 & H4) r Hr. rewrite !in_app_iff in Hr. destruct Hr as [Hr|[Hr|[Hr|Hr]]].
    + apply in_flat_map in Hr. destruct Hr as ([x y] & Hp & Hr). specialize (H1 x y Hp). cbn [fst snd] in Hr.
      destruct Hr as [<-|[<-|[<-|[]]]]; apply meets_irow; cbn [cmp isum fold_right fst snd]; lia.
    + apply in_map_iff in Hr. destruct Hr as (((x, y), (z, w)) & <- & Ht). apply twos_iff in Ht. specialize (H2 x y z w Ht).
      apply meets_int. cbn [cmp int_sum fold_right fst snd]. lia.
    + apply in_flat_map in Hr. destruct Hr as ([x y] & Hp & Hr). apply in_map_iff in Hr. destruct Hr as (z & <- & Hz). specialize (H3 x y z Hp Hz).
      apply meets_int. cbn [cmp int_sum fold_right fst snd]. lia.
    + apply in_map_iff in Hr. destruct Hr as ((x, y) & <- & Ht). apply twos_iff in Ht. specialize (H4 x y Ht).
      apply meets_irow. cbn [cmp isum fold_right fst snd]. lia.
Qed.

(** Mirrored, in terms of the coordinates across and along the axis. *)
Definition mir : Prop :=
  exists ax, (forall x y, In (x, y) (g_pairs g) -> u x = u y /\ tz x = tz y /\ 2 * v x + sz x + (2 * v y + sz y) = 2 * ax) /\
             (forall x, In x (selfs g) -> 2 * v x + sz x = ax).
Hypothesis Hsz : forall x y, In (x, y) (g_pairs g) -> 0 <= sz x /\ 0 <= sz y.
Hypothesis Hss : forall x, In x (selfs g) -> 0 <= sz x.

Lemma mir_iff : part_means -> (mir <-> (forall x y, In (x, y) (g_pairs g) -> tz x = tz y) /\ balanced sz g).
Proof.
  intros (H1 & H2 & H3 & H4). split.
  - intros (ax & M1 & M2). split; [intros x y H; specialize (M1 x y H); lia|].
    destruct (g_pairs g) as [|[x0 y0] ps] eqn:Ep.
    + destruct (selfs g) as [|s0 ss] eqn:Es.
      * exists 0. rewrite Ep. split; [intros x y []|]. change (map fst (g_self g)) with (selfs g). rewrite Es. intros x [].
      * exists (sz s0 mod 2). rewrite Ep. split; [intros x y []|]. change (map fst (g_self g)) with (selfs g). rewrite Es. intros x Hx.
        pose proof (M2 x Hx) as A. pose proof (M2 s0 (or_introl eq_refl)) as B. lia.
    + assert (sz x0 mod 4 + sz y0 mod 4 = 2 * ((sz x0 mod 4 + sz y0 mod 4) / 2)) as E0.
      { pose proof (M1 x0 y0 (or_introl eq_refl)). lia. }
      exists ((sz x0 mod 4 + sz y0 mod 4) / 2). rewrite Ep. rewrite <- E0. clear E0. split.
      * intros x y Hp. pose proof (M1 x0 y0 (or_introl eq_refl)) as (_ & _ & A). pose proof (M1 x y Hp) as (_ & _ & B).
        destruct (Hsz x0 y0 (or_introl eq_refl)) as [S1 S2]. destruct (Hsz x y Hp) as [S3 S4].
        destruct (two_of_cases ((x0, y0) :: ps) (x0, y0) (x, y) (or_introl eq_refl) Hp) as [E|[E|E]].
        -- congruence.
        -- specialize (H2 _ _ _ _ E). rewrite !Z.quot_div_nonneg in H2 by lia. lia.
        -- specialize (H2 _ _ _ _ E). rewrite !Z.quot_div_nonneg in H2 by lia. lia.
      * change (map fst (g_self g)) with (selfs g). intros x Hx. pose proof (M1 x0 y0 (or_introl eq_refl)) as (_ & _ & A). pose proof (M2 x Hx) as B.
        destruct (Hsz x0 y0 (or_introl eq_refl)) as [S1 S2]. pose proof (Hss x Hx) as S3.
        specialize (H3 x0 y0 x (or_introl eq_refl) Hx). rewrite !Z.quot_div_nonneg in H3 by lia. lia.
  - intros (T & r & B1 & B2). change (map fst (g_self g)) with (selfs g) in B2.
    assert (forall x y, In (x, y) (g_pairs g) -> u x = u y /\ tz x = tz y) as HU.
    { intros x y Hp. specialize (H1 x y Hp). specialize (T x y Hp). rewrite T in H1. lia. }
    destruct (g_pairs g) as [|[x0 y0] ps] eqn:Ep.
    + destruct (selfs g) as [|s0 ss] eqn:Es.
      * exists 0. unfold mir. rewrite Ep, Es. split; [intros x y []|intros x []].
      * exists (2 * v s0 + sz s0). rewrite Ep, Es. split; [intros x y []|]. intros x Hx.
        pose proof (Hss x Hx) as S1. pose proof (Hss s0 (or_introl eq_refl)) as S2. pose proof (B2 x Hx) as R1. pose proof (B2 s0 (or_introl eq_refl)) as R2.
        destruct (two_of_cases (s0 :: ss) s0 x (or_introl eq_refl) Hx) as [E|[E|E]]; [congruence| |];
          specialize (H4 _ _ E); rewrite !Z.quot_div_nonneg in H4 by lia; lia.
    + destruct (Hsz x0 y0 (or_introl eq_refl)) as [S1 S2]. pose proof (B1 x0 y0 (or_introl eq_refl)) as R0.
      exists (v x0 + v y0 + (sz x0 + sz y0) / 2). rewrite Ep. split.
      * intros x y Hp. destruct (HU x y Hp) as [U1 U2]. split; [exact U1|]. split; [exact U2|].
        destruct (Hsz x y Hp) as [S3 S4]. pose proof (B1 x y Hp) as R1.
        destruct (two_of_cases ((x0, y0) :: ps) (x0, y0) (x, y) (or_introl eq_refl) Hp) as [E|[E|E]].
        -- injection E as <- <-. lia.
        -- specialize (H2 _ _ _ _ E). rewrite !Z.quot_div_nonneg in H2 by lia. lia.
        -- specialize (H2 _ _ _ _ E). rewrite !Z.quot_div_nonneg in H2 by lia. lia.
      * intros x Hx. pose proof (Hss x Hx) as S3. pose proof (B2 x Hx) as R1.
        specialize (H3 x0 y0 x (or_introl eq_refl) Hx). rewrite !Z.quot_div_nonneg in H3 by lia. lia.
Qed.

Lemma mir_rows : mir -> balanced sz g ->
  (forall x y, In (x, y) (g_pairs g) -> a_int a (fl x) + a_int a (fl y) = 1 /\ a_int a (same x) = a_int a (same y)) -> part_means.
Proof.
  intros (ax & M1 & M2) (r & B1 & B2) Hf. change (map fst (g_self g)) with (selfs g) in B2.
  assert (forall p q, two_of (g_pairs g) p q -> In p (g_pairs g) /\ In q (g_pairs g)) as T1.
  { intros p q Ht. now apply two_of_in in Ht. }
  assert (forall p q, two_of (selfs g) p q -> In p (selfs g) /\ In q (selfs g)) as T2.
  { intros p q Ht. now apply two_of_in in Ht. }
  split; [|split; [|split]].
  - intros x y Hp. destruct (Hf x y Hp) as [F1 F2]. split; [exact F1|]. split; [exact F2|]. destruct (M1 x y Hp) as (E1 & E2 & _). rewrite E2. lia.
  - intros x y z w Ht. destruct (T1 _ _ Ht) as [Hp Hq]. destruct (M1 x y Hp) as (_ & _ & E1). destruct (M1 z w Hq) as (_ & _ & E2).
    destruct (Hsz x y Hp), (Hsz z w Hq). pose proof (B1 x y Hp). pose proof (B1 z w Hq). rewrite !Z.quot_div_nonneg by lia. lia.
  - intros x y z Hp Hz. destruct (M1 x y Hp) as (_ & _ & E1). pose proof (M2 z Hz).
    destruct (Hsz x y Hp). pose proof (Hss z Hz). pose proof (B1 x y Hp). pose proof (B2 z Hz). rewrite !Z.quot_div_nonneg by lia. lia.
  - intros x y Ht. destruct (T2 _ _ Ht) as [Hx Hy]. pose proof (M2 x Hx). pose proof (M2 y Hy). pose proof (Hss x Hx). pose proof (Hss y Hy).
    pose proof (B2 x Hx). pose proof (B2 y Hy). rewrite !Z.quot_div_nonneg by lia. lia.
Qed.
End Part.

Section Sym.
Variables (d : idesign) (a : assign) (g : group).
Hypothesis Hd : sane d.
Hypothesis Hg : In g (i_syms d).
Let P := fp (solved d a).

Lemma sym_sizes : (forall x y, In (x, y) (g_pairs g) -> 0 <= across d g x /\ 0 <= across d g y) /\ (forall x, In x (selfs g) -> 0 <= across d g x).
Proof.
  assert (forall x, (x < length (i_blocks d))%nat -> 0 <= across d g x) as K.
  { intros x Hx. destruct (s_size d Hd x Hx). unfold across. destruct (g_axis g); lia. }
  split.
  - intros x y Hp. assert (In (EPair (x, y)) (elems g)) as He by (apply in_app_iff; left; now apply in_map).
    split; apply K; apply (s_syms d Hd g (EPair (x, y))); cbn; auto.
  - intros x Hx. unfold selfs in Hx. apply in_map_iff in Hx. destruct Hx as ((y, m) & E & Hx). cbn in E. subst y.
    assert (In (ESelf (x, m)) (elems g)) as He by (apply in_app_iff; right; now apply in_map).
    apply K. apply (s_syms d Hd g (ESelf (x, m))); cbn; auto.
Qed.

Definition flips_of : Prop := forall x y, In (x, y) (g_pairs g) ->
  match g_axis g with
  | DirV => a_int a (VH x) + a_int a (VH y) = 1 /\ a_int a (VV x) = a_int a (VV y)
  | DirH => a_int a (VV x) + a_int a (VV y) = 1 /\ a_int a (VH x) = a_int a (VH y)
  end.

Lemma mirrored_mir : mirrored P g <->
  match g_axis g with DirV => mir a g VX VY (bw d) (bh d) | DirH => mir a g VY VX (bh d) (bw d) end.
Proof.
  unfold mirrored, mir, P, cx, cy. cbn [solved fp px py pw ph].
  assert (forall (Q : elt -> Prop), (forall x, In x (elems g) -> Q x) <->
    (forall x y, In (x, y) (g_pairs g) -> Q (EPair (x, y))) /\ (forall x m, In (x, m) (g_self g) -> Q (ESelf (x, m)))) as K.
  { intros Q. unfold elems. split.
    - intros H. split; intros; apply H, in_app_iff; [left|right]; now apply in_map.
    - intros [H1 H2] x Hx. apply in_app_iff in Hx. destruct Hx as [Hx|Hx]; apply in_map_iff in Hx; destruct Hx as ([p q] & <- & Hx); auto. }
  destruct (g_axis g); split; intros (ax & M); exists ax.
  - apply K in M. destruct M as [M1 M2]. split; [exact M1|]. intros x Hx. unfold selfs in Hx. apply in_map_iff in Hx. destruct Hx as ((y, m) & E & Hx). cbn in E. subst. eapply M2; eauto.
  - destruct M as [M1 M2]. apply K. split; [exact M1|]. intros x m Hx. apply M2. apply in_map_iff. now exists (x, m).
  - apply K in M. destruct M as [M1 M2]. split; [exact M1|]. intros x Hx. unfold selfs in Hx. apply in_map_iff in Hx. destruct Hx as ((y, m) & E & Hx). cbn in E. subst. eapply M2; eauto.
  - destruct M as [M1 M2]. apply K. split; [exact M1|]. intros x m Hx. apply M2. apply in_map_iff. now exists (x, m).
Qed.

Lemma sym_sound : (forall r, In r (sym_rows d g) -> meets a r) ->
  flips_of /\ (mirrored P g <-> twins d g /\ balanced (across d g) g).
Proof.
  intros H. rewrite mirrored_mir. destruct sym_sizes as [Z1 Z2]. unfold sym_rows in H. unfold flips_of, twins, across, along in *.
  destruct (g_axis g); apply part_iff in H; (split; [|now apply (mir_iff a g _ _ _ _ _ _ Z1 Z2 H)]); destruct H as (H & _); intros x y Hp; specialize (H x y Hp); tauto.
Qed.
Lemma sym_complete : mirrored P g -> balanced (across d g) g -> flips_of -> forall r, In r (sym_rows d g) -> meets a r.
Proof.
  rewrite mirrored_mir. destruct sym_sizes as [Z1 Z2]. unfold sym_rows, flips_of, across in *.
  destruct (g_axis g); intros M B F; apply part_iff; apply mir_rows; auto.
Qed.
End Sym.

(** Alignments. *)
Lemma chain {A} (f : A -> Z) (l : list A) : (forall x y, In (x, y) (combine l (tl l)) -> f x = f y) -> forall x y, In x l -> In y l -> f x = f y.
Proof.
  destruct l as [|z l]; [intros _ x y []|]. revert z. induction l as [|w l IH]; intros z H x y Hx Hy.
  - destruct Hx as [<-|[]], Hy as [<-|[]]. reflexivity.
  - assert (f z = f w) as E by (apply H; now left).
    assert (forall p q, In p (w :: l) -> In q (w :: l) -> f p = f q) as K by (apply IH; intros p q Hp; apply H; now right).
    destruct Hx as [<-|Hx], Hy as [<-|Hy]; auto.
    + rewrite E. apply K; auto. now left.
    + rewrite E. apply K; auto. now left.
Qed.
Section Align.
Variables (d : idesign) (a : assign) (u : align).
Hypothesis Hd : sane d.
Hypothesis Hu : In u (i_aligns d).
Let P := fp (solved d a).
Definition al_size (x : nat) : Z := if al_hor u then bh d x else bw d x.
Definition al_rest (x : nat) : Z := match al_line u with 1%nat => al_size x mod 2 | _ => 0 end.

Lemma al_pos x : In x (al_blocks u) -> 0 <= al_size x.
Proof. intros Hx. destruct (s_size d Hd x (s_aligns d Hd u x Hu Hx)). unfold al_size. destruct (al_hor u); lia. Qed.
Lemma align_key x y : In x (al_blocks u) -> In y (al_blocks u) ->
  (meets a (if al_hor u then irow [(VY x, 1); (VY y, -1)] SE (line_bias u (bh d) x y) else irow [(VX x, 1); (VX y, -1)] SE (line_bias u (bw d) x y))
   <-> on_line P u x - al_rest x = on_line P u y - al_rest y).
Proof.
  intros Hx Hy. pose proof (al_pos x Hx) as S1. pose proof (al_pos y Hy) as S2. pose proof (s_lines d Hd u Hu) as L.
  unfold al_rest, al_size, on_line, line_bias, P, cx, cy in *. cbn [solved fp px py pw ph].
  destruct (al_hor u); rewrite meets_irow; cbn [cmp isum fold_right fst snd]; (destruct (al_line u) as [|[|[|k]]]; [lia| |lia|lia]);
    rewrite Z.quot_opp_l by lia; rewrite !Z.quot_div_nonneg by lia; lia.
Qed.
Lemma align_iff : (forall r, In r (align_rows d u) -> meets a r) <-> forall x y, In x (al_blocks u) -> In y (al_blocks u) ->
  on_line P u x - al_rest x = on_line P u y - al_rest y.
Proof.
  assert (forall x y, In (x, y) (combine (al_blocks u) (tl (al_blocks u))) -> In x (al_blocks u) /\ In y (al_blocks u)) as C.
  { intros x y Hc. split; [eapply in_combine_l; eauto|]. apply in_combine_r in Hc. destruct (al_blocks u); [contradiction|now right]. }
  unfold align_rows. split.
  - intros H. apply (chain (fun x => on_line P u x - al_rest x)). intros x y Hc. destruct (C x y Hc). apply align_key; auto.
    apply H. apply in_map_iff. exists (x, y). split; [reflexivity|exact Hc].
  - intros H r Hr. apply in_map_iff in Hr. destruct Hr as ((x, y) & <- & Hc). destruct (C x y Hc). apply align_key; auto.
Qed.
Lemma align_sound : (forall r, In r (align_rows d u) -> meets a r) -> (in_line P u <-> same_rest d u).
Proof.
  rewrite align_iff. intros H. unfold in_line, same_rest. split.
  - intros I L x y Hx Hy. specialize (H x y Hx Hy). specialize (I x y Hx Hy). unfold al_rest, al_size in H. rewrite L in H. destruct (al_hor u); lia.
  - intros S x y Hx Hy. specialize (H x y Hx Hy). unfold al_rest in H. destruct (al_line u) as [|[|k]] eqn:L; [lia| |lia].
    specialize (S eq_refl x y Hx Hy). unfold al_size in H. destruct (al_hor u); lia.
Qed.
Lemma align_complete : in_line P u -> same_rest d u -> forall r, In r (align_rows d u) -> meets a r.
Proof.
  rewrite align_iff. intros I S x y Hx Hy. rewrite (I x y Hx Hy). unfold al_rest. destruct (al_line u) as [|[|k]] eqn:L; [lia| |lia].
  specialize (S L x y Hx Hy). unfold al_size. destruct (al_hor u); lia.
Qed.
End Align.

(** Nets. *)
Lemma pin_iff a d k i pin p : nth_error (b_pins (blk d i)) pin = Some p -> llx p <= urx p -> lly p <= ury p ->
  (a_int a (VH i) = 0 \/ a_int a (VH i) = 1) -> (a_int a (VV i) = 0 \/ a_int a (VV i) = 1) ->
  ((forall r, In r (pin_rows d k (i, pin)) -> meets a r) <->
    let '(x0, x1) := span (llx p) (urx p) (bw d i) (a_int a (VX i)) (a_int a (VH i)) in
    let '(y0, y1) := span (lly p) (ury p) (bh d i) (a_int a (VY i)) (a_int a (VV i)) in
    (a_real a (VNet k 0) <= inject_Z x0)%Q /\ (a_real a (VNet k 1) <= inject_Z y0)%Q /\
    (inject_Z x1 <= a_real a (VNet k 2))%Q /\ (inject_Z y1 <= a_real a (VNet k 3))%Q).
Proof.
  intros Hp Hx Hy Fx Fy. unfold pin_rows. rewrite Hp. replace ((llx p <=? urx p) && (lly p <=? ury p)) with true by lia.
  assert (forall r1 r2 r3 r4, (forall r, In r [r1; r2; r3; r4] -> meets a r) <-> meets a r1 /\ meets a r2 /\ meets a r3 /\ meets a r4) as K.
  { intros r1 r2 r3 r4. split.
    - intros H. split; [|split; [|split]]; apply H; cbn; tauto.
    - intros H r Hr. cbn in Hr. destruct H as (A & B & C & D). destruct Hr as [<-|[<-|[<-|[<-|[]]]]]; assumption. }
  cbv zeta. rewrite K. rewrite !meets_real. cbv zeta. cbn [int_sum fold_right fst snd].
  assert (forall (x : Q) z, (inject_Z (2 * z) <= inject_Z (-2) * x <-> x <= inject_Z (- z))%Q /\ (inject_Z (-2) * x <= inject_Z (2 * z) <-> inject_Z (- z) <= x)%Q) as Q.
  { intros x z. rewrite inject_Z_opp, inject_Z_mult. replace (inject_Z (-2)) with (-2 # 1)%Q by reflexivity. replace (inject_Z 2) with (2 # 1)%Q by reflexivity.
    split; split; intros; lra. }
  unfold span.
  assert (forall x f m c, (f = 0 \/ f = 1) -> 2 * m - (2 * x + (2 * c * f + 0)) = 2 * (m - x - c * f)) as E1 by (intros; lia).
  rewrite (E1 (a_int a (VX i)) (a_int a (VH i)) (- llx p) (bw d i - llx p - urx p) Fx).
  rewrite (E1 (a_int a (VX i)) (a_int a (VH i)) (- urx p) (bw d i - llx p - urx p) Fx).
  rewrite (E1 (a_int a (VY i)) (a_int a (VV i)) (- lly p) (bh d i - lly p - ury p) Fy).
  rewrite (E1 (a_int a (VY i)) (a_int a (VV i)) (- ury p) (bh d i - lly p - ury p) Fy).
  rewrite !(proj1 (Q _ _)), !(proj2 (Q _ _)).
  destruct Fx as [Fx|Fx], Fy as [Fy|Fy]; rewrite Fx, Fy; cbn [Z.eqb Pos.eqb];
  repeat match goal with |- context [inject_Z (- (- ?l - ?x - ?c * ?f))] =>
    match f with
    | 0 => replace (- (- l - x - c * f)) with (x + l) by lia
    | 1 => first [replace (- (- l - x - c * f)) with (x + bw d i - urx p) by lia | replace (- (- l - x - c * f)) with (x + bw d i - llx p) by lia
                 |replace (- (- l - x - c * f)) with (x + bh d i - ury p) by lia | replace (- (- l - x - c * f)) with (x + bh d i - lly p) by lia]
    end end; tauto.
Qed.
