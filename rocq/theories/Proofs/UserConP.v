(** Lemmas on user constraints. *)
From Coq Require Import String QArith ZifyBool.
From Verif Require Import Base.Prelude Model.Transformation Model.RemoveDuplicates Model.PlaceGrid Model.SeqPair Model.Formulas Model.UserCon Spec.FormulaSpec Spec.FloorplanSpec Props.C39.
Local Open Scope Z_scope.

Lemma mapM_concat {A B} (f : A -> option (list B)) (P : B -> Prop) (Q : A -> Prop) l ys : (forall x y, f x = Some y -> Forall P y <-> Q x) -> mapM f l = Some ys -> Forall P (concat ys) <-> Forall Q l.
Proof.
  intros H. revert ys. induction l as [|x l IH]; intros ys E; cbn in E; [injection E as <-; split; constructor|].
  destruct (f x) as [y|] eqn:Ey; [|discriminate]. destruct (mapM f l) as [ys'|]; [|discriminate]. injection E as <-. cbn [concat]. rewrite Forall_app, Forall_cons_iff, (H _ _ Ey), (IH _ eq_refl). reflexivity.
Qed.
Lemma in_mapM {A B} (f : A -> option (list B)) l ys x y b : mapM f l = Some ys -> In x l -> f x = Some y -> In b y -> In b (concat ys).
Proof.
  revert ys. induction l as [|z l IH]; intros ys E Hx Ey Hb; [contradiction|]. cbn in E. destruct (f z) as [z'|] eqn:Ez; [|discriminate]. destruct (mapM f l) as [ys'|]; [|discriminate]. injection E as <-.
  cbn [concat]. apply in_or_app. destruct Hx as [->|Hx]; [left; rewrite Ey in Ez; injection Ez as ->; exact Hb|right; eauto].
Qed.

(** * Rows *)
Lemma stack_yields seen ps ys : stack seen ps = Some ys -> ys = map (fun p => YHard (HOrder OTB false [fst p; snd p])) ps.
Proof.
  revert seen ys. induction ps as [|[a b] ps IH]; intros seen ys H; cbn [stack] in H; [now injection H as <-|]. destruct (pair_in _ _); [discriminate|]. destruct (stack _ ps) as [ys'|] eqn:E; [|discriminate].
  injection H as <-. cbn. f_equal. exact (IH _ _ E).
Qed.
Lemma pair_in_iff p l : pair_in p l = true <-> In p l.
Proof.
  destruct p as [a b]. unfold pair_in. rewrite existsb_exists. cbn. split; [|intros H; exists (a, b); cbn; now rewrite !String.eqb_refl].
  intros ([c d] & H & E). cbn in E. apply andb_true_iff in E. destruct E as [E1 E2]. apply String.eqb_eq in E1, E2. now subst.
Qed.
(** The stack succeeds iff no pair is also there the other way round. *)
Lemma stack_ok seen ps : (exists ys, stack seen ps = Some ys) <-> (forall a b, In (a, b) ps -> ~ In (b, a) seen) /\ (forall l1 a b l2, ps = l1 ++ (a, b) :: l2 -> ~ In (b, a) l1 /\ a <> b).
Proof.
  revert seen. induction ps as [|[a b] ps IH]; intros seen; cbn [stack].
  - split; [intros _; split; [intros ? ? []|intros [|? ?] ? ? ?; discriminate]|intros _; now exists []].
  - assert (E : (exists ys, (if pair_in (b, a) ((a, b) :: seen) then None else option_map (cons (YHard (HOrder OTB false [a; b]))) (stack ((a, b) :: seen) ps)) = Some ys) <->
                pair_in (b, a) ((a, b) :: seen) = false /\ exists ys, stack ((a, b) :: seen) ps = Some ys).
    { destruct (pair_in _ _); [split; [intros (? & H); discriminate|intros [H _]; discriminate]|]. destruct (stack _ ps); cbn; split; [intros _; split; [easy|eauto]|eauto|intros (? & H); discriminate|intros [_ (? & H)]; discriminate]. }
    rewrite E, IH. assert (N : pair_in (b, a) ((a, b) :: seen) = false <-> ~ In (b, a) ((a, b) :: seen)) by (rewrite <- pair_in_iff; destruct (pair_in _ _); split; intros; congruence). rewrite N. clear.
    split.
    + intros (H1 & H2 & H3). split.
      * intros x y [[= <- <-]|H] Hs; [apply H1; now right|]. apply (H2 _ _ H). now right.
      * intros l1 x y l2 Q. destruct l1 as [|z l1].
        -- injection Q as <- <- Q2. split; [easy|]. intros ->. apply H1. now left.
        -- injection Q as Q1 Q2. destruct (H3 _ _ _ _ Q2) as [H4 H5]. split; [|exact H5]. intros [->|Hz]; [|auto]. injection Q1 as -> ->. subst ps. apply (H2 x y); [apply in_or_app; right; now left|now left].
    + intros [H1 H2]. split; [|split].
      * intros [[= <- _]|H]; [|exact (H1 a b (or_introl eq_refl) H)]. now destruct (H2 [] a a ps eq_refl).
      * intros x y H [[= <- <-]|Hs]; [|exact (H1 x y (or_intror H) Hs)]. apply in_split in H. destruct H as (l1 & l2 & ->). destruct (H2 ((a, b) :: l1) b a l2 eq_refl) as [H3 _]. apply H3. now left.
      * intros l1 x y l2 ->. destruct (H2 ((a, b) :: l1) x y l2 eq_refl) as [H3 H4]. split; [|exact H4]. intros Hs. apply H3. now right.
Qed.
Lemma stack_pairs_in rs a b : In (a, b) (stack_pairs rs) <-> exists r s, In (r, s) (pairwise rs) /\ In a r /\ In b s.
Proof.
  induction rs as [|r0 [|r1 rs] IH]; [split; [easy|intros (? & ? & [] & _)]..|]. cbn [stack_pairs pairwise]. rewrite in_app_iff, in_prod_iff. cbn [stack_pairs pairwise] in IH. rewrite IH. split.
  - intros [[H1 H2]|(r & s & H & H1 & H2)]; [exists r0, r1; split; [now left|auto]|exists r, s; split; [now right|auto]].
  - intros (r & s & [[= <- <-]|H] & H1 & H2); [now left|right; eauto].
Qed.
Lemma order_pair names a b bx : ztranslate names (HOrder OTB false [a; b]) bx <-> ury (bx b) <= lly (bx a).
Proof. cbn. rewrite Forall_cons_iff. cbn. unfold zorder_cc. cbn. split; [now intros [H _]|intros H; split; [exact H|constructor]]. Qed.
Lemma rows_mean names bx rs : (forall r, In r rs -> r <> []) -> (forall r n, In r rs -> In n r -> solid (bx n)) ->
  Forall (holds names bx) (map (fun p => YHard (HOrder OTB false [fst p; snd p])) (stack_pairs rs)) <-> stacked bx rs.
Proof.
  intros Hne Hs. rewrite Forall_map, Forall_forall. cbn [holds]. unfold stacked.
  set (R := fun r s : list string => forall a b, In a r -> In b s -> ury (bx b) <= lly (bx a)).
  assert (G : (forall x, In x (stack_pairs rs) -> ztranslate names (HOrder OTB false [fst x; snd x]) bx) <-> Forall (fun p => R (fst p) (snd p)) (pairwise rs)).
  { rewrite Forall_forall. split.
    - intros H [r s] Hp a b Ha Hb. apply (order_pair names). apply (H (a, b)). apply stack_pairs_in. exists r, s. auto.
    - intros H [a b] Hp. apply order_pair. cbn [fst snd]. apply stack_pairs_in in Hp. destruct Hp as (r & s & Hp & Ha & Hb). exact (H _ Hp a b Ha Hb). }
  rewrite G. apply (pairwise_all (fun s => s <> [] /\ forall n, In n s -> solid (bx n))).
  - apply Forall_forall. intros r Hr. split; [auto|]. intros n Hn. eauto.
  - intros r s t [Hs1 Hs2] H1 H2 a c Ha Hc. destruct s as [|b s]; [easy|]. specialize (H1 a b Ha (or_introl eq_refl)). specialize (H2 b c (or_introl eq_refl) Hc).
    destruct (Hs2 b (or_introl eq_refl)) as [_ H]. lia.
Qed.
Lemma row_order_mean names bx rs : (forall r n, In r rs -> In n r -> solid (bx n)) ->
  Forall (holds names bx) (map (fun r => YHard (HOrder OLR false r)) (filter (fun r => (1 <? length r)%nat) rs)) <-> Forall (left_to_right bx) rs.
Proof.
  intros Hs. rewrite Forall_map, !Forall_forall. cbn [holds]. split.
  - intros H r Hr. destruct (Nat.ltb_spec 1 (length r)) as [L|L].
    + unfold left_to_right. apply (proj1 (C39_order names OLR r bx true true eq_refl (fun n => Hs r n Hr))). apply H. apply filter_In. split; [exact Hr|now apply Nat.ltb_lt].
    + destruct r as [|a [|b r]]; cbn in L; try lia; repeat constructor.
  - intros H r Hr. apply filter_In in Hr. destruct Hr as [Hr _]. apply (proj2 (C39_order names OLR r bx true true eq_refl (fun n => Hs r n Hr))). exact (H r Hr).
Qed.

(** * Symmetry *)
Definition pair_bal (bx : boxes) (s : Z) (p : list string) : Prop := zsymm_pair true bx p /\ zsymm_expr true bx p = s.
Lemma symm_mean names bx ps : ztranslate names (HSymm true ps) bx <-> exists s, Forall (pair_bal bx s) ps.
Proof.
  cbn [ztranslate]. destruct ps as [|p0 ps]; [split; [intros _; exists 0; constructor|intros _; split; constructor]|]. split.
  - intros [H1 H2]. exists (zsymm_expr true bx p0). rewrite Forall_forall in *. intros p [<-|Hp]; (split; [apply H1; cbn; tauto|]); [easy|]. symmetry. auto.
  - intros (s & H). rewrite Forall_forall in H. split; [apply Forall_forall; intros p Hp; now apply H|]. apply Forall_forall. intros p Hp. destruct (H p0 (or_introl eq_refl)) as [_ ->]. destruct (H p (or_intror Hp)) as [_ ->]. easy.
Qed.
Lemma level_sym x a b : level x a b <-> level x b a.
Proof. unfold level. replace (Z.abs (mid2 x a - mid2 x b)) with (Z.abs (mid2 x b - mid2 x a)) by lia. tauto. Qed.
Lemma bal_two bx s a b : pair_bal bx s [a; b] <-> mid2 true (bx a) + mid2 true (bx b) = s /\ level false (bx a) (bx b).
Proof. unfold pair_bal. rewrite level_pair. cbn [negb]. unfold zsymm_expr, zsum, mid2. cbn [lo hi low high]. tauto. Qed.
Lemma bal_one bx s a : pair_bal bx s [a] <-> mid2 true (bx a) + mid2 true (bx a) = s.
Proof. unfold pair_bal, zsymm_pair, zsymm_expr, zsum, mid2. cbn [lo hi low high]. tauto. Qed.
Lemma nth_error_rev' {A} (r : list A) i : (i < length r)%nat -> nth_error (rev r) i = nth_error r (length r - 1 - i).
Proof.
  intros H. destruct r as [|d r]; [cbn in H; lia|]. remember (d :: r) as l eqn:E. rewrite (nth_error_nth' (rev l) d) by (now rewrite rev_length). rewrite rev_nth by exact H.
  rewrite (nth_error_nth' l d) by lia. f_equal. f_equal. lia.
Qed.
Lemma region_mean bx s r : r <> [] -> Forall (pair_bal bx s) (region_pairs r) <-> balanced bx s r.
Proof.
  intros Hne. unfold region_pairs. destruct (Nat.leb_spec (length r) 2) as [L|L].
  - rewrite Forall_cons_iff. destruct r as [|a [|b [|c r]]]; [easy| | |cbn in L; lia].
    + rewrite bal_one. unfold balanced. cbn [rev app length]. split.
      * intros [H _] [|i] x y Hx Hy; cbn in Hx, Hy; [|now destruct i]. injection Hx as <-. injection Hy as <-. split; [exact H|lia].
      * intros H. split; [|constructor]. now destruct (H 0%nat a a eq_refl eq_refl).
    + rewrite bal_two. unfold balanced. cbn [rev app length]. split.
      * intros [[H1 H2] _] [|[|i]] x y Hx Hy; cbn in Hx, Hy; [| |now destruct i]; injection Hx as <-; injection Hy as <-; (split; [lia|]); intros _; [exact H2|now apply level_sym].
      * intros H. split; [|constructor]. destruct (H 0%nat a b eq_refl eq_refl) as [H1 H2]. split; [exact H1|]. apply H2. lia.
  - assert (Hn : forall i x, nth_error r i = Some x -> nth i r EmptyString = x) by (intros i x Hx; now apply nth_error_nth).
    assert (Hl : forall i, (i < length r)%nat -> nth_error r i = Some (nth i r EmptyString)) by (intros; now apply nth_error_nth').
    rewrite Forall_app, Forall_map, Forall_forall. unfold balanced. split.
    + intros [H1 H2] i a b Ha Hb. assert (Hi : (i < length r)%nat) by (apply nth_error_Some; congruence). rewrite nth_error_rev' in Hb by exact Hi. apply Hn in Ha, Hb.
      pose proof (Nat.div_mod (length r) 2 ltac:(lia)) as D. pose proof (Nat.mod_upper_bound (length r) 2 ltac:(lia)) as M.
      destruct (Nat.lt_ge_cases i (length r / 2)) as [C|C].
      * specialize (H1 i (proj2 (in_seq _ _ _) (conj (Nat.le_0_l _) C))). apply bal_two in H1. rewrite Ha, Hb in H1. tauto.
      * destruct (Nat.eq_dec (i + i + 1) (length r)) as [Q|Q].
        -- assert (O : Nat.odd (length r) = true) by (apply Nat.odd_spec; exists i; lia). rewrite O in H2. inversion H2 as [|? ? H3 _]; subst. apply bal_one in H3.
           replace (length r - 1 - i)%nat with i by lia. replace i with (length r / 2)%nat by lia. split; [exact H3|lia].
        -- assert (J : In (length r - 1 - i)%nat (seq 0 (length r / 2))) by (apply in_seq; lia). specialize (H1 _ J). apply bal_two in H1. rewrite Hb in H1.
           replace (length r - 1 - (length r - 1 - i))%nat with i in H1 by lia. rewrite Ha in H1. split; [lia|]. intros _. now apply level_sym.
    + intros H. pose proof (Nat.div_mod (length r) 2 ltac:(lia)) as D. pose proof (Nat.mod_upper_bound (length r) 2 ltac:(lia)) as M. split.
      * intros i Hi. apply in_seq in Hi. apply bal_two. destruct (H i (nth i r EmptyString) (nth (length r - 1 - i) r EmptyString)) as [H1 H2]; [apply Hl; lia|rewrite nth_error_rev' by lia; apply Hl; lia|]. split; [exact H1|apply H2; lia].
      * destruct (Nat.odd (length r)) eqn:O; [|constructor]. constructor; [|constructor]. apply Nat.odd_spec in O. destruct O as (k & O). apply bal_one.
        destruct (H (length r / 2)%nat (nth (length r / 2) r EmptyString) (nth (length r / 2) r EmptyString)) as [H1 _]; [apply Hl; lia| |exact H1]. rewrite nth_error_rev' by lia. replace (length r - 1 - length r / 2)%nat with (length r / 2)%nat by lia. apply Hl. lia.
Qed.
Lemma regions_mean names bx rs : (forall r, In r rs -> r <> []) -> ztranslate names (HSymm true (flat_map region_pairs rs)) bx <-> exists s, Forall (balanced bx s) rs.
Proof.
  intros Hne. rewrite symm_mean. split; intros (s & H); exists s.
  - apply Forall_forall. intros r Hr. apply region_mean; [auto|]. rewrite Forall_forall in *. intros p Hp. apply H. apply in_flat_map. eauto.
  - apply Forall_forall. intros p Hp. apply in_flat_map in Hp. destruct Hp as (r & Hr & Hp). rewrite Forall_forall in H. specialize (H r Hr). apply region_mean in H; [|auto]. rewrite Forall_forall in H. auto.
Qed.
