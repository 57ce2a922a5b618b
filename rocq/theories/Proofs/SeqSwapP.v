(** Proofs about exchanging two groups in a sequence. *)
From Verif Require Import Base.Prelude Model.SeqEnum Spec.SeqEnumSpec Proofs.SeqEnumP Proofs.SeqSearchP Model.SymmGroup Spec.SymmGroupSpec Proofs.SymmGroupP Proofs.SeqMovesP.

Lemma places_in l vs i : In i (places l vs) <-> i < length l /\ In (nth i l 0) vs.
Proof.
  unfold places. rewrite in_map_iff. split.
  - intros ([j x] & E & H). cbn in E. subst j. apply filter_In in H as [H1 H2]. apply number_in in H1. cbn in H2. apply has_iff in H2.
    rewrite (nth_error_nth _ _ 0 H1). split; auto. apply nth_error_Some. congruence.
  - intros [H1 H2]. exists (i, nth i l 0). split; auto. apply filter_In. split; [|now apply has_iff].
    apply number_in. now apply nth_error_nth'.
Qed.
Lemma places_sorted l vs : StronglySorted lt (places l vs).
Proof.
  unfold places, number. generalize 0. induction l as [|x l IH]; intros n; [constructor|].
  cbn [length seq combine filter]. specialize (IH (S n)). destruct (has _ vs); auto.
  cbn [map fst]. constructor; auto. apply Forall_forall. intros i Hi. apply in_map_iff in Hi as ([j y] & <- & H).
  apply filter_In in H as [H _]. apply in_combine_l in H. apply in_seq in H. cbn. lia.
Qed.
Lemma places_map l vs : map (fun i => nth i l 0) (places l vs) = filter (fun x => has x vs) l.
Proof.
  unfold places, number.
  assert (forall pre, map (fun i => nth i (pre ++ l) 0) (map fst (filter (fun ix => has (snd ix) vs) (combine (seq (length pre) (length l)) l)))
          = filter (fun x => has x vs) l) as H; [|apply (H [])].
  induction l as [|x l IH]; intros pre; [reflexivity|].
  cbn [length seq combine filter snd]. specialize (IH (pre ++ [x])). rewrite app_length in IH. cbn [length] in IH.
  rewrite Nat.add_1_r, <- app_assoc in IH. cbn [app] in IH.
  destruct (has x vs); auto. cbn [map fst]. f_equal; auto. rewrite app_nth2 by lia. now rewrite Nat.sub_diag.
Qed.

Lemma sorted_ext l l' : StronglySorted lt l -> StronglySorted lt l' -> (forall x, In x l <-> In x l') -> l = l'.
Proof.
  revert l'. induction l as [|x l IH]; intros [|y l'] H H' E; auto.
  - destruct (proj2 (E y)); now left.
  - destruct (proj1 (E x)); now left.
  - inversion H; subst. inversion H'; subst. rewrite Forall_forall in *.
    assert (x = y) as ->.
    { destruct (proj1 (E x) (or_introl eq_refl)) as [->|Hx]; auto. destruct (proj2 (E y) (or_introl eq_refl)) as [->|Hy]; auto.
      specialize (H3 _ Hy). specialize (H5 _ Hx). lia. }
    f_equal. apply IH; auto. intros z. split; intros Hz.
    + destruct (proj1 (E z) (or_intror Hz)) as [->|]; auto. specialize (H3 _ Hz). lia.
    + destruct (proj2 (E z) (or_intror Hz)) as [->|]; auto. specialize (H5 _ Hz). lia.
Qed.
Lemma sorted_nodup l : StronglySorted lt l -> NoDup l.
Proof.
  induction 1 as [|x l H IH Hf]; constructor; auto. intros Hx. rewrite Forall_forall in Hf. specialize (Hf _ Hx). lia.
Qed.
Lemma sorted_part l k : StronglySorted lt l -> StronglySorted lt (firstn k l) /\ StronglySorted lt (skipn k l).
Proof.
  intros H. revert k. induction H as [|x l H IH Hf]; intros [|k].
  - split; constructor.
  - split; constructor.
  - split; [constructor|]. cbn. now constructor.
  - cbn. split; [|now apply IH]. constructor; [now apply IH|].
    apply Forall_forall. intros y Hy. rewrite Forall_forall in Hf. apply Hf. rewrite <- (firstn_skipn k l). apply in_or_app. auto.
Qed.

Lemma merge_spec2 f a b : length a + length b <= f -> StronglySorted lt a -> StronglySorted lt b -> (forall x, In x a -> ~ In x b) ->
  StronglySorted lt (merge_places f a b) /\ Permutation (merge_places f a b) (a ++ b).
Proof.
  revert a b. induction f as [|f IH]; intros [|x a] [|y b] Hf Ha Hb Hd; cbn in Hf; try lia; cbn [merge_places]; rewrite ?app_nil_r; cbn [app]; auto.
  inversion Ha as [|? ? Ha1 Ha2]; subst. inversion Hb as [|? ? Hb1 Hb2]; subst.
  destruct (Nat.ltb_spec x y) as [H|H]; [|destruct (Nat.ltb_spec y x) as [H'|H']].
  - destruct (IH a (y :: b)) as [I1 I2]; auto; [cbn; lia|intros z Hz; apply Hd; now right|].
    split; [|now apply perm_skip]. constructor; auto. rewrite Forall_forall in *. intros z Hz.
    apply (Permutation_in _ I2) in Hz. apply in_app_or in Hz as [Hz|[<-|Hz]]; auto. specialize (Hb2 _ Hz). lia.
  - destruct (IH (x :: a) b) as [I1 I2]; auto; [cbn; lia|intros z Hz Hz'; apply (Hd z Hz); now right|].
    split; [|rewrite I2; apply (Permutation_middle (x :: a))]. constructor; auto. rewrite Forall_forall in *. intros z Hz.
    apply (Permutation_in _ I2) in Hz. apply in_app_or in Hz as [[<-|Hz]|Hz]; auto. specialize (Ha2 _ Hz). lia.
  - exfalso. apply (Hd x); [now left|]. left. lia.
Qed.

(** * Writing *)

Lemma writes_len l ps vs : length (writes l ps vs) = length l.
Proof.
  unfold writes. revert l vs. induction ps as [|p ps IH]; intros l [|v vs]; cbn; auto. rewrite IH. apply set_nth_len.
Qed.
Lemma writes_out l ps vs i : (forall p, In p ps -> p < length l) -> ~ In i ps -> nth i (writes l ps vs) 0 = nth i l 0.
Proof.
  unfold writes. revert l vs. induction ps as [|p ps IH]; intros l [|v vs] Hp H; cbn; auto. rewrite IH.
  - rewrite nth_set_nth by (apply Hp; now left). destruct (Nat.eqb_spec i p) as [->|]; auto. destruct H. now left.
  - intros q Hq. rewrite set_nth_len. apply Hp. now right.
  - intros X. apply H. now right.
Qed.
Lemma writes_in l ps vs : (forall p, In p ps -> p < length l) -> NoDup ps -> length ps = length vs ->
  map (fun i => nth i (writes l ps vs) 0) ps = vs.
Proof.
  revert l vs. induction ps as [|p ps IH]; intros l [|v vs] Hp Hn Hl; cbn in Hl; try discriminate; auto. inversion Hn; subst.
  change (writes l (p :: ps) (v :: vs)) with (writes (set_nth p v l) ps vs). cbn [map]. f_equal.
  - rewrite writes_out; auto.
    + rewrite nth_set_nth by (apply Hp; now left). now rewrite Nat.eqb_refl.
    + intros q Hq. rewrite set_nth_len. apply Hp. now right.
  - apply IH; auto. intros q Hq. rewrite set_nth_len. apply Hp. now right.
Qed.

(** What the three branches have in common. *)
Record swapping (l r ap bp pa pb : list nat) : Prop := Swapping {
  sw_len : length r = length l;
  sw_sa : StronglySorted lt pa;
  sw_sb : StronglySorted lt pb;
  sw_perm : Permutation (pa ++ pb) (ap ++ bp);
  sw_a : map (fun i => nth i r 0) pa = map (fun i => nth i l 0) ap;
  sw_b : map (fun i => nth i r 0) pb = map (fun i => nth i l 0) bp;
  sw_out : forall i, ~ In i (ap ++ bp) -> nth i r 0 = nth i l 0
}.

Lemma two_writes l ap bp pa pb :
  NoDup (ap ++ bp) -> (forall i, In i (ap ++ bp) -> i < length l) ->
  StronglySorted lt pa -> StronglySorted lt pb -> Permutation (pa ++ pb) (ap ++ bp) -> length pa = length ap -> length pb = length bp ->
  swapping l (writes (writes l pa (map (fun i => nth i l 0) ap)) pb (map (fun i => nth i l 0) bp)) ap bp pa pb.
Proof.
  intros Hn Hlt Sa Sb Hp La Lb.
  assert (NoDup (pa ++ pb)) as Hn' by (eapply Permutation_NoDup; [symmetry; exact Hp|auto]).
  assert (forall i, In i pa -> ~ In i pb) as Hd.
  { intros i Hi Hi'. apply in_split in Hi as (l1 & l2 & ->). rewrite <- app_assoc in Hn'. cbn in Hn'. apply NoDup_remove_2 in Hn'. apply Hn'.
    rewrite !in_app_iff. auto. }
  assert (forall i, In i pa -> i < length l) as Ha by (intros i Hi; apply Hlt; apply (Permutation_in _ Hp); apply in_or_app; auto).
  assert (forall i, In i pb -> i < length l) as Hb by (intros i Hi; apply Hlt; apply (Permutation_in _ Hp); apply in_or_app; auto).
  constructor; auto.
  - now rewrite !writes_len.
  - transitivity (map (fun i => nth i (writes l pa (map (fun i => nth i l 0) ap)) 0) pa).
    + apply map_ext_in. intros i Hi. apply writes_out; [intros p Hp'; rewrite writes_len; auto|auto].
    + apply writes_in; auto; [now apply sorted_nodup|now rewrite map_length].
  - apply writes_in; [intros p Hp'; rewrite writes_len; auto|now apply sorted_nodup|now rewrite map_length].
  - intros i Hi. assert (~ In i (pa ++ pb)) as Hi' by (intros X; apply Hi; apply (Permutation_in _ Hp); exact X).
    rewrite in_app_iff in Hi'. rewrite writes_out; [|intros p Hp'; rewrite writes_len; auto|tauto]. apply writes_out; [auto|tauto].
Qed.

Definition swap_one (l : list nat) (ab : nat * nat) : list nat := set_nth (snd ab) (nth (fst ab) l 0) (set_nth (fst ab) (nth (snd ab) l 0) l).
Lemma pairs_swap l ap bp : length ap = length bp -> NoDup (ap ++ bp) -> (forall i, In i (ap ++ bp) -> i < length l) ->
  let r := fold_left swap_one (combine ap bp) l in
  length r = length l /\ map (fun i => nth i r 0) bp = map (fun i => nth i l 0) ap /\
  map (fun i => nth i r 0) ap = map (fun i => nth i l 0) bp /\ (forall i, ~ In i (ap ++ bp) -> nth i r 0 = nth i l 0).
Proof.
  revert bp l. induction ap as [|a ap IH]; intros [|b bp] l Hl Hn Hlt; cbn in Hl; try discriminate.
  - cbn. auto.
  - cbn zeta. cbn [combine fold_left].
    assert (a < length l) as Ha by (apply Hlt; now left).
    assert (b < length l) as Hb by (apply Hlt; apply in_or_app; right; now left).
    cbn [app] in Hn. inversion Hn as [|? ? N1 N2]; subst. apply NoDup_remove in N2 as [N2 N3].
    rewrite in_app_iff in N1, N3. cbn [In] in N1.
    destruct (IH bp (swap_one l (a, b))) as (I1 & I2 & I3 & I4); auto.
    { intros i Hi. unfold swap_one. rewrite !set_nth_len. apply Hlt. cbn [app]. right. rewrite in_app_iff in *. cbn. tauto. }
    set (r := fold_left swap_one (combine ap bp) (swap_one l (a, b))) in *. clearbody r.
    assert (forall i, nth i (swap_one l (a, b)) 0 = if i =? b then nth a l 0 else if i =? a then nth b l 0 else nth i l 0) as Hs.
    { intros i. unfold swap_one. cbn [fst snd]. rewrite !nth_set_nth by (rewrite ?set_nth_len; auto). reflexivity. }
    assert (forall i, i <> a -> i <> b -> nth i (swap_one l (a, b)) 0 = nth i l 0) as Hs'.
    { intros i X Y. rewrite Hs, (proj2 (Nat.eqb_neq _ _) X), (proj2 (Nat.eqb_neq _ _) Y). reflexivity. }
    split; [rewrite I1; unfold swap_one; now rewrite !set_nth_len|].
    split; [|split].
    + cbn [map]. f_equal.
      * rewrite I4 by (rewrite in_app_iff; tauto). now rewrite Hs, Nat.eqb_refl.
      * rewrite I2. apply map_ext_in. intros i Hi. apply Hs'; intros ->; tauto.
    + cbn [map]. f_equal.
      * rewrite I4 by (rewrite in_app_iff; tauto). rewrite Hs, Nat.eqb_refl. destruct (Nat.eqb_spec a b) as [->|]; auto.
      * rewrite I3. apply map_ext_in. intros i Hi. apply Hs'; intros ->; tauto.
    + intros i Hi. cbn [app In] in Hi. rewrite in_app_iff in Hi. cbn [In] in Hi.
      rewrite I4 by (rewrite in_app_iff; tauto). apply Hs'; intros ->; tauto.
Qed.

Lemma nodup_places l as_ bs : (forall x, In x as_ -> ~ In x bs) -> NoDup (places l as_ ++ places l bs).
Proof.
  intros H. apply nodup_disj; try apply sorted_nodup, places_sorted.
  intros i H1 H2. apply places_in in H1 as [_ H1]. apply places_in in H2 as [_ H2]. exact (H _ H1 H2).
Qed.

Lemma swap_lists_swapping as_ bs l : (forall x, In x as_ -> ~ In x bs) ->
  let ap := places l as_ in let bp := places l bs in
  exists pa pb, swapping l (swap_lists as_ bs l) ap bp pa pb /\
    (length ap <= length bp -> pa = firstn (length ap) bp) /\ (length bp <= length ap -> pb = firstn (length bp) ap).
Proof.
  intros Hd ap bp. unfold swap_lists. fold ap bp.
  assert (NoDup (ap ++ bp)) as Hn by now apply nodup_places.
  assert (forall i, In i (ap ++ bp) -> i < length l) as Hlt.
  { intros i Hi. apply in_app_or in Hi as [Hi|Hi]; apply places_in in Hi; tauto. }
  assert (StronglySorted lt ap) as Sa by apply places_sorted. assert (StronglySorted lt bp) as Sb by apply places_sorted.
  assert (forall i, In i ap -> ~ In i bp) as Hdp.
  { intros i Hi Hi'. apply in_split in Hi as (l1 & l2 & E). rewrite E, <- app_assoc in Hn. cbn in Hn. apply NoDup_remove_2 in Hn. apply Hn.
    rewrite !in_app_iff. auto. }
  clearbody ap bp.
  destruct (Nat.eqb_spec (length ap) (length bp)) as [E|N]; [|destruct (Nat.ltb_spec (length ap) (length bp)) as [H|H]].
  - exists bp, ap. split; [|split; intros _; [rewrite E; symmetry; apply firstn_all|rewrite <- E; symmetry; apply firstn_all]].
    destruct (pairs_swap l ap bp E Hn Hlt) as (A & B & C & D). constructor; auto. apply Permutation_app_comm.
  - set (rest := skipn (length ap) bp). 
    destruct (sorted_part bp (length ap) Sb) as [S1 S2]. fold rest in S2.
    assert (forall x, In x ap -> ~ In x rest) as Hdr.
    { intros x Hx Hx'. apply (Hdp x Hx). rewrite <- (firstn_skipn (length ap) bp). apply in_or_app. auto. }
    destruct (merge_spec2 (length ap + length rest) ap rest) as [M1 M2]; auto.
    assert (length (merge_places (length ap + length rest) ap rest) = length bp) as Hl.
    { rewrite (Permutation_length M2), app_length. unfold rest. rewrite skipn_length. lia. }
    assert (firstn (length bp) (merge_places (length ap + length rest) ap rest) = merge_places (length ap + length rest) ap rest) as Hfa by (rewrite <- Hl; apply firstn_all).
    cbv zeta. fold rest. rewrite Hfa.
    exists (firstn (length ap) bp), (merge_places (length ap + length rest) ap rest).
    split; [|split; [auto|lia]]. apply two_writes; auto.
    + rewrite M2. rewrite Permutation_app_comm, <- app_assoc. apply Permutation_app_head.
      rewrite Permutation_app_comm. unfold rest. now rewrite firstn_skipn.
    + apply firstn_length_le. lia.
  - set (rest := skipn (length bp) ap).
    destruct (sorted_part ap (length bp) Sa) as [S1 S2]. fold rest in S2.
    assert (forall x, In x rest -> ~ In x bp) as Hdr.
    { intros x Hx. apply Hdp. rewrite <- (firstn_skipn (length bp) ap). apply in_or_app. auto. }
    destruct (merge_spec2 (length rest + length bp) rest bp) as [M1 M2]; auto.
    assert (length (merge_places (length rest + length bp) rest bp) = length ap) as Hl.
    { rewrite (Permutation_length M2), app_length. unfold rest. rewrite skipn_length. lia. }
    assert (firstn (length ap) (merge_places (length rest + length bp) rest bp) = merge_places (length rest + length bp) rest bp) as Hfa by (rewrite <- Hl; apply firstn_all).
    cbv zeta. fold rest. rewrite Hfa.
    assert (swapping l (writes (writes l (firstn (length bp) ap) (map (fun i => nth i l 0) bp))
       (merge_places (length rest + length bp) rest bp) (map (fun i => nth i l 0) ap)) bp ap
       (firstn (length bp) ap) (merge_places (length rest + length bp) rest bp)) as W.
    { apply two_writes; auto.
      - eapply Permutation_NoDup; [apply Permutation_app_comm|auto].
      - intros i Hi. apply Hlt. rewrite in_app_iff in *. tauto.
      - rewrite M2. rewrite app_assoc. unfold rest. rewrite firstn_skipn. apply Permutation_app_comm.
      - apply firstn_length_le. lia. }
    exists (merge_places (length rest + length bp) rest bp), (firstn (length bp) ap).
    split; [|split; [lia|auto]]. destruct W as [W1 W2 W3 W4 W5 W6 W7]. constructor; auto.
    + rewrite Permutation_app_comm, W4. apply Permutation_app_comm.
    + intros i Hi. apply W7. rewrite in_app_iff in *. tauto.
Qed.

(** Entries outside both sets stay outside. *)
Lemma swapping_class as_ bs l r pa pb : (forall x, In x as_ -> ~ In x bs) -> swapping l r (places l as_) (places l bs) pa pb ->
  places r as_ = pa /\ places r bs = pb.
Proof.
  intros Hd [W1 W2 W3 W4 W5 W6 W7].
  assert (forall i, In i pa -> i < length l /\ In (nth i r 0) as_) as Ha.
  { intros i Hi. split.
    - assert (In i (places l as_ ++ places l bs)) as Q by (apply (Permutation_in _ W4), in_or_app; auto).
      apply in_app_or in Q as [Q|Q]; apply places_in in Q; tauto.
    - assert (In (nth i r 0) (map (fun i => nth i r 0) pa)) as Q by (apply in_map_iff; eauto). rewrite W5 in Q.
      apply in_map_iff in Q as (j & <- & Hj). apply places_in in Hj. tauto. }
  assert (forall i, In i pb -> i < length l /\ In (nth i r 0) bs) as Hb.
  { intros i Hi. split.
    - assert (In i (places l as_ ++ places l bs)) as Q by (apply (Permutation_in _ W4), in_or_app; auto).
      apply in_app_or in Q as [Q|Q]; apply places_in in Q; tauto.
    - assert (In (nth i r 0) (map (fun i => nth i r 0) pb)) as Q by (apply in_map_iff; eauto). rewrite W6 in Q.
      apply in_map_iff in Q as (j & <- & Hj). apply places_in in Hj. tauto. }
  assert (forall i, i < length l -> ~ In i pa -> ~ In i pb -> ~ In (nth i r 0) as_ /\ ~ In (nth i r 0) bs) as Ho.
  { intros i Hi X Y. assert (~ In i (places l as_ ++ places l bs)) as Q.
    { intros Q. apply (Permutation_in _ (Permutation_sym W4)) in Q. apply in_app_or in Q. tauto. }
    rewrite (W7 i Q). rewrite in_app_iff, !places_in in Q. tauto. }
  split; apply sorted_ext; auto; try apply places_sorted; intros i; rewrite places_in, W1; split.
  - intros [H1 H2]. destruct (in_dec Nat.eq_dec i pa) as [|X]; auto. destruct (in_dec Nat.eq_dec i pb) as [Y|Y].
    + destruct (Hd _ H2). apply Hb. auto.
    + destruct (Ho i H1 X Y). contradiction.
  - auto.
  - intros [H1 H2]. destruct (in_dec Nat.eq_dec i pb) as [|X]; auto. destruct (in_dec Nat.eq_dec i pa) as [Y|Y].
    + destruct (Hd (nth i r 0)); auto. apply Ha. auto.
    + destruct (Ho i H1 Y X). contradiction.
  - auto.
Qed.

Theorem swap_lists_ok as_ bs l : (forall x, In x as_ -> ~ In x bs) -> swapped as_ bs l (swap_lists as_ bs l).
Proof.
  intros Hd. destruct (swap_lists_swapping as_ bs l Hd) as (pa & pb & W & La & Lb).
  destruct (swapping_class _ _ _ _ _ _ Hd W) as [Ea Eb]. destruct W as [W1 W2 W3 W4 W5 W6 W7].
  set (r := swap_lists as_ bs l) in *. clearbody r.
  split; [auto|]. split; [|split; [|split; [|split]]].
  - intros i Hi H1 H2. apply W7. rewrite in_app_iff, !places_in. tauto.
  - rewrite <- !places_map, Ea. exact W5.
  - rewrite <- !places_map, Eb. exact W6.
  - intros H. rewrite Ea. auto.
  - intros H. rewrite Eb. auto.
Qed.
Lemma swap_lists_other as_ bs cs l : (forall x, In x as_ -> ~ In x bs) -> (forall x, In x cs -> ~ In x as_ /\ ~ In x bs) ->
  filter (fun x => has x cs) (swap_lists as_ bs l) = filter (fun x => has x cs) l.
Proof.
  intros Hd Hc. destruct (swap_lists_swapping as_ bs l Hd) as (pa & pb & W & _).
  destruct (swapping_class _ _ _ _ _ _ Hd W) as [Ea Eb]. destruct W as [W1 W2 W3 W4 W5 W6 W7].
  set (r := swap_lists as_ bs l) in *. clearbody r.
  assert (forall i, In i (places l as_ ++ places l bs) <-> In i (places r as_ ++ places r bs)) as Hp.
  { intros i. rewrite Ea, Eb. split; apply Permutation_in; auto. now symmetry. }
  assert (forall i, In i (places r cs) -> In i (places l cs) /\ nth i r 0 = nth i l 0) as H1.
  { intros i Hi. apply places_in in Hi as [H1 H2]. destruct (Hc _ H2) as [H3 H4].
    assert (nth i r 0 = nth i l 0) as E.
    { apply W7. rewrite Hp, in_app_iff, !places_in. tauto. }
    split; auto. apply places_in. rewrite <- E. split; [congruence|auto]. }
  assert (forall i, In i (places l cs) -> In i (places r cs)) as H2.
  { intros i Hi. apply places_in in Hi as [H2 H3]. destruct (Hc _ H3) as [H4 H5]. apply places_in. rewrite W1. split; auto.
    rewrite W7; auto. rewrite in_app_iff, !places_in. tauto. }
  rewrite <- !places_map. replace (places l cs) with (places r cs).
  - apply map_ext_in. intros i Hi. now apply H1.
  - apply sorted_ext; try apply places_sorted. intros i. split; auto. intros Hi. now apply H1.
Qed.
Lemma filter3_perm f (l r : list nat) : filter f r = filter f l -> Permutation (filter (fun x => negb (f x)) r) (filter (fun x => negb (f x)) l) -> Permutation l r.
Proof.
  intros H1 H2.
  assert (forall m, Permutation m (filter f m ++ filter (fun x => negb (f x)) m)) as H.
  { induction m as [|x m IH]; cbn; auto. destruct (f x); cbn; [now apply perm_skip|]. rewrite <- Permutation_middle. now apply perm_skip. }
  rewrite (H l), (H r), H1. apply Permutation_app_head. now symmetry.
Qed.
Lemma swap_lists_perm as_ bs l : (forall x, In x as_ -> ~ In x bs) -> Permutation l (swap_lists as_ bs l).
Proof.
  intros Hd. pose proof (swap_lists_ok as_ bs l Hd) as (_ & _ & Fa & Fb & _).
  set (cs := filter (fun x => negb (has x as_) && negb (has x bs)) l ++ filter (fun x => negb (has x as_) && negb (has x bs)) (swap_lists as_ bs l)).
  assert (filter (fun x => has x cs) (swap_lists as_ bs l) = filter (fun x => has x cs) l) as Fc.
  { apply swap_lists_other; auto. intros x Hx. unfold cs in Hx.
    assert (negb (has x as_) && negb (has x bs) = true) as Q by (apply in_app_or in Hx as [Hx|Hx]; apply filter_In in Hx; tauto).
    apply andb_true_iff in Q as [Q1 Q2]. apply negb_true_iff in Q1, Q2. apply has_false in Q1, Q2. auto. }
  set (r := swap_lists as_ bs l) in *.
  assert (forall m, (forall x, In x m -> In x l \/ In x r) ->
     filter (fun x => has x cs) m = filter (fun x => negb (has x as_) && negb (has x bs)) m) as Hcs.
  { intros m Hm. apply filter_ext_in. intros x Hx. destruct (negb (has x as_) && negb (has x bs)) eqn:E.
    - apply has_iff. unfold cs. apply in_or_app. rewrite !filter_In. destruct (Hm x Hx); auto.
    - apply has_false. unfold cs. intros Q. apply in_app_or in Q as [Q|Q]; apply filter_In in Q as [_ Q]; congruence. }
  rewrite !Hcs in Fc by auto.
  apply filter3_perm with (f := fun x => has x as_); auto.
  apply Permutation_sym.
  assert (forall m, filter (fun x => has x bs) (filter (fun x => negb (has x as_)) m) = filter (fun x => has x bs) m) as Hb.
  { intros m. induction m as [|x m IH]; cbn; auto. destruct (has x as_) eqn:Ex; cbn.
    - apply has_iff in Ex. rewrite (proj2 (has_false x bs) (Hd x Ex)). exact IH.
    - destruct (has x bs); now rewrite IH. }
  assert (forall m, filter (fun x => negb (has x bs)) (filter (fun x => negb (has x as_)) m) = filter (fun x => negb (has x as_) && negb (has x bs)) m) as Hnb.
  { intros m. induction m as [|x m IH]; cbn; auto. destruct (has x as_) eqn:Ex; cbn; auto. destruct (has x bs); cbn; now rewrite IH. }
  apply filter3_perm with (f := fun x => has x bs); [now rewrite !Hb|]. rewrite !Hnb, Fc. reflexivity.
Qed.
