(** Grid constraints. *)
From Coq Require Import String ZifyBool.
From Verif Require Import Base.Prelude Base.PyDict Model.PySort Model.Transformation Model.RemoveDuplicates Model.Topo Model.Hpwl Model.PlaceGrid
  Spec.Geometry Spec.TopoSpec Spec.HpwlSpec Spec.PlaceGridSpec Proofs.PySortP Proofs.TransformationP Proofs.TopoP Proofs.HpwlP.
Local Open Scope Z_scope.

Lemma zmem_ok x l : zmem x l = true <-> In x l.
Proof.
  unfold zmem. rewrite existsb_exists. split; [intros (y & H & E); apply Z.eqb_eq in E; now subst|intros H; exists x; split; [assumption|apply Z.eqb_refl]].
Qed.
Lemma pmem_ok x l : pmem x l = true <-> In x l.
Proof.
  unfold pmem, zpair_eqb. rewrite existsb_exists. split.
  - intros (y & H & E). replace x with y; [assumption|]. destruct x, y; simpl in *. f_equal; lia.
  - intros H. exists x. split; [assumption|]. now rewrite !Z.eqb_refl.
Qed.

(** * lcm *)
Lemma lcm2_lcm a b : 0 < a -> 0 < b -> lcm2 a b = Z.lcm a b.
Proof.
  intros Ha Hb. unfold lcm2, Z.lcm. assert (0 < Z.gcd a b) by (pose proof (Z.gcd_nonneg a b); pose proof (Z.gcd_eq_0_l a b); lia).
  rewrite Z.divide_div_mul_exact by (try lia; apply Z.gcd_divide_r). rewrite Z.abs_eq; [reflexivity|].
  apply Z.mul_nonneg_nonneg; [lia|]. apply Z.div_pos; lia.
Qed.
Lemma lcm_pos a b : 0 < a -> 0 < b -> 0 < Z.lcm a b.
Proof. intros. pose proof (Z.lcm_nonneg a b). assert (Z.lcm a b <> 0) by (rewrite Z.lcm_eq_0; lia). lia. Qed.

Lemma lcm_fold xs x : 0 < x -> (forall y, In y xs -> 0 < y) -> least_multiple (fold_left lcm2 xs x) (x :: xs).
Proof.
  revert x. induction xs as [|y xs IH]; intros x Hx H.
  - simpl. split; [assumption|]. split; [intros ? [<-|[]]; apply Z.divide_refl|intros m Hm; apply Hm; now left].
  - cbn [fold_left]. assert (Hy : 0 < y) by (apply H; now left). rewrite lcm2_lcm by assumption.
    destruct (IH (Z.lcm x y) (lcm_pos x y Hx Hy) (fun z Hz => H z (or_intror Hz))) as (A & B & C). split; [assumption|]. split.
    + intros z [<-|[<-|Hz]].
      * eapply Z.divide_trans; [apply Z.divide_lcm_l|apply B; now left].
      * eapply Z.divide_trans; [apply Z.divide_lcm_r|apply B; now left].
      * apply B. now right.
    + intros m Hm. apply C. intros z [<-|Hz].
      * apply Z.lcm_least; apply Hm; [now left|right; now left].
      * apply Hm. right. now right.
Qed.

(** * Acceptance *)
Lemma divide_mod p o off : 0 < p -> 0 <= off < p -> (p | o - off) <-> o mod p = off.
Proof.
  intros Hp Ho. split.
  - intros (k & Hk). replace o with (off + k * p) by lia. rewrite Z.mod_add by lia. apply Z.mod_small. lia.
  - intros <-. exists (o / p). pose proof (Z.div_mod o p). lia.
Qed.

Lemma accepts_pairs r o s : accepts r o s <-> exists off, (exists t, In t (pg_terms r) /\ In off (ot_offsets t) /\ In s (ot_scalings t)) /\ (pg_pitch r | o - off).
Proof. unfold accepts. split; [intros (t & off & ?); exists off; split; [exists t|]; tauto|intros (off & (t & ?) & ?); exists t, off; tauto]. Qed.

Lemma accepts_shift r o o' s : (pg_pitch r | o - o') -> accepts r o s -> accepts r o' s.
Proof.
  intros Hd (t & off & A & B & C & D). exists t, off. repeat split; auto. replace (o' - off) with ((o - off) - (o - o')) by lia. now apply Z.divide_sub_r.
Qed.

Lemma check_accepts r x s : pog_ok r -> pog_check r x s = true <-> accepts r x s.
Proof.
  intros (Hp & Ht). unfold pog_check. rewrite existsb_exists. split.
  - intros (t & Hin & H). apply andb_true_iff in H as (H1 & H2). apply zmem_ok in H1, H2. exists t, (x mod pg_pitch r). repeat split; auto.
    apply divide_mod; [assumption|apply Z.mod_pos_bound; assumption|reflexivity].
  - intros (t & off & A & B & C & D). exists t. split; [assumption|]. apply andb_true_iff. rewrite !zmem_ok. split; [|assumption].
    apply divide_mod in D; [now rewrite D|assumption|apply Ht with (t := t); assumption].
Qed.

Lemma coarse_in n p c : 0 < p -> 0 < n -> (p | n) -> In c (coarse n p) <-> (p | c) /\ 0 <= c < n.
Proof.
  intros Hp Hn (q & ->). unfold coarse. rewrite in_map_iff.
  assert (E : (q * p + p - 1) / p = q). { replace (q * p + p - 1) with ((p - 1) + q * p) by lia. rewrite Z.div_add by lia. rewrite Z.div_small by lia. lia. }
  rewrite E. clear E. split.
  - intros (k & <- & Hk). apply in_seq in Hk. split; [exists (Z.of_nat k); reflexivity|]. assert (0 <= Z.of_nat k < q) by lia. nia.
  - intros ((k & ->) & Hc). assert (0 <= k < q) by (split; [apply (Z.mul_le_mono_pos_r 0 k p Hp); lia|apply (Z.mul_lt_mono_pos_r p k q Hp); lia]). exists (Z.to_nat k). split; [rewrite Z2Nat.id by lia; reflexivity|]. apply in_seq. lia.
Qed.

Lemma grid_pairs_in n r x s : pog_ok r -> 0 < n -> (pg_pitch r | n) -> In (x, s) (grid_pairs n r) <-> accepts r x s /\ 0 <= x < n.
Proof.
  intros (Hp & Ht) Hn Hd. unfold grid_pairs. rewrite in_flat_map. split.
  - intros (c & Hc & H). apply coarse_in in Hc as (Hc1 & Hc2); try assumption. apply in_flat_map in H as (t & Hin & H). apply in_flat_map in H as (o & Ho & H).
    apply in_map_iff in H as (s' & [= <- ->] & Hs). destruct (proj1 (Ht t Hin) o Ho) as (O1 & O2). split.
    + exists t, o. repeat split; auto. now replace (c + o - o) with c by lia.
    + destruct Hc1 as (k & ->). destruct Hd as (q & ->). assert (k < q) by (apply (Z.mul_lt_mono_pos_r (pg_pitch r)); lia).
      assert ((k + 1) * pg_pitch r <= q * pg_pitch r) by (apply Z.mul_le_mono_nonneg_r; lia). lia.
  - intros ((t & off & A & B & C & D) & Hx). destruct (proj1 (Ht t A) off B) as (O1 & O2). exists (x - off). split.
    + apply coarse_in; try assumption. split; [assumption|]. destruct D as (k & Hk). destruct Hd as (q & Hq).
      assert (0 <= k) by (apply Z.lt_pred_le, (Z.mul_lt_mono_pos_r (pg_pitch r)); [assumption|]; lia).
      assert (0 * pg_pitch r <= k * pg_pitch r) by (apply Z.mul_le_mono_nonneg_r; lia). lia.
    + apply in_flat_map. exists t. split; [assumption|]. apply in_flat_map. exists off. split; [assumption|]. apply in_map_iff. exists s. split; [f_equal; lia|assumption].
Qed.

Lemma inter_in ls p : ls <> [] -> In p (inter ls) <-> forall l, In l ls -> In p l.
Proof.
  induction ls as [|l ls IH]; [congruence|]. intros _. destruct ls as [|l' ls].
  - simpl. split; [intros H ? [<-|[]]; assumption|intros H; apply H; now left].
  - cbn [inter]. rewrite filter_In, pmem_ok. rewrite IH by discriminate. split.
    + intros (A & B) l0 [<-|H]; [assumption|apply B; assumption].
    + intros H. split; [apply H; now left|]. intros l0 Hl. apply H. now right.
Qed.

(** * simplify *)
Lemma simplify_in pairs o s : (s = 1 \/ s = -1) ->
  (exists t, In t (simplify pairs) /\ In o (ot_offsets t) /\ In s (ot_scalings t)) <-> In (o, s) pairs.
Proof.
  intros Hs. unfold simplify.
  set (pos := nodup Z.eq_dec (map fst (filter (fun p => snd p =? 1) pairs))).
  set (neg := nodup Z.eq_dec (map fst (filter (fun p => snd p =? -1) pairs))).
  assert (HP : forall x, In x pos <-> In (x, 1) pairs).
  { intros x. unfold pos. rewrite nodup_In, in_map_iff. split.
    - intros ((a, b) & <- & H). apply filter_In in H as (H & E). simpl in *. replace 1 with b by lia. assumption.
    - intros H. exists (x, 1). split; [reflexivity|]. now apply filter_In. }
  assert (HN : forall x, In x neg <-> In (x, -1) pairs).
  { intros x. unfold neg. rewrite nodup_In, in_map_iff. split.
    - intros ((a, b) & <- & H). apply filter_In in H as (H & E). simpl in *. replace (-1) with b by lia. assumption.
    - intros H. exists (x, -1). split; [reflexivity|]. now apply filter_In. }
  set (both := filter (fun o => zmem o neg) pos). set (pos' := filter (fun o => negb (zmem o both)) pos). set (neg' := filter (fun o => negb (zmem o both)) neg).
  assert (HB : forall x, In x both <-> In x pos /\ In x neg) by (intros x; unfold both; now rewrite filter_In, zmem_ok).
  assert (HP' : forall x, In x pos' <-> In x pos /\ ~ In x both).
  { intros x. unfold pos'. rewrite filter_In, <- (zmem_ok x both), negb_true_iff. destruct (zmem x both); split; intros (A1 & A2); (split; [assumption|congruence]). }
  assert (HN' : forall x, In x neg' <-> In x neg /\ ~ In x both).
  { intros x. unfold neg'. rewrite filter_In, <- (zmem_ok x both), negb_true_iff. destruct (zmem x both); split; intros (A1 & A2); (split; [assumption|congruence]). }
  assert (One : forall l ss t, In t (match l with [] => [] | _ => [mkOt (sort_by (fun o => o) l) ss] end) <-> l <> [] /\ t = mkOt (sort_by (fun o => o) l) ss).
  { intros [|a l] ss t; simpl; [tauto|]. split; [intros [<-|[]]; split; [discriminate|reflexivity]|intros (_ & ->); now left]. }
  assert (NE : forall (l : list Z), In o l -> l <> []) by (intros [|? ?] H; [destruct H|discriminate]).
  split.
  - intros (t & Hin & Ho & Hsc). rewrite !in_app_iff, !One in Hin. destruct Hin as [(_ & ->)|[(_ & ->)|(_ & ->)]]; cbn [ot_offsets ot_scalings] in *;
      rewrite sort_by_in in Ho.
    + apply HB in Ho as (Hp & Hn). destruct Hsc as [<-|[<-|[]]]; [now apply HP|now apply HN].
    + apply HP' in Ho as (Hp & _). destruct Hsc as [<-|[]]. now apply HP.
    + apply HN' in Ho as (Hp & _). destruct Hsc as [<-|[]]. now apply HN.
  - intros H. assert (Hin : (s = 1 /\ In o pos) \/ (s = -1 /\ In o neg)) by (destruct Hs; subst; [left|right]; split; auto; [now apply HP|now apply HN]).
    destruct (in_dec Z.eq_dec o both) as [Hb|Hb].
    + exists (mkOt (sort_by (fun o => o) both) [1; -1]). split; [|cbn [ot_offsets ot_scalings]; split; [now apply sort_by_in|simpl; intuition]].
      rewrite !in_app_iff, !One. left. split; [now apply NE|reflexivity].
    + destruct Hin as [(-> & Hin)|(-> & Hin)].
      * assert (Hq : In o pos') by (apply HP'; auto). exists (mkOt (sort_by (fun o => o) pos') [1]). split; [|cbn [ot_offsets ot_scalings]; split; [now apply sort_by_in|now left]].
        rewrite !in_app_iff, !One. right. left. split; [now apply NE|reflexivity].
      * assert (Hq : In o neg') by (apply HN'; auto). exists (mkOt (sort_by (fun o => o) neg') [-1]). split; [|cbn [ot_offsets ot_scalings]; split; [now apply sort_by_in|now left]].
        rewrite !in_app_iff, !One. right. right. split; [now apply NE|reflexivity].
Qed.

Lemma simplify_shape pairs t : In t (simplify pairs) -> (forall s, In s (ot_scalings t) -> s = 1 \/ s = -1) /\ exists s, In s (ot_scalings t).
Proof.
  unfold simplify. rewrite !in_app_iff. intros [H|[H|H]]; match type of H with In _ (match ?l with _ => _ end) => destruct l; [destruct H|destruct H as [<-|[]]] end;
    cbn [ot_scalings]; (split; [intros s Hs; simpl in Hs; intuition|eexists; now left]).
Qed.

Lemma simplify_offsets pairs t o : In t (simplify pairs) -> In o (ot_offsets t) -> exists s, In (o, s) pairs.
Proof.
  intros Ht Ho. destruct (simplify_shape pairs t Ht) as (A & s & Hs). exists s. apply simplify_in; [auto|]. eauto.
Qed.

Lemma gdir_eqb_ok a b : gdir_eqb a b = true <-> a = b.
Proof. destruct a, b; simpl; split; congruence. Qed.

(** * merge *)
Lemma merge_ok r0 rs : (forall r, In r (r0 :: rs) -> pog_ok r) -> (forall r, In r (r0 :: rs) -> pg_dir r = pg_dir r0) ->
  exists m, merge (r0 :: rs) = Some m /\ pog_ok m /\ pg_dir m = pg_dir r0 /\ least_multiple (pg_pitch m) (map pg_pitch (r0 :: rs)) /\
    forall o s, (s = 1 \/ s = -1) -> accepts m o s <-> forall r, In r (r0 :: rs) -> accepts r o s.
Proof.
  intros Hok Hdir. unfold merge. cbn [map lcm].
  assert (HL : least_multiple (fold_left lcm2 (map pg_pitch rs) (pg_pitch r0)) (map pg_pitch (r0 :: rs))).
  { apply lcm_fold; [apply (Hok r0); now left|]. intros y Hy. apply in_map_iff in Hy as (r & <- & Hr). apply (Hok r). now right. }
  set (n := fold_left _ _ _) in *. destruct HL as (Hn & Hdv & Hlst).
  assert (G1 : forallb (fun r => 0 <? pg_pitch r) (r0 :: rs) = true).
  { apply forallb_forall. intros r Hr. destruct (Hok r Hr). lia. }
  assert (G2 : forallb (fun r => gdir_eqb (pg_dir r0) (pg_dir r)) (r0 :: rs) = true).
  { apply forallb_forall. intros r Hr. apply gdir_eqb_ok. symmetry. now apply Hdir. }
  rewrite G1, G2. cbn [andb].
  change (grid_pairs n r0 :: map (grid_pairs n) rs) with (map (grid_pairs n) (r0 :: rs)).
  set (ps := inter _).
  assert (HI : forall x s, In (x, s) ps <-> (forall r, In r (r0 :: rs) -> accepts r x s) /\ 0 <= x < n).
  { intros x s. unfold ps. rewrite inter_in by discriminate. split.
    - intros H. assert (A : forall r, In r (r0 :: rs) -> accepts r x s /\ 0 <= x < n).
      { intros r Hr. apply grid_pairs_in; [apply Hok; assumption|assumption|apply Hdv; now apply in_map|]. apply H. now apply in_map. }
      split; [intros r Hr; apply A; assumption|apply (A r0); now left].
    - intros (A & B) l Hl. apply in_map_iff in Hl as (r & <- & Hr). apply grid_pairs_in; auto. apply Hdv. now apply in_map. }
  unfold mk_pog.
  assert (G3 : forallb (fun t => forallb (fun o => (0 <=? o) && (o <? n)) (ot_offsets t)) (simplify ps) = true).
  { apply forallb_forall. intros t Ht. apply forallb_forall. intros o Ho. destruct (simplify_offsets ps t o Ht Ho) as (s & Hs). apply HI in Hs. lia. }
  rewrite G3. exists (mkPog (pg_dir r0) n (simplify ps)). split; [reflexivity|]. split; [|split; [reflexivity|split; [split; auto|]]].
  - split; [exact Hn|]. cbn [pg_terms pg_pitch]. intros t Ht. split; [|apply simplify_shape with (pairs := ps); assumption].
    intros o Ho. destruct (simplify_offsets ps t o Ht Ho) as (s & Hs). apply HI in Hs. tauto.
  - intros o s Hs.
    assert (Hmod : (n | o - o mod n)) by (exists (o / n); pose proof (Z.div_mod o n); lia).
    assert (Hb := Z.mod_pos_bound o n Hn).
    rewrite accepts_pairs. cbn [pg_terms pg_pitch]. split.
    + intros (off & Ht & D). apply simplify_in in Ht; [|assumption]. apply HI in Ht as (A & _). intros r Hr.
      apply (accepts_shift r off o s); [|auto]. destruct (Hdv (pg_pitch r) (in_map pg_pitch _ _ Hr)) as (q & Hq). destruct D as (k & Hk). exists (- k * q). nia.
    + intros H. exists (o mod n). split; [|assumption]. apply simplify_in; [assumption|]. apply HI. split; [|assumption].
      intros r Hr. apply (accepts_shift r o (o mod n) s); [|auto]. eapply Z.divide_trans; [apply Hdv; apply in_map; exact Hr|assumption].
Qed.

(** * Through the hierarchy *)
Lemma mapM_ok {A B} (f : A -> option B) l : (forall a, In a l -> exists b, f a = Some b) ->
  exists bs, mapM f l = Some bs /\ (forall b, In b bs <-> exists a, In a l /\ f a = Some b).
Proof.
  induction l as [|a l IH]; intros H; simpl.
  - exists []. split; [reflexivity|]. intros b; split; [intros []|intros (? & [] & _)].
  - destruct (H a (or_introl eq_refl)) as (b & Eb). destruct (IH (fun x Hx => H x (or_intror Hx))) as (bs & E & HB). rewrite Eb, E. exists (b :: bs). split; [reflexivity|].
    intros b'. simpl. rewrite HB. split.
    + intros [<-|(x & Hx & E')]; [exists a; auto|exists x; auto].
    + intros (x & [<-|Hx] & E'); [left; congruence|right; exists x; auto].
Qed.

Lemma lift_ok t c : pog_ok c -> unit_tr t ->
  exists c', lift_pog t c = Some c' /\ pog_ok c' /\ forall T, unit_tr T -> on_grid c' T <-> on_grid c (mult T t).
Proof.
  intros (Hp & Ht) Hu. unfold lift_pog.
  set (so := match pg_dir c with DH => (sY t, oY t) | DV => (sX t, oX t) end). destruct so as (s, o) eqn:Eso.
  assert (Hs : s = 1 \/ s = -1). { unfold so in Eso. destruct Hu as (U1 & U2). destruct (pg_dir c); injection Eso as <- <-; assumption. }
  set (TS := flat_map _ _).
  assert (HT : forall tm, In tm TS <-> exists t0 off sc, In t0 (pg_terms c) /\ In off (ot_offsets t0) /\ In sc (ot_scalings t0) /\ tm = mkOt [(off - s * o * sc) mod pg_pitch c] [s * sc]).
  { intros tm. unfold TS. rewrite in_flat_map. split.
    - intros (t0 & H0 & H). apply in_flat_map in H as (off & H1 & H). apply in_map_iff in H as (sc & <- & H2). eauto 10.
    - intros (t0 & off & sc & H0 & H1 & H2 & ->). exists t0. split; [assumption|]. apply in_flat_map. exists off. split; [assumption|]. apply in_map_iff. eauto. }
  unfold mk_pog.
  assert (G : forallb (fun t => forallb (fun o => (0 <=? o) && (o <? pg_pitch c)) (ot_offsets t)) TS = true).
  { apply forallb_forall. intros tm H. apply HT in H as (t0 & off & sc & _ & _ & _ & ->). cbn [ot_offsets forallb]. pose proof (Z.mod_pos_bound (off - s * o * sc) (pg_pitch c) Hp). lia. }
  rewrite G. eexists. split; [reflexivity|]. split.
  - split; [assumption|]. cbn [pg_terms pg_pitch]. intros tm H. apply HT in H as (t0 & off & sc & A & B & C & ->). cbn [ot_offsets ot_scalings].
    pose proof (Z.mod_pos_bound (off - s * o * sc) (pg_pitch c) Hp). pose proof (proj2 (Ht t0 A) sc C) as D. split; [intros x [<-|[]]; assumption|intros x [<-|[]]; lia].
  - assert (K : forall o' s', (s' = 1 \/ s' = -1) -> accepts (mkPog (pg_dir c) (pg_pitch c) TS) o' s' <-> accepts c (s' * o + o') (s' * s)).
    { intros o' s' Hs'. unfold accepts. cbn [pg_terms pg_pitch]. split.
      - intros (tm & off' & H & Ho & Hsc & D). apply HT in H as (t0 & off & sc & A & B & C & ->). cbn [ot_offsets ot_scalings] in *.
        destruct Ho as [<-|[]]. destruct Hsc as [<-|[]]. pose proof (proj2 (Ht t0 A) sc C) as E. exists t0, off. repeat split; auto.
        + replace (s * sc * s) with sc; [assumption|]. destruct Hs as [-> | ->]; lia.
        + pose proof (Z.div_mod (off - s * o * sc) (pg_pitch c)) as DM. destruct D as (k & Hk).
          exists (k - (off - s * o * sc) / pg_pitch c). nia.
      - intros (t0 & off & A & B & C & D). exists (mkOt [(off - s * o * (s' * s)) mod pg_pitch c] [s * (s' * s)]), ((off - s * o * (s' * s)) mod pg_pitch c).
        split; [apply HT; eauto 10|]. cbn [ot_offsets ot_scalings]. split; [now left|]. assert (E : s * (s' * s) = s') by (destruct Hs as [-> | ->]; lia).
        split; [rewrite E; now left|]. replace (s * o * (s' * s)) with (o * (s * (s' * s))) by ring. rewrite E.
        pose proof (Z.div_mod (off - o * s') (pg_pitch c)) as DM. destruct D as (k & Hk). exists (k + (off - o * s') / pg_pitch c). nia. }
    intros T (HTx & HTy). unfold on_grid. cbn [pg_dir]. unfold mult. cbn [oX oY sX sY].
    unfold so in Eso. destruct (pg_dir c); injection Eso as <- <-; apply K; assumption.
Qed.

Lemma split_merge_ok ps : (forall r, In r ps -> pog_ok r) ->
  exists new, split_merge ps = Some new /\ (forall r, In r new -> pog_ok r) /\ forall T, unit_tr T -> all_on_grid new T <-> all_on_grid ps T.
Proof.
  intros Hok. unfold split_merge.
  assert (HB : forall b, In b (group_by gdir_eqb pg_dir ps) ->
    exists m, merge (snd b) = Some m /\ pog_ok m /\ forall T, unit_tr T -> on_grid m T <-> forall r, In r (snd b) -> on_grid r T).
  { intros (d, l) H. apply (group_by_in _ _ gdir_eqb_ok) in H as (E & Hne). cbn [snd]. destruct l as [|r0 l]; [congruence|].
    assert (A : forall r, In r (r0 :: l) -> In r ps /\ pg_dir r = d). { intros r Hr. rewrite E in Hr. apply filter_In in Hr as (H1 & H2). apply gdir_eqb_ok in H2. auto. }
    assert (Hd0 : pg_dir r0 = d) by (apply A; now left).
    destruct (merge_ok r0 l) as (m & Em & Om & Dm & _ & Hacc).
    - intros r Hr. apply Hok, A, Hr.
    - intros r Hr. rewrite Hd0. apply A, Hr.
    - exists m. split; [assumption|]. split; [assumption|]. intros T (Hx & Hy). unfold on_grid. rewrite Dm, Hd0. split.
      + intros H r Hr. destruct (A r Hr) as (_ & ->). destruct d; apply Hacc; auto.
      + intros H. destruct d; apply Hacc; auto; intros r Hr; specialize (H r Hr); destruct (A r Hr) as (_ & Hd); rewrite Hd in H; exact H. }
  destruct (mapM_ok (fun b : gdir * list pog => merge (snd b)) (group_by gdir_eqb pg_dir ps)) as (new & E & Hin).
  { intros b Hb. destruct (HB b Hb) as (m & Em & _). eauto. }
  exists new. split; [exact E|]. split.
  - intros r Hr. apply Hin in Hr as (b & Hb & Em). destruct (HB b Hb) as (m & Em' & Om & _). assert (r = m) by congruence. now subst.
  - intros T HT. unfold all_on_grid. split.
    + intros H r Hr. destruct (group_by_elem _ pg_dir gdir_eqb_ok ps r Hr) as (b & Hb & Hrb). destruct (HB _ Hb) as (m & Em & _ & Hacc). cbn [snd] in *.
      apply (Hacc T HT); [|assumption]. apply H. apply Hin. eexists. split; [exact Hb|]. exact Em.
    + intros H r Hr. apply Hin in Hr as (b & Hb & Em). destruct (HB b Hb) as (m & Em' & _ & Hacc). assert (r = m) by congruence. subst m.
      apply (Hacc T HT). intros r' Hr'. apply H. destruct b as (d, l). apply (group_by_in _ _ gdir_eqb_ok) in Hb as (El & _). cbn [snd] in Hr'. rewrite El in Hr'.
      now apply filter_In in Hr'.
Qed.

Lemma concatM_in {A B} (f : A -> option (list B)) l : (forall a, In a l -> exists x, f a = Some x) ->
  exists xs, concatM f l = Some xs /\ forall b, In b xs <-> exists a x, In a l /\ f a = Some x /\ In b x.
Proof.
  induction l as [|a l IH]; intros H; simpl.
  - exists []. split; [reflexivity|]. intros b. split; [intros []|intros (? & ? & [] & _)].
  - destruct (H a (or_introl eq_refl)) as (x & Ex). destruct (IH (fun y Hy => H y (or_intror Hy))) as (xs & E & HI). rewrite Ex, E. exists (x ++ xs). split; [reflexivity|].
    intros b. rewrite in_app_iff, HI. split.
    + intros [Hb|(a' & x' & Ha & Ex' & Hb)]; [exists a, x; auto|exists a', x'; auto].
    + intros (a' & x' & [<-|Ha] & Ex' & Hb); [left; congruence|right; eauto].
Qed.

Lemma unit_mult a b : unit_tr a -> unit_tr b -> unit_tr (mult a b).
Proof. intros (A1 & A2) (B1 & B2). unfold unit_tr, mult. cbn [sX sY]. lia. Qed.

Section Pass.
  Variable G : gpl.
  Variable st0 : gstate.
  Hypothesis HG : gpl_ok G st0.

  Lemma gmods_eq : gmods G = map (fun m => (md_name m, m)) (gp_mods G).
  Proof.
    unfold gmods, modules. cbn [pv_mods].
    assert (E : forall l d, fold_left (fun d m => dset String.eqb d (md_name m) m) l d =
                            fold_left (fun d p => dset String.eqb d (fst p) (snd p)) (map (fun m => (md_name m, m)) l) d).
    { induction l as [|m l IH]; intros d; simpl; [reflexivity|]. apply IH. }
    rewrite E, (fold_dset_nodup _ String.eqb_eq); [reflexivity|]. simpl. rewrite map_map. simpl. apply HG.
  Qed.
  Lemma gmod_get m : In m (gp_mods G) -> dget String.eqb (gmods G) (md_name m) = Some m.
  Proof.
    intros H. rewrite gmods_eq. apply (in_dget _ String.eqb_eq).
    - rewrite map_map. apply HG.
    - apply in_map_iff. exists m. auto.
  Qed.
  Lemma gmod_inv c m : dget String.eqb (gmods G) c = Some m -> In m (gp_mods G) /\ md_name m = c.
  Proof. intros H. apply (dget_in _ String.eqb_eq) in H. rewrite gmods_eq in H. apply in_map_iff in H as (m' & [= <- ->] & H). auto. Qed.

  (** The constraints of a template in state [st]. *)
  Definition cons_of (st : gstate) (c : string) : list pog :=
    match dget String.eqb (gp_leaves G) c with Some cs => cs | None => st c end.

  Lemma inst_pogs_ok st m i : In m (gp_mods G) -> In i (md_insts m) -> inst_pogs G st (mi_ctn i) = Some (cons_of st (mi_ctn i)).
  Proof.
    intros Hm Hi. unfold inst_pogs, cons_of. destruct (dget String.eqb (gp_leaves G) (mi_ctn i)) eqn:E; [reflexivity|].
    destruct (go_known G st0 HG m i Hm Hi) as [H|H].
    - apply (dget_none _ String.eqb_eq) in E. contradiction.
    - apply in_map_iff in H as (m' & En & Hm'). unfold dmem. rewrite <- En, (gmod_get m' Hm'). reflexivity.
  Qed.

  (** One module. *)
  Lemma gen_module_ok st m : In m (gp_mods G) -> (forall i r, In i (md_insts m) -> In r (cons_of st (mi_ctn i)) -> pog_ok r) ->
    exists st', gen_for_module G st m = Some st' /\ (forall c, c <> md_name m -> st' c = st c) /\
      ((forall r, In r (st (md_name m)) -> pog_ok r) -> forall r, In r (st' (md_name m)) -> pog_ok r) /\
      forall T, unit_tr T -> all_on_grid (st' (md_name m)) T <->
        all_on_grid (st (md_name m)) T /\ forall i, In i (md_insts m) -> all_on_grid (cons_of st (mi_ctn i)) (mult T (mi_tr i)).
  Proof.
    intros Hm Hok. unfold gen_for_module.
    set (F := fun i => match inst_pogs G st (mi_ctn i) with Some cs => mapM (lift_pog (mi_tr i)) cs | None => None end).
    assert (HF : forall i, In i (md_insts m) -> exists x, F i = Some x /\ (forall r, In r x -> pog_ok r) /\
       forall T, unit_tr T -> all_on_grid x T <-> all_on_grid (cons_of st (mi_ctn i)) (mult T (mi_tr i))).
    { intros i Hi. unfold F. rewrite (inst_pogs_ok st m i Hm Hi). pose proof (go_tr G st0 HG m i Hm Hi) as Hu.
      destruct (mapM_ok (lift_pog (mi_tr i)) (cons_of st (mi_ctn i))) as (x & Ex & Hx).
      { intros c Hc. destruct (lift_ok (mi_tr i) c (Hok i c Hi Hc) Hu) as (c' & E & _). eauto. }
      exists x. split; [assumption|]. split.
      - intros r Hr. apply Hx in Hr as (c & Hc & Ec). destruct (lift_ok (mi_tr i) c (Hok i c Hi Hc) Hu) as (c' & E & O & _). assert (r = c') by congruence. now subst.
      - intros T HT. unfold all_on_grid. split.
        + intros H c Hc. destruct (lift_ok (mi_tr i) c (Hok i c Hi Hc) Hu) as (c' & E & _ & Q). apply (Q T HT), H, Hx. eauto.
        + intros H r Hr. apply Hx in Hr as (c & Hc & Ec). destruct (lift_ok (mi_tr i) c (Hok i c Hi Hc) Hu) as (c' & E & _ & Q). assert (r = c') by congruence. subst r.
          apply (Q T HT), H, Hc. }
    destruct (concatM_in F (md_insts m)) as (ps & Eps & Hps). { intros i Hi. destruct (HF i Hi) as (x & E & _). eauto. }
    change (concatM (fun i => match inst_pogs G st (mi_ctn i) with Some cs => mapM (lift_pog (mi_tr i)) cs | None => None end) (md_insts m)) with (concatM F (md_insts m)).
    rewrite Eps.
    assert (Hpok : forall r, In r ps -> pog_ok r).
    { intros r Hr. apply Hps in Hr as (i & x & Hi & Ex & Hx). destruct (HF i Hi) as (x' & Ex' & O & _). assert (x = x') by congruence. subst. auto. }
    assert (Hpsat : forall T, unit_tr T -> all_on_grid ps T <-> forall i, In i (md_insts m) -> all_on_grid (cons_of st (mi_ctn i)) (mult T (mi_tr i))).
    { intros T HT. split.
      - intros H i Hi. destruct (HF i Hi) as (x & Ex & _ & Q). apply (Q T HT). intros r Hr. apply H, Hps. eauto.
      - intros H r Hr. apply Hps in Hr as (i & x & Hi & Ex & Hx). destruct (HF i Hi) as (x' & Ex' & _ & Q). assert (x = x') by congruence. subst x'.
        apply (Q T HT); auto. }
    destruct ps as [|p ps].
    - exists st. split; [reflexivity|]. split; [auto|]. split; [auto|]. intros T HT. rewrite <- (Hpsat T HT). split; [intros H; split; [assumption|intros ? []]|tauto].
    - destruct (split_merge_ok (p :: ps) Hpok) as (new & En & On & Sn). rewrite En. eexists. split; [reflexivity|]. split; [|split].
      + intros c Hc. destruct (String.eqb_spec c (md_name m)); [contradiction|reflexivity].
      + intros H r. rewrite String.eqb_refl, in_app_iff. intros [Hr|Hr]; auto.
      + intros T HT. rewrite String.eqb_refl. rewrite <- (Hpsat T HT), <- (Sn T HT). unfold all_on_grid. split.
        * intros H. split; intros c Hc; apply H, in_or_app; auto.
        * intros (H1 & H2) c Hc. apply in_app_or in Hc as [Hc|Hc]; auto.
  Qed.

  Variable rank : string -> nat.
  Hypothesis HR : forall m i, In m (gp_mods G) -> In i (md_insts m) -> (rank (mi_ctn i) < rank (md_name m))%nat.

  (** What a final constraint list of [c] must mean. *)
  Definition exact (cs : list pog) (c : string) : Prop :=
    forall T, unit_tr T -> all_on_grid cs T <-> forall c' T', occurs (gp_mods G) c T c' T' -> all_on_grid (cons_of st0 c') T'.

  Record ginv (done : list string) (st : gstate) : Prop := {
    gi_ok : forall m r, In m (gp_mods G) -> In r (st (md_name m)) -> pog_ok r;
    gi_todo : forall m, In m (gp_mods G) -> ~ In (md_name m) done -> st (md_name m) = st0 (md_name m);
    gi_done : forall m, In m (gp_mods G) -> In (md_name m) done -> exact (st (md_name m)) (md_name m) }.

  Lemma leaf_or_mod c : In c (map fst (gp_leaves G)) -> forall m, In m (gp_mods G) -> md_name m <> c.
  Proof. intros H m Hm <-. exact (go_disj G st0 HG m Hm H). Qed.

  Lemma cons_of_leaf st c : In c (map fst (gp_leaves G)) -> cons_of st c = cons_of st0 c.
  Proof. intros H. unfold cons_of. destruct (dget_some_in _ String.eqb_eq _ _ H) as (cs & ->). reflexivity. Qed.
  Lemma cons_of_mod st m : In m (gp_mods G) -> cons_of st (md_name m) = st (md_name m).
  Proof.
    intros H. unfold cons_of. destruct (dget String.eqb (gp_leaves G) (md_name m)) eqn:E; [|reflexivity].
    apply (dget_in _ String.eqb_eq) in E. exfalso. apply (go_disj G st0 HG m H). apply in_map_iff. eexists. split; [|exact E]. reflexivity.
  Qed.

  Lemma occurs_leaf c T c' T' : (forall m, In m (gp_mods G) -> md_name m <> c) -> occurs (gp_mods G) c T c' T' -> c' = c /\ T' = T.
  Proof. intros Hn H. inversion H; subst; [auto|]. exfalso. eapply Hn; eauto. Qed.
  Lemma occurs_mod m T c' T' : In m (gp_mods G) -> occurs (gp_mods G) (md_name m) T c' T' <->
    (c' = md_name m /\ T' = T) \/ exists i, In i (md_insts m) /\ occurs (gp_mods G) (mi_ctn i) (mult T (mi_tr i)) c' T'.
  Proof.
    intros Hm. split.
    - intros H. inversion H as [|m' i t c1 t1 Hm' Hi Ho En]; subst; [auto|]. right.
      assert (m' = m). { pose proof (gmod_get m Hm). pose proof (gmod_get m' Hm'). congruence. } subst. eauto.
    - intros [(-> & ->)|(i & Hi & H)]; [constructor|]. econstructor; eauto.
  Qed.

  Lemma ginv_step done st m : ginv done st -> In m (gp_mods G) -> ~ In (md_name m) done ->
    (forall i, In i (md_insts m) -> In (mi_ctn i) done) ->
    exists st', gen_for_module G st m = Some st' /\ ginv (done ++ [md_name m]) st'.
  Proof.
    intros I Hm Hnew Hch.
    assert (Hcok : forall i r, In i (md_insts m) -> In r (cons_of st (mi_ctn i)) -> pog_ok r).
    { intros i r Hi Hr. destruct (go_known G st0 HG m i Hm Hi) as [H|H].
      - rewrite (cons_of_leaf st _ H) in Hr. unfold cons_of in Hr. destruct (dget_some_in _ String.eqb_eq _ _ H) as (cs & Ecs). rewrite Ecs in Hr.
        apply (dget_in _ String.eqb_eq) in Ecs. eapply (go_lcons G st0 HG); eauto.
      - apply in_map_iff in H as (m' & En & Hm'). rewrite <- En, (cons_of_mod st m' Hm') in Hr. eapply (gi_ok _ _ I); eauto. }
    destruct (gen_module_ok st m Hm Hcok) as (st' & E & Hoth & Hok & Hsat). exists st'. split; [exact E|]. split.
    - intros m' r Hm' Hr. destruct (string_dec (md_name m') (md_name m)) as [En|En].
      + rewrite En in Hr. apply Hok; [|assumption]. intros r' Hr'. exact (gi_ok _ _ I m r' Hm Hr').
      + rewrite Hoth in Hr by assumption. exact (gi_ok _ _ I m' r Hm' Hr).
    - intros m' Hm' Hn. rewrite in_app_iff in Hn. simpl in Hn. rewrite Hoth by (intros En; apply Hn; right; left; congruence).
      apply (gi_todo _ _ I); [assumption|tauto].
    - intros m' Hm' Hin. destruct (string_dec (md_name m') (md_name m)) as [En|En].
      + assert (m' = m). { pose proof (gmod_get m Hm). pose proof (gmod_get m' Hm'). congruence. } subst m'.
        intros T HT. rewrite (Hsat T HT). rewrite (gi_todo _ _ I m Hm Hnew).
        assert (Ch : forall i, In i (md_insts m) -> all_on_grid (cons_of st (mi_ctn i)) (mult T (mi_tr i)) <->
           forall c' T', occurs (gp_mods G) (mi_ctn i) (mult T (mi_tr i)) c' T' -> all_on_grid (cons_of st0 c') T').
        { intros i Hi. pose proof (unit_mult T (mi_tr i) HT (go_tr G st0 HG m i Hm Hi)) as HU. destruct (go_known G st0 HG m i Hm Hi) as [H|H].
          - rewrite (cons_of_leaf st _ H). split.
            + intros HA c' T' Ho. apply occurs_leaf in Ho as (-> & ->); [assumption|]. now apply leaf_or_mod.
            + intros HA. apply HA. constructor.
          - apply in_map_iff in H as (m' & En' & Hm''). rewrite <- En', (cons_of_mod st m' Hm''). apply (gi_done _ _ I m' Hm''); [|assumption]. rewrite En'. now apply Hch. }
        split.
        * intros (H1 & H2) c' T' Ho. apply (occurs_mod m T c' T' Hm) in Ho as [(-> & ->)|(i & Hi & Ho)].
          -- now rewrite (cons_of_mod st0 m Hm).
          -- apply (proj1 (Ch i Hi) (H2 i Hi) c' T' Ho).
        * intros H. split.
          -- rewrite <- (cons_of_mod st0 m Hm). apply H. constructor.
          -- intros i Hi. apply (Ch i Hi). intros c' T' Ho. apply H. apply (occurs_mod m T c' T' Hm). right. eauto.
      + rewrite Hoth by assumption. apply (gi_done _ _ I m' Hm'). apply in_app_or in Hin as [Hin|[Hin|[]]]; [assumption|congruence].
  Qed.

  Lemma ggraph_keys : map fst (ggraph G) = map md_name (gp_mods G).
  Proof. unfold ggraph, mod_graph. fold (gmods G). rewrite gmods_eq, map_map, map_map. reflexivity. Qed.
  Lemma ggraph_child c d : child (ggraph G) c d <-> exists m i, In m (gp_mods G) /\ md_name m = c /\ In i (md_insts m) /\ mi_ctn i = d.
  Proof.
    unfold child, ggraph, mod_graph. fold (gmods G). rewrite gmods_eq, map_map. cbn [fst snd]. split.
    - intros (cs & H & Hd). apply in_map_iff in H as (m & [= <- <-] & Hm). apply in_map_iff in Hd as (i & <- & Hi). eauto 8.
    - intros (m & i & Hm & <- & Hi & <-). exists (map mi_ctn (md_insts m)). split; [|now apply in_map]. apply in_map_iff. exists m. auto.
  Qed.

  Lemma gen_constraints_ok fuel top : In top (map md_name (gp_mods G)) -> (List.length (gp_mods G) < fuel)%nat ->
    exists st, gen_constraints fuel G st0 top = Some st /\ (forall r, In r (st top) -> pog_ok r) /\ exact (st top) top.
  Proof.
    intros Htop Hf. unfold gen_constraints.
    assert (Hnd : NoDup (map fst (ggraph G))) by (rewrite ggraph_keys; apply HG).
    destruct (topo_total (ggraph G) top Hnd fuel) as (tp & Et & T1 & T2 & T3 & T4 & T5 & (l & Tl)).
    { rewrite <- (map_length fst), ggraph_keys, map_length. exact Hf. }
    rewrite Et.
    assert (Hreach : forall a b, reach (ggraph G) a b -> In a (map md_name (gp_mods G)) -> In b (map fst (gp_leaves G)) \/ In b (map md_name (gp_mods G))).
    { intros a b H. induction H as [x|x y z Hxy Hyz IH]; intros Ha; [auto|]. apply ggraph_child in Hxy as (m & i & Hm & <- & Hi & <-).
      destruct (go_known G st0 HG m i Hm Hi) as [Hk|Hk]; [|auto]. left.
      inversion Hyz as [|a0 b0 c0 Hc ?]; subst; [assumption|]. apply ggraph_child in Hc as (m2 & i2 & Hm2 & En & _). exfalso. exact (leaf_or_mod _ Hk m2 Hm2 En). }
    match goal with |- exists st, foldM ?f _ _ = _ /\ _ => set (F := f) end.
    assert (A : forall rest done st, t_order tp = done ++ rest -> ginv done st ->
      exists st', foldM F rest st = Some st' /\ ginv (t_order tp) st').
    { induction rest as [|c rest IH]; intros done st E I.
      - rewrite app_nil_r in E. rewrite E. exists st. auto.
      - assert (Hnc : ~ In c done). { rewrite E in T1. apply NoDup_remove_2 in T1. intros H. apply T1, in_or_app. auto. }
        cbn [foldM]. unfold F at 1. destruct (dget String.eqb (gmods G) c) as [m|] eqn:Ec.
        + apply gmod_inv in Ec as (Hm & <-). destruct (ginv_step done st m I Hm Hnc) as (st1 & E1 & I1).
          * intros i Hi. apply (T5 rank) with (m := md_name m) (l2 := rest); [|assumption|apply ggraph_child; eauto 8].
            intros a b Hab. apply ggraph_child in Hab as (m1 & i1 & Hm1 & <- & Hi1 & <-). apply HR; assumption.
          * rewrite E1. apply (IH (done ++ [md_name m])); [now rewrite <- app_assoc|assumption].
        + assert (Hlf : In c (map fst (gp_leaves G))).
          { destruct (Hreach top c) as [H|H]; [apply T2; rewrite E; apply in_or_app; right; now left|assumption|assumption|].
            apply in_map_iff in H as (m & <- & Hm). rewrite (gmod_get m Hm) in Ec. discriminate. }
          unfold dmem. destruct (dget_some_in _ String.eqb_eq _ _ Hlf) as (cs & ->).
          apply (IH (done ++ [c])); [now rewrite <- app_assoc|].
          assert (Hne : forall m, In m (gp_mods G) -> In (md_name m) (done ++ [c]) <-> In (md_name m) done).
          { intros m Hm. rewrite in_app_iff. simpl. split; [intros [H|[H|[]]]; [assumption|exfalso; exact (leaf_or_mod c Hlf m Hm (eq_sym H))]|auto]. }
          split; [apply (gi_ok _ _ I)|intros m Hm Hn; apply (gi_todo _ _ I m Hm); rewrite <- (Hne m Hm); assumption|intros m Hm Hd; apply (gi_done _ _ I m Hm); apply (Hne m Hm); assumption]. }
    destruct (A (t_order tp) [] st0 eq_refl) as (st & E & I).
    { split; [apply (go_mcons G st0 HG)|auto|intros m Hm []]. }
    exists st. split; [exact E|]. apply in_map_iff in Htop as (m & <- & Hm). split.
    - intros r Hr. eapply (gi_ok _ _ I); eauto.
    - apply (gi_done _ _ I m Hm). rewrite Tl. apply in_or_app. right. now left.
  Qed.

  (** * The flat checker *)
  Lemma check_leaf_ok t cs : (forall r, In r cs -> pog_ok r) -> check_leaf t cs = true <-> all_on_grid cs t.
  Proof.
    intros Hok. unfold check_leaf. rewrite forallb_forall. unfold all_on_grid.
    assert (K : forall c o s, pog_ok c -> existsb (fun tm => existsb (fun off => ((o - off) mod pg_pitch c =? 0) && zmem s (ot_scalings tm)) (ot_offsets tm)) (pg_terms c) = true <-> accepts c o s).
    { intros c o s (Hp & _). unfold accepts. rewrite existsb_exists. split.
      - intros (tm & Htm & H). apply existsb_exists in H as (off & Ho & H). apply andb_true_iff in H as (H1 & H2). apply zmem_ok in H2. exists tm, off. repeat split; auto.
        apply Z.mod_divide; lia.
      - intros (tm & off & A & B & C & D). exists tm. split; [assumption|]. apply existsb_exists. exists off. split; [assumption|]. apply andb_true_iff. rewrite zmem_ok. split; [|assumption].
        apply Z.mod_divide in D; lia. }
    split; intros H c Hc; specialize (H c Hc); unfold on_grid in *; destruct (pg_dir c); apply K; auto.
  Qed.

  Lemma flatten_occurs fuel : forall m, In m (gp_mods G) -> (rank (md_name m) < fuel)%nat ->
    exists fls, flatten_leaves fuel G (md_name m) = Some fls /\
      forall T c T', (In c (map fst (gp_leaves G)) /\ occurs (gp_mods G) (md_name m) T c T') <-> exists h t, In (c, h, t) fls /\ T' = mult T t.
  Proof.
    induction fuel as [|fuel IH]; intros m Hm Hf; [lia|]. cbn [flatten_leaves]. rewrite (gmod_get m Hm).
    match goal with |- exists fls, concatM ?f _ = _ /\ _ => set (F := f) end.
    assert (HF : forall i, In i (md_insts m) -> exists x, F i = Some x /\
      forall T c T', (In c (map fst (gp_leaves G)) /\ occurs (gp_mods G) (mi_ctn i) (mult T (mi_tr i)) c T') <-> exists h t, In (c, h, t) x /\ T' = mult T t).
    { intros i Hi. unfold F. destruct (dget String.eqb (gp_leaves G) (mi_ctn i)) as [cs|] eqn:E.
      - assert (Hlf : In (mi_ctn i) (map fst (gp_leaves G))). { apply (dget_in _ String.eqb_eq) in E. apply in_map_iff. eexists. split; [|exact E]. reflexivity. }
        eexists. split; [reflexivity|]. intros T c T'.
        assert (Eq : mult T (mult (mi_tr i) tr_default) = mult T (mi_tr i)). { unfold mult, tr_default. cbn [oX oY sX sY]. f_equal; lia. }
        split.
        + intros (Hc & Ho). apply occurs_leaf in Ho as (-> & ->); [|now apply leaf_or_mod]. eexists _, _. split; [now left|]. now rewrite Eq.
        + intros (h & t & [[= <- <- <-]|[]] & ->). split; [assumption|]. rewrite Eq. constructor.
      - destruct (go_known G st0 HG m i Hm Hi) as [H|H]; [apply (dget_none _ String.eqb_eq) in E; contradiction|].
        apply in_map_iff in H as (m' & En & Hm'). pose proof (HR m i Hm Hi) as Hlt. rewrite <- En in *. destruct (IH m' Hm') as (fls & Ef & Hfl); [lia|].
        rewrite Ef. eexists. split; [reflexivity|]. intros T c T'. rewrite (Hfl (mult T (mi_tr i)) c T'). split.
        + intros (h & t & Hin & ->). exists (mi_name i :: h), (mult (mi_tr i) t). split; [apply in_map_iff; exists (c, h, t); auto|]. unfold mult. cbn [oX oY sX sY]. f_equal; ring.
        + intros (h & t & Hin & ->). apply in_map_iff in Hin as (((c0, h0), t0) & [= <- <- <-] & Hin). exists h0, t0. split; [assumption|]. unfold mult. cbn [oX oY sX sY]. f_equal; ring. }
    destruct (concatM_in F (md_insts m)) as (fls & E & Hin). { intros i Hi. destruct (HF i Hi) as (x & Ex & _). eauto. }
    exists fls. split; [exact E|]. intros T c T'. split.
    - intros (Hc & Ho). apply (occurs_mod m T c T' Hm) in Ho as [(-> & ->)|(i & Hi & Ho)]; [exfalso; exact (go_disj G st0 HG m Hm Hc)|].
      destruct (HF i Hi) as (x & Ex & Hx). destruct (proj1 (Hx T c T') (conj Hc Ho)) as (h & t & Ht & ->). exists h, t. split; [|reflexivity]. apply Hin. eauto.
    - intros (h & t & Ht & ->). apply Hin in Ht as (i & x & Hi & Ex & Ht). destruct (HF i Hi) as (x' & Ex' & Hx). assert (x = x') by congruence. subst x'.
      destruct (proj2 (Hx T c (mult T t))) as (Hc & Ho); [eauto|]. split; [assumption|]. apply (occurs_mod m T _ _ Hm). right. eauto.
  Qed.
End Pass.
