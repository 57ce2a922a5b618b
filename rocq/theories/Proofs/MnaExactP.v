(** The entries of the system are exactly the places made for them if no two resistors are parallel. *)
From Coq Require Import ZArith QArith Qcanon Lqa ZifyBool.
From Verif Require Import Base.Prelude Model.CapPlace Model.Mna Spec.MnaSpec Proofs.MnaP Proofs.MnaBuildP Proofs.MnaUniqueP.
Local Open Scope Z_scope.
Local Notation Qz := (0%Qc).

Lemma bsum_pos {A} (f : A -> Qc) l : (forall a, In a l -> (0 <= f a)%Qc) -> (0 <= bsum f l)%Qc /\ (bsum f l = Qz -> forall a, In a l -> f a = Qz).
Proof.
  induction l as [|a l IH]; intros H; [split; [apply Qcle_refl|intros _ a []]|]. rewrite bsum_cons. destruct IH as [h1 h2]; [intros b hb; apply H; right; exact hb|].
  assert (h := H a (or_introl eq_refl)). split; [apply add_pos; assumption|]. intros z b [<-|I]; [exact (zero_sum _ _ h h1 z)|]. apply h2; [|exact I]. apply (zero_sum _ _ h1 h). rewrite Qcplus_comm. exact z.
Qed.
Lemma mul_pos (a b : Qc) : (0 <= a)%Qc -> (0 <= b)%Qc -> (0 <= a * b)%Qc.
Proof.
  unfold Qcle, Qcmult, Q2Qc. cbn [this]. rewrite !Qred_correct. change (this 0%Qc) with 0%Q. generalize (this a), (this b). clear. intros. nra.
Qed.
Lemma inv_pos (r : Qc) : (0 < r)%Qc -> (0 < 1 / r)%Qc.
Proof.
  intros h. assert (n : r <> Qz) by (intros ->; destruct (Qclt_not_eq _ _ h eq_refl)). destruct (Qclt_le_dec 0 (1 / r)%Qc) as [l|l]; [exact l|]. exfalso.
  assert (e : (1 / r * r = 1)%Qc) by (field; exact n). assert (h' := Qcmult_le_compat_r _ _ r l (Qclt_le_weak _ _ h)). rewrite e in h'. replace (0 * r)%Qc with Qz in h' by ring.
  apply (Qcle_not_lt _ _ h'). reflexivity.
Qed.
Lemma ind_pos b : (0 <= ind b)%Qc.
Proof. destruct b; cbn [ind]; [|apply Qcle_refl]. apply Qclt_le_weak. reflexivity. Qed.
Lemma ind_zero b : ind b = Qz <-> b = false.
Proof. destruct b; cbn [ind]; split; intros h; try reflexivity; discriminate. Qed.

Section Exact.
Variables (N P : Z) (ds : list device).
Hypotheses (G : good N P ds) (P0 : 0 <= P) (S : simple N ds).
Definition off (d : device) : list (Z * Z) :=
  match d_kind d with KR => [(d_start d, d_end d); (d_end d, d_start d)] | KV => [(d_start d, slot N P d + 1); (slot N P d + 1, d_start d)] | KI => [] end.
Lemma off_range d i j : In d ds -> In (i, j) (off d) -> 1 <= i <= N + P /\ 1 <= j <= N + P /\ i <> j /\
  match d_kind d with KR => i <= N /\ j <= N | KV => N < slot N P d + 1 /\ (i = slot N P d + 1 \/ j = slot N P d + 1) /\ (i <= N \/ j <= N) | KI => True end.
Proof.
  intros I. assert (g := good_in N P ds G d I). unfold off, good_dev in *. destruct (d_kind d) eqn:k.
  - intros [h|[h|[]]]; injection h as <- <-; lia.
  - intros [].
  - destruct (vpos_slot N P ds G P0 d I k) as (_ & h1 & h2). intros [h|[h|[]]]; injection h as <- <-; lia.
Qed.
Lemma off_nodup : NoDup (flat_map off ds).
Proof.
  assert (R := proj1 S). assert (V := proj1 (proj2 (proj2 G))). assert (I0 := incl_refl ds). revert I0 R V. generalize ds at 1 3 4 5 as l. induction l as [|d l IH]; intros I0 R V; [constructor|].
  assert (Id : In d ds) by (apply I0; left; reflexivity). assert (Il : incl l ds) by (intros x hx; apply I0; right; exact hx).
  assert (r := off_range d). specialize (IH Il). cbn [flat_map] in *. rewrite v_place_eq in V. unfold r_pairs at 1 in R.
  assert (D : forall p, In p (off d) -> ~ In p (flat_map off l)).
  { intros [i j] h1 h2. apply in_flat_map in h2. destruct h2 as (d' & I' & h2). assert (r1 := off_range d i j Id h1). assert (r2 := off_range d' i j (Il d' I') h2).
    unfold off in h1, h2. destruct (d_kind d) eqn:k, (d_kind d') eqn:k'; try (destruct h1; fail); try (destruct h2; fail); try lia.
    - cbn [app] in R. apply NoDup_cons_iff in R. destruct R as [R1 R]. apply NoDup_cons_iff in R. destruct R as [R2 R].
      assert (q : In (i, j) (flat_map r_pairs l) /\ In (j, i) (flat_map r_pairs l)).
      { split; apply in_flat_map; exists d'; (split; [exact I'|]); unfold r_pairs; rewrite k'; destruct h2 as [h|[h|[]]]; injection h as <- <-; cbn; tauto. }
      destruct q as [q1 q2]. destruct h1 as [h|[h|[]]]; injection h as <- <-; apply R1; right; assumption.
    - cbn [app] in V. apply NoDup_cons_iff in V. destruct V as [V1 _]. apply V1. apply in_flat_map. exists d'. split; [exact I'|]. rewrite v_place_eq, k'. left.
      destruct h1 as [h|[h|[]]], h2 as [h'|[h'|[]]]; rewrite <- h' in h; injection h as h3 h4; lia. }
  apply nodup_two.
  - unfold off in *. destruct (d_kind d) eqn:k; [|constructor|].
    + assert (q := r _ _ Id (or_introl eq_refl)). constructor; [|constructor; [intros []|constructor]]. intros [h|[]]. injection h as h3 h4. lia.
    + assert (q := r _ _ Id (or_introl eq_refl)). constructor; [|constructor; [intros []|constructor]]. intros [h|[]]. injection h as h3 h4. lia.
  - apply IH.
    + destruct (d_kind d); cbn [app] in R; [|exact R..]. apply NoDup_cons_iff in R. destruct R as [_ R]. apply NoDup_cons_iff in R. apply R.
    + destruct (d_kind d); cbn [app] in V; [exact V..|]. apply NoDup_cons_iff in V. apply V.
  - intros p h1 h2. exact (D p h1 h2).
Qed.
Lemma res_pos d : In d ds -> (0 <= res d)%Qc /\ (d_kind d = KR -> (0 < res d)%Qc).
Proof.
  intros I. unfold res. destruct (d_kind d) eqn:k; [|split; [apply Qcle_refl|discriminate]..]. assert (h := inv_pos _ (proj1 (proj2 S) d I k)). split; [apply Qclt_le_weak; exact h|intros _; exact h].
Qed.
Lemma res_zero d b : In d ds -> d_kind d = KR -> (res d * b = Qz)%Qc -> b = Qz.
Proof.
  intros I k h. apply Qcmult_integral in h. destruct h as [h|h]; [|exact h]. assert (h' := proj2 (res_pos d I) k). rewrite h in h'. destruct (Qclt_not_eq _ _ h' eq_refl).
Qed.
Lemma nonzero i j : 0 <= i < N + P -> 0 <= j < N + P -> column N P ds i j <> Qz <-> (i = j /\ i < N) \/ In (i + 1, j + 1) (flat_map off ds).
Proof.
  intros hi hj.
  assert (term : forall d b c, In d ds -> (0 <= res d * (ind b + ind c))%Qc) by (intros d b c I; apply mul_pos; [apply (res_pos d I)|apply add_pos; apply ind_pos]).
  assert (two : forall d b c, In d ds -> d_kind d = KR -> (res d * (ind b + ind c))%Qc = Qz -> b = false /\ c = false).
  { intros d b c I k h. apply (res_zero d _ I k) in h. split; apply ind_zero; [|rewrite Qcplus_comm in h]; exact (zero_sum _ _ (ind_pos _) (ind_pos _) h). }
  destruct (Z_lt_ge_dec i N) as [a|a]; [destruct (Z_lt_ge_dec j N) as [b|b]|].
  - destruct (Z.eq_dec i j) as [e|e].
    + subst j. split; [intros _; left; lia|]. intros _ z. unfold column in z. replace (i <? N) with true in z by lia. unfold node_column, set in z. rewrite Z.eqb_refl, node_snd in z. cbn [snd] in z. rewrite Qcplus_0_l in z.
      destruct (proj2 (proj2 S) (i + 1) ltac:(lia)) as (d & I & k & h). assert (t := proj2 (bsum_pos _ ds (fun d I => term d _ _ I)) z d I). cbn beta in t. apply (two d _ _ I k) in t. lia.
    + unfold column. replace (i <? N) with true by lia. unfold node_column, set. replace (j =? i) with false by lia. rewrite (node_fst N P ds G P0) by (try exact (incl_refl ds); lia). cbn [fst].
      set (f := fun d => (res d * (ind ((d_start d =? i + 1) && (d_end d =? j + 1)) + ind ((d_end d =? i + 1) && (d_start d =? j + 1))))%Qc).
      assert (Z0 : (0 - bsum f ds = Qz)%Qc <-> bsum f ds = Qz). { split; intros h; [transitivity (- (0 - bsum f ds))%Qc; [ring|rewrite h; ring]|rewrite h; ring]. }
      rewrite Z0. split.
      * intros h. right. destruct (in_dec (fun p q : Z * Z => ltac:(decide equality; apply Z.eq_dec)) (i + 1, j + 1) (flat_map off ds)) as [y|n]; [exact y|]. exfalso. apply h. apply bsum_zero. intros d I. unfold f, res.
        destruct (d_kind d) eqn:k; [|ring..]. assert (no : ~ In (i + 1, j + 1) (off d)) by (intros q; apply n; apply in_flat_map; exists d; split; assumption). unfold off in no. rewrite k in no.
        replace ((d_start d =? i + 1) && (d_end d =? j + 1)) with false by (destruct ((d_start d =? i + 1) && (d_end d =? j + 1)) eqn:q; [exfalso; apply no; left; f_equal; lia|reflexivity]).
        replace ((d_end d =? i + 1) && (d_start d =? j + 1)) with false by (destruct ((d_end d =? i + 1) && (d_start d =? j + 1)) eqn:q; [exfalso; apply no; right; left; f_equal; lia|reflexivity]). cbn [ind]. ring.
      * intros [h|h] z; [lia|]. apply in_flat_map in h. destruct h as (d & I & h). assert (r := off_range d _ _ I h). assert (t := proj2 (bsum_pos f ds (fun d I => term d _ _ I)) z d I).
        unfold off in h. destruct (d_kind d) eqn:k; [|destruct h|lia]. apply (two d _ _ I k) in t. destruct h as [h|[h|[]]]; injection h as h1 h2; lia.
  - rewrite (node_high N P ds G P0) by lia. split.
    + intros h. right. destruct (in_dec (fun p q : Z * Z => ltac:(decide equality; apply Z.eq_dec)) (i + 1, j + 1) (flat_map off ds)) as [y|n]; [exact y|]. exfalso. apply h. apply bsum_zero. intros d I. apply ind_zero.
      destruct (vsrc d) eqn:v; [|reflexivity]. assert (k : d_kind d = KV) by (unfold vsrc, is_kind in v; destruct (d_kind d); [discriminate..|reflexivity]). cbn [andb].
      destruct ((d_start d =? i + 1) && (slot N P d =? j)) eqn:q; [|reflexivity]. exfalso. apply n. apply in_flat_map. exists d. split; [exact I|]. unfold off. rewrite k. left. f_equal; lia.
    + intros [h|h] z; [lia|]. apply in_flat_map in h. destruct h as (d & I & h). assert (r := off_range d _ _ I h). assert (t := proj2 (bsum_pos _ ds (fun d _ => ind_pos _)) z d I). cbn beta in t. apply ind_zero in t.
      unfold off in h. unfold vsrc, is_kind in t. destruct (d_kind d) eqn:k; [lia|destruct h|]. cbn [andb] in t. assert (g := good_in N P ds G d I). unfold good_dev in g. rewrite k in g. destruct h as [h|[h|[]]]; injection h as h1 h2; lia.
  - rewrite (source_low N P ds G) by lia. split.
    + intros h. right. destruct (in_dec (fun p q : Z * Z => ltac:(decide equality; apply Z.eq_dec)) (i + 1, j + 1) (flat_map off ds)) as [y|n]; [exact y|]. exfalso. apply h. apply bsum_zero. intros d I. apply ind_zero.
      destruct (vsrc d) eqn:v; [|reflexivity]. assert (k : d_kind d = KV) by (unfold vsrc, is_kind in v; destruct (d_kind d); [discriminate..|reflexivity]). cbn [andb].
      destruct ((slot N P d =? i) && (d_start d =? j + 1)) eqn:q; [|reflexivity]. exfalso. apply n. apply in_flat_map. exists d. split; [exact I|]. unfold off. rewrite k. right. left. f_equal; lia.
    + intros [h|h] z; [lia|]. apply in_flat_map in h. destruct h as (d & I & h). assert (r := off_range d _ _ I h). assert (t := proj2 (bsum_pos _ ds (fun d _ => ind_pos _)) z d I). cbn beta in t. apply ind_zero in t.
      unfold off in h. unfold vsrc, is_kind in t. destruct (d_kind d) eqn:k; [lia|destruct h|]. cbn [andb] in t. assert (g := good_in N P ds G d I). unfold good_dev in g. rewrite k in g. destruct h as [h|[h|[]]]; injection h as h1 h2; lia.
Qed.
Lemma column_entries i : 0 <= i < N + P -> entries_of (N + P) (column N P ds i) = b2z (i <? N) + zs (fun p => b2z (i =? fst p - 1)) (flat_map off ds).
Proof.
  intros hi. set (l := flat_map off ds). assert (Nl : NoDup l) by exact off_nodup. assert (Rl : forall p, In p l -> 1 <= snd p <= N + P /\ fst p <> snd p).
  { intros [u v] h. apply in_flat_map in h. destruct h as (d & I & h). apply (off_range d u v I) in h. cbn [fst snd]. lia. }
  set (K := (if i <? N then [i] else []) ++ map (fun p => snd p - 1) (filter (fun p => i =? fst p - 1) l)).
  assert (len : Z.of_nat (length K) = b2z (i <? N) + zs (fun p => b2z (i =? fst p - 1)) l).
  { unfold K. rewrite app_length, map_length. assert (e : Z.of_nat (length (filter (fun p => i =? fst p - 1) l)) = zs (fun p => b2z (i =? fst p - 1)) l).
    { clear. induction l as [|p l IH]; [reflexivity|]. rewrite zs_cons, <- IH. cbn [filter]. unfold b2z. destruct (i =? fst p - 1); cbn [length]; lia. }
    unfold b2z at 1. destruct (i <? N); cbn [length]; lia. }
  rewrite <- len. unfold entries_of. f_equal. apply Permutation_length, NoDup_Permutation.
  - apply NoDup_filter, zrange_nodup.
  - unfold K. apply nodup_two.
    + destruct (i <? N); repeat constructor. intros [].
    + clear len K. induction l as [|p l IH]; [constructor|]. apply NoDup_cons_iff in Nl. destruct Nl as [n1 n2]. cbn [filter]. assert (IH' : NoDup (map (fun p => snd p - 1) (filter (fun p => i =? fst p - 1) l))) by (apply IH; [exact n2|intros q hq; apply Rl; right; exact hq]).
      destruct (i =? fst p - 1) eqn:e; [|exact IH']. cbn [map]. constructor; [|exact IH']. intros h. apply in_map_iff in h. destruct h as (q & h1 & h2). apply filter_In in h2. destruct h2 as [h2 h3]. apply n1. replace p with q; [exact h2|]. destruct p, q. cbn [fst snd] in *. f_equal; lia.
    + intros x h1 h2. apply in_map_iff in h2. destruct h2 as (q & h3 & h4). apply filter_In in h4. destruct h4 as [h4 h5]. assert (r := Rl q h4). destruct (i <? N); [|destruct h1]. destruct h1 as [<-|[]]. lia.
  - intros j. rewrite filter_In, zrange_in. unfold K. rewrite in_app_iff, in_map_iff. split.
    + intros [h1 h2]. assert (nz : column N P ds i j <> Qz) by (intros e; apply zero_iff in e; rewrite e in h2; discriminate). apply (nonzero i j hi h1) in nz. destruct nz as [[-> h]|h].
      * left. replace (j <? N) with true by lia. left. reflexivity.
      * right. exists (i + 1, j + 1). split; [cbn; lia|]. apply filter_In. split; [exact h|cbn; lia].
    + intros [h|(q & h1 & h2)].
      * destruct (i <? N) eqn:e; [|destruct h]. destruct h as [<-|[]]. split; [lia|]. destruct (is_zero (column N P ds i i)) eqn:z; [|reflexivity]. apply zero_iff in z. exfalso. revert z. apply (nonzero i i hi hi). left. lia.
      * apply filter_In in h2. destruct h2 as [h2 h3]. assert (r := Rl q h2). assert (hj : 0 <= j < N + P) by lia. split; [exact hj|]. destruct (is_zero (column N P ds i j)) eqn:z; [|reflexivity]. apply zero_iff in z. exfalso. revert z.
        apply (nonzero i j hi hj). right. replace (i + 1, j + 1) with q; [exact h2|]. destruct q. cbn [fst snd] in *. f_equal; lia.
Qed.
End Exact.
Lemma zs_exact n k : 0 <= k < n -> zs (fun i => b2z (i =? k)) (zrange n) = 1.
Proof.
  intros h. assert (I := proj2 (zrange_in n k) h). assert (Nd := zrange_nodup n). induction (zrange n) as [|a l IH]; [destruct I|]. apply NoDup_cons_iff in Nd. destruct Nd as [n1 n2]. rewrite zs_cons. unfold b2z at 1.
  destruct (a =? k) eqn:e.
  - assert (a = k) by lia. subst a. assert (z : zs (fun i => b2z (i =? k)) l = 0); [|lia]. clear - n1. induction l as [|b l IH]; [reflexivity|]. rewrite zs_cons. cbn in n1. unfold b2z at 1. replace (b =? k) with false by (destruct (b =? k) eqn:e; [exfalso; apply n1; left; lia|reflexivity]). rewrite IH by tauto. reflexivity.
  - destruct I as [->|I]; [lia|]. rewrite (IH I n2). reflexivity.
Qed.
Lemma zs_ext {A} (f g : A -> Z) l : (forall a, In a l -> f a = g a) -> zs f l = zs g l.
Proof. intros H. apply Z.le_antisymm; apply zs_le; intros a I; rewrite (H a I); lia. Qed.
Lemma zs_low_exact N n : 0 <= N <= n -> zs (fun i => b2z (i <? N)) (zrange n) = N.
Proof.
  intros h. assert (e : zs (fun i => b2z (i <? N)) (zrange n) = Z.of_nat (length (filter (fun i => i <? N) (zrange n)))).
  { induction (zrange n) as [|a l IH]; [reflexivity|]. rewrite zs_cons, IH. cbn [filter]. unfold b2z. destruct (a <? N); cbn [length]; lia. }
  rewrite e. replace (length _) with (length (zrange N)); [unfold zrange; rewrite map_length, seq_length; lia|]. apply Permutation_length, NoDup_Permutation; [apply zrange_nodup|apply NoDup_filter, zrange_nodup|].
  intros x. rewrite filter_In, !zrange_in. lia.
Qed.
Lemma exact ds : let N := nodenum ds in good N (powerdev ds) ds -> simple N ds -> entries ds = places ds.
Proof.
  intros N G S. unfold entries, places. fold N. set (P := powerdev ds) in *. assert (P0 : 0 <= P) by (unfold P, powerdev; lia). assert (N0 : 0 <= N) by exact (proj1 (nodenum_highest ds)).
  change (zs (fun i => entries_of (N + P) (column N P ds i)) (zrange (N + P)) = 2 * (Z.of_nat (length ds) - currentdev ds) + N).
  rewrite (zs_ext _ (fun i => b2z (i <? N) + zs (fun p => b2z (i =? fst p - 1)) (flat_map (off N P) ds))) by (intros i hi; apply zrange_in in hi; apply column_entries; assumption).
  rewrite zs_add, zs_low_exact, zs_swap by lia. rewrite (zs_ext _ (fun _ => 1)).
  2: { intros [u v] h. apply zs_exact. apply in_flat_map in h. destruct h as (d & I & h). apply (off_range N P ds G P0 d u v I) in h. cbn [fst]. lia. }
  assert (e : zs (fun _ : Z * Z => 1) (flat_map (off N P) ds) = 2 * (Z.of_nat (length ds) - currentdev ds)); [|lia].
  assert (c : forall l : list (Z * Z), zs (fun _ => 1) l = Z.of_nat (length l)) by (induction l as [|a l IH]; [reflexivity|]; rewrite zs_cons, IH; cbn [length]; lia). rewrite c.
  clear. unfold currentdev. clearbody N P. induction ds as [|d l IH]; [reflexivity|]. cbn [flat_map filter length]. rewrite app_length. unfold off at 1, is_kind at 1. destruct (d_kind d); cbn [length]; lia.
Qed.
