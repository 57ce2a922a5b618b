(** Proofs about the two ways in which the enumerator is set up, and about what the search keeps. *)
From Coq Require Import ZifyBool.
From Verif Require Import Base.Prelude Model.SeqEnum Spec.SeqEnumSpec Proofs.SeqEnumP Proofs.SeqSearchP.
Local Open Scope Z_scope.

(** * What the search keeps *)

Lemma put_trim c x o size : firstn size (put_cost c x (firstn size o)) = firstn size (put_cost c x o).
Proof.
  revert size. induction o as [|[k y] t IH]; intros size; [now rewrite firstn_nil|].
  destruct size as [|size]; [reflexivity|]. cbn [firstn put_cost].
  destruct (c <? k); [|destruct (c =? k)]; cbn [firstn].
  - f_equal. destruct size; [reflexivity|]. rewrite !firstn_cons. f_equal.
    rewrite firstn_firstn. f_equal. lia.
  - f_equal. rewrite firstn_firstn. f_equal. lia.
  - f_equal. apply IH.
Qed.

Definition note_all (cost : candidate -> Z) (o : list (Z * candidate)) (x : candidate) :=
  if 0 <=? cost x then put_cost (cost x) x o else o.

Lemma note_trim cost size l o :
  fold_left (note_cost cost size) l (firstn size o) = firstn size (fold_left (note_all cost) l o).
Proof.
  revert o. induction l as [|x l IH]; intros o; [reflexivity|]. cbn [fold_left].
  unfold note_cost at 2, note_all at 2. destruct (0 <=? cost x); [|apply IH].
  rewrite put_trim. apply IH.
Qed.

Lemma put_in c x o k y : In (k, y) (put_cost c x o) -> (k, y) = (c, x) \/ In (k, y) o.
Proof.
  induction o as [|[k' y'] t IH]; cbn [put_cost]; [intros [H|[]]; auto|].
  destruct (c <? k'); [|destruct (c =? k')]; cbn; intros H.
  - destruct H as [H|H]; auto.
  - destruct H as [H|H]; auto.
  - destruct H as [H|H]; auto. destruct (IH H); auto.
Qed.
Lemma put_keys c x o k : In k (map fst (put_cost c x o)) <-> k = c \/ In k (map fst o).
Proof.
  induction o as [|[k' y'] t IH]; cbn [put_cost]; [cbn; intuition|].
  destruct (c <? k') eqn:E1; [|destruct (c =? k') eqn:E2]; cbn.
  - intuition.
  - assert (c = k') as -> by lia. intuition.
  - cbn in IH. rewrite IH. intuition.
Qed.
Lemma put_sorted c x o : StronglySorted Z.lt (map fst o) -> StronglySorted Z.lt (map fst (put_cost c x o)).
Proof.
  induction o as [|[k y] t IH]; cbn [put_cost map fst]; intros H; [repeat constructor|].
  inversion H as [|? ? Hs Hf]; subst. destruct (c <? k) eqn:E1; [|destruct (c =? k) eqn:E2]; cbn [map fst].
  - constructor; auto. constructor; [lia|]. eapply Forall_impl; [|exact Hf]. cbn. lia.
  - assert (c = k) as -> by lia. exact H.
  - constructor; auto. apply Forall_forall. intros z Hz. apply put_keys in Hz as [->|Hz]; [lia|].
    rewrite Forall_forall in Hf. auto.
Qed.

Lemma note_all_spec cost l o :
  StronglySorted Z.lt (map fst o) ->
  (forall k x, In (k, x) o -> cost x = k /\ 0 <= k) ->
  let r := fold_left (note_all cost) l o in
  StronglySorted Z.lt (map fst r) /\
  (forall k x, In (k, x) r -> (In (k, x) o \/ In x l) /\ cost x = k /\ 0 <= k) /\
  (forall k, In k (map fst o) -> In k (map fst r)) /\
  (forall x, In x l -> 0 <= cost x -> In (cost x) (map fst r)).
Proof.
  revert o. induction l as [|x l IH]; intros o Hs Ho; cbn [fold_left]; cbn zeta.
  - split; auto. split; [intros k y H; destruct (Ho _ _ H); auto|]. split; auto. intros ? [].
  - unfold note_all at 2 4 6 8. destruct (0 <=? cost x) eqn:E.
    + destruct (IH (put_cost (cost x) x o)) as (A & B & C & D).
      * now apply put_sorted.
      * intros k y H. apply put_in in H as [H|H]; [injection H as -> ->; split; [reflexivity|lia]|auto].
      * split; [exact A|]. split; [|split].
        -- intros k y H. destruct (B k y H) as ([H1|H1] & H2 & H3); [|cbn; auto].
           apply put_in in H1 as [H1|H1]; [injection H1 as -> ->|]; cbn; auto.
        -- intros k H. apply C, put_keys. auto.
        -- intros y [<-|Hy] Hc; [|auto]. apply C, put_keys. auto.
    + destruct (IH o Hs Ho) as (A & B & C & D). split; [exact A|]. split; [|split; [exact C|]].
      * intros k y H. destruct (B k y H) as ([H1|H1] & H2 & H3); cbn; auto.
      * intros y [<-|Hy] Hc; [lia|auto].
Qed.

Lemma sorted_app (l1 l2 : list Z) a b : StronglySorted Z.lt (l1 ++ l2) -> In a l1 -> In b l2 -> a < b.
Proof.
  induction l1 as [|x l1 IH]; cbn; [tauto|]. intros H. inversion H as [|? ? Hs Hf]; subst.
  rewrite Forall_forall in Hf. intros [<-|Ha] Hb; [|auto]. apply Hf, in_or_app. auto.
Qed.
Lemma sorted_app1 (l1 l2 : list Z) : StronglySorted Z.lt (l1 ++ l2) -> StronglySorted Z.lt l1.
Proof.
  induction l1 as [|x l1 IH]; cbn; intros H; constructor; inversion H as [|? ? Hs Hf]; subst; auto.
  rewrite Forall_forall in *. intros y Hy. apply Hf, in_or_app. auto.
Qed.

Lemma note_best cost size l : best cost size l (fold_left (note_cost cost size) l []).
Proof.
  pose proof (note_trim cost size l []) as Et. rewrite firstn_nil in Et. rewrite Et. clear Et.
  destruct (note_all_spec cost l []) as (A & B & _ & D); [constructor|intros ? ? []|].
  set (r := fold_left (note_all cost) l []) in *. clearbody r.
  pose proof (firstn_skipn size r) as E. rewrite <- E in A. rewrite map_app in A.
  split; [now apply sorted_app1 in A|]. split; [rewrite firstn_length; lia|]. split.
  - intros k x H. destruct (B k x) as ([[]|H1] & H2 & H3); auto. rewrite <- E. apply in_or_app. auto.
  - intros x Hx Hc. pose proof (D x Hx Hc) as H. rewrite <- E, map_app in H. apply in_app_or in H as [H|H]; auto.
    right. split.
    + rewrite firstn_length. apply Nat.min_l. destruct (Nat.le_gt_cases size (length r)); auto.
      rewrite skipn_all2 in H by lia. destruct H.
    + intros k Hk. eapply sorted_app; eauto.
Qed.

(** * Factorials *)

Fixpoint zfact (n : nat) : Z := match n with O => 1 | S k => Z.of_nat n * zfact k end.
Lemma zfact_eq n : Z.of_nat (fact n) = zfact n.
Proof.
  induction n as [|n IH]; [reflexivity|]. change (fact (S n)) with (S n * fact n)%nat.
  rewrite Nat2Z.inj_mul, IH. reflexivity.
Qed.
Lemma factorial_small n : (n <= 16)%nat -> factorial n = Z.of_nat (fact n).
Proof.
  rewrite zfact_eq. intros H. do 17 (destruct n as [|n]; [vm_compute; reflexivity|]). lia.
Qed.
Lemma fact_square n m : (n <= 16)%nat -> m <= 2 ^ 20 -> w64 (factorial n * factorial n) < m ->
  w64 (factorial n * factorial n) = Z.of_nat (fact n) * Z.of_nat (fact n).
Proof.
  rewrite !zfact_eq. intros H Hm.
  do 13 (destruct n as [|n]; [intros _; vm_compute; reflexivity|]).
  do 4 (destruct n as [|n]; [intros H1; exfalso; match type of H1 with w64 ?t < _ => 
     assert (2 ^ 20 <= w64 t) by (vm_compute; discriminate) end; lia|]). lia.
Qed.

(** * The set-up *)

Section Setup.
Context (d : design) (maxiter junk : Z) (s : setup) (e : enum).
Hypothesis Hok : groups_ok d.
Hypothesis Hvar : variants_ok d.
Hypothesis Hstart : start d maxiter junk = Some (s, e).
Let n := length (d_sizes d).
Let blocks := seq 0 n.

Lemma fold_max_le l m : m <= fold_left (fun m s => Z.max m (Z.of_nat s)) l m.
Proof. revert m. induction l as [|a l IH]; intros m; cbn; [lia|]. specialize (IH (Z.max m (Z.of_nat a))). lia. Qed.
Lemma fold_max_in l m a : In a l -> Z.of_nat a <= fold_left (fun m s => Z.max m (Z.of_nat s)) l m.
Proof.
  revert m. induction l as [|b l IH]; intros m; cbn; [tauto|]. intros [->|H]; auto.
  pose proof (fold_max_le l (Z.max m (Z.of_nat a))). lia.
Qed.

Lemma start_shape :
  s_pos s = ordered blocks (d_orders d) (root_up maxiter) true /\
  s_neg s = ordered blocks (d_orders d) (root_up maxiter) false /\
  s_limits s = limits d /\ s_owners s = owners d /\
  (forall l, In l (s_limits s) -> Z.of_nat l <= s_maxsize s) /\
  e_sel e = map (fun _ => 0%nat) (d_sizes d) /\ e_cnt e = zeros (limits d) /\ e_i e = 0 /\ e_j e = 0 /\ e_out e = false /\
  if is_ordered s then
    s_max s = Z.of_nat (length (s_pos s)) /\ e_pos e = pick (s_pos s) 0 /\ e_neg e = pick (s_neg s) 0 /\
    w64 (s_max s * tot_sel d) <= maxiter
  else
    s_max s = factorial n /\ e_pos e = blocks /\ e_neg e = blocks /\ (n <= 16)%nat /\
    w64 (factorial n * factorial n) < maxiter /\ w64 (w64 (factorial n * factorial n) * tot_sel d) <= maxiter.
Proof.
  revert Hstart. unfold start, is_ordered. fold n. fold blocks.
  assert (length blocks = n) as Eb by apply seq_length. rewrite Eb.
  set (ps := ordered blocks (d_orders d) (root_up maxiter) true).
  set (ns := ordered blocks (d_orders d) (root_up maxiter) false).
  assert (forall l, In l (limits d) -> Z.of_nat l <= fold_left (fun m s => Z.max m (Z.of_nat s)) (d_sizes d) junk) as Hl.
  { intros l Hl. apply fold_max_in. now apply (limits_bound d Hok). }
  assert (match ps, ns with [], _ | _, [] => true | _, _ => false end =
          negb (match ps, ns with [], _ | _, [] => false | _, _ => true end)) as Hb by (destruct ps, ns; auto).
  rewrite Hb. clear Hb.
  destruct (match ps, ns with [], _ | _, [] => false | _, _ => true end) eqn:E; cbn [negb].
  - destruct (maxiter <? w64 (Z.of_nat (length ps) * tot_sel d)) eqn:E1; [discriminate|].
    intros H. injection H as <- <-. cbn [s_pos s_neg s_limits s_owners s_maxsize s_max e_sel e_cnt e_i e_j e_out e_pos e_neg].
    rewrite E. repeat (split; [reflexivity || exact Hl|]). lia.
  - match goal with |- (if ?b then _ else _) = _ -> _ => destruct b eqn:E1 end; [|discriminate].
    intros H. injection H as <- <-. cbn [s_pos s_neg s_limits s_owners s_maxsize s_max e_sel e_cnt e_i e_j e_out e_pos e_neg].
    rewrite E. repeat (split; [reflexivity || exact Hl|]). lia.
Qed.

Lemma limits_pos : Forall (fun l => (0 < l)%nat) (s_limits s).
Proof.
  destruct start_shape as (_ & _ & -> & _). apply Forall_forall. intros l Hl. apply Hvar. now apply (limits_bound d Hok).
Qed.
Lemma limits_size : Forall (fun l => Z.of_nat l <= s_maxsize s) (s_limits s).
Proof. apply Forall_forall. apply start_shape. Qed.

Lemma sel_zeros : view_sel s (zeros (s_limits s)) = map (fun _ => 0%nat) (d_sizes d).
Proof.
  destruct start_shape as (_ & _ & -> & Eo & _). unfold view_sel. rewrite Eo, (owners_eq d), map_map.
  assert (forall k, nth k (zeros (limits d)) 0%nat = 0%nat) as Hz.
  { unfold zeros. intros k. generalize (limits d) as ls. intros ls. revert k. induction ls; intros [|k]; cbn; auto. }
  erewrite map_ext by (intros; apply Hz).
  assert (forall (l : list nat) m, map (fun _ : nat => 0%nat) (seq m (length l)) = map (fun _ => 0%nat) l) as Hm.
  { induction l as [|a l IH]; intros m; cbn; [reflexivity|]. f_equal. apply IH. }
  apply Hm.
Qed.

Lemma view_selection c : view_sel s c = selection d c.
Proof. destruct start_shape as (_ & _ & _ & Eo & _). unfold view_sel, selection. now rewrite Eo. Qed.

Lemma root_nonneg : 0 <= root_up maxiter.
Proof. apply Z.sqrt_up_nonneg. Qed.

(** ** The sequences *)
Hypothesis Hord : orders_ok d.

Definition exts_of (pos : bool) : list (list nat) :=
  exts blocks (map (edge_of pos) (d_orders d)) n (indegrees (map (edge_of pos) (d_orders d))) [].

Lemma edge_in pos a b : In (a, b) (map (edge_of pos) (d_orders d)) -> In b blocks.
Proof.
  intros H. apply in_map_iff in H as ([[x y] t] & E & H). apply Hord in H as [H1 H2]. cbn in H1, H2.
  apply in_seq. fold n in H1, H2. destruct t, pos; cbn in E; injection E as <- <-; lia.
Qed.

Lemma exts_of_all pos : each_once (extension blocks (map (edge_of pos) (d_orders d))) (exts_of pos).
Proof.
  unfold exts_of. replace n with (length blocks) by apply seq_length. apply topo_all.
  - apply seq_NoDup.
  - apply edge_in.
Qed.

Lemma ordered_eq pos : ordered blocks (d_orders d) (root_up maxiter) pos =
  match d_orders d with [] => [] | _ => if (Z.of_nat (length (exts_of pos)) <=? root_up maxiter) then exts_of pos else [] end.
Proof.
  unfold ordered. destruct (d_orders d) as [|c cs] eqn:Ec; [reflexivity|].
  rewrite topo_exts by (cbn; pose proof root_nonneg; lia). cbn [app].
  unfold exts_of. rewrite Ec. replace (length blocks) with n by (symmetry; apply seq_length).
  set (x := exts _ _ _ _ _). unfold cut.
  destruct (Z.of_nat (length x) <=? root_up maxiter) eqn:E; cbn [fst].
  - rewrite E. destruct x; reflexivity.
  - rewrite firstn_length_le by (pose proof root_nonneg; lia).
    destruct (Z.of_nat (S (Z.to_nat (root_up maxiter))) <=? root_up maxiter) eqn:E2; [pose proof root_nonneg; lia|].
    now rewrite andb_false_r.
Qed.

Lemma is_ordered_exts : is_ordered s = true ->
  s_pos s = exts_of true /\ s_neg s = exts_of false /\ (0 < length (s_pos s))%nat /\ (0 < length (s_neg s))%nat.
Proof.
  unfold is_ordered. destruct start_shape as (-> & -> & _). rewrite !ordered_eq.
  destruct (d_orders d) as [|]; [discriminate|].
  destruct (_ <=? _); [|discriminate].
  destruct (exts_of true) eqn:E1; [discriminate|].
  destruct (_ <=? _); [|discriminate].
  destruct (exts_of false) eqn:E2; [discriminate|]. intros _. cbn. repeat split; lia.
Qed.

Lemma extension_keeps p q :
  extension blocks (map (edge_of true) (d_orders d)) p /\ extension blocks (map (edge_of false) (d_orders d)) q <->
  arrangement n p /\ arrangement n q /\ forall c, In c (d_orders d) -> keeps p q c.
Proof.
  unfold extension, arrangement. fold blocks. split.
  - intros [[H1 H2] [H3 H4]]. split; [auto|]. split; [auto|]. intros [[a b] t] Hc.
    assert (In (edge_of true ((a, b), t)) (map (edge_of true) (d_orders d))) as E1 by now apply in_map.
    assert (In (edge_of false ((a, b), t)) (map (edge_of false) (d_orders d))) as E2 by now apply in_map.
    unfold keeps, left_of, above. destruct t; cbn in *; split; auto.
  - intros (H1 & H2 & H). split; (split; [assumption|]); intros a b Hab; apply in_map_iff in Hab as ([[x y] t] & E & Hc);
      specialize (H _ Hc); unfold keeps, left_of, above in H; destruct t; cbn in *; injection E as <- <-; tauto.
Qed.

(** ** Without constraints *)
Section Plain.
Hypothesis Hplain : is_ordered s = false.
Let P (i : nat) : list nat := nth i (perms n blocks) [].

Lemma plain_M : s_max s = Z.of_nat (fact n) /\ (n <= 16)%nat /\ length (perms n blocks) = fact n.
Proof.
  destruct start_shape as (_ & _ & _ & _ & _ & _ & _ & _ & _ & _ & H). rewrite Hplain in H.
  destruct H as (-> & _ & _ & H & _). split; [now apply factorial_small|]. split; auto.
  apply perms_len; [apply seq_NoDup|apply seq_length].
Qed.

Lemma plain_pos i : (S i < fact n)%nat ->
  (if is_ordered s then pick (s_pos s) (Z.of_nat i + 1) else next_permutation (P i)) = P (S i).
Proof.
  intros Hi. rewrite Hplain. destruct plain_M as (_ & _ & Hl). unfold next_permutation, P.
  destruct (perms_spec n blocks (seq_sorted 0 n) (seq_length n 0)) as (Hs & _).
  rewrite (steps_nth _ _ _ [] i Hs) by lia. reflexivity.
Qed.
Lemma plain_neg0 j : (j < fact n)%nat ->
  (if is_ordered s then pick (s_neg s) 0 else sorted (P j)) = P 0%nat.
Proof.
  intros Hj. rewrite Hplain. destruct plain_M as (_ & _ & Hl). unfold P.
  destruct (perms_spec n blocks (seq_sorted 0 n) (seq_length n 0)) as (_ & (t & Ht) & _). rewrite Ht at 2. cbn [nth].
  apply sorted_seq. apply (perms_in n blocks); [apply seq_NoDup|apply seq_length|]. apply nth_In. lia.
Qed.
Lemma plain_neg j : (S j < fact n)%nat ->
  (if is_ordered s then pick (s_neg s) (Z.of_nat j + 1) else next_permutation (P j)) = P (S j).
Proof.
  intros Hi. rewrite Hplain. destruct plain_M as (_ & _ & Hl). unfold next_permutation, P.
  destruct (perms_spec n blocks (seq_sorted 0 n) (seq_length n 0)) as (Hs & _).
  rewrite (steps_nth _ _ _ [] j Hs) by lia. reflexivity.
Qed.

Lemma plain_start : e = st s P P 0 0 (zeros (s_limits s)).
Proof.
  pose proof sel_zeros as Hz.
  destruct start_shape as (_ & _ & El & Eo & _ & E1 & E2 & E3 & E4 & E5 & H). rewrite Hplain in H.
  destruct H as (_ & E6 & E7 & _). unfold st. rewrite Hz. rewrite El.
  destruct (perms_spec n blocks (seq_sorted 0 n) (seq_length n 0)) as (_ & (t & Ht) & _).
  unfold P. rewrite Ht. cbn [nth]. destruct e. cbn in *. congruence.
Qed.

Definition plain_walk := walk s (fact n) P P.

Lemma plain_visits fuel : visits fuel s e = firstn fuel (map view plain_walk).
Proof.
  rewrite plain_start. destruct plain_M as (Hm & _). apply visits_walk; auto using limits_pos, limits_size, plain_pos, plain_neg0, plain_neg.
  apply lt_O_fact.
Qed.
Lemma plain_search cost size fuel : search fuel cost size s e [] =
  if (length plain_walk <=? fuel)%nat then Some (fold_left (note_cost cost size) (map view plain_walk) []) else None.
Proof.
  rewrite plain_start. destruct plain_M as (Hm & _). apply search_walk; auto using limits_pos, limits_size, plain_pos, plain_neg0, plain_neg.
  apply lt_O_fact.
Qed.
Lemma plain_len : length plain_walk = (fact n * fact n * product (limits d))%nat.
Proof. unfold plain_walk. rewrite walk_len. destruct start_shape as (_ & _ & -> & _). reflexivity. Qed.

Lemma plain_once : each_once (candidate_ok d) (map view plain_walk).
Proof.
  destruct plain_M as (Hm & Hn & Hl).
  assert (forall i j, (i < fact n)%nat -> (j < fact n)%nat -> P i = P j -> i = j) as Hinj.
  { intros i j Hi Hj E. apply (proj1 (NoDup_nth (perms n blocks) [])); auto; try lia.
    apply perms_nodup; [apply seq_NoDup|apply seq_length]. }
  assert (forall p, arrangement n p <-> exists i, (i < fact n)%nat /\ p = P i) as Harr.
  { intros p. unfold arrangement. fold blocks. rewrite <- (perms_in n blocks p (seq_NoDup _ _) (seq_length _ _)). split.
    - intros H. apply (In_nth _ _ []) in H as (i & Hi & <-). exists i. split; [lia|reflexivity].
    - intros (i & Hi & ->). apply nth_In. lia. }
  destruct start_shape as (_ & _ & El & _). split.
  - apply views_nodup; auto. intros c c'. rewrite El, !view_selection. now apply selection_inj.
  - intros [[p q] sl]. unfold plain_walk. rewrite views_in. unfold candidate_ok. fold n. rewrite !Harr, (selection_choice d Hok). split.
    + intros (i & j & c & Hi & Hj & Hc & -> & -> & ->). rewrite El in Hc. split; [eauto|]. split; [eauto|].
      exists c. split; auto. apply view_selection.
    + intros ((i & Hi & ->) & (j & Hj & ->) & (c & Hc & ->)). exists i, j, c. rewrite El, view_selection. auto 10.
Qed.
End Plain.

(** ** With constraints *)
Section Ord.
Hypothesis Hordered : is_ordered s = true.
Let M := length (s_pos s).
Let P (i : nat) : list nat := pick (s_pos s) (Z.of_nat i).
Let Q (j : nat) : list nat := pick (s_neg s) (Z.of_nat j).

Definition ord_walk := walk s M P Q.

Lemma ord_M : s_max s = Z.of_nat M.
Proof. destruct start_shape as (_ & _ & _ & _ & _ & _ & _ & _ & _ & _ & H). rewrite Hordered in H. apply H. Qed.
Lemma ord_pos i : (S i < M)%nat -> (if is_ordered s then pick (s_pos s) (Z.of_nat i + 1) else next_permutation (P i)) = P (S i).
Proof. intros _. rewrite Hordered. unfold P. f_equal. lia. Qed.
Lemma ord_neg0 j : (j < M)%nat -> (if is_ordered s then pick (s_neg s) 0 else sorted (Q j)) = Q 0%nat.
Proof. intros _. rewrite Hordered. reflexivity. Qed.
Lemma ord_neg j : (S j < M)%nat -> (if is_ordered s then pick (s_neg s) (Z.of_nat j + 1) else next_permutation (Q j)) = Q (S j).
Proof. intros _. rewrite Hordered. unfold Q. f_equal. lia. Qed.
Lemma ord_start : e = st s P Q 0 0 (zeros (s_limits s)).
Proof.
  pose proof sel_zeros as Hz.
  destruct start_shape as (_ & _ & El & Eo & _ & E1 & E2 & E3 & E4 & E5 & H). rewrite Hordered in H.
  destruct H as (_ & E6 & E7 & _). unfold st. rewrite Hz. rewrite El. unfold P, Q. cbn [Z.of_nat].
  destruct e. cbn in *. congruence.
Qed.
Lemma ord_visits fuel : visits fuel s e = firstn fuel (map view ord_walk).
Proof.
  rewrite ord_start. destruct (is_ordered_exts Hordered) as (_ & _ & H & _).
  apply visits_walk; auto using limits_pos, limits_size, ord_pos, ord_neg0, ord_neg, ord_M.
Qed.
Lemma ord_search cost size fuel : search fuel cost size s e [] =
  if (length ord_walk <=? fuel)%nat then Some (fold_left (note_cost cost size) (map view ord_walk) []) else None.
Proof.
  rewrite ord_start. destruct (is_ordered_exts Hordered) as (_ & _ & H & _).
  apply search_walk; auto using limits_pos, limits_size, ord_pos, ord_neg0, ord_neg, ord_M.
Qed.
Lemma ord_len : length ord_walk = (length (s_pos s) * length (s_pos s) * product (limits d))%nat.
Proof. unfold ord_walk. rewrite walk_len. destruct start_shape as (_ & _ & -> & _). reflexivity. Qed.

Lemma pick_in l i : (0 < length l)%nat -> In (pick l i) l.
Proof. intros H. apply nth_In. pose proof (Z.mod_pos_bound i (Z.of_nat (length l)) ltac:(lia)). lia. Qed.
Lemma pick_small l i : (i < length l)%nat -> pick l (Z.of_nat i) = nth i l [].
Proof. intros H. unfold pick. rewrite Z.mod_small by lia. now rewrite Nat2Z.id. Qed.

Lemma ord_in p q sl : In (p, q, sl) (map view ord_walk) <->
  exists i j c, (i < M)%nat /\ (j < M)%nat /\ Forall2 lt c (limits d) /\ p = P i /\ q = Q j /\ sl = selection d c.
Proof.
  unfold ord_walk. rewrite views_in. destruct start_shape as (_ & _ & -> & _).
  split; intros (i & j & c & H); exists i, j, c; rewrite view_selection in *; auto.
Qed.

Lemma ord_kept x : In x (map view ord_walk) -> candidate_ok d x /\ keeps_all d x.
Proof.
  destruct x as [[p q] sl]. rewrite ord_in. intros (i & j & c & _ & _ & Hc & -> & -> & ->).
  destruct (is_ordered_exts Hordered) as (Ep & En & Hp & Hn).
  assert (In (P i) (exts_of true)) as H1 by (rewrite <- Ep; now apply pick_in).
  assert (In (Q j) (exts_of false)) as H2 by (rewrite <- En; now apply pick_in).
  apply exts_of_all in H1, H2. destruct (proj1 (extension_keeps _ _) (conj H1 H2)) as (A & B & C).
  split; [|exact C]. split; [exact A|]. split; [exact B|]. apply (selection_choice d Hok). eauto.
Qed.

Lemma ord_all x : (length (s_neg s) <= length (s_pos s))%nat -> candidate_ok d x -> keeps_all d x -> In x (map view ord_walk).
Proof.
  destruct x as [[p q] sl]. intros Hle (A & B & C) K. rewrite ord_in.
  destruct (is_ordered_exts Hordered) as (Ep & En & Hp & Hn).
  destruct (proj2 (extension_keeps p q) (conj A (conj B K))) as [E1 E2].
  apply exts_of_all in E1, E2. rewrite <- Ep in E1. rewrite <- En in E2.
  apply (In_nth _ _ []) in E1 as (i & Hi & <-). apply (In_nth _ _ []) in E2 as (j & Hj & <-).
  apply (selection_choice d Hok) in C as (c & Hc & ->).
  exists i, j, c. unfold P, Q. rewrite !pick_small by assumption. fold M in Hle, Hi. repeat split; auto; lia.
Qed.

Lemma ord_nodup : (length (s_neg s) = length (s_pos s))%nat -> NoDup (map view ord_walk).
Proof.
  intros He. destruct (is_ordered_exts Hordered) as (Ep & En & Hp & Hn).
  unfold ord_walk. apply views_nodup.
  - intros i j Hi Hj. unfold P. rewrite !pick_small by assumption. rewrite Ep. intros E.
    apply (proj1 (NoDup_nth (exts_of true) [])); auto; try (rewrite <- Ep; assumption). apply exts_of_all.
  - intros i j Hi Hj. unfold Q. fold M in He. rewrite !pick_small by lia. rewrite En. intros E.
    apply (proj1 (NoDup_nth (exts_of false) [])); auto; try (rewrite <- En; lia). apply exts_of_all.
  - destruct start_shape as (_ & _ & El & _). intros c c'. rewrite El, !view_selection. now apply selection_inj.
Qed.

Lemma ord_short : (length (s_pos s) < length (s_neg s))%nat -> exists x, candidate_ok d x /\ keeps_all d x /\ ~ In x (map view ord_walk).
Proof.
  intros Hlt. destruct (is_ordered_exts Hordered) as (Ep & En & Hp & Hn).
  assert (In (nth 0 (s_pos s) []) (exts_of true)) as H1 by (rewrite <- Ep; now apply nth_In).
  assert (In (nth M (s_neg s) []) (exts_of false)) as H2 by (rewrite <- En; now apply nth_In).
  apply exts_of_all in H1, H2. destruct (proj1 (extension_keeps _ _) (conj H1 H2)) as (A & B & C).
  exists (nth 0 (s_pos s) [], nth M (s_neg s) [], selection d (zeros (limits d))). split; [|split; [exact C|]].
  - split; [exact A|]. split; [exact B|]. apply (selection_choice d Hok). exists (zeros (limits d)). split; auto.
    pose proof limits_pos as Hl. destruct start_shape as (_ & _ & El & _). rewrite El in Hl. clear -Hl.
    induction Hl; cbn; constructor; auto.
  - rewrite ord_in. intros (i & j & c & Hi & Hj & _ & _ & Ej & _). unfold Q in Ej. fold M in Hlt.
    rewrite pick_small in Ej by lia. enough (M = j) by lia.
    apply (proj1 (NoDup_nth (s_neg s) [])); auto; try lia. rewrite En. apply exts_of_all.
Qed.
End Ord.

(** ** When the constraints are not used *)
Lemma plain_contradictory :
  is_ordered s = false -> maxiter <= 2 ^ 20 -> d_orders d <> [] ->
  forall x, candidate_ok d x -> ~ keeps_all d x.
Proof.
  intros Hp Hm Ho [[p q] sl] (A & B & _) K.
  destruct (proj2 (extension_keeps p q) (conj A (conj B K))) as [E1 E2].
  pose proof E1 as F1. pose proof E2 as F2. apply exts_of_all in F1, F2.
  assert (forall pos, (length (exts_of pos) <= fact n)%nat) as Hle.
  { intros pos. rewrite <- (perms_len n blocks (seq_NoDup _ _) (seq_length _ _)).
    apply NoDup_incl_length; [apply exts_of_all|]. intros l Hl. apply exts_of_all in Hl as [Hl _].
    apply perms_in; auto; [apply seq_NoDup|apply seq_length]. }
  destruct start_shape as (Ep & En & _ & _ & _ & _ & _ & _ & _ & _ & H). rewrite Hp in H.
  destruct H as (_ & _ & _ & H16 & Hlt & _).
  rewrite (fact_square n maxiter H16 Hm Hlt) in Hlt.
  assert (Z.of_nat (fact n) <= root_up maxiter) as Hr.
  { unfold root_up. apply Z.lt_le_incl, Z.sqrt_up_lt_square; lia. }
  assert (forall pos, ordered blocks (d_orders d) (root_up maxiter) pos = exts_of pos) as Heq.
  { intros pos. rewrite ordered_eq. destruct (d_orders d); [congruence|].
    destruct (Z.of_nat (length (exts_of pos)) <=? root_up maxiter) eqn:E; [reflexivity|]. specialize (Hle pos). lia. }
  revert Hp. unfold is_ordered. rewrite Ep, En, !Heq.
  destruct (exts_of true); [destruct F1|]. destruct (exts_of false); [destruct F2|]. discriminate.
Qed.

(** ** One direction only *)
Lemma same_dir t : (forall c, In c (d_orders d) -> snd c = t) -> length (exts_of true) = length (exts_of false).
Proof.
  intros Ht. destruct t.
  - f_equal. unfold exts_of. replace (map (edge_of false) (d_orders d)) with (map (edge_of true) (d_orders d)); [reflexivity|].
    apply map_ext_in. intros [[a b] t] H. apply Ht in H. cbn in H. subst t. reflexivity.
  - assert (forall l a b, precedes (rev l) a b <-> precedes l b a) as Hrev.
    { intros l a b. split.
      - intros (l1 & l2 & l3 & E). exists (rev l3), (rev l2), (rev l1).
        rewrite <- (rev_involutive l), E, rev_app_distr. cbn. rewrite rev_app_distr. cbn. rewrite <- !app_assoc. reflexivity.
      - intros (l1 & l2 & l3 & ->). exists (rev l3), (rev l2), (rev l1).
        rewrite rev_app_distr. cbn. rewrite rev_app_distr. cbn. rewrite <- !app_assoc. reflexivity. }
    assert (forall pos l, extension blocks (map (edge_of pos) (d_orders d)) l ->
        extension blocks (map (edge_of (negb pos)) (d_orders d)) (rev l)) as Hx.
    { intros pos l [H1 H2]. split; [rewrite H1; apply Permutation_rev|].
      intros a b Hab. apply Hrev. apply H2. apply in_map_iff in Hab as ([[x y] t] & E & H).
      pose proof (Ht _ H) as Et. cbn in Et. subst t. apply in_map_iff. exists ((x, y), DirV). split; auto.
      destruct pos; cbn in *; injection E as <- <-; reflexivity. }
    assert (forall pos, (length (exts_of pos) <= length (exts_of (negb pos)))%nat) as Hle.
    { intros pos. rewrite <- (map_length (@rev nat)). apply NoDup_incl_length.
      - apply FinFun.Injective_map_NoDup; [|apply exts_of_all].
        intros a b E. rewrite <- (rev_involutive a), E. apply rev_involutive.
      - intros l Hl. apply in_map_iff in Hl as (l' & <- & Hl). apply exts_of_all. apply Hx. now apply exts_of_all. }
    pose proof (Hle true). pose proof (Hle false). cbn in *. lia.
Qed.
End Setup.
