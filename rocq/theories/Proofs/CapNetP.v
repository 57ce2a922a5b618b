(** The sequence of pairs of nets. *)
From Coq Require Import ZArith ZifyBool.
From Verif Require Import Base.Prelude Model.CapPlace Spec.CapPlaceSpec Proofs.CapGridP Proofs.CapSeqP.
Local Open Scope Z_scope.

Definition opt (o : option nat) : list nat := match o with Some a => [a] | None => [] end.
Lemma all_app l l' : all_cells (l ++ l') = all_cells l ++ all_cells l'.
Proof. apply flat_map_app. Qed.
Lemma couples_all l : all_cells (couples l) ++ opt (left_over l) = l.
Proof.
  assert (forall k l, (length l <= k)%nat -> all_cells (couples l) ++ opt (left_over l) = l) as H; [|now apply (H (length l))].
  clear. induction k as [|k IH]; intros [|a [|b t]] H; cbn in H; try lia; try reflexivity. cbn [couples left_over]. change (all_cells ((a, Some b) :: couples t)) with (a :: b :: all_cells (couples t)). cbn [app]. do 2 f_equal. apply IH. lia.
Qed.
Lemma couples_some l p : In p (couples l) -> exists a b, p = (a, Some b).
Proof.
  assert (forall k l, (length l <= k)%nat -> In p (couples l) -> exists a b, p = (a, Some b)) as H; [|now apply (H (length l))].
  clear. induction k as [|k IH]; intros [|a [|b t]] H; cbn in H; try lia; try (now intros []). cbn [couples]. intros [<-|Hp]; [eauto|]. apply (IH t); auto. lia.
Qed.
Definition count (l : list nat) (k : nat) : nat := count_occ Nat.eq_dec l k.
Lemma count_app l l' k : count (l ++ l') k = (count l k + count l' k)%nat.
Proof. apply count_occ_app. Qed.
Lemma genS_count ki k l : NoDup l -> count (all_cells (genS ki l)) k = if in_dec Nat.eq_dec k l then (2 * Z.to_nat (size ki k / 2))%nat else 0%nat.
Proof.
  intros N. unfold genS. induction l as [|a l IH]; [reflexivity|]. inversion N; subst. cbn [flat_map]. rewrite all_app, count_app, IH by assumption.
  assert (count (all_cells (repeat (a, Some a) (Z.to_nat (size ki a / 2)))) k = if Nat.eq_dec a k then (2 * Z.to_nat (size ki a / 2))%nat else 0%nat) as ->.
  { induction (Z.to_nat (size ki a / 2)) as [|m IHm]; [now destruct (Nat.eq_dec a k)|]. cbn [repeat]. change (all_cells ((a, Some a) :: repeat (a, Some a) m)) with ([a; a] ++ all_cells (repeat (a, Some a) m)). rewrite count_app, IHm. unfold count. cbn. destruct (Nat.eq_dec a k); lia. }
  destruct (Nat.eq_dec a k) as [->|E].
  - destruct (in_dec Nat.eq_dec k l); [contradiction|]. destruct (in_dec Nat.eq_dec k (k :: l)) as [|Q]; [lia|]. exfalso. apply Q. now left.
  - destruct (in_dec Nat.eq_dec k l) as [I|I], (in_dec Nat.eq_dec k (a :: l)) as [J|J]; try lia; [exfalso; apply J; now right|]. destruct J; contradiction.
Qed.
Lemma genS_same ki l p : In p (genS ki l) -> exists k, p = (k, Some k).
Proof. unfold genS. rewrite in_flat_map. intros (k & _ & H). apply repeat_spec in H. eauto. Qed.
Lemma in_those f ki k : In k (those f ki) <-> (k < length ki)%nat /\ f ki k = true.
Proof. unfold those. rewrite filter_In, in_seq. intuition lia. Qed.

Record nets_ok (ki : list Z) (nets lone mixed same : list pair) : Prop := {
  t_app : nets = lone ++ mixed ++ same;
  t_lone : lone = [] \/ exists a, lone = [(a, None)];
  t_mixed : forall p, In p mixed -> exists a b, p = (a, Some b);
  t_same : forall p, In p same -> exists k, p = (k, Some k);
  t_nodup : NoDup (all_cells (lone ++ mixed));
  t_odd : forall k, In k (all_cells (lone ++ mixed)) <-> (k < length ki)%nat /\ Z.odd (size ki k) = true;
  t_count : forall k, (k < length ki)%nat -> Z.of_nat (count (all_cells nets) k) = size ki k;
  t_in : forall k, In k (all_cells nets) -> (k < length ki)%nat;
  t_sum : Z.of_nat (length (all_cells nets)) = zsum ki
}.
Lemma size_pos ki k : Forall (fun z => 0 <= z) ki -> 0 <= size ki k.
Proof. intros H. unfold size. destruct (Nat.lt_ge_cases k (length ki)); [|rewrite nth_overflow; lia]. rewrite Forall_forall in H. apply H, nth_In. assumption. Qed.
Lemma sum_counts (l : list nat) n : (forall k, In k l -> (k < n)%nat) -> length l = list_sum (map (count l) (seq 0 n)).
Proof.
  revert n. induction l as [|a l IH]; intros n H.
  - cbn. assert (forall i, list_sum (map (fun _ => 0%nat) (seq i n)) = 0%nat) as Q by (induction n as [|n IHn]; intros i; cbn; auto; apply IHn; intros ? []). symmetry. apply Q.
  - cbn [length]. rewrite (IH n) by (intros k Hk; apply H; now right). assert (a < n)%nat as Ha by (apply H; now left).
    assert (forall i m, list_sum (map (count (a :: l)) (seq i m)) = (list_sum (map (count l) (seq i m)) + if andb (i <=? a) (a <? i + m) then 1 else 0)%nat) as Q.
    { intros i m. revert i. induction m as [|m IHm]; intros i; [destruct (Nat.leb_spec i a), (Nat.ltb_spec a (i + 0)); cbn; lia|]. cbn [seq map list_sum fold_right]. fold (list_sum (map (count (a :: l)) (seq (S i) m))). fold (list_sum (map (count l) (seq (S i) m))). rewrite IHm. unfold count at 1. cbn [count_occ]. fold (count l i). destruct (Nat.eq_dec a i), (Nat.leb_spec (S i) a), (Nat.ltb_spec a (S i + m)), (Nat.leb_spec i a), (Nat.ltb_spec a (i + S m)); cbn [andb]; lia. }
    rewrite (Q 0%nat n). destruct (Nat.leb_spec 0 a), (Nat.ltb_spec a (0 + n)); cbn [andb]; lia.
Qed.
Lemma zsum_nth ki : zsum ki = zsum (map (size ki) (seq 0 (length ki))).
Proof. f_equal. apply (nth_ext _ _ 0 0); [now rewrite map_length, seq_length|]. intros k Hk. rewrite (nth_indep (map _ _) 0 (size ki 0)) by (rewrite map_length, seq_length; lia). rewrite map_nth, seq_nth by lia. reflexivity. Qed.
Lemma zsum_of f (g : nat -> Z) l : (forall k, In k l -> Z.of_nat (f k) = g k) -> Z.of_nat (list_sum (map f l)) = zsum (map g l).
Proof. induction l as [|a l IH]; intros H; [reflexivity|]. cbn [map list_sum fold_right zsum]. fold (list_sum (map f l)) (zsum (map g l)). rewrite Nat2Z.inj_add, (H a) by now left. rewrite IH by (intros k Hk; apply H; now right). reflexivity. Qed.

Theorem nets_are ki : Forall (fun z => 0 <= z) ki -> exists lone mixed same, nets_ok ki (net_sequence ki) lone mixed same.
Proof.
  intros Pk. set (odds := those is_odd ki). set (units := those is_unit ki). set (evens := those is_even ki). set (same := genS ki evens ++ genS ki odds).
  assert (NoDup odds /\ NoDup units /\ NoDup evens) as (No & Nu & Ne) by (repeat split; apply NoDup_filter, seq_NoDup).
  assert (forall k, (k < length ki)%nat -> Z.odd (size ki k) = is_unit ki k || is_odd ki k) as Od. { intros k _. pose proof (size_pos ki k Pk). unfold is_unit, is_odd. rewrite Z.rem_mod_nonneg, Zmod_odd by lia. destruct (Z.odd (size ki k)) eqn:E; [|destruct (size ki k =? 1) eqn:E1; [|reflexivity]]; [destruct (size ki k =? 1); reflexivity|]. assert (size ki k = 1) as Q by lia. rewrite Q in E. discriminate. }
  assert (exists lone mixed, net_sequence ki = lone ++ mixed ++ same /\ (lone = [] \/ exists a, lone = [(a, None)]) /\ (forall p, In p mixed -> exists a b, p = (a, Some b)) /\ Permutation (all_cells (lone ++ mixed)) (units ++ odds)) as (lone & mixed & E & L & M & P).
  { unfold net_sequence. fold odds units evens same.
    assert (Permutation (all_cells (couples (rev odds)) ++ opt (left_over (rev odds))) odds) as Po by (rewrite couples_all; symmetry; apply Permutation_rev).
    assert (forall l, all_cells (match left_over l with Some u => [(u, None)] | None => [] end) = opt (left_over l)) as Qo by (intros l; now destruct (left_over l)).
    destruct (left_over (rev odds)) as [o|] eqn:Lo; [destruct (rev units) as [|u us] eqn:Eu|].
    - exists [(o, None)], (couples (rev odds)). split; [reflexivity|]. split; [right; eauto|]. split; [apply couples_some|]. apply (f_equal (@rev nat)) in Eu. rewrite rev_involutive in Eu. cbn in Eu. rewrite Eu. cbn [app]. etransitivity; [|exact Po]. cbn [opt]. change (all_cells ((o, None) :: couples (rev odds))) with ([o] ++ all_cells (couples (rev odds))). apply Permutation_app_comm.
    - exists (match left_over us with Some u => [(u, None)] | None => [] end), (couples us ++ [(o, Some u)] ++ couples (rev odds)). split; [now rewrite <- !app_assoc|]. split; [destruct (left_over us); [right; eauto|now left]|]. split.
      + intros p Hp. apply in_app_or in Hp. destruct Hp as [Hp|[<-|Hp]]; [now apply couples_some in Hp|eauto|now apply couples_some in Hp].
      + rewrite !all_app, Qo. change (all_cells [(o, Some u)]) with [o; u]. etransitivity; [|apply Permutation_app_head; exact Po]. cbn [opt]. etransitivity; [|apply Permutation_app_tail, Permutation_sym, Permutation_rev]. rewrite Eu. rewrite <- (couples_all us) at 3. set (A := all_cells (couples us)). set (B := opt (left_over us)). set (C := all_cells (couples (rev odds))).
        rewrite (Permutation_app_comm C [o]). cbn [app]. rewrite app_assoc. rewrite (Permutation_app_comm B A). rewrite <- !Permutation_middle. cbn. apply perm_swap.
    - exists (match left_over (rev units) with Some u => [(u, None)] | None => [] end), (couples (rev units) ++ couples (rev odds)). split; [now rewrite <- !app_assoc|]. split; [destruct (left_over (rev units)); [right; eauto|now left]|]. split.
      + intros p Hp. apply in_app_or in Hp. destruct Hp as [Hp|Hp]; now apply couples_some in Hp.
      + rewrite !all_app, Qo, app_assoc. etransitivity; [apply Permutation_app_tail, Permutation_app_comm|]. rewrite couples_all. etransitivity; [apply Permutation_app_tail, Permutation_sym, Permutation_rev|]. apply Permutation_app_head. etransitivity; [|exact Po]. cbn. now rewrite app_nil_r. }
  assert (NoDup (units ++ odds)) as Nuo. { apply (Permutation_NoDup (Permutation_app_comm odds units)). revert No Nu. assert (forall k, In k odds -> ~ In k units) as D. { intros k A B. apply in_those in A, B. unfold is_odd, is_unit in *. destruct (size ki k =? 1); cbn in *; intuition congruence. } revert D. generalize odds as l. induction l as [|a l IH]; intros D A B; [exact B|]. inversion A; subst. cbn. constructor; [|apply IH; auto; intros k Hk; apply D; now right]. rewrite in_app_iff. intros [Q|Q]; [contradiction|]. apply (D a); [now left|exact Q]. }
  assert (NoDup (all_cells (lone ++ mixed))) as Nm by (apply (Permutation_NoDup (Permutation_sym P)); exact Nuo).
  assert (forall k, In k (all_cells (lone ++ mixed)) <-> (k < length ki)%nat /\ Z.odd (size ki k) = true) as Im. { intros k. transitivity (In k (units ++ odds)); [split; apply Permutation_in; [exact P|now symmetry]|]. rewrite in_app_iff. unfold units, odds. rewrite !in_those. split; [intros [[H B]|[H B]]; rewrite Od by exact H; rewrite B; split; auto; apply orb_true_r|]. intros [H B]. rewrite Od in B by exact H. apply orb_true_iff in B. tauto. }
  assert (forall k, In k (all_cells (net_sequence ki)) -> (k < length ki)%nat) as Ia. { intros k. rewrite E, app_assoc, all_app, in_app_iff. intros [H|H]; [now apply Im|]. unfold same in H. apply in_flat_map in H. destruct H as (p & Hp & Hk). apply in_app_or in Hp. assert (exists a, In a (evens ++ odds) /\ p = (a, Some a)) as (a & Ha & ->). { destruct Hp as [Hp|Hp]; unfold genS in Hp; apply in_flat_map in Hp; destruct Hp as (a & Ha & Hr); apply repeat_spec in Hr; exists a; (split; [apply in_app_iff; auto|exact Hr]). } assert (a = k) as <- by (cbn in Hk; destruct Hk as [Hk|[Hk|[]]]; exact Hk). apply in_app_or in Ha. destruct Ha as [Ha|Ha]; apply in_those in Ha; tauto. }
  assert (forall k, (k < length ki)%nat -> Z.of_nat (count (all_cells (net_sequence ki)) k) = size ki k) as Ck.
  { intros k Hk. rewrite E, app_assoc, all_app, count_app. unfold same. rewrite (all_app (genS ki evens)), (count_app (all_cells (genS ki evens))), !genS_count by assumption. pose proof (size_pos ki k Pk) as Sp. pose proof (Od k Hk) as O.
    assert (count (all_cells (lone ++ mixed)) k = if Z.odd (size ki k) then 1%nat else 0%nat) as ->. { unfold count. destruct (Z.odd (size ki k)) eqn:Q; [apply NoDup_count_occ'; [exact Nm|apply Im; auto]|apply count_occ_not_In; rewrite Im; intuition congruence]. }
    assert (size ki k = 2 * (size ki k / 2) + (if Z.odd (size ki k) then 1 else 0)) as D. { rewrite <- Zmod_odd. apply Z.div_mod. lia. }
    destruct (in_dec Nat.eq_dec k evens) as [A|A], (in_dec Nat.eq_dec k odds) as [B|B]; unfold evens, odds in A, B; rewrite in_those in A, B; unfold is_even, is_odd, is_unit in *.
    - destruct A as [_ A], B as [_ B]. destruct (size ki k =? 1), (Z.rem (size ki k) 2 =? 1); cbn in *; discriminate.
    - clear - D Sp. destruct (Z.odd (size ki k)); lia.
    - clear - D Sp. destruct (Z.odd (size ki k)); lia.
    - destruct (size ki k =? 1) eqn:Q; [cbn in O; rewrite O; lia|]. exfalso. destruct (Z.rem (size ki k) 2 =? 1) eqn:Q'; cbn in *; intuition. }
  exists lone, mixed, same. constructor; auto.
  - intros p Hp. unfold same in Hp. apply in_app_or in Hp. destruct Hp as [Hp|Hp]; now apply genS_same in Hp.
  - rewrite (sum_counts _ (length ki)) by exact Ia. rewrite zsum_nth. apply zsum_of. intros k Hk. apply in_seq in Hk. apply Ck. lia.
Qed.
