From Verif Require Import Base.Prelude Model.PySort.
From Coq Require Import ZifyBool.
Local Open Scope Z_scope.

Section SortP.
  Context {A : Type} (key : A -> Z).

  Definition key_sorted (l : list A) : Prop := StronglySorted (fun a b => key a <= key b) l.

  Lemma insert_by_perm x l : Permutation (x :: l) (insert_by key x l).
  Proof.
    induction l as [|y l IH]; simpl; [constructor; constructor|].
    destruct (key x <=? key y); [reflexivity|].
    rewrite perm_swap. now constructor.
  Qed.

  Lemma sort_by_perm l : Permutation l (sort_by key l).
  Proof.
    induction l as [|x l IH]; simpl; [constructor|].
    rewrite <- insert_by_perm. now constructor.
  Qed.

  Lemma insert_by_sorted x l : key_sorted l -> key_sorted (insert_by key x l).
  Proof.
    induction 1 as [|y l Hs IH Hy]; simpl.
    - repeat constructor.
    - destruct (key x <=? key y) eqn:E.
      + constructor; [constructor; assumption|]. constructor; [lia|].
        eapply Forall_impl; [|exact Hy]. simpl; intros; lia.
      + constructor; [assumption|].
        rewrite Forall_forall in *. intros z Hz.
        apply (Permutation_in _ (Permutation_sym (insert_by_perm x l))) in Hz.
        destruct Hz as [<-|Hz]; [lia|auto].
  Qed.

  Lemma sort_by_sorted l : key_sorted (sort_by key l).
  Proof. induction l; simpl; [constructor|now apply insert_by_sorted]. Qed.

  Lemma sort_by_in x l : In x (sort_by key l) <-> In x l.
  Proof.
    split; apply Permutation_in; [symmetry|]; apply sort_by_perm.
  Qed.

  Lemma sort_by_length l : length (sort_by key l) = length l.
  Proof. symmetry. apply Permutation_length, sort_by_perm. Qed.

  Lemma sort_by_sorted_id l : key_sorted l -> sort_by key l = l.
  Proof.
    induction 1 as [|x l Hs IH Hx]; simpl; [reflexivity|]. rewrite IH.
    destruct l as [|y l]; simpl; [reflexivity|].
    inversion Hx; subst. destruct (key x <=? key y) eqn:E; [reflexivity|lia].
  Qed.

  (** Stability: the subsequence with any given key keeps its order. *)
  Lemma insert_by_filter x l k :
    filter (fun a => key a =? k) (insert_by key x l) = filter (fun a => key a =? k) (x :: l).
  Proof.
    induction l as [|y l IH]; [reflexivity|].
    cbn [insert_by]. destruct (key x <=? key y) eqn:E; [reflexivity|].
    cbn [filter] in *. rewrite IH.
    destruct (key y =? k) eqn:Ey; destruct (key x =? k) eqn:Ex; try reflexivity. lia.
  Qed.

  Lemma sort_by_stable l k :
    filter (fun a => key a =? k) (sort_by key l) = filter (fun a => key a =? k) l.
  Proof.
    induction l as [|x l IH]; [reflexivity|].
    cbn [sort_by fold_right]. rewrite insert_by_filter. cbn [filter].
    unfold sort_by in IH. rewrite IH. reflexivity.
  Qed.
End SortP.

Lemma enumerate_length {A} (l : list A) : length (enumerate l) = length l.
Proof. unfold enumerate. rewrite combine_length, map_length, seq_length. lia. Qed.

Lemma enumerate_from {A} (l : list A) s i x :
  In (i, x) (combine (map Z.of_nat (seq s (length l))) l) <->
  (Z.of_nat s <= i /\ nth_error l (Z.to_nat i - s) = Some x).
Proof.
  revert s; induction l as [|a l IH]; intros s; simpl.
  - split; [intros []|]. intros [_ H]. destruct (Z.to_nat i - s)%nat; discriminate.
  - rewrite IH. split.
    + intros [H|[H1 H2]].
      * injection H as <- <-. split; [lia|]. replace (Z.to_nat (Z.of_nat s) - s)%nat with 0%nat by lia.
        reflexivity.
      * split; [lia|]. replace (Z.to_nat i - s)%nat with (Datatypes.S (Z.to_nat i - Datatypes.S s)) by lia. exact H2.
    + intros [H1 H2]. destruct (Z.eq_dec i (Z.of_nat s)) as [->|Hne].
      * left. replace (Z.to_nat (Z.of_nat s) - s)%nat with 0%nat in H2 by lia. simpl in H2. congruence.
      * right. split; [lia|].
        replace (Z.to_nat i - s)%nat with (Datatypes.S (Z.to_nat i - Datatypes.S s)) in H2 by lia. exact H2.
Qed.

Lemma enumerate_in {A} (l : list A) i x :
  In (i, x) (enumerate l) <-> (0 <= i /\ nth_error l (Z.to_nat i) = Some x).
Proof.
  unfold enumerate. rewrite enumerate_from. rewrite Nat.sub_0_r. simpl. reflexivity.
Qed.
