(** Common imports and list lemmas used across the development (no model content). *)
From Coq Require Export List ZArith Lia Bool Arith Permutation Sorted.
From Coq Require Import ZifyBool ZifyNat.
Export ListNotations.
Ltac Zify.zify_post_hook ::= Z.div_mod_to_equations.

Lemma nth_error_Some_lt {A} (l : list A) n x : nth_error l n = Some x -> (n < length l)%nat.
Proof. intros H. apply nth_error_Some. rewrite H. discriminate. Qed.

Lemma fold_left_ind {A S} (P : S -> Prop) (f : S -> A -> S) (l : list A) (s : S) :
  P s -> (forall s a, In a l -> P s -> P (f s a)) -> P (fold_left f l s).
Proof.
  revert s; induction l as [|a l IH]; simpl; intros s Hs Hf; auto.
Qed.

Lemma in_concat_iff {A} (x : A) (ls : list (list A)) :
  In x (concat ls) <-> exists l, In l ls /\ In x l.
Proof.
  rewrite in_concat. split; intros (l & H1 & H2); exists l; tauto.
Qed.

Lemma existsb_false_iff {A} (f : A -> bool) l :
  existsb f l = false <-> forall x, In x l -> f x = false.
Proof.
  induction l as [|a l IH]; simpl; split; intros H.
  - intros x [].
  - reflexivity.
  - apply orb_false_iff in H as [H1 H2]. intros x [->|Hx]; auto. apply IH; auto.
  - apply orb_false_iff; split; auto. apply IH; auto.
Qed.
