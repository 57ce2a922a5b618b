(** C51: the pin boxes that the python placer computes for leaves are the exact bounding boxes of
    the pins of each net. *)
From Coq Require Import String.
From Verif Require Import Base.Prelude Base.PyDict Model.Transformation Model.PlacerPy Spec.PlacerPySpec Proofs.PlacerPyP.
Local Open Scope Z_scope.

(** A net has a box iff some pin terminal carries its name, and the box is the least rectangle
    containing all of them (rectangles that are not ordered included). *)
Theorem C51_pin_bbox ts n :
  (forall b, dget String.eqb (pin_bbox ts) n = Some b -> pins_on ts n <> [] /\ least_box (pins_on ts n) b) /\
  (dget String.eqb (pin_bbox ts) n = None <-> pins_on ts n = []).
Proof.
  pose proof (pin_bbox_ok ts n) as H. destruct (dget String.eqb (pin_bbox ts) n) as [b|].
  - split; [intros b' Hb; injection Hb as <-; exact H|]. split; [discriminate|]. tauto.
  - split; [discriminate|]. tauto.
Qed.

(** The least box is unique, so the order of the terminals does not matter. *)
Theorem C51_order_independent ts ts' n : (forall r, In r (pins_on ts n) <-> In r (pins_on ts' n)) ->
  dget String.eqb (pin_bbox ts) n = dget String.eqb (pin_bbox ts') n.
Proof.
  intros H. pose proof (pin_bbox_ok ts n) as H1. pose proof (pin_bbox_ok ts' n) as H2.
  destruct (dget String.eqb (pin_bbox ts) n) as [b|], (dget String.eqb (pin_bbox ts') n) as [b'|]; [| | |reflexivity].
  - destruct H1 as (_ & A1 & B1). destruct H2 as (_ & A2 & B2). f_equal.
    assert (K1 : inside b b') by (apply B1; intros r Hr; apply A2, H, Hr).
    assert (K2 : inside b' b) by (apply B2; intros r Hr; apply A1, H, Hr).
    destruct b, b'. unfold inside in *; simpl in *. f_equal; lia.
  - exfalso. apply (proj1 H1). destruct (pins_on ts n) as [|r l]; [reflexivity|]. rewrite H2 in H. exfalso. apply (H r). left. reflexivity.
  - exfalso. apply (proj1 H2). destruct (pins_on ts' n) as [|r l]; [reflexivity|]. rewrite H1 in H. exfalso. apply (H r). left. reflexivity.
Qed.

Example C51_nonvacuous : let ts := [mkLt true "a" (mkRect 0 0 2 9); mkLt false "a" (mkRect (-9) 0 2 2); mkLt true "b" (mkRect 5 5 6 6); mkLt true "a" (mkRect 4 (-1) 5 3)]%string in
  dget String.eqb (pin_bbox ts) "a"%string = Some (mkRect 0 (-1) 5 9) /\ pins_on ts "a"%string = [mkRect 0 0 2 9; mkRect 4 (-1) 5 3] /\
  dget String.eqb (pin_bbox ts) "c"%string = None.
Proof. vm_compute. auto. Qed.

Print Assumptions C51_pin_bbox.
Print Assumptions C51_order_independent.
