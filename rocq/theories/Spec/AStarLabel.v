(** What the label of a line tells: nothing to do (0), extend both ends (1), the end with the higher node (2), or the one with the lower node (3). *)
From Verif Require Import Base.Prelude Model.AStar Spec.AStarSpec.
Local Open Scope Z_scope.

Definition label_tells (j : job) (inner : Prop) (a b : nat) (z : Z) : Prop :=
  let d := minL (t j) (metal (at_ j a)) - dist j a b in
  (~ inner -> z = 0) /\
  (inner -> (z = 0 <-> d <= 0) /\
    (z = 1 -> exists h, d <= 2 * h /\ room j (-1) (Nat.min a b) h /\ room j 1 (Nat.max a b) h) /\
    (z = 2 -> room j 1 (Nat.max a b) d) /\ (z = 3 -> room j (-1) (Nat.min a b) d)).
