(** What a common-centroid placement is. Cells are points of a grid of [r] columns and [s] rows. *)
From Coq Require Import ZArith.
From Verif Require Import Base.Prelude.
Local Open Scope Z_scope.

Definition zsum (l : list Z) : Z := fold_right Z.add 0 l.
Definition in_grid (r s : Z) (p : Z * Z) : Prop := 0 <= fst p < r /\ 0 <= snd p < s.
Definition inside_border (r s : Z) (p : Z * Z) : Prop := 1 <= fst p < r - 1 /\ 1 <= snd p < s - 1.
(** Points opposite to each other with respect to the middle of the grid. *)
Definition facing (r s : Z) (p q : Z * Z) : Prop := fst p + fst q = r - 1 /\ snd p + snd q = s - 1.
(** The centroid of the points is the middle of the grid. *)
Definition centred (r s : Z) (l : list (Z * Z)) : Prop :=
  2 * zsum (map fst l) = Z.of_nat (length l) * (r - 1) /\ 2 * zsum (map snd l) = Z.of_nat (length l) * (s - 1).
(** Four times the square of the distance from the middle. *)
Definition from_middle (r s : Z) (p : Z * Z) : Z := (2 * fst p - (r - 1)) ^ 2 + (2 * snd p - (s - 1)) ^ 2.
