(** What a guard ring is. *)
From Coq Require Import ZArith.
From Verif Require Import Base.Prelude Model.GuardRing.
Local Open Scope Z_scope.

(** A cell with metal, not wider than the cell, and a grid. *)
Record fit (c : cell_rules) : Prop := { f_metal : c_lo c < c_hi c; f_lo : 0 <= c_lo c; f_hi : c_hi c <= c_cell c; f_space : 0 <= c_space c; f_grid : 0 < c_grid c }.
(** A cell in column i and row j of a frame with a columns and b rows. *)
Definition on_frame (a b i j : Z) : Prop := 0 <= i < a /\ 0 <= j < b /\ (i = 0 \/ i = a - 1 \/ j = 0 \/ j = b - 1).
(** Two boxes do not overlap, or have room. *)
Definition room (dx dy : Z) (a b : box) : Prop := x1 a + dx <= x0 b \/ x1 b + dx <= x0 a \/ y1 a + dy <= y0 b \/ y1 b + dy <= y0 a.
(** Two boxes have a side in common. *)
Definition abut (a b : box) : Prop :=
  y0 a = y0 b /\ y1 a = y1 b /\ (x1 a = x0 b \/ x1 b = x0 a) \/ x0 a = x0 b /\ x1 a = x1 b /\ (y1 a = y0 b \/ y1 b = y0 a).
Definition inside_of (a b : box) : Prop := x0 b <= x0 a /\ x1 a <= x1 b /\ y0 b <= y0 a /\ y1 a <= y1 b.
(** One after the other, and the last before the first. *)
Definition cyclic {A} (R : A -> A -> Prop) (l : list A) : Prop :=
  (forall l1 a b l2, l = l1 ++ a :: b :: l2 -> R a b) /\ forall a l' b, l = a :: l' ++ [b] -> R b a.
(** The least number of cells for a length, with the grid to spare. *)
Definition enough (size : Z) (c : cell_rules) (n : Z) : Prop :=
  let m := c_hi c - c_lo c in let s := size + 2 * (c_space c + (c_cell c - c_hi c)) + c_grid c in s <= n * m < s + m.
(** The box of the node where it is moved to, and the metal of a ring cell: its last one. *)
Definition moved (n n' : node) (dx dy : Z) : Prop :=
  n_boxes n' = map (fun b => Box (x0 b + dx) (y0 b + dy) (x1 b + dx) (y1 b + dy)) (n_boxes n) /\ n_points n' = map (fun p => (fst p + dx, snd p + dy)) (n_points n).
