(** What the sets and lines of a routed capacitor should be. *)
From Coq Require Import ZArith Relations.
From Verif Require Import Base.Prelude.
Local Open Scope Z_scope.

(** Two cells with a common side. *)
Definition next_to (p q : Z * Z) : Prop := Z.abs (fst p - fst q) + Z.abs (snd p - snd q) = 1.
(** One can go from cell to cell of the net over common sides. *)
Definition linked (P : nat -> Z * Z) (cells : list nat) : nat -> nat -> Prop := clos_refl_trans nat (fun a b => In a cells /\ In b cells /\ next_to (P a) (P b)).
(** Line [l] runs along a cell in one of the columns [xs]. *)
Definition touches (xs : list Z) (l : Z) : Prop := exists x, In x xs /\ (l = x \/ l = x + 1).
(** Every set of the net is reached by one of its lines, which are lines of the grid. *)
Definition reached (r : Z) (sets : list (list Z)) (lv : Z -> bool) : Prop :=
  (forall xs, In xs sets -> exists l, lv l = true /\ touches xs l) /\ (forall l, lv l = true -> 0 <= l <= r).
(** A line such that each set of the net is reached by it or by the line opposite to it. *)
Definition fair (r : Z) (sets : list (list Z)) (l : Z) : Prop := 0 <= l <= r /\ forall xs, In xs sets -> touches xs l \/ touches xs (r - l).
(** Sets as they come from a grid of [r] columns. *)
Definition good (r : Z) (sets : list (list Z)) : Prop := forall xs, In xs sets -> xs <> [] /\ forall x, In x xs -> 0 <= x < r.
