(** The documented meaning of the placement constraints (docstrings of schema/constraint.py). *)
From Coq Require Import String QArith.
From Verif Require Import Base.Prelude Model.Transformation.
Local Open Scope Z_scope.

(** In the x or the y direction. *)
Definition low (x : bool) (b : Rect) : Z := if x then llx b else lly b.
Definition high (x : bool) (b : Rect) : Z := if x then urx b else ury b.
Definition solid (b : Rect) : Prop := llx b < urx b /\ lly b < ury b.

(** [Order]: each instance lies before all later ones. *)
Definition before (x : bool) (a b : Rect) : Prop := high x a <= low x b.
Definition in_order (x : bool) (bs : list Rect) : Prop := ForallOrdPairs (before x) bs.
(** Neighbours in the list touch. *)
Fixpoint touching (x : bool) (bs : list Rect) : Prop :=
  match bs with a :: ((b :: _) as tl) => high x a = low x b /\ touching x tl | _ => True end.

(** [Align]: a common coordinate. *)
Definition common {A B} (f : A -> B) (l : list A) : Prop := exists v, Forall (fun a => f a = v) l.
(** Twice the centre. *)
Definition mid2 (x : bool) (b : Rect) : Z := low x b + high x b.
(** A line that meets all boxes. *)
Definition common_line (x : bool) (l : list Rect) : Prop := exists v, Forall (fun b => low x b <= v <= high x b) l.

(** [SymmetricBlocks]: with [a] twice the position of the axis, a block on the axis is centred
    on it; two blocks are mirror images. *)
Definition on_axis (x : bool) (a : Z) (b : Rect) : Prop := mid2 x b = a.
Definition mirror (x : bool) (a : Z) (b c : Rect) : Prop := low x c = a - high x b /\ high x c = a - low x b.
(** Two blocks lie side by side: the centre lines are a quarter of the smaller one apart or less. *)
Definition level (x : bool) (b c : Rect) : Prop :=
  2 * Z.abs (mid2 x b - mid2 x c) <= high x b - low x b /\ 2 * Z.abs (mid2 x b - mid2 x c) <= high x c - low x c.
Definition disjoint (a b : Rect) : Prop := forall x y, ~ (llx a < x < urx a /\ lly a < y < ury a /\ llx b < x < urx b /\ lly b < y < ury b).
Definition apart (a b : Rect) : Prop := urx a <= llx b \/ urx b <= llx a \/ ury a <= lly b \/ ury b <= lly a.

(** [Spread]: the gap between two blocks that face each other. *)
Definition facing (x : bool) (a b : Rect) : Prop := low (negb x) b < high (negb x) a /\ low (negb x) a < high (negb x) b.
Definition gap_at_least (x : bool) (d : Z) (a b : Rect) : Prop := high x a + d <= low x b \/ high x b + d <= low x a.
