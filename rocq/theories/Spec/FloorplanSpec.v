(** The documented meaning of [AlignInOrder] and [Floorplan] (docstrings of schema/constraint.py). *)
From Coq Require Import String.
From Verif Require Import Base.Prelude Model.Transformation Spec.FormulaSpec.
Local Open Scope Z_scope.

(** [floor] of the centre, in whole units. *)
Definition centre (x : bool) (b : Rect) : Z := mid2 x b / 2.
(** Every instance of a row lies above every instance of the rows after it. *)
Definition stacked (bx : string -> Rect) (rows : list (list string)) : Prop :=
  ForallOrdPairs (fun r s => forall a b, In a r -> In b s -> ury (bx b) <= lly (bx a)) rows.
(** The instances of a row lie in order from left to right. *)
Definition left_to_right (bx : string -> Rect) (r : list string) : Prop := in_order true (map bx r).
(** The i-th instance from the left and the i-th from the right have their centres at equal distance from one
    vertical line, [s] being four times its position, and are level. *)
Definition balanced (bx : string -> Rect) (s : Z) (r : list string) : Prop :=
  forall i a b, nth_error r i = Some a -> nth_error (rev r) i = Some b ->
    mid2 true (bx a) + mid2 true (bx b) = s /\ ((i + i + 1 <> length r)%nat -> level false (bx a) (bx b)).
