(** Point-set specification of rectangles, independent of the transformation code. *)
From Verif Require Import Base.Prelude Model.Transformation.
Local Open Scope Z_scope.

(** [p] lies in the closed box spanned by the two (not necessarily ordered) corners of [r]. *)
Definition in_box (r : Rect) (p : Z * Z) : Prop :=
  Z.min (llx r) (urx r) <= fst p <= Z.max (llx r) (urx r) /\
  Z.min (lly r) (ury r) <= snd p <= Z.max (lly r) (ury r).

(** The open interiors of the boxes have no common part (touching is allowed). *)
Definition box_disjoint (a b : Rect) : Prop :=
  Z.max (llx a) (urx a) <= Z.min (llx b) (urx b) \/
  Z.max (llx b) (urx b) <= Z.min (llx a) (urx a) \/
  Z.max (lly a) (ury a) <= Z.min (lly b) (ury b) \/
  Z.max (lly b) (ury b) <= Z.min (lly a) (ury a).

Definition ordered (r : Rect) : Prop := llx r <= urx r /\ lly r <= ury r.

Definition width (r : Rect) : Z := Z.abs (urx r - llx r).
Definition height (r : Rect) : Z := Z.abs (ury r - lly r).

(** Scale factors that occur in a placement. *)
Definition unit_tr (t : Tr) : Prop := (sX t = 1 \/ sX t = -1) /\ (sY t = 1 \/ sY t = -1).

(** Same closed point set. *)
Definition same_box (a b : Rect) : Prop := forall p, in_box a p <-> in_box b p.
