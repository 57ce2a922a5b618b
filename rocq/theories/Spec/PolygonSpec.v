(** Polygons as point lists: closedness, corners, area, and the region of a rectangle. *)
From Verif Require Import Base.Prelude Model.Transformation.
Local Open Scope Z_scope.

Fixpoint points (l : list Z) : option (list (Z * Z)) :=
  match l with
  | [] => Some []
  | x :: y :: tl => match points tl with Some ps => Some ((x, y) :: ps) | None => None end
  | _ => None
  end.

(** Twice the signed area of a closed polygon (first point repeated at the end). *)
Fixpoint area2 (ps : list (Z * Z)) : Z :=
  match ps with
  | (x1, y1) :: (((x2, y2) :: _) as tl) => (x1 * y2 - x2 * y1) + area2 tl
  | _ => 0
  end.

(** Consecutive points differ in exactly one coordinate direction (axis parallel sides). *)
Fixpoint rectilinear (ps : list (Z * Z)) : Prop :=
  match ps with
  | (x1, y1) :: (((x2, y2) :: _) as tl) => (x1 = x2 \/ y1 = y2) /\ rectilinear tl
  | _ => True
  end.

(** [l] is a closed five-point axis-parallel polygon whose corner set is that of [r]. *)
Definition draws_rect (l : list Z) (r : Rect) : Prop :=
  exists ps, points l = Some ps /\ length ps = 5%nat /\
    hd (0,0) ps = last ps (0,0) /\ rectilinear ps /\
    (forall x y, In (x, y) ps <-> ((x = llx r \/ x = urx r) /\ (y = lly r \/ y = ury r))) /\
    area2 ps = -2 * ((urx r - llx r) * (ury r - lly r)).
