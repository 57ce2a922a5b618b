(** align/pnr/pythonic_router.py:113-132, [rect_to_grid]: the grid indices of the centre, begin and end of a rectangle of the layer of wire [w].
    [None] = an assertion failed or [inverseBounds] gave nothing. Simplified: the generator of the layer, canvas.py:204-208, is an argument. *)
From Verif Require Import Base.Prelude Model.Transformation Model.Grid Model.Canvas.
Local Open Scope Z_scope.

Definition check_bound (b : option ((Z * Z) * (Z * Z))) : option (Z * Z) :=
  match b with Some (i, j) => if (fst i =? fst j) && (snd i =? snd j) then Some i else None | None => None end.
Definition rect_to_grid (w : Wire) (r : Rect) : option ((Z * Z) * (Z * Z) * (Z * Z)) :=
  let '(lo, hi, bgn, end_) := match w_dir w with H => (lly r, ury r, llx r, urx r) | V => (llx r, urx r, lly r, ury r) end in
  let center := (lo + hi) / 2 in
  match check_bound (inverseBounds (w_clg w) center), check_bound (inverseBounds (w_spg w) bgn), check_bound (inverseBounds (w_spg w) end_) with
  | Some c, Some b, Some e => Some (c, b, e)
  | _, _, _ => None
  end.
