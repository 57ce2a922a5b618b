(** Rectangles of the Hanan router: hanan_router/Geom.h:22-250, hanan_router/Geom.cpp:7-75.
    Coordinates are integers without overflow; the square root of the Euclidean distance is left out. The R-tree, Geom.cpp:77-128, is not modelled. *)
From Coq Require Import ZArith.
From Verif Require Import Base.Prelude.
Local Open Scope Z_scope.

Definition INT_MAX : Z := 2147483647.
Definition INT_MIN : Z := -2147483648.
Record rect := Rc { xmin : Z; ymin : Z; xmax : Z; ymax : Z }.
(** Rect::fix, Geom.h:79-84, and the constructors, 85-94. *)
Definition fix_ (r : rect) : rect :=
  if (xmin r =? INT_MAX) || (ymin r =? INT_MAX) then r
  else let r := if xmax r <? xmin r then Rc (xmax r) (ymin r) (xmin r) (ymax r) else r in if ymax r <? ymin r then Rc (xmin r) (ymax r) (xmax r) (ymin r) else r.
Definition Rect (x1 y1 x2 y2 : Z) : rect := fix_ (Rc x1 y1 x2 y2).
Definition none : rect := Rect INT_MAX INT_MAX INT_MIN INT_MIN.
(** Geom.h:96. *)
Definition valid (r : rect) : bool := (xmin r <=? xmax r) && (ymin r <=? ymax r).
(** Geom.h:98-109: the rectangle after it, and what it returns. *)
Definition intersect (a r : rect) : rect * bool :=
  let i := Rc (Z.max (xmin a) (xmin r)) (Z.max (ymin a) (ymin r)) (Z.min (xmax a) (xmax r)) (Z.min (ymax a) (ymax r)) in (i, valid i).
(** Geom.h:111-117. *)
Definition merge (a r : rect) : rect := Rc (Z.min (xmin a) (xmin r)) (Z.min (ymin a) (ymin r)) (Z.max (xmax a) (xmax r)) (Z.max (ymax a) (ymax r)).
(** Geom.h:129. *)
Definition bloatby (r : rect) (c : Z) : rect := Rect (xmin r - c) (ymin r - c) (xmax r + c) (ymax r + c).
(** Geom.h:157-169. *)
Definition overlaps (strict : bool) (a r : rect) : bool :=
  if strict then (xmin a <? xmax r) && (xmin r <? xmax a) && (ymin a <? ymax r) && (ymin r <? ymax a)
  else (xmin a <=? xmax r) && (xmin r <=? xmax a) && (ymin a <=? ymax r) && (ymin r <=? ymax a).
(** Geom.h:171-185, not strict, and 187-190. *)
Definition contains_pt (r : rect) (x y : Z) : bool := (xmin r <=? x) && (x <=? xmax r) && (ymin r <=? y) && (y <=? ymax r).
Definition contains (a r : rect) : bool := contains_pt a (xmin r) (ymin r) && contains_pt a (xmax r) (ymax r).
(** Point::snap, Geom.h:44-56, and Rect::snap, 198-205. *)
Definition snap1 (down : bool) (prec x : Z) : Z :=
  let r := if prec =? 0 then 0 else Z.rem x prec in if r =? 0 then x else if down then x - r else x + (prec - r).
Definition snap (px py : Z) (r : rect) : rect := Rc (snap1 true px (xmin r)) (snap1 true py (ymin r)) (snap1 false px (xmax r)) (snap1 false py (ymax r)).
(** Transform, Geom.h:210-250. *)
Record transform := T { o_x : Z; o_y : Z; s_x : Z; s_y : Z }.
Definition tr_pt (t : transform) (p : Z * Z) : Z * Z := (o_x t + s_x t * fst p, o_y t + s_y t * snd p).
Definition tr_rect (t : transform) (r : rect) : rect :=
  let l := tr_pt t (xmin r, ymin r) in let u := tr_pt t (xmax r, ymax r) in Rect (fst l) (snd l) (fst u) (snd u).
(** Dist, Geom.cpp:7-28: the distances in x and y. *)
Definition dist1 (a1 a2 b1 b2 : Z) : Z := if (a1 <=? b2) && (b1 <=? a2) then 0 else Z.min (Z.abs (a1 - b2)) (Z.abs (a2 - b1)).
Definition Dist (a b : rect) : Z :=
  if overlaps false a b then 0 else dist1 (xmin a) (xmax a) (xmin b) (xmax b) + dist1 (ymin a) (ymax a) (ymin b) (ymax b).

(** MergeLayerRects, Geom.cpp:30-75. The loop over the rectangles there, 38-61, for [s]. *)
Fixpoint absorb (s : rect) (ts : list rect) : list rect * bool :=
  match ts with
  | [] => ([], false)
  | t :: r =>
      if contains t s then (t :: fst (absorb s r), true)
      else if contains s t then (s :: r, true)
      else if overlaps false t s && (xmin t =? xmin s) && (xmax t =? xmax s) then (Rc (xmin t) (Z.min (ymin t) (ymin s)) (xmax t) (Z.max (ymax t) (ymax s)) :: r, true)
      else if overlaps false t s && (ymin t =? ymin s) && (ymax t =? ymax s) then (Rc (Z.min (xmin t) (xmin s)) (ymin t) (Z.max (xmax t) (xmax s)) (ymax t) :: r, true)
      else (t :: fst (absorb s r), snd (absorb s r))
  end.
Definition add (ts : list rect) (s : rect) : list rect := let a := absorb s ts in if snd a then fst a else fst a ++ [s].
Definition layers : Type := Z -> option (list rect).
Definition merge_layer (l1 : layers) (l : Z * list rect) : layers :=
  fun k => if k =? fst l then match l1 k with Some ts => Some (fold_left add (snd l) ts) | None => Some (snd l) end else l1 k.
Definition MergeLayerRects (l1 : layers) (l2 : list (Z * list rect)) (b : rect) : layers * rect :=
  (fold_left merge_layer l2 l1, fold_left (fun b l => fold_left merge (snd l) b) l2 b).
