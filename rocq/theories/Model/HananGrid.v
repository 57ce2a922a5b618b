(** The free ranges of the lines of the Hanan grid: hanan_router/HananRouter.cpp:1001-1117 (insertRange, invertRange, generateHananGrid), IntPairComp of HananRouter.h:211-217.
    Sets are sorted lists. One layer and one direction at a time: [vert] for the lines in which x is fixed. The snapping of coordinates is that of Model/HananGeom.v. *)
From Coq Require Import ZArith.
From Verif Require Import Base.Prelude Model.HananGeom.
Local Open Scope Z_scope.

Definition range : Type := Z * Z.
(** IntPairComp, HananRouter.h:211-217. *)
Definition before (a b : range) : bool := if fst a =? fst b then snd a <? snd b else fst a <? fst b.
Fixpoint set_insert (r : range) (s : list range) : list range :=
  match s with [] => [r] | x :: t => if before r x then r :: s else if before x r then x :: set_insert r t else s end.
(** insertRange, HananRouter.cpp:1001-1019: the ranges kept by the loop and the range grown by it. *)
Fixpoint scan (s : list range) (rc : range) : list range * range :=
  match s with
  | [] => ([], rc)
  | it :: t =>
      if snd rc <? fst it then (s, rc)
      else if (fst it <=? snd rc) && (fst rc <=? snd it) then scan t (Z.min (fst it) (fst rc), Z.max (snd it) (snd rc))
      else (it :: fst (scan t rc), snd (scan t rc))
  end.
Definition insertRange (s : list range) (r : range) : list range := let k := scan s r in set_insert (snd k) (fst k).
(** invertRange, HananRouter.cpp:1021-1040, before the gaps are put into a set. *)
Fixpoint gaps (start end_ : Z) (s : list range) : list range :=
  match s with [] => [(start, end_)] | r :: t => (if start <=? fst r then [(start, fst r)] else []) ++ gaps (snd r) end_ t end.
Definition invertRange (start end_ : Z) (s : list range) : list range := fold_left (fun o g => set_insert g o) (gaps start end_ s) [].

(** generateHananGrid, HananRouter.cpp:1093-1112, of one line at [v]. *)
Definition across (vert : bool) (r : rect) : range := if vert then (xmin r, xmax r) else (ymin r, ymax r).
Definition along (vert : bool) (r : rect) : range := if vert then (ymin r, ymax r) else (xmin r, xmax r).
Definition clip (b o : range) : range := (Z.max (fst o) (fst b - 1), Z.min (snd o) (snd b)).
Definition blocked (vert : bool) (bbox : rect) (obs : list rect) (v : Z) : list range :=
  fold_left (fun s o => if (fst (across vert o) <? v) && (v <? snd (across vert o)) then insertRange s (clip (along vert bbox) (along vert o)) else s) obs [].
Definition line (vert : bool) (bbox : rect) (obs : list rect) (v : Z) : list range :=
  invertRange (fst (along vert bbox)) (snd (along vert bbox)) (blocked vert bbox obs v).
(** Lines 1049-1062: the box is grown, and obstacles are put around it; [bloat] is the largest spacing. *)
Definition grow (bloat : Z) (b : rect) : rect := Rc (xmin b - bloat * 2) (ymin b - bloat * 2) (xmax b + bloat * 2) (ymax b + bloat * 2).
Definition frame (b : rect) : list rect :=
  [Rect (xmin b - 100) (ymin b) (xmin b - 50) (ymax b); Rect (xmin b) (ymin b - 100) (xmax b) (ymin b - 50);
   Rect (xmax b + 50) (ymin b) (xmax b + 100) (ymax b); Rect (xmin b) (ymax b + 50) (xmax b) (ymax b + 100)].
(** Lines 1063-1080: the coordinates of the lines, of all obstacles [all] of the layers in use and of the sources and targets; 1086-1091: those in the box. *)
Definition coords (prec : Z) (vert : bool) (b : rect) (all : list rect) (pts : list (Z * Z)) : list Z :=
  flat_map (fun o => if overlaps false o b then let a := across vert (snap prec prec o) in [fst a; snd a] else []) all ++ map (fun p => if vert then fst p else snd p) pts.
Definition grid (prec bloat : Z) (vert : bool) (b : rect) (all obs : list rect) (pts : list (Z * Z)) : list (Z * list range) :=
  let b := grow bloat b in
  map (fun v => (v, line vert b (obs ++ frame b) v)) (filter (fun v => (fst (across vert b) <=? v) && (v <=? snd (across vert b))) (coords prec vert b (all ++ frame b) pts)).
