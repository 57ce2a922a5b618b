(** The steps of the Hanan router from a node along a line: hanan_router/HananRouter.cpp:780-836 (snap, getTargetGrid, getAdjacentGrid) and 862-998 (expandNode).
    A direction is [vert] (north and south, else east and west) and [up] (north or east). The steps are the coordinates at which nodes are made; vias, 847-860, and the queue are not modelled. *)
From Coq Require Import ZArith.
From Verif Require Import Base.Prelude Model.HananGeom Model.HananGrid.
Local Open Scope Z_scope.

Definition lines : Type := list (Z * list range).
Definition find_line (v : Z) (ls : lines) : option (list range) := match find (fun l => fst l =? v) ls with Some l => Some (snd l) | None => None end.
Definition holds (y : Z) (r : range) : bool := (fst r <=? y) && (y <=? snd r).
(** snap, 780-804. *)
Definition snapc (vert up : bool) (bbox : rect) (ls : lines) (x y : Z) : Z :=
  let b := along vert bbox in
  let none_ := if up then fst b else snd b in
  match ls with
  | [] => none_
  | _ => match find_line (if vert then x else y) ls with
         | Some rs => match find (holds (if vert then y else x)) rs with Some r => if up then snd r else fst r | None => none_ end
         | None => if up then snd b else fst b
         end
  end.
(** getTargetGrid, 806-819; [c] is the coordinate of the node. *)
Definition target_grid (ts : list Z) (c s : Z) : list Z := filter (fun t => (Z.min c s <? t) && (t <? Z.max c s)) ts.
(** getAdjacentGrid, 821-836: [adj] are the lines across of the layers above and below; [coord] is y on a layer with vertical wires, else x. *)
Definition adjacent_grid (up : bool) (adj : list Z) (coord s : Z) : list Z := filter (fun p => if up then (coord <? p) && (p <? s) else (p <? coord) && (s <? p)) adj.
(** expandNode, 862-998, in one direction; [dir] says whether the layer has wires in it, [lv] whether it has vertical wires. *)
Definition past (up : bool) (c p : Z) : bool := if up then c <? p else p <? c.
Definition steps (dir lv vert up : bool) (bbox : rect) (ls : lines) (adj : list Z) (targets : list (Z * Z)) (x y : Z) : list Z :=
  let c := if vert then y else x in let b := along vert bbox in
  if negb dir || (if up then c <? fst b else snd b <? c) then []
  else let s := snapc vert up bbox ls x y in
    (if past up c s then [s] else []) ++
    filter (past up c) (adjacent_grid up adj (if lv then y else x) s ++ target_grid (map (fun t => if vert then snd t else fst t) targets) c s).
