(** Model of PlaceRouteHierFlow/router/Grid.cpp:3140-3553 (the constructor used by the detailed router, GcellDetailRouter.cpp:1039) and
    of Grid.cpp:270-304, 318-328 (the point lists that block nodes).
    Simplified: [int] without overflow; [ceil(double(a) / b)] is exact; the grid of the global router is given by functions on the
    numbers of its tiles, all of them within the ranges of the vectors ([.at] would throw otherwise); [x_unit] of a vertical and
    [y_unit] of a horizontal metal are one function [unit], as the metals next to each other have different directions (otherwise
    the code divides by 0); [gridmetal], [GridLL] and [GridUR] are left out.  Cost, parent and the fields of the search are in Model/AStar.v. *)
From Coq Require Import ZArith.
From Verif Require Import Base.Prelude Model.GlobalGrid Model.AStar.
Local Open Scope Z_scope.

(** PnRDB::Metal_info ([direct == 0] = vertical), Grid.cpp:3169-3186: unit times grid_scale; the number of metals is layerNo. *)
Record pdk := Pdk { vert : Z -> bool; unit : Z -> Z; off : Z -> Z; layers : Z }.
(** GlobalGrid: GetTileX, .., GetTileLayer, GetTileXidx, GetTileYidx, GetTileLayerNum, GetMaxXidx, GetMaxYidx, GetMappedMetalIndex. *)
Record gg := Gg { tx : nat -> Z; ty : nat -> Z; tw : nat -> Z; th : nat -> Z; tlayer : nat -> nat; txi : nat -> nat; tyi : nat -> nat;
                  layer_num : nat; max_x : nat; max_y : nat; metals : nat -> list Z }.
(** The arguments of the constructor. *)
Record args := Args { gr : gg; st : list (nat * nat); dr : pdk; ax0 : Z; ay0 : Z; ax1 : Z; ay1 : Z; lo_metal : Z; hi_metal : Z }.

(** Grid.cpp:3188-3206: the last tile written to a place of Hgrid (and Vgrid) stays. *)
Definition tiles (a : args) : list nat := flat_map (fun p => [fst p; snd p]) (st a).
Definition cell (a : args) (l x y : nat) : option nat :=
  find (fun i => (tlayer (gr a) i =? l)%nat && (txi (gr a) i =? x)%nat && (tyi (gr a) i =? y)%nat) (rev (tiles a)).
(** Grid.cpp:3213-3230 and 3233-3250: the runs of a row or column; [prev] is the cell before. *)
Fixpoint runs_from (start : option nat) (prev : nat) (cells : list (option nat)) : list (nat * nat) :=
  match cells, start with
  | [], None => []
  | [], Some s => [(s, prev)]
  | None :: r, None => runs_from None prev r
  | Some c :: r, None => runs_from (Some c) c r
  | None :: r, Some s => (s, prev) :: runs_from None prev r
  | Some c :: r, Some s => runs_from (Some s) c r
  end.
(** Grid.cpp:3207-3253: the tracks of one metal. *)
Definition column (a : args) (l x : nat) : list (option nat) := map (cell a l x) (seq 0 (S (max_y (gr a)))).
Definition row (a : args) (l y : nat) : list (option nat) := map (fun x => cell a l x y) (seq 0 (S (max_x (gr a)))).
Definition tracks (a : args) (m : Z) : list (nat * nat) :=
  flat_map (fun l => if existsb (Z.eqb m) (metals (gr a) l) then
      if vert (dr a) m then flat_map (fun x => runs_from None O (column a l x)) (seq 0 (S (max_x (gr a))))
      else flat_map (fun y => runs_from None O (row a l y)) (seq 0 (S (max_y (gr a)))) else []) (seq 0 (layer_num (gr a))).

(** Grid.cpp:3263-3285: the box of a track, within the chip. *)
Record box := Box { bx0 : Z; by0 : Z; bx1 : Z; by1 : Z }.
Definition track_box (a : args) (p : nat * nat) : box :=
  Box (Z.max (tx (gr a) (fst p) - Z.quot (tw (gr a) (fst p)) 2) (ax0 a)) (Z.max (ty (gr a) (fst p) - Z.quot (th (gr a) (fst p)) 2) (ay0 a))
      (Z.min (tx (gr a) (snd p) + Z.quot (tw (gr a) (snd p)) 2) (ax1 a)) (Z.min (ty (gr a) (snd p) + Z.quot (th (gr a) (snd p)) 2) (ay1 a)).
(** Grid.cpp:3293, 3300, ..: [int(ceil(double(track_x - offset) / unit)) * unit + offset], and the loop from there. *)
Definition lines (d : pdk) (m lo hi : Z) : list Z := upto (ceil_to (lo - off d m) (unit d m) + off d m) hi (unit d m).
(** [std::set<int>]. *)
Fixpoint z_insert (z : Z) (l : list Z) : list Z :=
  match l with [] => [z] | y :: r => if z <? y then z :: l else if y <? z then y :: z_insert z r else l end.
Definition z_set (l : list Z) : list Z := fold_left (fun s z => z_insert z s) l [].
(** Grid.cpp:3297-3326, 3413-3440: adj_layer_y, adj_layer_x. *)
Definition adjacent (d : pdk) (m lo hi : Z) : list Z :=
  z_set (if m =? 0 then lines d (m + 1) lo hi else if m =? layers d - 1 then lines d (m - 1) lo hi
         else lines d (m - 1) lo hi ++ lines d (m + 1) lo hi).
(** Grid.cpp:3337-3355: pmark. *)
Definition marked (d : pdk) (m z : Z) : bool :=
  (m =? 0) || (m =? layers d - 1) || (Z.rem z (unit d (m - 1)) =? off d (m - 1)) || (Z.rem z (unit d (m + 1)) =? off d (m + 1)).

(** Grid.cpp:3356-3401 and 3470-3515: one node.  The search goes back from the last node to the first one of the line. *)
Definition new_node (m x y : Z) (s w : list nat) : vertex := V x y m true true true [] s [] w None None.
Definition add_to_north (i : nat) (v : vertex) : vertex :=
  V (vx v) (vy v) (metal v) (active v) (via_down v) (via_up v) (AStar.north v ++ [i]) (AStar.south v) (AStar.east v) (AStar.west v) (AStar.up v) (AStar.down v).
Definition add_to_east (i : nat) (v : vertex) : vertex :=
  V (vx v) (vy v) (metal v) (active v) (via_down v) (via_up v) (AStar.north v) (AStar.south v) (AStar.east v ++ [i]) (AStar.west v) (AStar.up v) (AStar.down v).
Fixpoint alter_at {A} (f : A -> A) (i : nat) (l : list A) : list A :=
  match l, i with [], _ => [] | a :: l, O => f a :: l | a :: l, S i => a :: alter_at f i l end.
Fixpoint back_to (f : nat) (vs : list vertex) (vertical : bool) (x y : Z) (w : nat) : option nat :=
  match f with
  | O => None
  | S f =>
      let n := nth w vs nowhere in
      if (if vertical then vx n =? x else vy n =? y)
      then if 1 <=? (if vertical then y - vy n else x - vx n) then Some w else back_to f vs vertical x y (w - 1)
      else None
  end.
Definition add_node (vertical : bool) (m x y : Z) (sv : option nat * list vertex) : option nat * list vertex :=
  let '(nb_start, vs) := sv in let i := length vs in
  match nb_start with
  | None => (Some i, vs ++ [new_node m x y [] []])
  | Some s =>
      match back_to (i - s) vs vertical x y (i - 1) with
      | None => (Some s, vs ++ [new_node m x y [] []])
      | Some w => (Some s, if vertical then alter_at (add_to_north i) w vs ++ [new_node m x y [w] []]
                           else alter_at (add_to_east i) w vs ++ [new_node m x y [] [w]])
      end
  end.
(** Grid.cpp:3327-3404, 3441-3517: one line of a track. *)
Definition add_line (d : pdk) (m : Z) (adj : list Z) (c : Z) (vs : list vertex) : list vertex :=
  snd (fold_left (fun sv z => if marked d m z then if vert d m then add_node true m c z sv else add_node false m z c sv else sv) adj (None, vs)).
(** Grid.cpp:3260-3522: one track; the two tiles must be in one column (row). *)
Definition add_track (a : args) (m : Z) (vs : list vertex) (p : nat * nat) : list vertex :=
  let d := dr a in let b := track_box a p in
  if vert d m then
    if tx (gr a) (fst p) =? tx (gr a) (snd p)
    then fold_left (fun vs c => add_line d m (adjacent d m (by0 b) (by1 b)) c vs) (lines d m (bx0 b) (bx1 b)) vs else vs
  else
    if ty (gr a) (fst p) =? ty (gr a) (snd p)
    then fold_left (fun vs c => add_line d m (adjacent d m (bx0 b) (bx1 b)) c vs) (lines d m (by0 b) (by1 b)) vs else vs.
Definition metal_range (a : args) : list Z := map (fun k => lo_metal a + Z.of_nat k) (seq 0 (Z.to_nat (hi_metal a - lo_metal a + 1))).
Definition vertices (a : args) : list vertex := fold_left (fun vs m => fold_left (add_track a m) (tracks a m) vs) (metal_range a) [].

(** Grid.cpp:3403, 3517, 3529-3541: in [vertices_total_map] the first node of a place stays; the nodes [Start_index_metal_vertices] ..
    [End_index_metal_vertices] are those of the metal. *)
Fixpoint node_at (m x y : Z) (i : nat) (vs : list vertex) : option nat :=
  match vs with [] => None | v :: r => if (metal v =? m) && (vx v =? x) && (vy v =? y) then Some i else node_at m x y (S i) r end.
Definition set_up (o : nat) (v : vertex) : vertex := V (vx v) (vy v) (metal v) (active v) (via_down v) (via_up v) (AStar.north v) (AStar.south v) (AStar.east v) (AStar.west v) (Some o) (AStar.down v).
Definition set_down (o : nat) (v : vertex) : vertex := V (vx v) (vy v) (metal v) (active v) (via_down v) (via_up v) (AStar.north v) (AStar.south v) (AStar.east v) (AStar.west v) (AStar.up v) (Some o).
Definition connect (hi : Z) (vs : list vertex) (i : nat) : list vertex :=
  let v := nth i vs nowhere in
  if hi <=? metal v then vs else
  match node_at (metal v + 1) (vx v) (vy v) O vs with None => vs | Some o => alter_at (set_down i) o (alter_at (set_up o) i vs) end.
Definition Grid (a : args) : list vertex := let vs := vertices a in fold_left (connect (hi_metal a)) (seq 0 (length vs)) vs.

(** Grid.cpp:270-304, 318-328: InactivePointlist, InactivePointlist_via, ActivePointlist; [plist m] are the points of the metal. *)
Definition listed (plist : Z -> list (Z * Z)) (v : vertex) : bool := existsb (fun p => (fst p =? vx v) && (snd p =? vy v)) (plist (metal v)).
Definition InactivePointlist (plist : Z -> list (Z * Z)) : list vertex -> list vertex :=
  map (fun v => if listed plist v then V (vx v) (vy v) (metal v) false (via_down v) (via_up v) (AStar.north v) (AStar.south v) (AStar.east v) (AStar.west v) (AStar.up v) (AStar.down v) else v).
Definition ActivePointlist (plist : Z -> list (Z * Z)) : list vertex -> list vertex :=
  map (fun v => if listed plist v then V (vx v) (vy v) (metal v) true (via_down v) (via_up v) (AStar.north v) (AStar.south v) (AStar.east v) (AStar.west v) (AStar.up v) (AStar.down v) else v).
Definition InactivePointlist_via (plist : Z -> list (Z * Z)) (up : bool) : list vertex -> list vertex :=
  map (fun v => if listed plist v then
    if up then V (vx v) (vy v) (metal v) (active v) (via_down v) false (AStar.north v) (AStar.south v) (AStar.east v) (AStar.west v) (AStar.up v) (AStar.down v)
    else V (vx v) (vy v) (metal v) (active v) false (via_up v) (AStar.north v) (AStar.south v) (AStar.east v) (AStar.west v) (AStar.up v) (AStar.down v) else v).
(** GcellDetailRouter.cpp:1046-1059, 1134-1170, 1683-1684: the router calls these functions one after the other. *)
Inductive edit := Block (plist : Z -> list (Z * Z)) | Open (plist : Z -> list (Z * Z)) | NoVia (plist : Z -> list (Z * Z)) (up : bool).
Definition apply_edit (vs : list vertex) (e : edit) : list vertex :=
  match e with Block pl => InactivePointlist pl vs | Open pl => ActivePointlist pl vs | NoVia pl up => InactivePointlist_via pl up vs end.
Definition edited (es : list edit) (vs : list vertex) : list vertex := fold_left apply_edit es vs.
