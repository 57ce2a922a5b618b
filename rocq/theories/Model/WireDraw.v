(** Model of the parts of PlaceRouteHierFlow/router/GcellDetailRouter.cpp which block the nodes near obstacles and draw the wires of a
    path (called from create_detailrouter_new, 367-514).
    Simplified: [int] without overflow; [floor] and [ceil] of quotients are exact; [grid_unit_x] of a vertical and [grid_unit_y] of a
    horizontal metal are one function; a metal without one of the two directions is left out; the conditions within the innermost
    loops of InactivateRect2GridPoints, which repeat the bounds of the loops, are left out; with no node in the grid the code writes
    out of bounds, here nothing happens. *)
From Coq Require Import ZArith.
From Verif Require Import Base.Prelude Model.GlobalGrid Model.AStar Model.DetailGrid.
Local Open Scope Z_scope.

(** drc_info.Metal_info: direct = 0, grid_unit_x or grid_unit_y, width, dist_ee, minL; grid units of cross_layer_drc_info; layerNo. *)
Record rules := Rules { r_vert : Z -> bool; r_unit : Z -> Z; r_cross : Z -> Z; r_width : Z -> Z; r_ee : Z -> Z; r_minL : Z -> Z; r_layers : Z }.
(** RouterDB::SinkData: metalIdx and the two corners. *)
Record sink := Sink { s_metal : Z; s_x0 : Z; s_y0 : Z; s_x1 : Z; s_y1 : Z }.

Definition floor_to (a u : Z) : Z := a / u * u.
(** GcellDetailRouter.cpp:4343-4345, 4386-4388: the first line of the metal after lo. *)
Definition first_line (lo u : Z) : Z :=
  if Z.rem lo u =? 0 then lo + u else if Z.quot lo u * u <? lo then (Z.quot lo u + 1) * u else Z.quot lo u * u.
(** GcellDetailRouter.cpp:4350-4358, 4396-4404: the places on a line from lo to hi for one of the two metals next to it.  If there is
    none, the code takes the one before lo, up to [ceil] of it (vertical) or of [other] (horizontal). *)
Definition cross_places (lo hi u other : Z) : list Z :=
  if hi <? ceil_to lo u then upto (floor_to lo u) (ceil_to other u) u else upto (ceil_to lo u) hi u.
Definition nexts (R : rules) (m : Z) : list Z := (if m =? 0 then [] else [m - 1]) ++ (if m =? r_layers R - 1 then [] else [m + 1]).
(** InactivateRect2GridPoints, GcellDetailRouter.cpp:4332-4437: the points. *)
Definition rect_points (R : rules) (m x0 y0 x1 y1 : Z) : list (Z * Z) :=
  let u := r_unit R m in let h := Z.quot (r_width R m) 2 in
  if r_vert R m then
    flat_map (fun x => flat_map (fun m' => let lo := y0 - r_ee R m in
        map (fun y => (x, y)) (cross_places lo (y1 + r_ee R m) (r_cross R m') (floor_to lo (r_cross R m')))) (nexts R m))
      (upto (first_line (x0 - u + h) u) (x1 + u - h - 1) u)
  else
    flat_map (fun y => flat_map (fun m' =>
        map (fun x => (x, y)) (cross_places x0 x1 (r_cross R m') (y0 - u + h))) (nexts R m))
      (upto (first_line (y0 - u + h) u) (y1 + u - h - 1) u).
(** GcellDetailRouter.cpp:4364: the index is 0 if the point is not in the map. *)
Definition map_index (vs : list vertex) (m : Z) (p : Z * Z) : nat := match node_at m (fst p) (snd p) O vs with Some i => i | None => O end.
Definition off_node (v : vertex) : vertex := V (vx v) (vy v) (metal v) false (via_down v) (via_up v) (AStar.north v) (AStar.south v) (AStar.east v) (AStar.west v) (AStar.up v) (AStar.down v).
Definition Inactivate (R : rules) (m x0 y0 x1 y1 : Z) (vs : list vertex) : list vertex :=
  fold_left (fun vs p => alter_at off_node (map_index vs m p) vs) (rect_points R m x0 y0 x1 y1) vs.
(** Grid_Inactive_new, GcellDetailRouter.cpp:191-235; [mIdx < layerNo - 1 || mIdx > 0] holds unless there is only one metal. *)
Definition Grid_Inactive_new (R : rules) (obs : list sink) (vs : list vertex) : list vertex :=
  fold_left (fun vs o => let m := s_metal o in
    if (m <? r_layers R - 1) || (0 <? m) then
      if r_vert R m then Inactivate R m (s_x0 o) (s_y0 o - r_ee R m) (s_x1 o) (s_y1 o + r_ee R m) vs
      else Inactivate R m (s_x0 o - r_ee R m) (s_y0 o) (s_x1 o + r_ee R m) (s_y1 o) vs
    else vs) obs vs.
(** Grid_Inactive_One_Layer, 180-189: the nodes of the metal are those from Start_index_metal_vertices to End_index_metal_vertices. *)
Definition Grid_Inactive_One_Layer (m : Z) : list vertex -> list vertex := map (fun v => if metal v =? m then off_node v else v).
(** Refresh_Grid, 681-687. *)
Definition Refresh_Grid : list vertex -> list vertex :=
  map (fun v => V (vx v) (vy v) (metal v) true true true (AStar.north v) (AStar.south v) (AStar.east v) (AStar.west v) (AStar.up v) (AStar.down v)).

(** ExtendX, ExtendY, ExtendX_PN, ExtendY_PN, 3271-3367: [p] and [q] are added below and above. *)
Definition extend_x (p q : Z) (l : line) : line :=
  if l_x0 l <? l_x1 l then Line (l_metal l) (l_x0 l - p) (l_y0 l) (l_x1 l + q) (l_y1 l) else Line (l_metal l) (l_x0 l + q) (l_y0 l) (l_x1 l - p) (l_y1 l).
Definition extend_y (p q : Z) (l : line) : line :=
  if l_y0 l <? l_y1 l then Line (l_metal l) (l_x0 l) (l_y0 l - p) (l_x1 l) (l_y1 l + q) else Line (l_metal l) (l_x0 l) (l_y0 l + q) (l_x1 l) (l_y1 l - p).
(** ExtendMetals and ExtendMetalsPhysicalPath, 3369-3435 and 598-667; [ceil(minL - current_length) / 2] is cut to an [int]. *)
Definition line_len (l : line) : Z := Z.abs (l_x0 l - l_x1 l) + Z.abs (l_y0 l - l_y1 l).
Definition extend_line (R : rules) (l : line) (label : Z) : line :=
  let d := r_minL R (l_metal l) - line_len l in
  let e := fun p q => if r_vert R (l_metal l) then extend_y p q l else extend_x p q l in
  if d <=? 0 then l else if label =? 1 then e (Z.quot d 2) (Z.quot d 2) else if label =? 2 then e 0 d else if label =? 3 then e d 0 else l.
(** UpdateMetalContact, 3234-3269, and GetPhsical_Metal_Via, 3510-3541, for a line that is no point: MetalRect. *)
Definition wire_rect (R : rules) (l : line) : sink :=
  let h := Z.quot (r_width R (l_metal l)) 2 in
  if l_y0 l =? l_y1 l then
    if l_x0 l <? l_x1 l then Sink (l_metal l) (l_x0 l) (l_y0 l - h) (l_x1 l) (l_y1 l + h) else Sink (l_metal l) (l_x1 l) (l_y1 l - h) (l_x0 l) (l_y0 l + h)
  else if l_y0 l <? l_y1 l then Sink (l_metal l) (l_x0 l - h) (l_y0 l) (l_x1 l + h) (l_y1 l) else Sink (l_metal l) (l_x1 l - h) (l_y1 l) (l_x0 l + h) (l_y0 l).
(** GetPhsical_Metal, 4094-4125: by the direction of the metal. *)
Definition metal_rect (R : rules) (l : line) : sink :=
  let h := Z.quot (r_width R (l_metal l)) 2 in
  if r_vert R (l_metal l) then
    if l_y0 l <=? l_y1 l then Sink (l_metal l) (l_x0 l - h) (l_y0 l) (l_x1 l + h) (l_y1 l) else Sink (l_metal l) (l_x1 l - h) (l_y1 l) (l_x0 l + h) (l_y0 l)
  else if l_x0 l <=? l_x1 l then Sink (l_metal l) (l_x0 l) (l_y0 l - h) (l_x1 l) (l_y1 l + h) else Sink (l_metal l) (l_x1 l) (l_y1 l - h) (l_x0 l) (l_y0 l + h).

(** Obtain_vias, 537-596, and GetPhsical_Metal_Via, 3573-3628: model_index and position; the set is sorted by these. *)
Definition ends (l : line) : list (Z * Z) := [(l_x0 l, l_y0 l); (l_x1 l, l_y1 l)].
Definition via := (Z * (Z * Z))%type.
Definition via_less (a b : via) : bool :=
  if fst a =? fst b then if fst (snd a) =? fst (snd b) then snd (snd a) <? snd (snd b) else fst (snd a) <? fst (snd b) else fst a <? fst b.
Fixpoint via_insert (v : via) (l : list via) : list via :=
  match l with [] => [v] | w :: r => if via_less v w then v :: l else if via_less w v then w :: via_insert v r else l end.
Definition pair_vias (a b : line) : list via :=
  if l_metal a =? l_metal b - 1
  then flat_map (fun p => flat_map (fun q => if (fst p =? fst q) && (snd p =? snd q) then [(l_metal a, p)] else []) (ends b)) (ends a) else [].
Definition Obtain_vias (ls : list line) : list via :=
  fold_left (fun s v => via_insert v s)
    (flat_map (fun ha => flat_map (fun lb => if (fst lb =? fst ha)%nat then [] else pair_vias (snd ha) (snd lb)) (combine (seq 0 (length ls)) ls)) (combine (seq 0 (length ls)) ls)) [].

(** create_detailrouter_new, 434-497: the nodes for the k-th connection of a net; the metals [ms] (435-436) are taken out once, before
    the first connection, and Refresh_Grid comes after each; the edits are those of Detailed_router_set_src_dest_new, AddViaEnclosure
    and AddViaSpacing. *)
Fixpoint round_grid (R : rules) (ms : list Z) (obs : nat -> list sink) (es : nat -> list edit) (vs : list vertex) (k : nat) : list vertex :=
  edited (es k) (Grid_Inactive_new R (obs k) (match k with O => fold_left (fun vs m => Grid_Inactive_One_Layer m vs) ms vs | S k' => Refresh_Grid (round_grid R ms obs es vs k') end)).
