(** Model of PlaceRouteHierFlow/router/GlobalGrid.cpp: the tiles of the global router, their
    capacities, and the tiles of a pin.
    Simplified: [int] and [long] are integers without overflow; the tables of the design rules are
    functions of the number of the metal ([.at] of a metal without entry would throw); grid units,
    [scale], [tileLayerNo] and the areas of vias are positive (otherwise the loops do not end or the divisions
    are undefined); [floor(double(a) / b)] is exact.  [index], [Xidx], [Yidx], [maxXidx], [maxYidx], [IDXmap] and
    [Start_index], [End_index] follow from the order of the tiles. *)
From Verif Require Import Base.Prelude Model.GlobalGraph.
Local Open Scope Z_scope.

(** PnRDB::metal_info ([direct == 0] = vertical) and the area that a via needs, GlobalGrid.cpp:296-297. *)
Record rules := Rules { vertical : Z -> bool; unit_x : Z -> Z; unit_y : Z -> Z; via_area : Z -> Z; dist_ss : Z -> Z; dist_ee : Z -> Z }.
(** The arguments of the constructor, GlobalGrid.cpp:113. *)
Record setup := Setup { drc : rules; llx : Z; lly : Z; urx : Z; ury : Z; lmetal : Z; hmetal : Z; per_layer : Z; scale : Z }.

(** Rdatatype.h:70-88 [tileEdge], [tile]. *)
Definition edges := list (nat * Z).
Record gtile := G { gx : Z; gy : Z; gw : Z; gh : Z; gmetal : list Z; glayer : nat;
                    north : edges; south : edges; east : edges; west : edges; down : edges; up : edges }.

(** GlobalGrid.cpp:136-142: the size of a tile. *)
Definition x_unit (s : setup) : Z := (if vertical (drc s) (lmetal s) then unit_x (drc s) (lmetal s) else unit_x (drc s) (lmetal s + 1)) * scale s.
Definition y_unit (s : setup) : Z := (if vertical (drc s) (lmetal s) then unit_y (drc s) (lmetal s + 1) else unit_y (drc s) (lmetal s)) * scale s.
(** GlobalGrid.cpp:118: [ceil(double(Hmetal - Lmetal + 1) / tileLayerNo)]. *)
Definition layerNo (s : setup) : nat := Z.to_nat (- (- (hmetal s - lmetal s + 1) / per_layer s)).
(** GlobalGrid.cpp:158, 171: [for (int X = LL.x; X < UR.x; X += x_unit)]. *)
Fixpoint starts_from (fuel : nat) (hi step X : Z) : list Z :=
  match fuel with
  | O => []
  | S fuel => if X <? hi then X :: starts_from fuel hi step (X + step) else []
  end.
Definition starts (lo hi step : Z) : list Z := starts_from (Z.to_nat (hi - lo)) hi step lo.
(** GlobalGrid.cpp:164-169: the last tile may be smaller. *)
Definition size_at (unit hi X : Z) : Z := if hi <? X + unit then hi - X else unit.
Definition center_at (unit hi X : Z) : Z := X + Z.quot (size_at unit hi X) 2.
(** GlobalGrid.cpp:147-155: the metals of a layer of tiles. *)
Definition metals_of (s : setup) (k : nat) : list Z :=
  filter (fun m => m <=? hmetal s) (map (fun j => lmetal s + Z.of_nat k * per_layer s + Z.of_nat j) (seq 0 (Z.to_nat (per_layer s)))).
(** GlobalGrid.cpp:146-204: all tiles, without edges. *)
Definition new_tile (s : setup) (k : nat) (X Y : Z) : gtile :=
  G (center_at (x_unit s) (urx s) X) (center_at (y_unit s) (ury s) Y) (size_at (x_unit s) (urx s) X) (size_at (y_unit s) (ury s) Y)
    (metals_of s k) k [] [] [] [] [] [].
Definition new_tiles (s : setup) : list gtile :=
  flat_map (fun k => flat_map (fun X => map (new_tile s k X) (starts (lly s) (ury s) (y_unit s))) (starts (llx s) (urx s) (x_unit s))) (seq 0 (layerNo s)).

(** Rdatatype.h:374-394 [pointXYComp], [pointYXComp] and [std::map]: an entry that is there already stays. *)
Definition point := (Z * Z)%type.
Definition xy_lt (a b : point) : bool := if fst a =? fst b then snd a <? snd b else fst a <? fst b.
Definition yx_lt (a b : point) : bool := if snd a =? snd b then fst a <? fst b else snd a <? snd b.
Fixpoint pm_insert (lt : point -> point -> bool) (p : point) (i : nat) (m : list (point * nat)) : list (point * nat) :=
  match m with
  | [] => [(p, i)]
  | (q, j) :: m' => if lt p q then (p, i) :: m else if lt q p then (q, j) :: pm_insert lt p i m' else m
  end.
(** GlobalGrid.cpp:196-197: [XYmap.at(k)], [YXmap.at(k)]. *)
Definition layer_points (k : nat) (ts : list gtile) : list (point * nat) :=
  flat_map (fun it => if Nat.eqb (glayer (snd it)) k then [((gx (snd it), gy (snd it)), fst it)] else []) (combine (seq 0 (length ts)) ts).
Definition pm (lt : point -> point -> bool) (k : nat) (ts : list gtile) : list (point * nat) :=
  fold_left (fun m e => pm_insert lt (fst e) (snd e) m) (layer_points k ts) [].
Definition pm_find (p : point) (m : list (point * nat)) : option nat :=
  match find (fun e => (fst (fst e) =? fst p) && (snd (fst e) =? snd p)) m with Some (_, i) => Some i | None => None end.

(** GlobalGrid.cpp:227-253, 268-294: one edge more, or more capacity. *)
Definition add_cap (next : nat) (cap : Z) (e : edges) : edges := match e with [] => [(next, cap)] | (n, c) :: r => (n, c + cap) :: r end.
Definition set_north t e := G (gx t) (gy t) (gw t) (gh t) (gmetal t) (glayer t) e (south t) (east t) (west t) (down t) (up t).
Definition set_south t e := G (gx t) (gy t) (gw t) (gh t) (gmetal t) (glayer t) (north t) e (east t) (west t) (down t) (up t).
Definition set_east t e := G (gx t) (gy t) (gw t) (gh t) (gmetal t) (glayer t) (north t) (south t) e (west t) (down t) (up t).
Definition set_west t e := G (gx t) (gy t) (gw t) (gh t) (gmetal t) (glayer t) (north t) (south t) (east t) e (down t) (up t).
Definition set_down t e := G (gx t) (gy t) (gw t) (gh t) (gmetal t) (glayer t) (north t) (south t) (east t) (west t) e (up t).
Definition set_up t e := G (gx t) (gy t) (gw t) (gh t) (gmetal t) (glayer t) (north t) (south t) (east t) (west t) (down t) e.
(** Entries of a map next to each other, with the same x (y). *)
Definition neighbours (same : point -> point -> bool) (m : list (point * nat)) : list (nat * nat) :=
  flat_map (fun ab => if same (fst (fst ab)) (fst (snd ab)) then [(snd (fst ab), snd (snd ab))] else []) (combine m (tl m)).
Definition join (fwd bwd : nat -> gtile -> gtile) (ps : list (nat * nat)) (ts : list gtile) : option (list gtile) :=
  fold_opt (fun ab ts => match alter (fwd (snd ab)) (fst ab) ts with Some ts' => alter (bwd (fst ab)) (snd ab) ts' | None => None end) ps ts.
(** GlobalGrid.cpp:208-296: one metal; [metal2tile]. *)
Definition layer_of (s : setup) (m : Z) : nat := if (lmetal s <=? m) && (m <=? hmetal s) then Z.to_nat ((m - lmetal s) / per_layer s) else 0%nat.
Definition add_north s m (n : nat) t := set_north t (add_cap n (Z.quot (gw t) (unit_x (drc s) m)) (north t)).
Definition add_south s m (n : nat) t := set_south t (add_cap n (Z.quot (gw t) (unit_x (drc s) m)) (south t)).
Definition add_east s m (n : nat) t := set_east t (add_cap n (Z.quot (gh t) (unit_y (drc s) m)) (east t)).
Definition add_west s m (n : nat) t := set_west t (add_cap n (Z.quot (gh t) (unit_y (drc s) m)) (west t)).
Definition metal_edges (s : setup) (m : Z) (ts : list gtile) : option (list gtile) :=
  if vertical (drc s) m
  then join (add_north s m) (add_south s m) (neighbours (fun p q => fst p =? fst q) (pm xy_lt (layer_of s m) ts)) ts
  else join (add_east s m) (add_west s m) (neighbours (fun p q => snd p =? snd q) (pm yx_lt (layer_of s m) ts)) ts.
(** GlobalGrid.cpp:297-322: the edges between layers. *)
Definition up_edge (s : setup) (i : nat) (ts : list gtile) : option (list gtile) :=
  match nth_error ts i with
  | None => None
  | Some t =>
      match pm_find (gx t, gy t) (pm xy_lt (S (glayer t)) ts) with
      | None => Some ts
      | Some j =>
          let cap := Z.quot (gw t * gh t) (via_area (drc s) (last (gmetal t) 0)) in
          match alter (fun t => set_up t (up t ++ [(j, cap)])) i ts with
          | Some ts' => alter (fun t => set_down t (down t ++ [(i, cap)])) j ts'
          | None => None
          end
      end
  end.
Definition all_metals (s : setup) : list Z := map (fun j => lmetal s + Z.of_nat j) (seq 0 (Z.to_nat (hmetal s - lmetal s + 1))).
(** GlobalGrid.cpp:113-323: the constructor. *)
Definition GlobalGrid (s : setup) : option (list gtile) :=
  let ts := new_tiles s in
  match fold_opt (metal_edges s) (all_metals s) ts with
  | Some ts1 => fold_opt (up_edge s) (filter (fun i => match nth_error ts i with Some t => (S (glayer t) <? layerNo s)%nat | None => false end) (seq 0 (length ts))) ts1
  | None => None
  end.

(** GlobalGrid.cpp:628-663 [ConvertNetBlockPin]: the tiles of a rectangle. *)
Definition ConvertNetBlockPin (s : setup) (ts : list gtile) (metal px py qx qy : Z) : list nat :=
  flat_map (fun x => flat_map (fun y =>
      match pm_find (center_at (x_unit s) (urx s) x, center_at (y_unit s) (ury s) y) (pm xy_lt (layer_of s metal) ts) with Some i => [i] | None => [] end)
    (starts ((py - lly s) / y_unit s * y_unit s + lly s) qy (y_unit s)))
  (starts ((px - llx s) / x_unit s * x_unit s + llx s) qx (x_unit s)).

(** GlobalGrid.cpp:325-375 [ConvertMetal2Points], [ConvertRect2Points]: the points of a metal rectangle that take room. *)
Definition ceil_to (a u : Z) : Z := - (- a / u) * u.
Definition upto (lo hi step : Z) : list Z := starts lo (hi + 1) step.
Definition Metal2Points (s : setup) (m x1 y1 x2 y2 : Z) : list point :=
  let ex := if vertical (drc s) m then dist_ss (drc s) m else dist_ee (drc s) m in
  let ey := if vertical (drc s) m then dist_ee (drc s) m else dist_ss (drc s) m in
  let lx := Z.max (llx s) (x1 - ex) in let ly := Z.max (lly s) (y1 - ey) in
  let rx := Z.min (urx s) (x2 + ex) in let ry := Z.min (ury s) (y2 + ey) in
  let ux := if vertical (drc s) m then unit_x (drc s) m else x_unit s in
  let uy := if vertical (drc s) m then y_unit s else unit_y (drc s) m in
  flat_map (fun y => map (fun x => (x, y)) (upto (ceil_to lx ux) rx ux)) (upto (ceil_to ly uy) ry uy).
(** GlobalGrid.cpp:405-507 [AdjustPlateEdgeCapacity]: [capacity -= capR * 1.5], at least 0; the points [pts m] of each metal are sets.
    [lower_bound] .. [upper_bound] = the points of the row (column) between the two corners. *)
Definition less_cap (n : Z) (e : edges) : edges :=
  match e with [] => [] | (k, c) :: r => (k, Z.max 0 (Z.quot (2 * c - 3 * n) 2)) :: r end.
Definition count {A} (f : A -> bool) (l : list A) : Z := Z.of_nat (length (filter f l)).
Definition adjust_metal (s : setup) (pts : Z -> list point) (t : gtile) (m : Z) : gtile :=
  let x1 := gx t - Z.quot (gw t) 2 in let x2 := gx t + Z.quot (gw t) 2 in
  let y1 := gy t - Z.quot (gh t) 2 in let y2 := gy t + Z.quot (gh t) 2 in
  if vertical (drc s) m
  then let row y := count (fun p => (snd p =? y) && (x1 <=? fst p) && (fst p <=? x2)) (pts m) in
       set_north (set_south t (less_cap (row y1) (south t))) (less_cap (row y2) (north t))
  else let col x := count (fun p => (fst p =? x) && (y1 <=? snd p) && (snd p <=? y2)) (pts m) in
       set_east (set_west t (less_cap (col x1) (west t))) (less_cap (col x2) (east t)).
Definition AdjustPlateEdgeCapacity (s : setup) (pts : Z -> list point) (ts : list gtile) : list gtile :=
  map (fun t => fold_left (adjust_metal s pts) (gmetal t) t) ts.
(** GlobalGrid.cpp:509-563, 565-626 [AdjustVerticalEdgeCapacity…]: one via at (x, y) between the layers [k] and [k + 1]. *)
Definition via_point (s : setup) (x y : Z) : point :=
  (Z.quot (Z.max (llx s) (x / x_unit s) + Z.min (urx s) (- (- x / x_unit s))) 2,
   Z.quot (Z.max (lly s) (y / y_unit s) + Z.min (ury s) (- (- y / y_unit s))) 2).
Definition one_less (e : edges) : edges := match e with [] => [] | (k, c) :: r => (k, Z.max 0 (c - 2)) :: r end.
Definition at_found (o : option nat) (f : gtile -> gtile) (ts : list gtile) : option (list gtile) := match o with Some i => alter f i ts | None => Some ts end.
Definition via_adjust (s : setup) (k : nat) (x y : Z) (ts : list gtile) : option (list gtile) :=
  match at_found (pm_find (via_point s x y) (pm xy_lt k ts)) (fun t => set_up t (one_less (up t))) ts with
  | Some ts1 => at_found (pm_find (via_point s x y) (pm xy_lt (S k) ts1)) (fun t => set_down t (one_less (down t))) ts1
  | None => None
  end.

(** The tile as the graph of the router sees it, GlobalGraph.cpp:336-366: neighbours in the order north, south, east, west, up, down. *)
Definition as_tile (t : gtile) : tile :=
  Tile (gx t) (gy t) (gmetal t) (map (fun e => TEdge (Some (fst e)) (snd e)) (north t ++ south t ++ east t ++ west t ++ up t ++ down t)).
