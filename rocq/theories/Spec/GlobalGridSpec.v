(** The grid of tiles, for C98. *)
From Verif Require Import Base.Prelude Model.GlobalGrid.
Local Open Scope Z_scope.

(** The arguments make sense. *)
Record valid (s : setup) : Prop := {
  v_unit_x : forall m, 0 < unit_x (drc s) m; v_unit_y : forall m, 0 < unit_y (drc s) m; v_scale : 0 < scale s; v_per : 0 < per_layer s }.
(** Borders of the columns and rows; how many there are. *)
Definition left_of (s : setup) (i : nat) : Z := llx s + Z.of_nat i * x_unit s.
Definition right_of (s : setup) (i : nat) : Z := Z.min (urx s) (left_of s (S i)).
Definition bottom_of (s : setup) (j : nat) : Z := lly s + Z.of_nat j * y_unit s.
Definition top_of (s : setup) (j : nat) : Z := Z.min (ury s) (bottom_of s (S j)).
Definition columns (s : setup) : nat := Z.to_nat ((urx s - llx s + x_unit s - 1) / x_unit s).
Definition rows (s : setup) : nat := Z.to_nat ((ury s - lly s + y_unit s - 1) / y_unit s).
Definition layers (s : setup) : nat := Z.to_nat ((hmetal s - lmetal s + per_layer s) / per_layer s).
(** The number of the tile in layer [k], column [i], row [j]. *)
Definition cell (s : setup) (k i j : nat) : nat := ((k * columns s + i) * rows s + j)%nat.
Definition in_grid (s : setup) (k i j : nat) : Prop := (k < layers s /\ i < columns s /\ j < rows s)%nat.
(** The metals of a layer, lowest first. *)
Definition metal_in (s : setup) (k : nat) (m : Z) : Prop :=
  lmetal s <= m <= hmetal s /\ Z.of_nat k * per_layer s <= m - lmetal s < (Z.of_nat k + 1) * per_layer s.
Definition total (l : list Z) : Z := fold_right Z.add 0 l.
(** All tracks of one direction through a border of length [len]. *)
Definition tracks (s : setup) (dir : Z -> bool) (unit : Z -> Z) (ms : list Z) (len : Z) : Z := total (map (fun m => len / unit m) (filter dir ms)).
Definition side (s : setup) (dir : Z -> bool) (unit : Z -> Z) (ms : list Z) (len : Z) (there : bool) (n : nat) : edges :=
  if there && existsb dir ms then [(n, tracks s dir unit ms len)] else [].
(** The tile in layer [k], column [i], row [j] with all its edges. *)
Definition tile_ok (s : setup) (k i j : nat) (t : gtile) : Prop :=
  gw t = right_of s i - left_of s i /\ gh t = top_of s j - bottom_of s j /\
  gx t = left_of s i + gw t / 2 /\ gy t = bottom_of s j + gh t / 2 /\ glayer t = k /\
  (forall m, In m (gmetal t) <-> metal_in s k m) /\ StronglySorted Z.lt (gmetal t) /\
  let vert m := vertical (drc s) m in let hori m := negb (vertical (drc s) m) in
  north t = side s vert (unit_x (drc s)) (gmetal t) (gw t) (S j <? rows s)%nat (cell s k i (S j)) /\
  south t = side s vert (unit_x (drc s)) (gmetal t) (gw t) (0 <? j)%nat (cell s k i (j - 1)) /\
  east t = side s hori (unit_y (drc s)) (gmetal t) (gh t) (S i <? columns s)%nat (cell s k (S i) j) /\
  west t = side s hori (unit_y (drc s)) (gmetal t) (gh t) (0 <? i)%nat (cell s k (i - 1) j) /\
  up t = (if (S k <? layers s)%nat then [(cell s (S k) i j, Z.quot (gw t * gh t) (via_area (drc s) (lmetal s + Z.of_nat (S k) * per_layer s - 1)))] else []) /\
  down t = (if (0 <? k)%nat then [(cell s (k - 1) i j, Z.quot (gw t * gh t) (via_area (drc s) (lmetal s + Z.of_nat k * per_layer s - 1)))] else []).
Definition grid_ok (s : setup) (ts : list gtile) : Prop :=
  length ts = (layers s * columns s * rows s)%nat /\
  forall k i j, in_grid s k i j -> exists t, nth_error ts (cell s k i j) = Some t /\ tile_ok s k i j t.

(** A tile is in the rectangle. *)
Definition overlaps (s : setup) (i j : nat) (px py qx qy : Z) : Prop :=
  left_of s i < qx /\ px < right_of s i /\ bottom_of s j < qy /\ py < top_of s j.
