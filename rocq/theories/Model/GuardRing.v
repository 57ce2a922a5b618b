(** The guard ring around a placed node: GuardRing.cpp (called for a node with Guardring_Consts, align/pnr/placer.py:61-63).
    Coordinates are integers ([int] without overflow); the two directions have the same formulae, so a direction is a record. *)
From Coq Require Import ZArith.
From Verif Require Import Base.Prelude.
Local Open Scope Z_scope.

(** One direction (x: width, grid_unit_x of metal 0; y: height, grid_unit_y of metal 1): the size of the node, the pin of the cell
    GUARD_RING from [g_lo] to [g_hi], the size of the cell, xspace or yspace, and the grid. *)
Record side := Side { g_size : Z; g_lo : Z; g_hi : Z; g_cell : Z; g_space : Z; g_grid : Z }.
(** Pcell_info and DRC_Read, GuardRing.cpp:4-52. *)
Definition metal_size (d : side) : Z := g_hi d - g_lo d.
Definition minimal_PC (d : side) : Z := g_cell d - g_hi d.
Definition minimal (d : side) : Z := g_space d + minimal_PC d.
(** GuardRing.cpp:72-75: the quotient of doubles is rounded up; it is exact enough, as the numbers are less than 2 ^ 31. *)
Definition ceil_div (a b : Z) : Z := - (- a / b).
Definition number (d : side) : Z := ceil_div (g_size d + 2 * minimal d + g_grid d) (metal_size d).
(** GuardRing.cpp:77-83 southwest. *)
Definition southwest (d : side) : Z := 0 - minimal d - metal_size d - Z.quot (number d * metal_size d - (g_size d + 2 * minimal d)) 2.
(** GuardRing.cpp:128-133. *)
Definition shift (d : side) : Z := - southwest d + g_lo d.
Definition wcell_shift (d : side) : Z := Z.quot (shift d) (g_grid d) * g_grid d.

Definition pt := (Z * Z)%type.
Definition range (a b : Z) : list Z := map (fun k => a + Z.of_nat k) (seq 0 (Z.to_nat (b - a))).
(** GuardRing.cpp:85-121: the corner, then south, east, north and west; each side starts from the last point of the one before. *)
Definition cells (X Y : side) : list pt :=
  let x_number := number X + 2 in let y_number := number Y in
  let sw := (southwest X, southwest Y) in
  let south := map (fun i => (fst sw + i * metal_size X, snd sw)) (range 1 x_number) in let se := last south sw in
  let east := map (fun i => (fst se, snd se + i * metal_size Y)) (range 1 (y_number + 2)) in let ne := last east se in
  let north := map (fun i => (fst ne - i * metal_size X, snd ne)) (range 1 x_number) in let nw := last north ne in
  let west := map (fun i => (fst nw, snd nw - i * metal_size Y)) (range 1 (y_number + 1)) in
  (sw :: south) ++ east ++ north ++ west.
(** GuardRing.cpp:135-160: moved to the origin; the cells, and their pins. *)
Record box := Box { x0 : Z; y0 : Z; x1 : Z; y1 : Z }.
Definition stored_ll (X Y : side) : list pt := map (fun p => (fst p - southwest X, snd p - southwest Y)) (cells X Y).
Definition cell_box (X Y : side) (p : pt) : box := Box (fst p) (snd p) (fst p + g_cell X) (snd p + g_cell Y).
Definition pin_box (X Y : side) (p : pt) : box :=
  let l := (fst p + g_lo X, snd p + g_lo Y) in Box (fst l) (snd l) (fst l + metal_size X) (snd l + metal_size Y).

(** A ring cell in the node: its box, the contacts of each of its pins, and its metal. *)
Record ring := Ring { r_box : box; r_pins : list (list box); r_metals : list box }.
(** storegrhierNode, GuardRing.cpp:181-234: [temp_pin] and [temp_gr] are not cleared in the loop. *)
Fixpoint store (X Y : side) (contacts : list box) (pins : list (list box)) (metals : list box) (ps : list pt) : list ring :=
  match ps with
  | [] => []
  | p :: t =>
      let metals' := metals ++ [pin_box X Y p] in let contacts' := contacts ++ [pin_box X Y p] in let pins' := pins ++ [contacts'] in
      Ring (cell_box X Y p) pins' metals' :: store X Y contacts' pins' metals' t
  end.

(** The node: its size, all placed boxes and points that movehierNode (237-279) goes through (blocks, nets, terminals, power nets,
    pins, metals, vias, PnRAS), the axes of symmetric nets (vertical axis?, coordinate; [net::axis_coor]), which movenet leaves out, and the rings. *)
Record node := Node { n_w : Z; n_h : Z; n_boxes : list box; n_points : list pt; n_axes : list (bool * Z); n_rings : list ring }.
Definition move_box (dx dy : Z) (b : box) : box := Box (x0 b + dx) (y0 b + dy) (x1 b + dx) (y1 b + dy).
Definition move_pt (dx dy : Z) (p : pt) : pt := (fst p + dx, snd p + dy).
(** What the cell and the rules say, per direction. *)
Record cell_rules := CellRules { c_lo : Z; c_hi : Z; c_cell : Z; c_space : Z; c_grid : Z }.
Definition side_of (size : Z) (c : cell_rules) : side := Side size (c_lo c) (c_hi c) (c_cell c) (c_space c) (c_grid c).
Definition guard_ring (cx cy : cell_rules) (n : node) : node :=
  let X := side_of (n_w n) cx in let Y := side_of (n_h n) cy in
  Node (n_w n + 2 * shift X) (n_h n + 2 * shift Y) (map (move_box (wcell_shift X) (wcell_shift Y)) (n_boxes n)) (map (move_pt (wcell_shift X) (wcell_shift Y)) (n_points n))
    (n_axes n) (n_rings n ++ store X Y [] [] [] (stored_ll X Y)).
