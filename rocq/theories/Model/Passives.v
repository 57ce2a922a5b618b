(** The capacitor and resistor generators of pdks/FinFET14nm_Mock_PDK: cap.py, res.py. *)
From Coq Require Import String.
From Verif Require Import Base.Prelude Model.Lef Model.MosGen Spec.BoxNet.
Local Open Scope Z_scope.

(** Pitches and widths: of the capacitor layers (pdk['Cap']) and of M1 to M3; and how far each kind of wire goes
    beyond its last crossing track (the stop points, cap.py:15-26).  Simplified: all grids start at 0, and M1 and M3 of the
    default canvas stop on the grid of M2. *)
Record capdk := mkCapdk {
  c1p : Z; c1w : Z; c2p : Z; c2w : Z; c3p : Z; c3w : Z;
  m1p : Z; m1w : Z; m2p : Z; m2w : Z; m3p : Z; m3w : Z;
  e1n : Z; e2n : Z; e3n : Z; e1 : Z; e2 : Z; e3 : Z }.
(** What is asked of such a PDK: wires narrower than their pitch, also between a finger and the end wire, equal pitches on M1 and M3. *)
Record cap_ok (k : capdk) : Prop := mkCapOk {
  ok_c1 : 0 <= c1w k < c1p k; ok_c2 : 0 <= c2w k < c2p k; ok_c3 : c3p k = c1p k; ok_c3w : 0 <= c3w k < c1p k;
  ok_m1 : 0 < m1p k; ok_m2 : 0 < m2p k; ok_m3 : m3p k = m1p k;
  ok_w1 : 0 <= m1w k; ok_w2 : 0 <= m2w k; ok_w3 : 0 <= m3w k;
  ok_g1 : c1w k / 2 + m1w k / 2 < c1p k; ok_g2 : c2w k / 2 + m2w k / 2 < c2p k; ok_g3 : c3w k / 2 + m3w k / 2 < c1p k;
  ok_e : 0 <= e1n k /\ 0 <= e2n k /\ 0 <= e3n k /\ 0 <= e1 k /\ 0 <= e2 k /\ 0 <= e3 k }.
(** A vertical or horizontal wire of width [w] around [c], from [lo] to [hi], extended by [e] (cell_fabric/generators.py). *)
Definition vwire (l c w lo hi e : Z) : box := mkBox l (c - w / 2) (lo - e) (c + w / 2) (hi + e).
Definition hwire (l c w lo hi e : Z) : box := mkBox l (lo - e) (c - w / 2) (hi + e) (c + w / 2).

Section Cap.
  Variable k : capdk.
  (** cap.py:57-62 [compute]; 66-67 [roundup].  Simplified: exact division. *)
  Definition cap_number (len p w : Z) : Z := 2 * round_half_even (len + p - w) (2 * p).
  Definition roundup (x p : Z) : Z := (x + p - 1) / p.
  (** 69-73 *)
  Definition last_x (nx : Z) : Z := roundup ((nx - 1) * c1p k) (m1p k).
  Definition last_y (ny : Z) : Z := roundup ((ny - 1) * c2p k) (m2p k).
  Variables nx ny : Z.
  Definition X1 : Z := last_x nx.
  Definition Y1 : Z := last_y ny.
  (** 75-79: the vertical fingers; [true] = PLUS. *)
  Definition m1_finger (i : Z) : box := vwire 1 (i * c1p k) (c1w k) 0 (Y1 * m2p k) (e1n k).
  Definition m3_finger (i : Z) : box := vwire 3 (i * c3p k) (c3w k) 0 (Y1 * m2p k) (e3n k).
  Definition fingers_at (i : Z) : list (bool * box) := [(i mod 2 =? 1, m1_finger i); (i mod 2 =? 1, m3_finger i)].
  (** 88, 90 *)
  Definition m1_end : box := vwire 1 (X1 * m1p k) (m1w k) 0 (Y1 * m2p k) (e1 k).
  Definition m3_end : box := vwire 3 (X1 * m3p k) (m3w k) 0 (Y1 * m2p k) (e3 k).
  (** 95-107 *)
  Definition pin_ext (i : Z) : Z := if i =? 0 then 3 else 0.
  Definition m2_finger (i : Z) : box := hwire 2 (i * c2p k) (c2w k) ((0 - pin_ext i) * m1p k) ((X1 + pin_ext i) * m1p k) (e2n k).
  (** 110 *)
  Definition m2_end : box := hwire 2 (Y1 * m2p k) (m2w k) ((0 - 3) * m1p k) ((X1 + 3) * m1p k) (e2 k).
  Definition cap_boxes : list (bool * box) :=
    flat_map fingers_at (zrange (nx - 1)) ++ [(true, m1_end); (true, m3_end)] ++ map (fun i => (i mod 2 =? 0, m2_finger i)) (zrange (ny - 1)) ++ [(false, m2_end)].
  (** 81-84 and 96-99: the vias; their columns and rows are on the grids of the wires they name. *)
  Definition cap_vias : list contact :=
    flat_map (fun i => let gy := ((i + 1) mod 2) * Y1 in [mkCt 1 (i * c1p k) (gy * m2p k); mkCt 2 (i * c3p k) (gy * m2p k)]) (zrange (nx - 1)) ++
    flat_map (fun i => let gx := ((i + 1) mod 2) * X1 in [mkCt 1 (gx * m1p k) (i * c2p k); mkCt 2 (gx * m3p k) (i * c2p k)]) (zrange (ny - 1)).
End Cap.

(** * The resistor: res.py *)

(** Pitch and width of the resistor wires on M1, pitch of M2 and of its narrow grid, widths, extensions of the wires. *)
Record respdk := mkRespdk { r_cp : Z; r_cw : Z; r_mp : Z; r_np : Z; r_nw : Z; r_e1 : Z; r_e2 : Z }.
(** What is asked of such a PDK: wires narrower than their pitch, and extensions shorter than half the pitch of the other layer or the pitch. *)
Record res_ok (k : respdk) : Prop := mkResOk {
  rok_w : 0 <= r_cw k < r_cp k; rok_m : r_cw k < r_mp k; rok_n : 0 <= r_nw k < r_mp k; rok_e1 : 0 <= r_e1 k < r_mp k; rok_e2 : 0 <= r_e2 k < r_cp k; rok_p : 0 < r_mp k }.
Section Res.
  Variable k : respdk.
  (** 52-56: number of fingers for a length of the finger and a resistance in milliohm; 67 ohm per micron.  Simplified: exact division. *)
  Definition res_number (y_length mohm : Z) : Z := Z.max 1 (round_half_even mohm (67 * y_length)).
  (** 61-70 *)
  Definition res_rows (y_length : Z) : Z := 2 * round_half_even (y_length + r_np k - r_nw k) (2 * r_np k).
  Definition res_last (y_length : Z) : Z :=
    let yn := res_rows y_length in
    let l := ((yn - 1) * r_np k + r_mp k - 1) / r_mp k in
    if negb ((yn - 1) mod 2 =? l mod 2) then l + 1 else l.
  Variables (n last : Z).
  (** 66-76: pitch of the cells. *)
  Definition x_pitch : Z := 3 + (n - 1).
  Definition y_pitch : Z := (if last mod 2 =? 1 then 3 else 2) + last.
  (** 82: distance of the fingers, and the shift of the last link. *)
  Definition step (i : Z) : Z := if n =? 2 then 2 * i else i.
  Definition shift : Z := if n =? 2 then 1 else 0.
  Definition finger (x y i : Z) : box := vwire 1 ((step i + x * x_pitch) * r_cp k) (r_cw k) (y * y_pitch * r_mp k) ((y * y_pitch + last) * r_mp k) (r_e1 k).
  (** 86-88: the link after finger [i]; it does not depend on the cell. *)
  Definition link (i : Z) : box := hwire 1 (((i + 1) mod 2) * last * r_mp k) (r_cw k) (i * r_cp k) ((i + shift + 1) * r_cp k) (r_cw k / 2).
  (** 93-104: the pins and vias; the narrow M2 grid starts at the cell's first row. *)
  Definition out_row : Z := (n mod 2) * last.
  Definition plus_pin (y : Z) : box := hwire 2 (y_pitch * y * r_mp k) (r_nw k) (-4 * r_cp k) 0 (r_e2 k).
  Definition out_col (x : Z) : Z := x * x_pitch + (n - 1) + shift.
  Definition minus_pin (x : Z) : box := hwire 2 (out_row * r_mp k) (r_nw k) (out_col x * r_cp k) ((out_col x + 4) * r_cp k) (r_e2 k).
  Definition plus_via : contact := mkCt 1 0 0.
  Definition minus_via (x : Z) : contact := mkCt 1 (out_col x * r_cp k) (out_row * r_mp k).
  (** 44-48: all cells; 81-85: the fingers. *)
  Definition res_cell (x y : Z) : list box := map (finger x y) (zrange n) ++ map link (zrange (n - 1)) ++ [plus_pin y; minus_pin x].
  Definition res_boxes (X Y : Z) : list box := flat_map (fun x => flat_map (fun y => res_cell x y) (zrange Y)) (zrange X).
  Definition res_vias (X Y : Z) : list contact := flat_map (fun x => flat_map (fun _ => [plus_via; minus_via x]) (zrange Y)) (zrange X).
End Res.
