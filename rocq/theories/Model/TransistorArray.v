(** Arrays of unit transistors: align/pdk/finfet/transistor_array.py, gen_param.py and the part of
    align/primitive/main.py that chooses the pattern. *)
From Coq Require Import String Ascii.
From Verif Require Import Base.Prelude Base.PyDict Model.Transformation.
Local Open Scope Z_scope.

(** * Shapes *)

(** transistor_array.py:438-443: the loop from [floor(sqrt(m))] down to 1. *)
Fixpoint shape_search (m : Z) (y : nat) : option (Z * Z) :=
  match y with
  | O => None
  | Datatypes.S y' =>
      let z := Z.of_nat y in
      if z =? 1 then Some (1, m) else if m mod z =? 0 then Some (z, m / z) else shape_search m y'
  end.
(** transistor_array.py:429-443 [validate_array]; [None] is the missing return value or the error of
    [math.sqrt].  Simplified: [math.floor(math.sqrt(m))] is the exact integer root, which holds for
    [m] below 2^52. *)
Definition validate_array (m n_row n_col : Z) : option (Z * Z) :=
  if n_row * n_col =? m then Some (n_row, n_col) else shape_search m (Z.to_nat (Z.sqrt m)).

(** gen_param.py:56-64: the set of (x, y) variants. *)
Fixpoint variants_from (m : Z) (y : nat) : list (Z * Z) :=
  match y with
  | O => []
  | Datatypes.S y' => let z := Z.of_nat y in (if m mod z =? 0 then [(z, m / z); (m / z, z)] else []) ++ variants_from m y'
  end.
Definition variants (m : Z) : list (Z * Z) := variants_from m (Z.to_nat (Z.sqrt m)).

(** primitive/main.py:52-66: the pattern and the number of columns handed to the generator.
    [user] is the 'pattern' of a Generator constraint; [same] tells that all elements have the same
    parameters. *)
Inductive upat := single_device | cc | id_ | ratio_devices | ncc.
Definition pattern_map (p : upat) : Z :=
  match p with single_device => 0 | cc => 1 | id_ => 2 | ratio_devices => 3 | ncc => 4 end.
Definition choose_pattern (n_elements : nat) (same : bool) (user : option upat) (x_cells : Z) : Z * Z :=
  let p := pattern_map (match user with
                        | Some u => u
                        | None => match n_elements with
                                  | 1%nat => single_device
                                  | _ => if same then cc else ratio_devices
                                  end
                        end) in
  match n_elements with
  | 2%nat => (2 * x_cells, if negb ((2 * x_cells) mod 4 =? 0) then 2 else p)
  | _ => (x_cells, p)
  end.

(** transistor_array.py:102 and 156-161: the assertions and the shape. *)
Definition array_shape (pattern m y_cells x_cells : Z) : option (Z * Z) :=
  if (pattern =? 0) || (pattern =? 1) || (pattern =? 2) then
    let m' := if 0 <? pattern then 2 * m else m in
    match validate_array m' y_cells x_cells with
    | Some (r, c) => if r * c =? m' then Some (r, c) else None
    | None => None
    end
  else None.

(** * Interleaving *)

(** [islice(cycle(l), n)] *)
Definition cycled {A} (l : list A) (n : nat) : list A :=
  match l with
  | [] => []
  | d :: _ => map (fun x => nth (Nat.modulo x (List.length l)) l d) (seq 0 n)
  end.
(** transistor_array.py:447-460 [interleave_pattern] *)
Definition interleave_pattern (n_row n_col : nat) (template : list (list ascii)) : option (list (list ascii)) :=
  match template with
  | [] => None
  | d :: _ => Some (map (fun y => cycled (nth (Nat.modulo y (List.length template)) template d) n_col) (seq 0 n_row))
  end.
Definition AB : list (list ascii) := [["A"; "B"]; ["B"; "A"]]%char.
Definition only_A : list (list ascii) := [["A"]]%char.

(** 238-241: device number and flip; [None] = KeyError. *)
Definition letter (c : ascii) : option (nat * Z) :=
  if Ascii.eqb c "A" then Some (1%nat, 1) else if Ascii.eqb c "a" then Some (1%nat, -1)
  else if Ascii.eqb c "B" then Some (2%nat, 1) else if Ascii.eqb c "b" then Some (2%nat, -1) else None.

(** * Rows of cells (225-263)

    A cell of the array: an edge filler, a tap, or a transistor of device [d] with its flip. *)
Inductive acell := Fill | Tap | Tx (d : nat) (flip : Z).
Fixpoint omap {A B} (f : A -> option B) (l : list A) : option (list B) :=
  match l with
  | [] => Some []
  | x :: tl => match f x, omap f tl with Some y, Some t => Some (y :: t) | _, _ => None end
  end.
(** 249-251: a letter and the port table of its device; [n_dev] devices are known. *)
Definition tx_cell (n_dev : nat) (row : list ascii) (x : nat) : option acell :=
  match nth_error row x with
  | None => None
  | Some c => match letter c with
              | None => None
              | Some (d, f) => if (d <=? n_dev)%nat then Some (Tx d f) else None
              end
  end.
Definition tx_row (n_dev n_col : nat) (row : list ascii) : option (list acell) :=
  match omap (tx_cell n_dev row) (seq 0 n_col) with Some l => Some ([Fill] ++ l ++ [Fill]) | None => None end.
Definition array_rows (add_tap : bool) (n_dev n_row n_col : nat) (arr : list (list ascii)) : option (list (list acell)) :=
  match omap (fun y => match nth_error arr y with Some row => tx_row n_dev n_col row | None => None end) (seq 0 n_row) with
  | Some rows => Some ((if add_tap then [[Fill] ++ repeat Tap n_col ++ [Fill]] else []) ++ rows)
  | None => None
  end.

(** addMOSArray (83-169) and mos_array (170-266) up to the placement: 133-146 knows at most the
    first two of the sorted element names; [template] is the user's pattern, if any (206-222).
    Not modelled: [exact_patterns]. *)
Definition known_devices (elements : list string) : nat := Nat.min 2 (List.length elements).
Definition mos_array (add_tap : bool) (elements : list string) (template : option (list (list ascii))) (pattern m y_cells x_cells : Z) : option (list (list acell)) :=
  match array_shape pattern m y_cells x_cells with
  | None => None
  | Some (r, c) =>
      let t := match template with Some t => t | None => if (known_devices elements =? 2)%nat then AB else only_A end in
      match interleave_pattern (Z.to_nat r) (Z.to_nat c) t with
      | Some arr => array_rows add_tap (known_devices elements) (Z.to_nat r) (Z.to_nat c) arr
      | None => None
      end
  end.

(** * Stamping (304-347) *)

Record aterm := mkAt { at_layer : string; at_net : string; at_rect : Rect }.
Record atemplate := mkTpl { tp_bbox : Rect; tp_terms : list aterm }.
Record stamped := mkStamped { st_boundary : Rect; st_terms : list aterm }.
(** 304-330 [stamp_cell]; [tr_x] is the horizontal edge used for mirrored cells: [bbox[2] - bbox[1]]. *)
Definition stamp_cell (t : atemplate) (flip x y : Z) : stamped :=
  let b := tp_bbox t in
  let x' := if flip <? 0 then x + (urx b - lly b) else x in
  mkStamped (mkRect (llx b + x) (lly b + y) (urx b + x) (ury b + y))
    (map (fun a => let r := at_rect a in
                   mkAt (at_layer a) (at_net a)
                        (if flip <? 0 then mkRect (x' - urx r) (lly r + y) (x' - llx r) (ury r + y)
                         else mkRect (x' + llx r) (lly r + y) (x' + urx r) (ury r + y))) (tp_terms t)).
(** 337-341, one row *)
Fixpoint place_row (x y : Z) (row : list (atemplate * Z)) : list stamped * Z :=
  match row with
  | [] => ([], x)
  | (t, f) :: tl => let '(l, x') := place_row (x + (urx (tp_bbox t) - llx (tp_bbox t))) y tl in (stamp_cell t f x y :: l, x')
  end.
(** 332-347 [place]: the stamped cells and the bounding box.  [None]: an empty row (the loop
    variable [cell] would be unbound or stale). *)
Fixpoint place_rows (x y : Z) (rows : list (list (atemplate * Z))) : option (list stamped * Rect) :=
  match rows with
  | [] => Some ([], mkRect 0 0 x y)
  | row :: tl =>
      match rev row with
      | [] => None
      | (c, _) :: _ =>
          let '(l, x') := place_row 0 y row in
          match place_rows x' (y + (ury (tp_bbox c) - lly (tp_bbox c))) tl with
          | Some (l', b) => Some (l ++ l', b)
          | None => None
          end
      end
  end.
Definition place (rows : list (list (atemplate * Z))) : option (list stamped * Rect) := place_rows 0 0 rows.

(** transistor.py:84-87, 113-116, 118-123: the precomputed boxes. *)
Section Cells.
  Variables (poly m2 : Z) (nf : Z) (t1 t2 ttap tfill : list aterm).
  Definition mos_box : Rect := mkRect 0 0 (poly * (2 + nf)) (m2 * 7).
  Definition fill_box : Rect := mkRect 0 0 (poly * 1) (m2 * 7).
  (** 253-258: on odd rows the two track patterns are exchanged. *)
  Definition second_pattern (y d : nat) : bool := if (d =? 2)%nat then Nat.even y else negb (Nat.even y).
  Definition cell_template (dual : bool) (y : nat) (c : acell) : atemplate * Z :=
    match c with
    | Fill => (mkTpl fill_box tfill, 1)
    | Tap => (mkTpl mos_box ttap, 1)
    | Tx d f => (mkTpl mos_box (if dual && second_pattern y d then t2 else t1), f)
    end.
  (** 233-263: the rows of transistors are counted without the tap row. *)
  Definition stamp_rows (tap dual : bool) (rows : list (list acell)) : list (list (atemplate * Z)) :=
    map (fun p => map (cell_template dual (if tap then fst p - 1 else fst p)%nat) (snd p)) (combine (seq 0 (List.length rows)) rows).
End Cells.

(** * M2 tracks (184-198)

    The track of each terminal; the first pattern is fixed, and a terminal of the second device takes
    the track of the first terminal listed of the first device that is on the same net. *)
Inductive term3 := TG | TS | TD.
Definition track1 (t : term3) : Z := match t with TG => 6 | TS => 4 | TD => 2 end.
Definition own2 (t : term3) : Z := match t with TG => 5 | TS => 3 | TD => 1 end.
Definition sources (t : term3) : list term3 := match t with TG => [TG; TS] | TS => [TS; TD] | TD => [TD] end.
Definition track2 (net1 net2 : term3 -> string) (t : term3) : Z :=
  match find (fun src => String.eqb (net2 t) (net1 src)) (sources t) with
  | Some src => track1 src
  | None => own2 t
  end.
(** The track used by terminal [t] of device [d] in row [y] (transistors only). *)
Definition track (net1 net2 : term3 -> string) (y d : nat) (t : term3) : Z :=
  if second_pattern y d then track2 net1 net2 t else track1 t.
