(** Arrays of unit cells, independently of how they are generated. *)
From Coq Require Import String Ascii.
From Verif Require Import Base.Prelude Model.Transformation Model.TransistorArray.
Local Open Scope Z_scope.

(** Sum of [f 0 .. f (n-1)]. *)
Fixpoint sum_below (n : nat) (f : nat -> Z) : Z := match n with O => 0 | Datatypes.S n' => sum_below n' f + f n' end.
Definition one_if (b : bool) : Z := if b then 1 else 0.
(** The letter at row [y], column [x]. *)
Definition at_pos (g : list (list ascii)) (y x : nat) : option ascii := match nth_error g y with Some r => nth_error r x | None => None end.
Definition is_letter (c : ascii) (o : option ascii) : bool := match o with Some d => Ascii.eqb c d | None => false end.
Definition rectangular (g : list (list ascii)) (r c : nat) : Prop := List.length g = r /\ forall row, In row g -> List.length row = c.
(** Number of cells of letter [c] in the [n_row] by [n_col] grid, in one row, in one column. *)
Definition units (g : list (list ascii)) (c : ascii) (n_row n_col : nat) : Z := sum_below n_row (fun y => sum_below n_col (fun x => one_if (is_letter c (at_pos g y x)))).
Definition row_units (g : list (list ascii)) (c : ascii) (y n_col : nat) : Z := sum_below n_col (fun x => one_if (is_letter c (at_pos g y x))).
Definition col_units (g : list (list ascii)) (c : ascii) (n_row x : nat) : Z := sum_below n_row (fun y => one_if (is_letter c (at_pos g y x))).
(** Twice the moment of the cells of a letter about the middle of the array; both are 0 iff the
    centroid of these cells is the centre. *)
Definition moment_x (g : list (list ascii)) (c : ascii) (n_row n_col : nat) : Z :=
  sum_below n_row (fun y => sum_below n_col (fun x => one_if (is_letter c (at_pos g y x)) * (2 * Z.of_nat x - (Z.of_nat n_col - 1)))).
Definition moment_y (g : list (list ascii)) (c : ascii) (n_row n_col : nat) : Z :=
  sum_below n_row (fun y => sum_below n_col (fun x => one_if (is_letter c (at_pos g y x)) * (2 * Z.of_nat y - (Z.of_nat n_row - 1)))).
Definition centred (g : list (list ascii)) (c : ascii) (n_row n_col : nat) : Prop := moment_x g c n_row n_col = 0 /\ moment_y g c n_row n_col = 0.

(** Transistors of device [d] among placed cells. *)
Definition is_dev (d : nat) (c : acell) : bool := match c with Tx d' _ => Nat.eqb d d' | _ => false end.
Definition dev_units (d : nat) (rows : list (list acell)) : Z := Z.of_nat (List.length (filter (is_dev d) (concat rows))).
Definition all_units (rows : list (list acell)) : Z := Z.of_nat (List.length (filter (fun c => match c with Tx _ _ => true | _ => false end) (concat rows))).

(** Geometry. *)
Definition disjoint_boxes (a b : Rect) : Prop := urx a <= llx b \/ urx b <= llx a \/ ury a <= lly b \/ ury b <= lly a.
Definition inside (a b : Rect) : Prop := llx b <= llx a /\ lly b <= lly a /\ urx a <= urx b /\ ury a <= ury b.
Definition area (r : Rect) : Z := (urx r - llx r) * (ury r - lly r).
Definition total_area (l : list Rect) : Z := fold_right Z.add 0 (map area l).
