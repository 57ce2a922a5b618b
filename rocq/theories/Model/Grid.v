(** Model of align/cell_fabric/grid.py. *)
From Verif Require Import Base.Prelude Model.PySort.
Local Open Scope Z_scope.

(** Attributes of a grid line: grid.py:89 stores (width, color), grid.py:80.. stores None.
    Simplified: colours are integers. *)
Definition attrs := option (Z * option Z).

(** grid.py:8-13 [Grid.__init__]: list of (coordinate, attrs) and the set of legal indices.
    The set is a list used only through membership, max and min. *)
Record Grid := mkGrid { grid : list (Z * attrs); legalIndices : list Z }.

Definition grid_empty : Grid := mkGrid [] [].

(** grid.py:18-21 [addGridLine]. *)
Definition addGridLine (g : Grid) (value : Z) (isLegal : bool) (a : attrs) : Grid :=
  let g' := grid g ++ [(value, a)] in
  mkGrid g' (if isLegal then legalIndices g ++ [Z.of_nat (length g') - 1] else legalIndices g).

(** grid.py:23-29 [copyShift] ([None] = no shift). *)
Definition copyShift (g : Grid) (shift : option Z) : Grid :=
  match shift with
  | None => g
  | Some s => mkGrid (map (fun ca => (fst ca + s, snd ca)) (grid g)) (legalIndices g)
  end.

(** grid.py:31-33 [n]. *)
Definition n_lines (g : Grid) : Z := Z.of_nat (length (grid g)) - 1.

(** [self.grid[0][0]]; [None] = IndexError on an empty grid. *)
Definition first_line (g : Grid) : option Z :=
  match grid g with [] => None | (c, _) :: _ => Some c end.

(** [self.grid[-1][0]]. *)
Definition last_line (g : Grid) : option Z :=
  match rev (grid g) with [] => None | (c, _) :: _ => Some c end.

(** grid.py:35-37 [period]. *)
Definition period (g : Grid) : option Z :=
  match first_line g, last_line g with
  | Some a, Some b => Some (b - a)
  | _, _ => None
  end.

(** grid.py:44-49, the loop of [inverseBounds] over the sorted (index, value) list.
    [prev] is [monotonic_grid[i-1][0]]; for i = 0 python's index -1 is the last element. *)
Fixpoint ib_loop (offset q r prev : Z) (l : list (Z * Z)) : option ((Z * Z) * (Z * Z)) :=
  match l with
  | [] => None
  | (idx, val) :: tl =>
      if val - offset =? r then Some ((q, idx), (q, idx))
      else if r <? val - offset then Some ((q, prev), (q, idx))
      else ib_loop offset q r idx tl
  end.

(** grid.py:39-49 [inverseBounds].  [None] = exception (empty grid, zero period) or the
    implicit [return None] when the loop falls through. *)
Definition inverseBounds (g : Grid) (physical : Z) : option ((Z * Z) * (Z * Z)) :=
  match first_line g, period g with
  | Some offset, Some p =>
      if p =? 0 then None
      else
        let q := (physical - offset) / p in
        let r := (physical - offset) mod p in
        let mono := sort_by (fun iv => snd iv)
                      (map (fun iv => (fst iv, fst (snd iv))) (enumerate (grid g))) in
        ib_loop offset q r (fst (last mono (0, 0))) mono
  | _, _ => None
  end.

(** [max] / [min] of a non-empty collection. *)
Fixpoint zmax_list (l : list Z) : option Z :=
  match l with
  | [] => None
  | x :: tl => match zmax_list tl with None => Some x | Some m => Some (Z.max x m) end
  end.
Fixpoint zmin_list (l : list Z) : option Z :=
  match l with
  | [] => None
  | x :: tl => match zmin_list tl with None => Some x | Some m => Some (Z.min x m) end
  end.

(** Direction argument of [snapToLegal]: -1 or +1 (grid.py:54 asserts nothing else). *)
Inductive dir := Down | Up.

(** grid.py:51-64 [snapToLegal].  [None] = the assertion that some index is legal failed. *)
Definition snapToLegal (g : Grid) (idx : Z * Z) (d : dir) : option (Z * Z) :=
  match d with
  | Down =>
      match zmax_list (filter (fun x => x <=? snd idx) (legalIndices g)) with
      | Some m => Some (fst idx, m)
      | None => match zmax_list (legalIndices g) with
                | Some m => Some (fst idx + -1, m)
                | None => None
                end
      end
  | Up =>
      match zmin_list (filter (fun x => snd idx <=? x) (legalIndices g)) with
      | Some m => Some (fst idx, m)
      | None => match zmin_list (legalIndices g) with
                | Some m => Some (fst idx + 1, m)
                | None => None
                end
      end
  end.

(** An index argument: a tuple or a plain integer (grid.py:68). *)
Inductive Idx := Flat (v : Z) | Pair (w f : Z).

Definition idx_flat (g : Grid) (i : Idx) : Z :=
  match i with Flat v => v | Pair w f => w * n_lines g + f end.

(** grid.py:66-74 [value].  [None] = one of the two assertions failed. *)
Definition value (g : Grid) (i : Idx) (check : bool) : option (Z * attrs) :=
  if n_lines g <=? 0 then None
  else
    let v := idx_flat g i in
    let whole := v / n_lines g in
    let fract := v mod n_lines g in
    if check && negb (existsb (Z.eqb fract) (legalIndices g)) then None
    else
      match nth_error (grid g) (Z.to_nat fract), period g with
      | Some (c, a), Some p => Some (c + whole * p, a)
      | _, _ => None
      end.

(** grid.py:77-82 [CenteredGrid]. *)
Definition CenteredGrid (pitch offset : Z) : Grid :=
  addGridLine (addGridLine (addGridLine grid_empty offset false None)
    (offset + pitch / 2) true None) (offset + pitch) false None.

(** grid.py:97-103 [UncoloredCenterLineGrid].  Simplified: the evenness assertion on the
    width (line 88) is a precondition. *)
Definition UncoloredCenterLineGrid (pitch width offset : Z) (repeat : nat) : Grid :=
  fold_left (fun g i => addGridLine g (offset + Z.of_nat i * pitch) true (Some (width, None)))
            (seq 0 (repeat + 1)) grid_empty.

(** grid.py:120-131 [EnclosureGrid]. Simplified: the [check] argument only logs. *)
Definition EnclosureGrid (pitch offset stoppoint : Z) : Grid :=
  addGridLine (addGridLine (addGridLine (addGridLine (addGridLine grid_empty
    offset false None)
    (offset + stoppoint) true None)
    (offset + pitch / 2) false None)
    (offset + pitch - stoppoint) true None)
    (offset + pitch) false None.

(** grid.py:134-139 [SingleGrid]. *)
Definition SingleGrid (pitch offset : Z) (repeat : nat) : Grid :=
  fold_left (fun g i => addGridLine g (offset + Z.of_nat i * pitch) true None)
            (seq 0 (repeat + 1)) grid_empty.
