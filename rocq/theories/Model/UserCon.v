(** User level constraints and their expansion, align/schema/constraint.py: the validators and
    [yield_constraints] of [AlignInOrder] (466-544) and [Floorplan] (547-614), [yield_constraints] of the other
    classes, and [expand_user_constraints] (1562-1569).  The formulae are those of Model/Formulas.v. *)
From Coq Require Import String QArith.
From Verif Require Import Base.Prelude Model.Transformation Model.RemoveDuplicates Model.PlaceGrid Model.SeqPair Model.Formulas.
Local Open Scope nat_scope.

(** What an expansion yields: a constraint with formulae, a [DoNotIdentify], another soft constraint. *)
Inductive yielded := YHard (h : Formulas.hcon) | YKeep (xs : list string) | YSoft.
(** The constraints of a subcircuit.  [GOnBoundary xs] is [PlaceOnBoundary] with the instances of all its fields
    (754-768); [GSoft] stands for the classes without [yield_constraints] and without [translate]. *)
Inductive con :=
| GHard (h : Formulas.hcon)
| GAlignInOrder (l : ioline) (dir : option bool) (abut : bool) (xs : list string)
| GFloorplan (regions : list (list string)) (order symm : bool)
| GKeep (xs : list string)
| GCloser (xs : list string)
| GOnBoundary (xs : list string)
| GSoft.

(** 512-531 [_direction_depends_on_line]; [Some true] is horizontal.  [None] = the assertion fails. *)
Definition check_dir (l : ioline) (dir : option bool) : option bool :=
  match l, dir with
  | (IBottom | ITop), (None | Some true) => Some true
  | (IBottom | ITop), Some false => None
  | (ILeft | IRight), (None | Some false) => Some false
  | (ILeft | IRight), Some true => None
  | ICenter, d => d
  end.
(** 166-169, 255-258: [Order] and [Align] need two instances.  That the instances exist is checked when the user
    constraint is built and is not repeated here. *)
Definition two (xs : list string) : bool := 2 <=? length xs.

Section expansion.
(** Equality of the parameters of two elements (998-999); in the PnR stage the check is skipped (985-987). *)
Variable same_params : string -> string -> bool.
(** 972-999 [pairs_validator]. *)
Definition pairs_valid (ps : list (list string)) : bool :=
  (if length ps =? 1 then match ps with [p] => length p =? 2 | _ => false end else true) &&
  forallb (fun p => (1 <=? length p) && (length p <=? 2)) ps &&
  forallb (fun p => match p with [a; b] => same_params a b | _ => true end) ps.

(** 581-587: the rows from top to bottom; [seen] is [above_below]. *)
Fixpoint stack_pairs (rs : list (list string)) : list (string * string) :=
  match rs with
  | r0 :: ((r1 :: _) as tl) => list_prod r0 r1 ++ stack_pairs tl
  | _ => []
  end.
Definition pair_in (p : string * string) (l : list (string * string)) : bool := existsb (fun q => String.eqb (fst p) (fst q) && String.eqb (snd p) (snd q)) l.
Fixpoint stack (seen : list (string * string)) (ps : list (string * string)) : option (list yielded) :=
  match ps with
  | [] => Some []
  | (above, below) :: tl =>
      if pair_in (below, above) ((above, below) :: seen) then None
      else option_map (cons (YHard (HOrder OTB false [above; below]))) (stack ((above, below) :: seen) tl)
  end.
(** 575-614 *)
Definition floorplan (rs : list (list string)) (order symm : bool) : option (list yielded) :=
  match stack [] (stack_pairs rs) with
  | None => None
  | Some rows =>
      if symm && negb (pairs_valid (flat_map region_pairs rs)) then None
      else Some (rows ++ (if order then map (fun r => YHard (HOrder OLR false r)) (filter (fun r => 1 <? length r) rs) else [])
                 ++ (if symm then [YHard (HSymm true (flat_map region_pairs rs))] else [])
                 ++ (if symm && order then [YKeep (concat rs)] else []))
  end.
(** 533-544 *)
Definition align_in_order (l : ioline) (dir : option bool) (abut : bool) (xs : list string) : option (list yielded) :=
  match check_dir l dir with
  | None => None
  | Some hor =>
      match io_line l hor with
      | None => None
      | Some al => if two xs then Some [YHard (HAlign al xs); YHard (HOrder (if hor then OLR else OTB) abut xs); YKeep xs] else None
      end
  end.
(** 204-205, 293-294, 354-355, 1037-1040. *)
Definition keeps (h : Formulas.hcon) : list yielded :=
  match h with
  | HOrder _ _ xs | HAlign _ xs | HSpread _ _ xs => [YKeep xs]
  | HSymm _ ps => [YKeep (concat ps)]
  | _ => []
  end.
(** 1562-1569, one constraint. *)
Definition expand_con (c : con) : option (list yielded) :=
  match c with
  | GHard h => Some (keeps h ++ [YHard h])
  | GAlignInOrder l dir abut xs => align_in_order l dir abut xs
  | GFloorplan rs order symm => floorplan rs order symm
  | GKeep xs => Some [YKeep xs]
  | GCloser xs | GOnBoundary xs => Some [YKeep xs; YSoft]
  | GSoft => Some [YSoft]
  end.
Definition expand_cons (cs : list con) : option (list yielded) := option_map (@concat yielded) (mapM expand_con cs).

(** What is posted for a constraint when it is added: its own [translate], or that of [UserConstraint] (117-120). *)
Definition holds (names : list string) (bx : boxes) (y : yielded) : Prop := match y with YHard h => ztranslate names h bx | _ => True end.
Definition posted (names : list string) (c : con) (bx : boxes) : Prop :=
  match c with
  | GHard h => ztranslate names h bx
  | GAlignInOrder l dir abut xs => match align_in_order l dir abut xs with Some ys => Forall (holds names bx) ys | None => False end
  | GFloorplan rs order symm => match floorplan rs order symm with Some ys => Forall (holds names bx) ys | None => False end
  | _ => True
  end.
(** match_graph.py:37-47 [_is_skip]: the instances that are not grouped into primitives. *)
Definition skipped (ys : list yielded) : list string := flat_map (fun y => match y with YKeep xs => xs | _ => [] end) ys.
End expansion.
