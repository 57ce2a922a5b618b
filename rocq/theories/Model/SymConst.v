(** Constraints from symmetric parts (compiler/find_constraint.py:371-496). *)
From Coq Require Import String.
From Verif Require Import Base.Prelude Model.PySort Model.RemoveDuplicates Model.Netlist Model.GroupBlock Model.ConstraintDB.

(** An entry of [written_symmblocks]: a name, or a set of one or two names. *)
Inductive written := WName (s : string) | WSet (l : list string).
(** [smb_1d] of [pre_filter] (find_constraint.py:406-414). *)
Definition names_of (w : list written) : list string := flat_map (fun x => match x with WName s => [s] | WSet l => l end) w.

(** What the filters read of a subcircuit: the nodes of its graph, which are nets or instances, the base
    model of an instance ([get_base_model], util.py:63-76), and the models of the elements on a net. *)
Record view := mkV { v_nodes : list string; v_net : string -> bool; v_base : string -> string; v_models : string -> list string }.
(** Equality of [Counter]s (schema/graph.py:141-148). *)
Definition count (x : string) (l : list string) : nat := count_occ string_dec l x.
Definition same_count (a b : list string) : bool := forallb (fun x => Nat.eqb (count x a) (count x b)) (a ++ b).

(** [pre_filter] (find_constraint.py:405-428): [Some true] skips the pair; [None] is the failed assertion or
    the exception for the neighbours of a node that is not in the graph.  Line 422 tests [key] twice. *)
Definition pre_filter (V : view) (stop : list string) (w : list written) (k v : string) : option bool :=
  if in_strs k stop then None
  else if in_strs k (names_of w) || in_strs v (names_of w) then Some true
  else if negb (in_strs k (v_nodes V)) then Some true
  else if v_net V k then (if in_strs v (v_nodes V) then Some (negb (same_count (v_models V k) (v_models V v))) else None)
  else Some false.

(** [filter_symblock_const] (find_constraint.py:430-450). *)
Definition single (m : string) : bool := in_strs m ["NMOS"; "PMOS"; "RES"; "CAP"]%string.
Fixpoint filter_blocks (V : view) (stop : list string) (w : list written) (ins : list string) (pairs : list (string * string)) : option (list (list string)) :=
  match pairs with
  | [] => Some []
  | (k, v) :: tl =>
      match pre_filter V stop w k v with
      | None => None
      | Some true => filter_blocks V stop w ins tl
      | Some false =>
          if in_strs k ins || in_strs v ins then filter_blocks V stop w ins tl
          else if v_net V k then filter_blocks V stop w ins tl
          else if String.eqb k v then
            if single (v_base V k) then filter_blocks V stop w ins tl
            else option_map (cons [k]) (filter_blocks V stop w (k :: ins) tl)
          else option_map (cons [k; v]) (filter_blocks V stop w (k :: v :: ins) tl)
      end
  end.

(** Constraints of the subcircuit: those that were there before, [SymmetricBlocks] (direction "V") and
    [SymmetricNets] (direction "V"). *)
Inductive auto := Before (s : string) | Blocks (pairs : list (list string)) | Nets (n1 n2 : string) (pins1 pins2 : list string).

Section Add.
  (** The constraint database (Model/ConstraintDB.v) with its printer, translation and solver; [valid] tells
      that the validator of [SymmetricBlocks] accepts the pairs (schema/constraint.py:972-999); [nets] is
      [symmnet_device_pairs]: [None] is a failed assertion, [Some None] is no match. *)
  Variables (F : Type) (repr : auto -> string) (tr : auto -> option F) (base : list F) (unsat : list F -> bool).
  Variables (valid : list (list string) -> bool) (nets : string -> string -> list written -> option (option (list string * list string))).
  Variables (V : view) (stop : list string).
  Definition cst := db auto F.
  Definition put (c : auto) (d : cst) : cst * bool := append auto F repr tr base unsat c d.

  (** [add_or_revert_const] (find_constraint.py:484-496).  The exception of a rejected constraint is swallowed;
      nothing is reverted. *)
  Definition worth (p : list (list string)) : bool := Nat.ltb 1 (length p) || match p with x :: _ => Nat.eqb (length x) 2 | [] => false end.
  Definition add_const (p : list (list string)) (s : cst * list written) : cst * list written :=
    if worth p && valid p then
      let (d, ok) := put (Blocks p) (fst s) in (d, if ok then snd s ++ map WSet p else snd s)
    else s.

  (** [filter_symnet_const] (find_constraint.py:452-481). *)
  Fixpoint add_nets (pairs : list (string * string)) (s : cst * list written) : option (cst * list written) :=
    match pairs with
    | [] => Some s
    | (k, v) :: tl =>
        match pre_filter V stop (snd s) k v with
        | None => None
        | Some true => add_nets tl s
        | Some false =>
            if v_net V k && negb (String.eqb k v) then
              match nets k v (snd s) with
              | None => None
              | Some None => add_nets tl s
              | Some (Some (p1, p2)) => add_nets tl (fst (put (Nets k v p1 p2) (fst s)), snd s ++ [WSet [k; v]])
              end
            else add_nets tl s
        end
    end.

  (** [loop_through_pairs] (find_constraint.py:392-403).  The second loop adds again the blocks left over from
      the last iteration of the first one. *)
  Fixpoint loop_blocks (all : list dict) (last : list (list string)) (s : cst * list written) : option (list (list string) * (cst * list written)) :=
    match all with
    | [] => Some (last, s)
    | p :: tl => match filter_blocks V stop (snd s) [] (ksorted fst p) with
                 | None => None
                 | Some pj => loop_blocks tl pj (add_const pj s)
                 end
    end.
  Fixpoint loop_nets (all : list dict) (last : list (list string)) (s : cst * list written) : option (cst * list written) :=
    match all with
    | [] => Some s
    | p :: tl => match add_nets (ksorted fst p) s with
                 | None => None
                 | Some s' => loop_nets tl last (add_const last s')
                 end
    end.
  (** [__init__] (find_constraint.py:372-390): pairings with most pairs of different nodes first; Python keeps
      the order of equal keys with [reverse=True]. *)
  Definition weight (d : dict) : Z := - Z.of_nat (length (filter (fun e => negb (String.eqb (fst e) (snd e))) d)).
  Definition add_symmetry (all : list dict) (s : cst * list written) : option (cst * list written) :=
    let all := sort_by weight all in
    match loop_blocks all [] s with
    | None => None
    | Some (last, s') => loop_nets all last s'
    end.
End Add.
