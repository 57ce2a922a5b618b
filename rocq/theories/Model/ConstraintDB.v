(** The constraint database: lists with checkpoints, the duplicate cache and the incremental
    solver behind it (schema/types.py, schema/constraint.py, schema/checker.py,
    schema/subcircuit.py). *)
From Coq Require Import String.
From Verif Require Import Base.Prelude.

Section DB.
  (** Constraints and solver formulae.  [repr] is Python's repr of a constraint; [ceqb] is its
      [==]; [tr] is the conjunction annotated by [cast_to_solver] (types.py:49-58), [None] for
      classes without [translate].  A [translate] that yields nothing raises in the code; such
      constraints are left out.  [base] are the formulae of the subcircuit and its elements
      (subcircuit.py:78-100).  [unsat] is the solver's answer; anything but unsat is accepted
      (checker.py:180-188). *)
  Variables (C F : Type) (repr : C -> string) (ceqb : C -> C -> bool) (tr : C -> option F) (base : list F) (unsat : list F -> bool).

  (** The solver is a stack of scopes (checker.py:190-194, push and pop), innermost first;
      [None] before the first [verify].  Commits are an ordered dict, newest last. *)
  Record db := mkDb { root : list C; commits : list (string * nat); cache : list string; solver : option (list (list F)) }.
  Definition asserted (fr : list (list F)) : list F := concat (rev fr).

  (** constraint.py:1530-1548 [__init__]: the initial items bypass the cache and the solver. *)
  Definition init (l : list C) : db := mkDb l [] [] None.

  Definition formulas (l : list C) : list F := flat_map (fun c => match tr c with Some f => [f] | None => [] end) l.
  Definition post (f : F) (fr : list (list F)) : list (list F) := match fr with t :: tl => (t ++ [f]) :: tl | [] => [[f]] end.

  (** subcircuit.py:102-121 [verify()]: a new solver with everything.  The second component
      tells that no exception was raised; the state is what an exception leaves behind. *)
  Definition verify_all (s : db) : db * bool :=
    let fr := [base ++ formulas (root s)] in
    (mkDb (root s) (commits s) (cache s) (Some fr), negb (unsat (asserted fr))).
  Definition ensure (s : db) : db * bool := match solver s with None => verify_all s | Some _ => (s, true) end.
  (** [verify(constraint)] *)
  Definition verify_one (f : F) (s : db) : db * bool :=
    match solver s with
    | Some fr => let fr' := post f fr in (mkDb (root s) (commits s) (cache s) (Some fr'), negb (unsat (asserted fr')))
    | None => (s, false)
    end.

  Definition smem (x : string) (l : list string) : bool := existsb (String.eqb x) l.
  Definition push_item (c : C) (s : db) : db := mkDb (root s ++ [c]) (commits s) (repr c :: cache s) (solver s).
  (** constraint.py:1514-1524 [append] *)
  Definition append (c : C) (s : db) : db * bool :=
    if smem (repr c) (cache s) then (s, true)
    else match tr c with
         | None => (push_item c s, true)
         | Some f =>
             let (s1, ok1) := ensure s in
             if ok1 then let (s2, ok2) := verify_one f s1 in if ok2 then (push_item c s2, true) else (s2, false)
             else (s1, false)
         end.
  (** types.py:142-144 [extend] *)
  Fixpoint extend (l : list C) (s : db) : db * bool :=
    match l with
    | [] => (s, true)
    | c :: tl => let (s1, ok) := append c s in if ok then extend tl s1 else (s1, false)
    end.

  (** constraint.py:1550-1555, types.py:186-193 [checkpoint]; [id] is the random name, drawn
      again while it is in use. *)
  Definition checkpoint (id : string) (s : db) : db * bool :=
    let (s1, ok) := ensure s in
    if ok then (mkDb (root s1) (commits s1 ++ [(id, List.length (root s1))]) (cache s1) (option_map (cons []) (solver s1)), true)
    else (s1, false).

  (** constraint.py:1557-1559, types.py:195-197 [_revert]: the solver first, then the list.
      Popping the outermost scope is an error of the solver. *)
  Definition revert_one (s : db) : db * bool :=
    match solver s with
    | Some (_ :: ((_ :: _) as fr)) =>
        match rev (commits s) with
        | (_, n) :: tl => (mkDb (firstn n (root s)) (rev tl) (cache s) (Some fr), true)
        | [] => (mkDb (root s) [] (cache s) (Some fr), false)
        end
    | _ => (s, false)
    end.
  (** types.py:199-206 [revert(name)]; [fuel] bounds the recursion by the number of commits. *)
  Fixpoint revert_to (fuel : nat) (name : option string) (s : db) : db * bool :=
    match fuel, rev (commits s) with
    | Datatypes.S fuel, (id, _) :: _ =>
        let (s1, ok) := revert_one s in
        match name with
        | None => (s1, ok)
        | Some nm =>
            if String.eqb nm id then (s1, ok)
            else if existsb (fun p => String.eqb nm (fst p)) (commits s)
                 then if ok then revert_to fuel name s1 else (s1, false)
                 else (s, false)
        end
    | _, _ => (s, false)
    end.
  Definition revert (name : option string) (s : db) : db * bool := revert_to (List.length (commits s)) name s.

  (** types.py:146-147, constraint.py:1526-1528 [remove]: the first equal item; ValueError if there
      is none.  Neither the cache nor the solver is told. *)
  Fixpoint remove_first (c : C) (l : list C) : option (list C) :=
    match l with
    | [] => None
    | x :: tl => if ceqb x c then Some tl else option_map (cons x) (remove_first c tl)
    end.
  Definition remove (c : C) (s : db) : db * bool :=
    match remove_first c (root s) with
    | Some l => (mkDb l (commits s) (cache s) (solver s), true)
    | None => (s, false)
    end.
  (** types.py:149-150 [pop()] *)
  Definition pop (s : db) : db := mkDb (removelast (root s)) (commits s) (cache s) (solver s).

  (** A history of calls; each call may raise, and the history goes on with what it left. *)
  Inductive op := OAppend (c : C) | OCheckpoint (id : string) | ORevert (name : option string).
  Definition step (s : db) (o : op) : db * bool :=
    match o with OAppend c => append c s | OCheckpoint id => checkpoint id s | ORevert n => revert n s end.
  Definition run (h : list op) (s : db) : db := fold_left (fun s o => fst (step s o)) h s.

  (** schema/graph.py:124-139 [check_constraint_satisfiability] for the symmetry constraints of a
      primitive, already renamed through the match; [false] is the AssertionError or the
      solver's exception, both swallowed by the caller (graph.py:110-118). *)
  Fixpoint try_constraints (l : list C) (s : db) : db * bool :=
    match l with
    | [] => (s, true)
    | x :: tl =>
        let (s1, ok) := if existsb (fun c => ceqb c x) (root s) then (s, true) else append x s in
        if ok then
          if existsb (fun c => ceqb c x) (root s1) then let (s2, ok2) := remove x s1 in if ok2 then try_constraints tl s2 else (s2, false)
          else (s1, false)
        else (s1, false)
    end.
  (** graph.py:107-121: the constraints of the matches in turn; afterwards the list is cut back. *)
  Fixpoint cut (fuel n : nat) (s : db) : db :=
    match fuel with
    | O => s
    | Datatypes.S fuel => if Nat.ltb n (List.length (root s)) then cut fuel n (pop s) else s
    end.
  Definition try_matches (ms : list (list C)) (s : db) : db * list bool :=
    let '(s1, oks) := fold_left (fun a m => let '(s, oks) := a in let (s', ok) := try_constraints m s in (s', oks ++ [ok])) ms (s, []) in
    (cut (List.length (root s1)) (List.length (root s)) s1, oks).
End DB.
Arguments mkDb {C F}. Arguments root {C F}. Arguments commits {C F}. Arguments cache {C F}. Arguments solver {C F}.
Arguments OAppend {C}. Arguments OCheckpoint {C}. Arguments ORevert {C}.
