(** Search for symmetric parts of a circuit (compiler/find_constraint.py:22-228). *)
From Coq Require Import String.
From Verif Require Import Base.Prelude Base.PyDict Model.RemoveDuplicates Model.Netlist Model.UpdateConst.

(** The graph of a subcircuit as far as the search looks at it: sorted neighbours
    ([sorted(set(G.neighbors(n)))], find_constraint.py:64-67), the tests [reduced_neighbors] and
    [reduced_SD_neighbors] (compiler/util.py:120-133), the node identifiers of [create_node_id]
    (util.py:169-187; two nodes compare equal when their identifiers are equal, util.py:190-211), and the
    pins of an edge. *)
Record cgraph := mkG {
  g_nb : string -> list string;
  g_red : string -> string -> bool;
  g_sd : string -> string -> bool;
  g_id : string -> string;
  g_epins : string -> string -> list string
}.
Definition same_id (G : cgraph) (a b : string) : bool := String.eqb (g_id G a) (g_id G b).

(** [match_pair]: matched nodes, and the entry "array_start_point", which has another type (no node has
    that name). *)
Record pairing := mkP { pd : dict; sp : option (string * string) }.
Definition no_pairs : pairing := mkP [] None.
(** [if new_pair], [len(v) > 0]. *)
Definition is_empty (p : pairing) : bool := match pd p, sp p with [], None => true | _, _ => false end.
Definition add_pair (p : pairing) (a b : string) : pairing := mkP (sset (pd p) a b) (sp p).
(** [match_pair.update(other)]. *)
Definition upd_pairs (p q : pairing) : pairing := mkP (fold_left (fun d e => sset d (fst e) (snd e)) (pd q) (pd p)) (match sp q with Some s => Some s | None => sp p end).

(** [find_unique_matching_branches] (find_constraint.py:22-34); [None] is [False]. *)
Fixpoint unique_inner (G : cgraph) (n1 : string) (l2 : list string) (m : dict) : option dict :=
  match l2 with
  | [] => Some m
  | n2 :: tl => if same_id G n1 n2 then (if shas m n1 then None else unique_inner G n1 tl (sset m n1 n2)) else unique_inner G n1 tl m
  end.
Fixpoint unique_branches (G : cgraph) (l1 l2 : list string) (m : dict) : option dict :=
  match l1 with
  | [] => Some m
  | n1 :: tl => match unique_inner G n1 l2 m with
                | None => None
                | Some m' => if shas m' n1 then unique_branches G tl l2 m' else None
                end
  end.

(** [itertools.combinations(l, 2)]. *)
Fixpoint combos (l : list string) : list (string * string) :=
  match l with [] => [] | a :: tl => map (pair a) tl ++ combos tl end.

(** All pairings found so far, by start points. *)
Definition found := list ((string * string) * pairing).
Record sstate := mkS { s_all : found; s_pair : pairing; s_tr : list string }.
(** Result of a call: a state, a failed assertion, or no fuel left.  Recursion in the code is bounded
    by the nodes not yet traversed (C60_terminates). *)
Inductive sres (A : Type) := Ok (a : A) | Fail | Out.
Arguments Ok {A} a.
Arguments Fail {A}.
Arguments Out {A}.
Definition bind_s {A B} (r : sres A) (f : A -> sres B) : sres B := match r with Ok s => f s | Fail => Fail | Out => Out end.
Fixpoint fold_s {A B} (f : B -> A -> sres B) (l : list A) (s : B) : sres B :=
  match l with [] => Ok s | a :: tl => bind_s (f s a) (fold_s f tl) end.
Definition free_nbrs (G : cgraph) (tr : list string) (n : string) : list string :=
  filter (fun x => g_red G n x) (filter (fun x => negb (in_strs x tr)) (g_nb G n)).
(** [set] of a list, for its size. *)
Definition distinct (l : list string) : nat := length (nodup string_dec l).
Definition set_start (s : sstate) (n1 n2 : string) : sres sstate :=
  match sp (s_pair s) with Some _ => Fail | None => Ok (mkS (s_all s) (mkP (pd (s_pair s)) (Some (n1, n2))) (s_tr s)) end.

(** [compare_nodes] (find_constraint.py:37-184).  A local binding [match_pair = {}] (lines 180, 183)
    does not change the dictionary of the caller. *)
Fixpoint compare_nodes (G : cgraph) (fuel : nat) (n1 n2 : string) (s : sstate) : sres sstate :=
  match fuel with
  | O => Out
  | Datatypes.S fuel =>
      let nbrs1 := free_nbrs G (s_tr s) n1 in
      let nbrs2 := free_nbrs G (s_tr s) n2 in
      if match nbrs1, nbrs2 with [], _ => true | _, [] => true | _, _ => false end then
        Ok (if same_id G n1 n2 then mkS (s_all s) (add_pair (s_pair s) n1 n2) (s_tr s) else s)
      else if Nat.ltb 10 (length nbrs1) then
        bind_s (set_start s n1 n2) (fun s => Ok (mkS (s_all s) (s_pair s) (n1 :: s_tr s)))
      else if String.eqb n1 n2 then
        if in_strs n1 (map fst (pd (s_pair s))) || in_strs n1 (map snd (pd (s_pair s))) then Ok s
        else
          let sdn := filter (fun x => g_sd G n1 x) nbrs1 in
          match sdn with
          | [] => Ok (mkS (s_all s) (add_pair (s_pair s) n1 n1) (s_tr s))
          | [x] => compare_nodes G fuel x x (mkS (s_all s) (add_pair (s_pair s) n1 n1) (n1 :: s_tr s))
          | _ =>
              let tr := n1 :: s_tr s in
              let new_sp := filter (fun x => negb (in_strs x tr)) sdn in
              bind_s (fold_s (fun (acc : found * found) ab =>
                        bind_s (compare_nodes G fuel (fst ab) (snd ab) (mkS (fst acc) no_pairs tr))
                          (fun r => Ok (s_all r, if is_empty (s_pair r) then snd acc else snd acc ++ [(ab, s_pair r)])))
                      (combos new_sp) (s_all s, []))
                (fun al => match snd al with
                  | [(_, p)] => Ok (mkS (fst al) (upd_pairs (add_pair (s_pair s) n1 n1) p) tr)
                  | _ => fold_s (fun st a =>
                           if dmem pin_eqb (s_all st) (a, a) then Ok st
                           else bind_s (compare_nodes G fuel a a (mkS (s_all st) no_pairs tr))
                                  (fun r => Ok (mkS (if is_empty (s_pair r) then s_all r else dset pin_eqb (s_all r) (a, a) (s_pair r)) (s_pair st) (s_tr st))))
                         new_sp (mkS (fst al) (add_pair (s_pair s) n1 n1) tr)
                  end)
          end
      else if same_id G n1 n2 then
        let s' := mkS (s_all s) (add_pair (s_pair s) n1 n2) (n1 :: n2 :: s_tr s) in
        let wt1 := flat_map (g_epins G n1) nbrs1 in
        let wt2 := flat_map (g_epins G n2) nbrs2 in
        match unique_branches G nbrs1 nbrs2 [] with
        | Some (e :: m) => fold_s (fun st ab => bind_s (compare_nodes G fuel (fst ab) (snd ab) (mkS (s_all st) (s_pair st) (s_tr s')))
                             (fun r => Ok (mkS (s_all r) (s_pair r) (s_tr st)))) (e :: m) s'
        | _ => if Nat.ltb (distinct wt1) (length wt1) && Nat.ltb 1 (distinct wt1) && (Nat.ltb (distinct wt2) (length wt2) && Nat.ltb 1 (distinct wt2))
               then set_start s' n1 n2 else Ok s'
        end
      else Ok s
  end.

(** [recursive_start_points] (find_constraint.py:187-197). *)
Definition start_points (G : cgraph) (fuel : nat) (nodes : list string) (tr : list string) (all : found) (n1 n2 : string) : sres found :=
  if in_strs n1 nodes && in_strs n2 nodes then
    bind_s (compare_nodes G fuel n1 n2 (mkS all no_pairs tr))
      (fun r => Ok (if is_empty (s_pair r) then s_all r else dset pin_eqb (s_all r) (n1, n2) (s_pair r)))
  else Ok all.
(** [combinations_with_replacement(l, 2)]. *)
Fixpoint combos_rep (l : list string) : list (string * string) :=
  match l with [] => [] | a :: tl => map (pair a) (a :: tl) ++ combos_rep tl end.
(** [FindSymmetry] (find_constraint.py:200-228).  [weight] is [get_ports_weight] (util.py:136-147), a set
    of pin names written as one string, [None] for a floating port.  [ports] are the sorted ports. *)
Definition find_symmetry (G : cgraph) (fuel : nat) (nodes stop ports : list string) (weight : string -> option string) : sres found :=
  fold_s (fun all ab =>
      match weight (fst ab), weight (snd ab) with
      | Some w1, Some w2 => if String.eqb w1 w2 then
            bind_s (start_points G fuel nodes (fst ab :: snd ab :: stop) all (fst ab) (snd ab))
              (fun all' => Ok (filter (fun e => negb (is_empty (snd e))) all'))
          else Ok all
      | _, _ => Ok all
      end) (combos_rep (filter (fun p => negb (in_strs p stop)) ports)) [].
