(** Search for arrays of repeated parts (compiler/create_array_hierarchy.py:84-204). *)
From Coq Require Import String.
From Verif Require Import Base.Prelude Base.PyDict Model.PySort Model.RemoveDuplicates Model.Canvas Model.Netlist Model.Hier Model.NewHier Model.GroupBlock Model.SymConst Model.FindSym.

(** The graph as far as the search looks at it: neighbours, [reduced_SD_neighbors] (util.py:128-133), the
    property of a neighbour in [matching_groups] (139-140: [create_node_id] without weights of ports and the
    pins of the edge; [None] for a net, where the code raises TypeError because it tests [node1 in None], util.py:179), and
    the abstract name of an element, [None] for a net. *)
Record agraph := mkA {
  a_nb : string -> list string;
  a_sd : string -> string -> bool;
  a_sig : string -> string -> option string;
  a_el : string -> option string
}.
Definition is_el (G : agraph) (x : string) : bool := match a_el G x with Some _ => true | None => false end.

(** Order of lists (Python). *)
Fixpoint lex_leb (a b : list string) : bool :=
  match a, b with
  | [], _ => true
  | _ :: _, [] => false
  | x :: a', y :: b' => if String.eqb x y then lex_leb a' b' else String.leb x y
  end.
Fixpoint linsert (x : list string) (l : list (list string)) : list (list string) :=
  match l with [] => [x] | y :: tl => if lex_leb x y then x :: l else y :: linsert x tl end.
Definition lsorted (l : list (list string)) : list (list string) := fold_right linsert [] l.

(** [matching_groups] (135-146). *)
Definition sig_of (G : agraph) (node n : string) : string := match a_sig G node n with Some s => s | None => EmptyString end.
Definition matching_groups (G : agraph) (node : string) (lvl1 : list string) : option (list (list string)) :=
  if forallb (fun n => match a_sig G node n with Some _ => true | None => false end) lvl1
  then Some (lsorted (filter (fun v => Nat.ltb 1 (length v)) (map snd (group_by String.eqb (sig_of G node) lvl1))))
  else None.

(** A node dictionary: lists of nodes by source. *)
Definition rows := list (string * list string).
Section Search.
  Variable G : agraph.
  (** The order in which Python iterates over a set. *)
  Variable ord : list string -> list string.
  Definition minus (l tr : list string) : list string := ord (filter (fun x => negb (in_strs x tr)) l).

  (** The next level (149-161). *)
  Definition next_level (m : rows) (tr : list string) : rows :=
    filter (fun r => negb (Nat.eqb (length (snd r)) 0))
      (map (fun r => (fst r, flat_map (fun n => filter (a_sd G n) (minus (a_nb G n) tr)) (ksorted (fun x => x) (snd r)))) m).
  (** [match_branches] (173-191). *)
  Definition models (l : list string) : list string := map (fun n => match a_el G n with Some m => m | None => "net"%string end) l.
  Definition match_branches (m : rows) : bool :=
    match rev m with
    | [] => false
    | main :: others => forallb (fun r => same_count (models (snd r)) (models (snd main))) others
    end.
  (** [check_non_convergence] (193-204). *)
  Fixpoint apart_rows (vals : list string) (m : rows) : bool :=
    match m with
    | [] => true
    | r :: tl => negb (existsb (fun n => in_strs n vals && is_el G n) (snd r)) && apart_rows (vals ++ snd r) tl
    end.
  (** 164-166. *)
  Definition extend (array next : rows) : rows :=
    map (fun r => match dget String.eqb next (fst r) with Some l => (fst r, snd r ++ l) | None => r end) array.
  (** [trace_template] (148-171); the array afterwards, [None] without fuel.  The list [template] is not used
      afterwards. *)
  Fixpoint trace (fuel : nat) (m : rows) (visited : list string) (array : rows) : option rows :=
    match fuel with
    | O => None
    | Datatypes.S fuel =>
        let next := next_level m visited in
        if match next with [] => false | _ => match_branches next end then
          let array' := extend array next in
          if apart_rows [] next then trace fuel next (visited ++ flat_map snd next) array' else Some array'
        else Some array
    end.
  (** One group (108-118). *)
  Definition trace_group (fuel : nat) (stop : list string) (start : string) (group : list string) : option rows :=
    let m := map (fun el => (el, [el])) (ksorted (fun x => x) group) in
    trace fuel m (group ++ stop ++ [last (ksorted (fun x => x) group) EmptyString] ++ [start]) m.
  (** [find_array] (84-120) up to [process_results].  Every group is traced, but [array] is overwritten and
      the last one, of the largest group, is used. *)
  Definition find_rows (fuel : nat) (stop : list string) (start : string) : sres (option rows) :=
    match matching_groups G start (minus (a_nb G start) stop) with
    | None => Fail
    | Some gs =>
        fold_s (fun _ g => match trace_group fuel stop start g with Some a => Ok (Some a) | None => Out end)
          (sort_by (fun g => Z.of_nat (length g)) gs) None
    end.

  (** [process_results] (122-133). *)
  Inductive array_result := Aligned (l : list string) | Arrays (l : list (list string)).
  Definition process_results (a : rows) : option array_result :=
    let l := map (fun r => filter (is_el G) (ksorted (fun x => x) (snd r))) a in
    match l with
    | [] => None
    | r :: _ => if Nat.eqb (length r) 1 then option_map Aligned (mapM (fun x => nth_error x 0) l) else Some (Arrays l)
    end.
  (** 84-120. *)
  Definition find_array (fuel : nat) (stop : list string) (start : string) : sres (option array_result) :=
    bind_s (find_rows fuel stop start) (fun r =>
      match r with
      | None => Ok None
      | Some a => match process_results a with Some x => Ok (Some x) | None => Fail end
      end).
End Search.

(** The graph of a subcircuit whose elements are devices: the pins of the edge (schema/graph.py:36-52), [leaf_weights]
    (util.py:96-117), [create_node_id] without the hash (util.py:169-175).  Used for concrete circuits. *)
Definition edge_pins (els : list elem) (e n : string) : list string :=
  flat_map (fun x => if String.eqb (e_name x) e then map fst (filter (fun pn => String.eqb (snd pn) n) (e_pins x)) else []) els.
Definition device_graph (els : list elem) : agraph :=
  mkA (fun x => uniq (neighbors els x))
    (fun a b => existsb (fun p => negb (in_strs p ["B"; "G"]%string)) (edge_pins els a b ++ edge_pins els b a))
    (fun node n => option_map (fun e => (String.concat "_" (map (fun k => k ++ ":" ++ at_key (e_params e) k) (sorted_keys (e_params e))) ++ "/" ++ e_model e ++ "/" ++ zstr (Z.of_nat (length (uniq (map snd (e_pins e))))) ++ "/" ++
        String.concat "_" (ksorted (fun x => x) (edge_pins els n node)))%string) (get_element els n))
    (fun x => option_map e_model (get_element els x)).
