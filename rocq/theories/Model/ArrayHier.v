(** Hierarchies for arrays (compiler/create_array_hierarchy.py:234-256, 273-279). *)
From Coq Require Import String.
From Verif Require Import Base.Prelude Model.RemoveDuplicates Model.Netlist Model.Hier Model.NewHier Model.SymConst.

(** [get_new_subckt_name] (273-279): the name itself, or with the first number that is free; [None] without fuel. *)
Fixpoint new_name (fuel : nat) (L : lib) (base cur : string) (count : Z) : option string :=
  match fuel with
  | O => None
  | Datatypes.S fuel => match lfind L cur with None => Some cur | Some _ => new_name fuel L base (base ++ zstr count)%string (count + 1) end
  end.
Definition new_subckt_name (L : lib) (base : string) : option string := new_name (Datatypes.S (length L)) L base base 1.

Section Arrays.
  (** The order in which Python iterates over a set, and the nodes of the graph, which is that of the circuit
      before any move (38, 240). *)
  Variables (ord : list string -> list string) (nodes : list string).
  (** 239-245: the instances of an array that occur once and were not moved before. *)
  Definition all_inst (sub : list string) (rows : list (list string)) : list string :=
    filter (fun x => in_strs x nodes && negb (in_strs x sub)) (concat rows).
  Definition repeated (l : list string) (x : string) : bool := Nat.ltb 1 (count x l).
  Definition chosen (sub : list string) (rows : list (list string)) : list string :=
    let l := all_inst sub rows in ord (filter (fun x => negb (repeated l x)) (uniq l)).
  (** 246: a row without repeated elements.  Elements moved before stay in it; they are not found (NewHier.v). *)
  Definition row_of (sub : list string) (rows : list (list string)) (r : list string) : list string :=
    ord (filter (fun x => negb (repeated (all_inst sub rows) x)) (uniq r)).
  (** 253-256: templates inside the hierarchy. *)
  Definition add_template (hn : string) (st : lib * list string) (r : list string) : option (lib * list string) :=
    match new_subckt_name (fst st) "ARRAY_TEMPLATE" with
    | None => None
    | Some t => option_map (fun L => (L, snd st ++ [t])) (create_hier (fst st) hn t r)
    end.
  (** 238-257, one start point.  Constraints (258-271) are not modelled. *)
  Definition one_array (pn : string) (st : lib * list string) (kr : string * list (list string)) : option (lib * list string) :=
    let '(L, sub) := st in
    let '(key, rows) := kr in
    let el := chosen sub rows in
    if Nat.leb (length el) 1 then Some (L, sub ++ el)
    else
      let hn := ("ARRAY_HIER_" ++ key)%string in
      match create_hier L pn hn el with
      | None => None
      | Some L1 => option_map (fun s => (fst s, sub ++ el)) (foldM (add_template hn) (map (row_of sub rows) rows) (L1, []))
      end.
  (** [add_new_array_hier] (234-257). *)
  Definition add_arrays (pn : string) (L : lib) (todo : list (string * list (list string))) : option (lib * list string) :=
    foldM (one_array pn) todo (L, []).
End Arrays.
