(** Moving elements of a subcircuit into a new one: create_new_hiearchy,
    align/compiler/create_array_hierarchy.py:282-340 (called with [pins_map=None]). *)
From Coq Require Import String.
From Verif Require Import Base.Prelude Base.PyDict Model.RemoveDuplicates Model.Canvas Model.Netlist Model.Hier.

(** schema/graph.py:36-52: the neighbours of a node; a net and an element of the same name are
    one node.  Simplified: elements have at least one pin. *)
Definition neighbors (els : list elem) (x : string) : list string :=
  flat_map (fun e => if String.eqb (e_name e) x then map snd (e_pins e) else []) els ++
  flat_map (fun e => if in_strs x (map snd (e_pins e)) then [e_name e] else []) els.
(** The keys of a dictionary after insertion in order. *)
Definition uniq (l : list string) : list string := fold_left (fun d x => if in_strs x d then d else d ++ [x]) l [].
(** 289-292. *)
Definition touched (els : list elem) (names : list string) : list string :=
  uniq (flat_map (fun x => match get_element els x with Some _ => neighbors els x | None => [] end) names).
(** 294-297. *)
Definition crossing (p : sub) (names : list string) (n : string) : bool :=
  in_strs n (sb_pins p) || existsb (fun y => negb (in_strs y names)) (neighbors (sb_elems p) n).
Definition new_pins (p : sub) (names : list string) : list string := filter (crossing p names) (touched (sb_elems p) names).
(** 307-313. *)
Definition found (els : list elem) (names : list string) : list elem :=
  flat_map (fun x => match get_element els x with Some e => [e] | None => [] end) names.
(** 330-331: [elements.remove] fails when the element is absent.  Simplified: by name. *)
Definition remove_all (els pes : list elem) : option (list elem) :=
  foldM (fun l e => match get_element l (e_name e) with Some _ => Some (remove_elem l (e_name e)) | None => None end) pes els.
Definition replace_sub (L : lib) (s : sub) : lib :=
  map (fun c => match c with Sub o => if String.eqb (sb_name o) (sb_name s) then Sub s else c | Prim _ => c end) L.
(** 282-340; [None] = an exception.  Constraints are not modelled. *)
Definition create_hier (L : lib) (pn cn : string) (names : list string) : option lib :=
  match lfind L pn with
  | Some (Sub p) =>
      let pm := new_pins p names in
      match pm with
      | [] => None
      | _ =>
          match lfind L cn with
          | Some _ => None
          | None =>
              let pes := found (sb_elems p) names in
              let child := mkSub cn pm [] pes in
              match remove_all (sb_elems p) pes with
              | None => None
              | Some rest =>
                  match mk_inst (L ++ [Sub child]) ("X_" ++ cn)%string cn (map (fun n => (n, n)) pm) [] with
                  | None => None
                  | Some x => Some (replace_sub (L ++ [Sub child]) (mkSub (sb_name p) (sb_pins p) (sb_params p) (rest ++ [x])))
                  end
              end
          end
      end
  | _ => None
  end.
