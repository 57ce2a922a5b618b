(** Replacing the occurrence of a template in a subcircuit by an instance:
    Graph._replace_matches_with_subckt and create_subckt_instance, align/schema/graph.py:160-252. *)
From Coq Require Import String.
From Verif Require Import Base.Prelude Base.PyDict Model.RemoveDuplicates Model.Canvas Model.Netlist Model.Hier Model.NewHier Model.GroupBlock.

(** A match is a dictionary from the nodes of the subcircuit (elements and nets) to the nodes of the
    template, as returned by networkx. *)
Definition matching := dict.
(** 36-52: the nodes of the graph. *)
Definition is_node (els : list elem) (x : string) : bool := existsb (fun e => String.eqb (e_name e) x || in_strs x (map snd (e_pins e))) els.
(** 168-170. *)
Definition candidates (T : sub) (m : matching) : list string := map fst (filter (fun xy => negb (in_strs (snd xy) (sb_pins T))) m).
(** 173-174: an inner node of the match is used outside it. *)
Definition closed_match (els : list elem) (T : sub) (m : matching) : bool :=
  forallb (fun x => forallb (fun y => shas m y) (neighbors els x)) (candidates T m).
(** 176-177. *)
Definition skipped (skip : list string) (cs : list string) : bool := existsb (fun x => in_strs x skip) cs && (1 <? length cs)%nat.
(** 223-231: the copy of one node of the template; nets are passed over. *)
Definition copy_node (L : lib) (els : list elem) (T : sub) (xy : string * string) : option (list elem) :=
  match get_element (sb_elems T) (snd xy) with
  | None => Some []
  | Some t =>
      match get_element els (fst xy) with
      | None => None
      | Some e => option_map (fun z => [z]) (mk_inst L (e_name t) (e_model e) (e_pins t) (e_params e))
      end
  end.
(** 199: [{pin: net for net, pin in match.items() if pin in subckt.pins}]. *)
Definition pin2net (T : sub) (m : matching) : dict :=
  fold_left (fun d xy => sset d (snd xy) (fst xy)) (filter (fun xy => in_strs (snd xy) (sb_pins T)) m) [].
(** 184-190: the elements to remove, in the order of their names. *)
Definition leaving (els : list elem) (T : sub) (m : matching) : list elem := found els (ksorted (fun x => x) (candidates T m)).

Section Replace.
  (** 239-243: the name made of the name of the template and a hash of the copy. *)
  Variable gname : sub -> string.
  (** 216-252, without constraints and generators; the library with the copy, and the copy. *)
  Definition create_copy (L : lib) (els : list elem) (T : sub) (m : matching) : option (lib * sub) :=
    match sb_pins T with
    | [] => None
    | _ =>
        match mapM (copy_node L els T) m with
        | None => None
        | Some cs =>
            let c0 := mkSub (sb_name T) (sb_pins T) (sb_params T) (concat cs) in
            let child := mkSub (gname c0) (sb_pins T) (sb_params T) (concat cs) in
            Some (match lfind L (gname c0) with Some _ => L | None => L ++ [Sub child] end, child)
        end
    end.
  (** 164-213, one match; [None] = an exception, [Some (L, None)] = the match is passed over. *)
  Definition replace_match (skip : list string) (pn : string) (T : sub) (L : lib) (m : matching) : option (lib * option string) :=
    match lfind L pn with
    | Some (Sub p) =>
        let els := sb_elems p in
        if negb (forallb (fun xy => is_node els (fst xy)) m) then None
        else if negb (closed_match els T m) || skipped skip (candidates T m) then Some (L, None)
        else
          match create_copy L els T m with
          | None => None
          | Some (L1, child) =>
              let grp := leaving els T m in
              match remove_all els grp with
              | None => None
              | Some rest =>
                  if negb (forallb (fun q => shas (pin2net T m) q) (sb_pins T)) then None
                  else
                    match mk_inst L1 ("X_" ++ String.concat "_" (map e_name grp))%string (sb_name child) (pin2net T m) [] with
                    | None => None
                    | Some x => Some (replace_sub L1 (mkSub (sb_name p) (sb_pins p) (sb_params p) (rest ++ [x])), Some (sb_name child))
                    end
              end
          end
    | _ => None
    end.
  (** 160-214: all matches in turn; the names of the copies. *)
  Definition replace_matches (skip : list string) (pn : string) (T : sub) (ms : list matching) (L : lib) : option (lib * list string) :=
    foldM (fun st m => option_map (fun r => (fst r, snd st ++ match snd r with Some n => [n] | None => [] end)) (replace_match skip pn T (fst st) m)) ms (L, []).
End Replace.
