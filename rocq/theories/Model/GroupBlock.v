(** Grouping elements of a subcircuit under a canonical name: create_canonical_primitive,
    align/compiler/match_graph.py:128-223 (GroupBlocks constraints). *)
From Coq Require Import String.
From Verif Require Import Base.Prelude Base.PyDict Model.RemoveDuplicates Model.Canvas Model.Netlist Model.Hier Model.NewHier.

(** [sorted(l, key=key)] for string keys; stable. *)
Fixpoint kinsert {A} (key : A -> string) (x : A) (l : list A) : list A :=
  match l with
  | [] => [x]
  | y :: t => if String.leb (key x) (key y) then x :: l else y :: kinsert key x t
  end.
Definition ksorted {A} (key : A -> string) (l : list A) : list A := fold_right (kinsert key) [] l.
Definition sorted_keys (d : dict) : list string := ksorted (fun k => k) (map fst d).
(** [d[k]] for a key of the dictionary. *)
Definition at_key (d : dict) (k : string) : string := match sget d k with Some v => v | None => EmptyString end.
(** 131-140: every pin is represented by the first pin, in sorted order, on the same net. *)
Definition pin_id (pins : dict) : string :=
  String.concat "" (map (fun k => match find (fun k' => String.eqb (at_key pins k') (at_key pins k)) (sorted_keys pins) with Some k' => k' | None => k end) (sorted_keys pins)).
(** 142: the key that orders the instances. *)
Definition inst_key (e : elem) : string :=
  (pin_id (e_pins e) ++ String.concat "_" (map (fun k => k ++ ":" ++ at_key (e_params e) k) (sorted_keys (e_params e))))%string.
(** 130, 142. *)
Definition group_insts (els : list elem) (names : list string) : list elem :=
  ksorted inst_key (filter (fun e => in_strs (e_name e) names) els).
(** 146-151. *)
Definition group_nets (insts : list elem) : list string :=
  uniq (flat_map (fun e => map (at_key (e_pins e)) (sorted_keys (e_pins e))) insts).
(** 143, 153: [enumerate]. *)
Fixpoint index_of (x : string) (l : list string) : Z :=
  match l with
  | [] => 0
  | y :: t => if String.eqb y x then 0 else 1 + index_of x t
  end.
Definition canon_net (nets : list string) (n : string) : string := ("P" ++ zstr (index_of n nets))%string.
Fixpoint enum {A} (i : Z) (l : list A) : list (Z * A) := match l with [] => [] | x :: t => (i, x) :: enum (i + 1) t end.
(** 156-162. *)
Definition canon_inst (nets : list string) (ie : Z * elem) : elem :=
  mkElem ("M" ++ zstr (fst ie))%string (e_model (snd ie)) (map (fun pn => (fst pn, canon_net nets (snd pn))) (e_pins (snd ie))) (e_params (snd ie)).
Definition canon_insts (insts : list elem) : list elem := map (canon_inst (group_nets insts)) (enum 0 insts).
(** 154-155: the nets of the group that are used outside it. *)
Definition group_pins (p : sub) (insts : list elem) : list string :=
  filter (fun n => negb (forallb (fun y => in_strs y (map e_name insts)) (neighbors (sb_elems p) n)) || in_strs n (sb_pins p)) (group_nets insts).

Section Group.
  (** 163-167: the name made of the template name and a hash of the instances and the generator. *)
  Variable gname : list elem -> string.
  (** 168-186: the library with the subcircuit in it; [None] = a validation error.  Simplified:
      generators and constraints are not modelled. *)
  Definition with_child (L : lib) (p : sub) (insts : list elem) : option lib :=
    let ni := canon_insts insts in
    let cn := gname ni in
    match lfind L cn with
    | Some _ => Some L
    | None =>
        match group_pins p insts with
        | [] => None
        | gp =>
            let pins := map (canon_net (group_nets insts)) gp in
            option_map (fun els => L ++ [Sub (mkSub cn pins [] els)])
              (mapM (fun e => mk_inst (L ++ [Sub (mkSub cn pins [] [])]) (e_name e) (e_model e) (e_pins e) (e_params e)) ni)
        end
    end.
  (** 128-210; [iname] is the name of the new instance.  247-251: all instances of the constraint
      are in the subcircuit. *)
  Definition group_block (L : lib) (pn iname : string) (names : list string) : option lib :=
    match lfind L pn with
    | Some (Sub p) =>
        if negb (forallb (fun n => in_strs n (map e_name (sb_elems p))) names) then None
        else
          let insts := group_insts (sb_elems p) names in
          match with_child L p insts with
          | None => None
          | Some L1 =>
              match remove_all (sb_elems p) insts with
              | None => None
              | Some rest =>
                  match mk_inst L1 iname (gname (canon_insts insts)) (map (fun n => (canon_net (group_nets insts) n, n)) (group_pins p insts)) [] with
                  | None => None
                  | Some x => Some (replace_sub L1 (mkSub (sb_name p) (sb_pins p) (sb_params p) (rest ++ [x])))
                  end
              end
          end
    | _ => None
    end.
End Group.
