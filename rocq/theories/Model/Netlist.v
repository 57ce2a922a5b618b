(** Netlists (align/schema/instance.py, subcircuit.py, graph.py) and the two passes of
    align/compiler/preprocess.py that merge parallel (271-305) and stacked (308-369) devices. *)
From Coq Require Import String Ascii.
From Verif Require Import Base.Prelude Base.PyDict Base.PyStr Model.RemoveDuplicates Model.Lef.
Local Open Scope Z_scope.

Notation dict := (list (string * string)).
(** instance.py:10-14 [Instance].  Simplified: [abstract_name] is not read by these passes. *)
Record elem := mkElem { e_name : string; e_model : string; e_pins : dict; e_params : dict }.

Definition sget (d : dict) (k : string) : option string := dget String.eqb d k.
Definition sset (d : dict) (k v : string) : dict := dset String.eqb d k v.
Definition shas (d : dict) (k : string) : bool := dmem String.eqb d k.
(** [del d[k]], [d.pop(k)]. *)
Definition sdel (d : dict) (k : string) : dict := filter (fun e => negb (String.eqb (fst e) k)) d.
Definition opt_eqb (a b : option string) : bool :=
  match a, b with Some x, Some y => String.eqb x y | None, None => true | _, _ => false end.
(** Equality of python dictionaries does not depend on the order of the entries. *)
Definition dict_eqb (a b : dict) : bool :=
  forallb (fun k => opt_eqb (sget a k) (sget b k)) (map fst a ++ map fst b).

(** [str(n)]. *)
Definition zstr (n : Z) : string := string_of_list_ascii (print_Z n).
(** [int(s)].  Simplified: only an optional minus sign and decimal digits; python also accepts
    surrounding blanks, a plus sign and underscores. *)
Definition py_int (s : string) : option Z :=
  let num c := match c with [] => None | _ => if forallb is_digit c then Some (digits_val c) else None end in
  match str s with
  | "-"%char :: c => option_map Z.opp (num c)
  | c => num c
  end.

(** graph.py:42-51: the nets of an instance; the edge to [net] carries the set of pins. *)
Definition pins_on (net : string) (e : elem) : list string :=
  map fst (filter (fun p => String.eqb (snd p) net) (e_pins e)).
Definition touches (net : string) (e : elem) : bool := existsb (fun p => String.eqb (snd p) net) (e_pins e).
(** subcircuit.py:24-29 [SubCircuit.nets]. *)
Definition add_net (l : list string) (n : string) : list string :=
  if existsb (String.eqb n) l then l else l ++ [n].
Definition nets (els : list elem) : list string :=
  fold_left (fun l e => fold_left (fun l p => add_net l (snd p)) (e_pins e) l) els [].
(** [G.neighbors(net)] followed by [get_element]: the instances on a net in netlist order.
    Simplified: instance names and net names are taken from different name spaces (a
    [networkx] node that is both would be confused), and instance names are unique. *)
Definition on_net (net : string) (els : list elem) : list elem := filter (touches net) els.
(** graph.py:60-61 [Graph.remove]: [elements.remove(e)] finds the entry by its (unique) name. *)
Fixpoint remove_elem (els : list elem) (name : string) : list elem :=
  match els with
  | [] => []
  | e :: tl => if String.eqb (e_name e) name then tl else e :: remove_elem tl name
  end.
Definition set_param (k v : string) (e : elem) : elem := mkElem (e_name e) (e_model e) (e_pins e) (sset (e_params e) k v).
Definition update (name : string) (f : elem -> elem) (els : list elem) : list elem :=
  map (fun e => if String.eqb (e_name e) name then f e else e) els.

(** * add_parallel_devices (preprocess.py:271-305) *)

Definition PARALLEL : string := "PARALLEL".
Definition STACK : string := "STACK".
(** 292-293: [{**ele.pins, **ele.parameters}] and the model. *)
Definition device_key (e : elem) : dict :=
  sset (fold_left (fun d p => sset d (fst p) (snd p)) (e_params e) (e_pins e)) "model" (e_model e).
(** 294-298: append to the first list whose key is equal, else a new list. *)
Fixpoint add_group (gs : list (dict * list elem)) (e : elem) : list (dict * list elem) :=
  match gs with
  | [] => [(device_key e, [e])]
  | (p, l) :: tl => if dict_eqb (device_key e) p then (p, l ++ [e]) :: tl else (p, l) :: add_group tl e
  end.
(** 288-298 *)
Definition parallel_groups (net : string) (els : list elem) : list (list elem) :=
  map snd (fold_left add_group (filter (fun e => shas (e_params e) PARALLEL) (on_net net els)) []).
(** 301: the least name. *)
Definition least_name (pd : list elem) : string :=
  fold_left (fun m e => if String.ltb (e_name e) m then e_name e else m) pd
            (match pd with e :: _ => e_name e | [] => EmptyString end).
(** 299-305.  [getattr(x.parameters, "PARALLEL", "1")] looks for an attribute, not for a key: a
    dictionary has no such attribute, so the default "1" is used for every device. *)
Definition merge_parallel (els : list elem) (pd : list elem) : list elem :=
  if (1 <? length pd)%nat then
    let n := fold_left Z.add (map (fun _ => 1) pd) 0 in
    fold_left remove_elem (map e_name (tl pd)) (update (least_name pd) (set_param PARALLEL (zstr n)) els)
  else els.
Definition parallel_step (els : list elem) (net : string) : list elem :=
  fold_left merge_parallel (parallel_groups net els) els.
(** 284: [order] lists the set of nets, in any order. *)
Definition add_parallel_devices (order : list string) (els : list elem) : list elem :=
  fold_left parallel_step order els.

(** * add_series_devices (preprocess.py:308-369) *)

(** 350-351: [dict( **parameters, **pins)]; a common key is a TypeError. *)
Definition joined (e : elem) : option dict :=
  if existsb (fun p => shas (e_params e) (fst p)) (e_pins e) then None else Some (e_params e ++ e_pins e).
(** 352-353 *)
Definition stack_of (d : dict) : option Z :=
  match sget d STACK with Some s => py_int s | None => Some 1 end.
(** 360-363 *)
Definition stackable_pins (p q : string) : bool :=
  let is a b := (String.eqb p a && String.eqb q b) || (String.eqb p b && String.eqb q a) in
  is "D"%string "S"%string || is "PLUS"%string "MINUS"%string.
(** 366-368: every pin on the net takes the net of the same pin of [n2]; [None] = KeyError. *)
Definition repin (net : string) (n2 : elem) (pins : dict) : option dict :=
  foldM (fun d p => if String.eqb (snd p) net
                    then option_map (sset d (fst p)) (sget (e_pins n2) (fst p))
                    else Some d) pins pins.
(** 326-369 for the two neighbours in the order of their names; [None] = an exception. *)
Definition stack_pair (net : string) (els : list elem) (n1 n2 : elem) : option (list elem) :=
  if negb (shas (e_params n1) STACK) then Some els
  else if negb (String.eqb (e_model n1) (e_model n2)) then Some els
  else match pins_on net n1, pins_on net n2 with
       | [p1], [p2] =>
           if String.eqb p1 p2 then Some els
           else match joined n1, joined n2 with
                | Some d1, Some d2 =>
                    match stack_of d1, stack_of d2 with
                    | Some s1, Some s2 =>
                        let d1 := sdel d1 STACK in
                        let d2 := sdel d2 STACK in
                        if shas d1 p1 && shas d2 p1 && shas d1 p2 && shas d2 p2 then
                          if dict_eqb (sdel (sdel d1 p1) p2) (sdel (sdel d2 p1) p2) && stackable_pins p1 p2 then
                            match repin net n2 (e_pins n1) with
                            | Some pins =>
                                Some (remove_elem (update (e_name n1) (fun e => mkElem (e_name e) (e_model e) pins (sset (e_params e) STACK (zstr (s1 + s2)))) els) (e_name n2))
                            | None => None
                            end
                          else Some els
                        else None
                    | _, _ => None
                    end
                | _, _ => None
                end
       | _, _ => Some els
       end.
(** 323-326; [G.neighbors] of a net that is no longer there is an exception.  The test
    [net not in remove_nodes] is always true. *)
Definition series_step (els : list elem) (net : string) : option (list elem) :=
  match on_net net els with
  | [] => None
  | [x; y] => if String.ltb (e_name y) (e_name x) then stack_pair net els y x else stack_pair net els x y
  | _ => Some els
  end.
(** 322: [order] lists the set [set(ckt.nets) - set(ckt.pins)], in any order. *)
Definition add_series_devices (order : list string) (els : list elem) : option (list elem) :=
  foldM series_step order els.
