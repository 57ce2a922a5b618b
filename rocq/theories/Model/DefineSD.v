(** Source and drain of transistors (compiler/preprocess.py:147-268 [swap_SD], [define_SD]; compiler/util.py:19-76). *)
From Coq Require Import String Ascii.
From Verif Require Import Base.Prelude Base.PyDict Base.PyStr Model.RemoveDuplicates Model.Netlist.

(** What [library.find(model)] gives: a device model with its base, or a circuit with the models of its elements.
    Simplified: parameters and the names of elements are not read. *)
Inductive mdef := MDev (base : option string) | MCkt (elems : list string).
Notation models := (list (string * mdef)).
(** util.py:62-76 [get_base_model].  Simplified: a model that is not in the library is its own base (the code asserts);
    the recursion is bounded by the number of models, the hierarchy having no cycles. *)
Fixpoint base_go (fuel : nat) (L : models) (cm : string) : string :=
  match fuel with
  | O => cm
  | S fuel => match dget String.eqb L cm with
              | Some (MCkt [m]) => base_go fuel L m
              | Some (MDev (Some b)) => b
              | _ => cm
              end
  end.
Definition get_base_model (L : models) (m : string) : string := base_go (S (length L)) L m.
(** ["MOS" in s]. *)
Fixpoint has_mos (s : chars) : bool :=
  match s with [] => false | _ :: t => chars_eqb (firstn 3 s) (str "MOS") || has_mos t end.

(** The nodes of the graph (graph.py:38-51).  Simplified: instance names and net names are kept apart. *)
Inductive node := NI (i : string) | NN (n : string).
Definition node_eqb (a b : node) : bool :=
  match a, b with NI i, NI j => String.eqb i j | NN n, NN m => String.eqb n m | _, _ => false end.
Definition mem_node (x : node) (l : list node) : bool := existsb (node_eqb x) l.
Definition get_elem (els : list elem) (i : string) : option elem := find (fun e => String.eqb (e_name e) i) els.
(** The nets of an element, each once. *)
Definition elem_nets (e : elem) : list string := fold_left (fun l p => add_net l (snd p)) (e_pins e) [].
(** [G.neighbors(x)] and [G.get_edge_data(x, y)["pin"]]. *)
Definition neighbors (els : list elem) (x : node) : list node :=
  match x with
  | NI i => match get_elem els i with Some e => map NN (elem_nets e) | None => [] end
  | NN n => map (fun e => NI (e_name e)) (on_net n els)
  end.
Definition edge_pins (els : list elem) (x y : node) : list string :=
  match x, y with
  | NI i, NN n | NN n, NI i => match get_elem els i with Some e => pins_on n e | None => [] end
  | _, _ => []
  end.

Section SD.
  Variable L : models.
  Definition base_of (els : list elem) (i : string) : string :=
    match get_elem els i with Some e => get_base_model L (e_model e) | None => EmptyString end.
  (** util.py:19-59 [get_next_level] for one node: of a transistor only the nets on pins other than gate and body. *)
  Definition next_level (els : list elem) (x : node) : list node :=
    match x with
    | NI i => if has_mos (str (base_of els i))
              then filter (fun y => negb (forallb (fun p => in_strs p ["G"; "B"]%string) (edge_pins els x y))) (neighbors els x)
              else neighbors els x
    | NN _ => neighbors els x
    end.
  (** 218-219, 246-247. *)
  Definition on_channel (pins : list string) : bool := in_strs "S"%string pins || in_strs "D"%string pins.
  (** 225-231 and 253-259: [hp] is the pin of a PMOS that counts, [hn] that of an NMOS. *)
  Definition suspect (hp hn : string) (els : list elem) (y : node) (pins : list string) : bool :=
    match y with
    | NI i => if String.eqb "PMOS" (base_of els i) then in_strs hp pins
              else if String.eqb "NMOS" (base_of els i) then in_strs hn pins else false
    | NN _ => false
    end.
  (** 215-233, 241-261: one traversal. *)
  Definition visit (hp hn : string) (els : list elem) (x : node) (st : list node * list node * list node) (y : node) : list node * list node * list node :=
    let '(queue, traversed, changes) := st in
    let pins := edge_pins els y x in
    if negb (on_channel pins) || mem_node y traversed then st
    else (queue ++ [y], traversed ++ [y], if suspect hp hn els y pins then changes ++ [y] else changes).
  Fixpoint traverse (fuel : nat) (hp hn : string) (els : list elem) (st : list node * list node * list node) : list node :=
    let '(queue, traversed, changes) := st in
    match fuel, queue with
    | S fuel, x :: queue => traverse fuel hp hn els (fold_left (visit hp hn els x) (next_level els x) (queue, traversed, changes))
    | _, _ => changes
    end.
  (** The loop ends after as many rounds as there are nodes. *)
  Definition rounds (els : list elem) (start : list string) : nat := length start + length els + length (nets els).
  Definition changes (hp hn : string) (els : list elem) (start blocked : list string) : list node :=
    traverse (rounds els start) hp hn els (map NN start, map NN (start ++ blocked), []).

  (** 147-163 [swap_SD].  An element that is flipped has both pins. *)
  Definition swap_SD (e : elem) : elem :=
    match sget (e_pins e) "D", sget (e_pins e) "S" with
    | Some d, Some s => mkElem (e_name e) (e_model e) (sset (sset (e_pins e) "D"%string s) "S"%string d) (e_params e)
    | _, _ => e
    end.
  (** [list(set(a).intersection(set(b)))].  Simplified: in the order of [a]; python's order is arbitrary. *)
  Definition inter (a b : list string) : list string :=
    fold_left (fun l x => if in_strs x b then add_net l x else l) a [].
  (** 166-268 [define_SD]; [power] and [gnd] are the ports of the PowerPorts and GroundPorts constraints.  [None]: an
      assertion fails. *)
  Definition define_SD (ports power gnd : list string) (els : list elem) : option (list elem) :=
    match power, gnd with
    | [], _ | _, [] => Some els
    | _, _ =>
        let high := inter power ports in
        let low := inter gnd ports in
        match high, low with
        | [], _ | _, [] => None
        | _, _ =>
            let high' := filter (fun n => in_strs n (nets els)) high in
            let low' := filter (fun n => in_strs n (nets els)) low in
            match high', low' with
            | [], _ | _, [] => Some els
            | _, _ =>
                let p := changes "D" "S" els high' gnd in
                let n := match p with [] => [] | _ => changes "S" "D" els low' high end in
                Some (map (fun e => if mem_node (NI (e_name e)) n && mem_node (NI (e_name e)) p then swap_SD e else e) els)
            end
        end
    end.
End SD.
