(** The passes of the placer's database over the netlist that was read: hierarchy, terminals, supplies, net indices.
    PlaceRouteHierFlow/PnRDB/PnRdatabase.cpp:1533-1591 (semantic0), 1605-1652 (semantic1), 1654-1715 (semantic2),
    PnRDB/datatype.h:269-291, 300-308, 372-384, align/pnr/build_pnr_model.py:103-107 and 154-158.
    The netlist comes from read_module (Model/PnrInput.v).  -1 as an index is None.
    Simplified: of the fields those below; the instances of a block share one list of pins (Model/PnrMerge.v has the
    instances); linear constraints (1717-1755) are left out. *)
From Coq Require Import String Ascii.
From Verif Require Import Base.Prelude Model.PnrInput Model.UpdateConst Model.Canvas.
Local Open Scope list_scope.

(** datatype.h: connectNode, of a pin of a block or of a terminal *)
Inductive conn := ToBlk (pin blk : nat) | ToTerm (t : nat).
(** A pin or terminal with its netIter. *)
Notation slot := (string * option nat)%type.
Record lblock := mkLblock { lb_master : string; lb_pins : list slot; lb_child : option nat; lb_leaf : bool }.
(** name, degree, connected, sink2Terminal, symCounterpart *)
Record lnet := mkLnet { ln_name : string; ln_degree : nat; ln_conn : list conn; ln_sink : bool; ln_sym : option nat }.
(** name, power (1: vdd), connected, names of Pins *)
Record pwr := mkPwr { pw_name : string; pw_vdd : bool; pw_conn : list conn; pw_pins : list string }.
(** The last field: the names in SNets. *)
Record lnode := mkLnode { ld_name : string; ld_terms : list slot; ld_blocks : list lblock; ld_nets : list lnet;
                          ld_power : list pwr; ld_parents : list nat; ld_top : bool; ld_syms : list (string * string) }.
Definition ltree : Type := list lnode.

(** build_pnr_model.py:17-99 with ReadConstraint.cpp:74-87 (names of symmetric nets only; its own counterparts are
    overwritten in semantic2) *)
Definition init_node (syms : string -> list (string * string)) (n : pnode) : lnode :=
  mkLnode (pn_name n) (map (fun t => (t, None)) (pn_terms n))
    (map (fun b => mkLblock (pb_master b) (map (fun p => (fst p, Some (snd p))) (pb_pins b)) None false) (pn_blocks n))
    (map (fun q => mkLnet (fst q) (List.length (snd q)) (map (fun c => ToBlk (fst c) (snd c)) (snd q)) false None) (pn_nets n))
    [] [] false (syms (pn_name n)).

(** * semantic0 *)
Definition in_ns (x : nat) (l : list nat) : bool := existsb (Nat.eqb x) l.
Definition numbered {A} (l : list A) : list (nat * A) := combine (seq 0 (List.length l)) l.
(** 1545-1559: the blocks whose master has the name of node i get it as their child ... *)
Definition set_child (nm : string) (i : nat) (n : lnode) : lnode :=
  mkLnode (ld_name n) (ld_terms n)
    (map (fun b => if String.eqb (lb_master b) nm then mkLblock (lb_master b) (lb_pins b) (Some i) (lb_leaf b) else b) (ld_blocks n))
    (ld_nets n) (ld_power n) (ld_parents n) (ld_top n) (ld_syms n).
(** ... and node i gets their nodes as parents, each once *)
Definition add_parents (nm : string) (t : ltree) (ps : list nat) : list nat :=
  fold_left (fun ps q => fold_left (fun ps b => if String.eqb (lb_master b) nm then (if in_ns (fst q) ps then ps else ps ++ [fst q]) else ps)
                                   (ld_blocks (snd q)) ps) (numbered t) ps.
(** 1565-1580 *)
Definition term_conns (ts : list slot) (nm : string) : list conn :=
  flat_map (fun q => if String.eqb nm (fst (snd q)) then [ToTerm (fst q)] else []) (numbered ts).
Definition join_net (ts : list slot) (n : lnet) : lnet :=
  let cs := term_conns ts (ln_name n) in
  mkLnet (ln_name n) (ln_degree n + List.length cs) (ln_conn n ++ cs) (ln_sink n || negb (Nat.eqb (List.length cs) 0)) (ln_sym n).
Definition join_term (ns : list lnet) (t : slot) : slot :=
  (fst t, fold_left (fun o q => if String.eqb (ln_name (snd q)) (fst t) then Some (fst q) else o) (numbered ns) (snd t)).
(** 1543-1582, one i *)
Definition sem0_one (top : string) (t : ltree) (i : nat) : ltree :=
  match nth_error t i with
  | None => t
  | Some ni =>
      let nm := ld_name ni in
      update_nth (map (set_child nm i) t) i (fun n =>
        mkLnode nm (map (join_term (ld_nets n)) (ld_terms n)) (ld_blocks n) (map (join_net (ld_terms n)) (ld_nets n))
                (ld_power n) (add_parents nm t (ld_parents n)) (ld_top n || String.eqb nm top) (ld_syms n))
  end.
(** 1584-1592 *)
Definition set_leaf (n : lnode) : lnode :=
  mkLnode (ld_name n) (ld_terms n)
    (map (fun b => mkLblock (lb_master b) (lb_pins b) (lb_child b) (match lb_child b with None => true | Some _ => false end)) (ld_blocks n))
    (ld_nets n) (ld_power n) (ld_parents n) (ld_top n) (ld_syms n).
(** 1536-1541: read_module leaves no child. *)
Definition sem0 (top : string) (t : ltree) : ltree := map set_leaf (fold_left (sem0_one top) (seq 0 (List.length t)) t).
(** 1560-1562: topidx; not initialized without a node of that name, here None. *)
Definition top_idx (top : string) (t : ltree) : option nat :=
  fold_left (fun o q => if String.eqb (ld_name (snd q)) top then Some (fst q) else o) (numbered t) None.

(** * semantic1 *)
(** prefix, formal, actual *)
Notation gsig := (string * string * string)%type.
(** 1615-1627; an unknown kind is a failed assertion, None *)
Definition kind_of (f : string) : option bool := if String.eqb f "supply0" then Some false else if String.eqb f "supply1" then Some true else None.
Definition sig_hits (s : gsig) (x : string) : bool :=
  String.eqb x (fst (fst s) ++ "." ++ snd s)%string || String.eqb x (snd s).
(** 1628-1650 *)
Definition split_power (s : gsig) (vdd : bool) (n : lnode) : lnode :=
  let hit := filter (fun q => sig_hits s (ln_name q)) (ld_nets n) in
  mkLnode (ld_name n) (ld_terms n) (ld_blocks n) (filter (fun q => negb (sig_hits s (ln_name q))) (ld_nets n))
    (ld_power n ++ match hit with [] => [mkPwr (snd s) vdd [] []] | _ => map (fun q => mkPwr (ln_name q) vdd (ln_conn q) []) hit end)
    (ld_parents n) (ld_top n) (ld_syms n).
Definition sem1_one (t : ltree) (s : gsig) : option ltree :=
  match kind_of (snd (fst s)) with Some vdd => Some (map (split_power s vdd) t) | None => None end.
Definition sem1 (sigs : list gsig) (t : ltree) : option ltree := foldO sem1_one sigs t.

(** * semantic2 *)
Notation slots := (list slot * list lblock)%type.
Definition set_pin (k : nat) (v : option nat) (b : lblock) : lblock :=
  mkLblock (lb_master b) (update_nth (lb_pins b) k (fun p => (fst p, v))) (lb_child b) (lb_leaf b).
(** An index out of range is undefined in C++; here nothing is written. *)
Definition put (s : slots) (w : conn * option nat) : slots :=
  match fst w with
  | ToBlk k b => (fst s, update_nth (snd s) b (set_pin k (snd w)))
  | ToTerm m => (update_nth (fst s) m (fun p => (fst p, snd w)), snd s)
  end.
(** 1658-1689: the writes to netIter in order *)
Definition writes (n : lnode) : list (conn * option nat) :=
  flat_map (fun q => map (fun c => (c, Some (fst q))) (ln_conn (snd q))) (numbered (ld_nets n)) ++
  flat_map (fun q => map (fun c => (c, None)) (pw_conn q)) (ld_power n).
(** 1678-1687: the pin or terminal of a connection, by name *)
Definition conn_name (s : slots) (c : conn) : list string :=
  match c with
  | ToBlk k b => match nth_error (snd s) b with Some bl => match nth_error (lb_pins bl) k with Some p => [fst p] | None => [] end | None => [] end
  | ToTerm m => match nth_error (fst s) m with Some p => [fst p] | None => [] end
  end.
Definition number_nets (n : lnode) : lnode :=
  let s := fold_left put (writes n) (ld_terms n, ld_blocks n) in
  mkLnode (ld_name n) (fst s) (snd s) (ld_nets n)
    (map (fun q => mkPwr (pw_name q) (pw_vdd q) (pw_conn q) (pw_pins q ++ flat_map (conn_name s) (pw_conn q))) (ld_power n))
    (ld_parents n) (ld_top n) (ld_syms n).
(** 1697-1709: the first net of that name *)
Fixpoint find_net (ns : list lnet) (x : string) : option nat :=
  match ns with [] => None | n :: ns => if String.eqb (ln_name n) x then Some 0%nat else option_map Datatypes.S (find_net ns x) end.
Definition set_sym (v : nat) (n : lnet) : lnet := mkLnet (ln_name n) (ln_degree n) (ln_conn n) (ln_sink n) (Some v).
(** 1710-1711; Nets[-1] is undefined, None *)
Definition pair_nets (ns : list lnet) (p : string * string) : option (list lnet) :=
  match find_net ns (fst p), find_net ns (snd p) with
  | Some i, Some j => Some (update_nth (update_nth ns i (set_sym j)) j (set_sym i))
  | _, _ => None
  end.
Definition pair_node (n : lnode) : option lnode :=
  match foldO pair_nets (ld_syms n) (ld_nets n) with
  | Some ns => Some (mkLnode (ld_name n) (ld_terms n) (ld_blocks n) ns (ld_power n) (ld_parents n) (ld_top n) (ld_syms n))
  | None => None
  end.
(** 1658-1715: the loop over all nodes at 1693 is inside the loop over the nodes *)
Definition sem2_one (t : ltree) (i : nat) : option ltree := mapM pair_node (update_nth t i number_nets).
Definition sem2 (t : ltree) : option ltree := foldO sem2_one (seq 0 (List.length t)) t.

(** build_pnr_model.py:154-158 *)
Definition elaborate (top : string) (sigs : list gsig) (syms : string -> list (string * string)) (ms : list vmod) : option ltree :=
  match mapM read_module ms with
  | None => None
  | Some ns => match sem1 sigs (sem0 top (map (init_node syms) ns)) with Some t => sem2 t | None => None end
  end.
