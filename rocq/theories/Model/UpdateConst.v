(** Constraints when elements of a subcircuit are replaced by one instance
    (schema/translator.py:16-229). *)
From Coq Require Import String.
From Verif Require Import Base.Prelude Base.PyDict Model.RemoveDuplicates Model.Canvas Model.Netlist Model.Hier.

(** A pin in pins1 / pins2 of SymmetricNets: a net or port, or [instance/pin] (translator.py:164-165: [if '/' in pin]).  Strings are taken as already split. *)
Inductive cpin := NetPin (n : string) | InstPin (i p : string).
(** Currents of ChargeFlow by pin [instance/pin]: a list per pin (translator.py:143).  Floats are
    modelled as integers and names as upper case. *)
Definition flow := list ((string * string) * list Z).
(** Constraints by the attributes the translator looks at (translator.py:49-93, 112-191).  The string
    stands for the class and all other fields; [KGlobal] is one of the classes copied to every child
    (translator.py:52-61), [KGroup] GroupBlocks, [KOther] a constraint without any of the attributes. *)
Inductive rule :=
| KGroup (t : string) (l : list string)
| KInst (t : string) (l : list string)
| KPairs (t : string) (ps : list (list string))
| KFlow (t : string) (d : flow)
| KPins (t : string) (p1 p2 : option (list cpin))
| KRegions (t : string) (rs : list (list string))
| KGlobal (t : string)
| KOther (t : string).

(** [_list_replace] (translator.py:106-109). *)
Definition list_replace (l : list string) (old new : string) : list string := map (fun x => if String.eqb x old then new else x) l.
(** [l.remove(x)] when [x in l] (translator.py:121-122, 190-191). *)
Fixpoint list_remove (x : string) (l : list string) : list string :=
  match l with [] => [] | a :: tl => if String.eqb a x then tl else a :: list_remove x tl end.
(** One turn of the loop over the map (translator.py:117-122); [check] is the test
    [not new_inst_name in const.instances], absent for regions (translator.py:186-191). *)
Definition swap_step (check : bool) (new : string) (st : list string * bool) (old : string) : list string * bool :=
  let '(l, replace) := st in
  if replace && negb (check && in_strs new l) then (list_replace l old new, false)
  else (list_remove old l, replace).
(** A list of instances (translator.py:115-122; 184-191 for a row). *)
Definition upd_list (check : bool) (new : string) (keys : list string) (l : list string) : list string :=
  if existsb (fun x => in_strs x keys) l then fst (fold_left (swap_step check new) keys (l, true)) else l.
(** A pair (translator.py:128-138). *)
Definition upd_pair (new : string) (keys : list string) (p : list string) : list string :=
  match p with
  | [a; b] => if in_strs a keys && in_strs b keys then [new] else if in_strs a keys then [new; b] else if in_strs b keys then [a; new] else p
  | [a] => if in_strs a keys then [new] else p
  | _ => p
  end.
(** [self.child.get_element(inst).pins[pin]]; no child: an error (translator.py:148-151, 197-202). *)
Definition child_pin (child : option sub) (i p : string) : option string :=
  match child with
  | Some c => match get_element (sb_elems c) i with Some e => sget (e_pins e) p | None => None end
  | None => None
  end.
(** [for id, cur in enumerate(l): l[id] = cur + current[id]] (translator.py:153-154). *)
Fixpoint add_currents (l c : list Z) : option (list Z) :=
  match l, c with
  | [], _ => Some []
  | x :: l', y :: c' => match add_currents l' c' with Some r => Some ((x + y)%Z :: r) | None => None end
  | _ :: _, [] => None
  end.
Definition pin_eqb (a b : string * string) : bool := String.eqb (fst a) (fst b) && String.eqb (snd a) (snd b).
(** The currents of the pins of the group by pin of the new instance (translator.py:143-156). *)
Definition flow_step (child : option sub) (new : string) (m : dict) (acc : flow) (e : (string * string) * list Z) : option flow :=
  match sget m (fst (fst e)) with
  | None => Some acc
  | Some ci =>
      match child_pin child ci (snd (fst e)) with
      | None => None
      | Some np => match dget pin_eqb acc (new, np) with
                   | Some old => match add_currents old (snd e) with Some s => Some (dset pin_eqb acc (new, np) s) | None => None end
                   | None => Some (dset pin_eqb acc (new, np) (snd e))
                   end
      end
  end.
Fixpoint foldO {A B} (f : B -> A -> option B) (l : list A) (b : B) : option B :=
  match l with [] => Some b | x :: tl => match f b x with Some b' => foldO f tl b' | None => None end end.
(** translator.py:139-161. *)
Definition upd_flow (child : option sub) (new : string) (m : dict) (d : flow) : option flow :=
  match foldO (flow_step child new m) d [] with
  | Some acc => Some (fold_left (fun r e => dset pin_eqb r (fst e) (snd e)) acc (filter (fun e => negb (shas m (fst (fst e)))) d))
  | None => None
  end.
Definition cpin_eqb (a b : cpin) : bool :=
  match a, b with NetPin x, NetPin y => String.eqb x y | InstPin i p, InstPin j q => String.eqb i j && String.eqb p q | _, _ => false end.
(** The pin to replace a pin by, if any (translator.py:165-173, 195-207).  Without a child only the
    name of the instance is replaced. *)
Definition new_pin (child : option sub) (new : string) (m : dict) (p : cpin) : option (option cpin) :=
  match p with
  | NetPin _ => Some None
  | InstPin i q => match sget m i with
                   | None => Some None
                   | Some ci => match child with
                                | Some _ => match child_pin child ci q with Some n => Some (Some (InstPin new n)) | None => None end
                                | None => Some (Some (InstPin new q))
                                end
                   end
  end.
Definition pins_step (child : option sub) (new : string) (m : dict) (acc : list (cpin * cpin)) (p : cpin) : option (list (cpin * cpin)) :=
  match new_pin child new m p with None => None | Some None => Some acc | Some (Some v) => Some (dset cpin_eqb acc p v) end.
Definition pin_replace (kv : cpin * cpin) (l : list cpin) : list cpin := map (fun p => if cpin_eqb (fst kv) p then snd kv else p) l.
(** translator.py:163-180.  Both lists are indexed up to the length of the first. *)
Definition upd_netpins (child : option sub) (new : string) (m : dict) (p1 p2 : list cpin) : option (list cpin * list cpin) :=
  match foldO (pins_step child new m) (p1 ++ p2) [] with
  | None => None
  | Some [] => Some (p1, p2)
  | Some acc => if Nat.ltb (length p2) (length p1) then None
                else let n := length p1 in
                     Some (fold_left (fun l kv => pin_replace kv l) acc p1, fold_left (fun l kv => pin_replace kv l) acc (firstn n p2) ++ skipn n p2)
  end.
(** One constraint of the parent (translator.py:112-191).  [None] is an exception. *)
Definition upd_rule (child : option sub) (new : string) (m : dict) (r : rule) : option rule :=
  match r with
  | KInst t l => Some (KInst t (upd_list true new (map fst m) l))
  | KPairs t ps => Some (KPairs t (map (upd_pair new (map fst m)) ps))
  | KFlow t d => match upd_flow child new m d with Some d' => Some (KFlow t d') | None => None end
  | KPins t (Some (p :: p1)) p2 => match p2 with
                                   | None => None
                                   | Some l2 => match upd_netpins child new m (p :: p1) l2 with Some (a, b) => Some (KPins t (Some a) (Some b)) | None => None end
                                   end
  | KRegions t rs => Some (KRegions t (map (upd_list false new (map fst m)) rs))
  | _ => Some r
  end.
(** [_update_const] (translator.py:98-193). *)
Definition update_const (child : option sub) (new : string) (m : dict) (rs : list rule) : option (list rule) := mapM (upd_rule child new m) rs.

(** [node_map[block] for block in const.instances if block in node_map] (translator.py:67-71). *)
Definition down_list (m : dict) (l : list string) : list string := flat_map (fun x => match sget m x with Some y => [y] | None => [] end) l.
(** Constraints given to a child without constraints (translator.py:49-78); a list without instances is
    not added ([_add_const], translator.py:209-229), and a list shorter than the validator of its class
    allows is an error ([minlen]: 2 for Order, Align and Spread, constraint.py:168, 257, 327).  [prop]
    tells which other constraints are propagated (ConfigureCompiler with [propagate]). *)
Definition down_rule (prop : string -> bool) (minlen : string -> nat) (m : dict) (r : rule) : option (list rule) :=
  match r with
  | KGlobal _ => Some [r]
  | KOther t => Some (if prop t then [r] else [])
  | KInst t l => match down_list m l with [] => Some [] | l' => if Nat.ltb (length l') (minlen t) then None else Some [KInst t l'] end
  | _ => Some []
  end.
(** Currents given to the child (translator.py:80-93); a pin the child's element does not have is an
    error (line 89). *)
Definition down_flow_step (child : sub) (m : dict) (acc : flow) (e : (string * string) * list Z) : option flow :=
  match sget m (fst (fst e)) with
  | None => Some acc
  | Some ci => match child_pin (Some child) ci (snd (fst e)) with
               | None => None
               | Some _ => Some (dset pin_eqb acc (ci, snd (fst e)) (snd e))
               end
  end.
Definition down_flow (child : sub) (m : dict) (r : rule) : option (list rule) :=
  match r with
  | KFlow t d => match foldO (down_flow_step child m) d [] with Some d' => Some [KFlow t d'] | None => None end
  | _ => Some []
  end.
(** [_top_to_bottom_translation] (translator.py:36-96): the constraints of the child afterwards. *)
Definition top_to_bottom (prop : string -> bool) (minlen : string -> nat) (child : sub) (m : dict) (child_rules parent_rules : list rule) : option (list rule) :=
  match (match child_rules with [] => mapM (down_rule prop minlen m) parent_rules | _ => Some [child_rules] end) with
  | None => None
  | Some ds => match mapM (down_flow child m) parent_rules with
               | None => None
               | Some fl => Some (concat ds ++ concat fl)
               end
  end.
(** The constraints of the parent without those left without instances (match_graph.py:219-220). *)
Definition clean_up (rs : list rule) : list rule := filter (fun r => match r with KInst _ [] | KGroup _ [] => false | _ => true end) rs.
