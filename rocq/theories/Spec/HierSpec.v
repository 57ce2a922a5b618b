(** The flat netlist of a subcircuit in a library. *)
From Coq Require Import String.
From Verif Require Import Base.Prelude Base.PyDict Model.Netlist Model.Hier.

(** A net seen from a subcircuit: one of its ports, or a net inside, with the path of instances. *)
Inductive net := Port (p : string) | Inner (path : list string) (n : string).
Definition net_of (c : sub) (n : string) : net := if in_dec String.string_dec n (sb_pins c) then Port n else Inner [] n.
(** The net of instance [e] of [c], given the net of the subcircuit instantiated. *)
Definition outside (c : sub) (e : elem) (r : net) : option net :=
  match r with
  | Port p => option_map (net_of c) (sget (e_pins e) p)
  | Inner path n => Some (Inner (e_name e :: path) n)
  end.
(** A device: its path, model, nets by pin, and parameters. *)
Record device := mkDev { dv_path : list string; dv_model : string; dv_pins : list (string * net); dv_params : dict }.
(** [device_of L c d]: [d] is a device of the flattened [c]. *)
Inductive device_of (L : lib) : sub -> device -> Prop :=
| dev_leaf c e l : In e (sb_elems c) -> lfind L (e_model e) = Some (Prim l) ->
    device_of L c (mkDev [e_name e] (e_model e) (map (fun pn => (fst pn, net_of c (snd pn))) (e_pins e)) (e_params e))
| dev_sub c e s d pins : In e (sb_elems c) -> lfind L (e_model e) = Some (Sub s) -> device_of L s d ->
    Forall2 (fun a b => fst a = fst b /\ outside c e (snd a) = Some (snd b)) (dv_pins d) pins ->
    device_of L c (mkDev (e_name e :: dv_path d) (dv_model d) pins (dv_params d)).

(** [m] is below [n] in the hierarchy. *)
Definition instantiates (L : lib) (c : sub) (m : string) : Prop := exists e, In e (sb_elems c) /\ e_model e = m.
Inductive below (L : lib) : sub -> sub -> Prop :=
| below_child c s m : instantiates L c m -> lfind L m = Some (Sub s) -> below L c s
| below_trans c s t m : instantiates L c m -> lfind L m = Some (Sub s) -> below L s t -> below L c t.
(** No recursion. *)
Definition acyclic (L : lib) : Prop := exists rank : string -> nat, forall c s m, In (Sub c) L -> instantiates L c m -> lfind L m = Some (Sub s) -> (rank (sb_name s) < rank (sb_name c))%nat.
(** A library as the parser builds it. *)
Definition well_formed (L : lib) : Prop :=
  NoDup (map cell_name L) /\
  forall c, In (Sub c) L -> NoDup (map e_name (sb_elems c)) /\
    forall e, In e (sb_elems c) -> NoDup (map fst (e_pins e)) /\ exists m, lfind L (e_model e) = Some m /\
      (forall p, In p (map fst (e_pins e)) <-> In p (cell_pins m)) /\ map fst (e_params e) = map fst (cell_params m).

(** Two subcircuits have the same flat netlist up to the names of the instances on the paths. *)
Definition rename_net (f : list string -> list string) (r : net) : net := match r with Port p => Port p | Inner path n => Inner (f path) n end.
Definition rename (f : list string -> list string) (d : device) : device :=
  mkDev (f (dv_path d)) (dv_model d) (map (fun pn => (fst pn, rename_net f (snd pn))) (dv_pins d)) (dv_params d).
Definition same_flat (L : lib) (c : sub) (L' : lib) (c' : sub) : Prop := exists f,
  (forall d, device_of L c d -> device_of L' c' (rename f d)) /\
  (forall d', device_of L' c' d' -> exists d, device_of L c d /\ d' = rename f d) /\
  (forall d1 d2, device_of L c d1 -> device_of L c d2 -> f (dv_path d1) = f (dv_path d2) -> dv_path d1 = dv_path d2) /\
  (forall d1 d2 p1 p2 r1 r2, device_of L c d1 -> device_of L c d2 -> In (p1, r1) (dv_pins d1) -> In (p2, r2) (dv_pins d2) -> rename_net f r1 = rename_net f r2 -> r1 = r2).

(** The only element of a hierarchy, or of the hierarchy it instantiates, and so on. *)
Inductive inside (L : lib) : string -> elem -> Prop :=
| inside_here n c y : lfind L n = Some (Sub c) -> sb_elems c = [y] -> inside L n y
| inside_deep n c y z : lfind L n = Some (Sub c) -> sb_elems c = [y] -> inside L (e_model y) z -> inside L n z.
(** The parameters of the instance agree with those of the element of the same names. *)
Definition agree (e z : elem) : Prop := forall k v, In (k, v) (e_params e) -> In k (map fst (e_params z)) -> sget (e_params z) k = Some v.
(** The instance may bear the name of the element's model. *)
Definition may_name (L : lib) (e z : elem) : Prop := forall m, lfind L (e_model z) = Some m -> String.prefix (cell_prefix m) (e_name e) = true.
(** Hierarchies that can be replaced by their element. *)
Definition transparent (L : lib) (n : string) : Prop :=
  (exists c y, lfind L n = Some (Sub c) /\ sb_elems c = [y] /\ forall p v, In (p, v) (e_pins y) -> In v (sb_pins c)) /\
  forall o e z, In (Sub o) L -> In e (sb_elems o) -> e_model e = n -> inside L n z -> agree e z /\ may_name L e z.

(** The subcircuit itself or one below it. *)
Definition reaches (L : lib) (c s : sub) : Prop := s = c \/ below L c s.
(** No subcircuit instantiates both a single-instance hierarchy and something above that hierarchy. *)
Definition apart (L : lib) : Prop := forall c s1 s2, In (Sub c) L -> instantiates L c (sb_name s1) -> instantiates L c (sb_name s2) ->
  lfind L (sb_name s1) = Some (Sub s1) -> lfind L (sb_name s2) = Some (Sub s2) -> length (sb_elems s2) = 1%nat -> ~ below L s1 s2.

(** Two subcircuits have the same flat netlist up to the paths of devices and of nets that are
    not ports. *)
Definition ren_dev (f : list string -> list string) (g : net -> net) (d : device) : device :=
  mkDev (f (dv_path d)) (dv_model d) (map (fun pn => (fst pn, g (snd pn))) (dv_pins d)) (dv_params d).
Definition same_netlist (L : lib) (c : sub) (L' : lib) (c' : sub) : Prop := exists f g,
  (forall p, g (Port p) = Port p) /\
  (forall path n, exists path', g (Inner path n) = Inner path' n) /\
  (forall d, device_of L c d -> device_of L' c' (ren_dev f g d)) /\
  (forall d', device_of L' c' d' -> exists d, device_of L c d /\ d' = ren_dev f g d) /\
  (forall d1 d2, device_of L c d1 -> device_of L c d2 -> f (dv_path d1) = f (dv_path d2) -> dv_path d1 = dv_path d2) /\
  (forall d1 d2 p1 p2 r1 r2, device_of L c d1 -> device_of L c d2 -> In (p1, r1) (dv_pins d1) -> In (p2, r2) (dv_pins d2) -> g r1 = g r2 -> r1 = r2).
(** [e] has a pin on net [n]. *)
Definition on (e : elem) (n : string) : Prop := exists p, In (p, n) (e_pins e).
(** No element that stays is called like the new instance. *)
Definition fresh_inst (p : sub) (cn : string) (names : list string) : Prop := forall e, In e (sb_elems p) -> ~ In (e_name e) names -> e_name e <> ("X_" ++ cn)%string.
(** [n] joins an element of the group to the rest or to the outside. *)
Definition crosses (p : sub) (names : list string) (n : string) : Prop :=
  exists e, In e (sb_elems p) /\ In (e_name e) names /\ on e n /\ (In n (sb_pins p) \/ exists e2, In e2 (sb_elems p) /\ ~ In (e_name e2) names /\ on e2 n).
