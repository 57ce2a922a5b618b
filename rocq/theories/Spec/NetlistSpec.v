(** What merging parallel and stacked devices should do, independent of the passes. *)
From Coq Require Import String.
From Verif Require Import Base.Prelude Model.Netlist.
Local Open Scope Z_scope.

(** Pins and parameters are dictionaries with separate key sets, every instance has a pin,
    instance names are unique, and instances of one model have the same pins and parameters
    (checked when an instance is built, instance.py:70-89). *)
Definition wf_elem (e : elem) : Prop :=
  NoDup (map fst (e_pins e)) /\ NoDup (map fst (e_params e)) /\
  (forall k, In k (map fst (e_pins e)) -> In k (map fst (e_params e)) -> False) /\
  ~ In "model"%string (map fst (e_pins e) ++ map fst (e_params e)) /\ e_pins e <> [].
Definition same_keys (d d' : dict) : Prop := forall k, In k (map fst d) <-> In k (map fst d').
Definition wf_netlist (els : list elem) : Prop :=
  NoDup (map e_name els) /\ Forall wf_elem els /\
  (forall a b, In a els -> In b els -> e_model a = e_model b ->
     same_keys (e_pins a) (e_pins b) /\ same_keys (e_params a) (e_params b)).

(** * Parallel devices *)

(** Equal devices: same model, same connections, same parameters other than the multiplicity. *)
Definition same_device (a b : elem) : Prop :=
  e_model a = e_model b /\ (forall p, sget (e_pins a) p = sget (e_pins b) p) /\
  (forall k, k <> PARALLEL -> sget (e_params a) k = sget (e_params b) k).
Definition multi (e : elem) : Prop := exists v, sget (e_params e) PARALLEL = Some v.
(** The devices of [els] equal to [e]. *)
Definition class (els : list elem) (e : elem) (l : list elem) : Prop :=
  NoDup l /\ forall x, In x l <-> In x els /\ multi x /\ same_device e x.
(** Multiplicity of a device and of all devices. *)
Definition mult_of (e : elem) : Z :=
  match sget (e_params e) PARALLEL with
  | Some s => match py_int s with Some n => n | None => 0 end
  | None => 0
  end.
Definition total (els : list elem) : Z := fold_right (fun e a => mult_of e + a) 0 els.

(** * Stacked devices *)

Definition no_stack (d : dict) (k : string) : option string := if String.eqb k STACK then None else sget d k.

(** An interpretation: what a device says about the values on its pins.  A device with a STACK
    parameter and the terminals D, S (or PLUS, MINUS) is a chain of STACK unit devices between
    these terminals, with common other pins. *)
Record interp (V : Type) := mkInterp {
  i_dev : string -> (string -> option string) -> (string -> option V) -> Prop;
  i_unit : string -> (string -> option string) -> (string -> option V) -> V -> V -> Prop;
  i_dev_ext : forall m f f' g g', (forall k, f k = f' k) -> (forall k, g k = g' k) -> i_dev m f g -> i_dev m f' g';
  i_unit_ext : forall m f f' g g' a b, (forall k, f k = f' k) -> (forall k, g k = g' k) -> i_unit m f g a b -> i_unit m f' g' a b }.
Arguments i_dev {V}. Arguments i_unit {V}. Arguments i_dev_ext {V}. Arguments i_unit_ext {V}.

Fixpoint chain {V} (r : V -> V -> Prop) (n : nat) (a b : V) : Prop :=
  match n with O => a = b | Datatypes.S n => exists c, r a c /\ chain r n c b end.

Definition terminals (e : elem) : option (string * string) :=
  match sget (e_pins e) "D", sget (e_pins e) "S", sget (e_pins e) "PLUS", sget (e_pins e) "MINUS" with
  | Some _, Some _, None, None => Some ("D", "S")%string
  | None, None, Some _, Some _ => Some ("PLUS", "MINUS")%string
  | _, _, _, _ => None
  end.
Definition value {V} (r : string -> V) (e : elem) (p : string) : option V := option_map r (sget (e_pins e) p).
Definition other {V} (g : string -> option V) (a b p : string) : option V :=
  if String.eqb p a || String.eqb p b then None else g p.

(** The values [r] of the nets satisfy device [e]. *)
Definition holds {V} (I : interp V) (r : string -> V) (e : elem) : Prop :=
  match sget (e_params e) STACK, terminals e with
  | Some s, Some (a, b) =>
      exists k va vb, py_int s = Some k /\ value r e a = Some va /\ value r e b = Some vb /\
        chain (i_unit I (e_model e) (no_stack (e_params e)) (other (value r e) a b)) (Z.to_nat k) va vb
  | _, _ => i_dev I (e_model e) (sget (e_params e)) (value r e)
  end.
Definition sat {V} (I : interp V) (r : string -> V) (els : list elem) : Prop := Forall (holds I r) els.

(** Stack counts are numbers; no device has both kinds of terminals. *)
Definition stack_ok (els : list elem) : Prop :=
  (forall e s, In e els -> sget (e_params e) STACK = Some s -> exists k, 0 <= k /\ py_int s = Some k) /\
  (forall e p q, In e els -> In p ["D"; "S"]%string -> In q ["PLUS"; "MINUS"]%string ->
     In p (map fst (e_pins e)) -> In q (map fst (e_pins e)) -> False).
Definition internal (pins : list string) (els : list elem) (n : string) : Prop := In n (nets els) /\ ~ In n pins.

(** Two devices that can be stacked at [net]: they are the only ones on it, they are equal except
    for the stack count and the two terminals, and they meet with opposite terminals. *)
Definition terminal_pair (p q : string) : Prop :=
  (p, q) = ("D", "S")%string \/ (p, q) = ("S", "D")%string \/ (p, q) = ("PLUS", "MINUS")%string \/ (p, q) = ("MINUS", "PLUS")%string.
Definition stackable (els : list elem) (net : string) (a b : elem) (p q : string) : Prop :=
  In a els /\ In b els /\ a <> b /\ e_model a = e_model b /\ In STACK (map fst (e_params a)) /\ terminal_pair p q /\
  (forall k, sget (e_pins a) k = Some net <-> k = p) /\ (forall k, sget (e_pins b) k = Some net <-> k = q) /\
  (forall k, k <> p -> k <> q -> sget (e_pins a) k = sget (e_pins b) k) /\
  (forall k, k <> STACK -> sget (e_params a) k = sget (e_params b) k) /\
  (forall e k, In e els -> sget (e_pins e) k = Some net -> e = a \/ e = b).

Definition stack_count (e : elem) : Z :=
  match sget (e_params e) STACK with
  | Some s => match py_int s with Some n => n | None => 0 end
  | None => 0
  end.
Definition total_stack (els : list elem) : Z := fold_right (fun e a => stack_count e + a) 0 els.
