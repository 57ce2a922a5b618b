(** Values of parameters along an instantiation path. *)
From Coq Require Import String.
From Verif Require Import Base.Prelude Base.PyDict Base.PyStr Model.Netlist Model.Hier Spec.HierSpec.

Section Values.
  (** The library as written and the global parameters. *)
  Variable L : lib.
  Variable cp : dict.
  Definition global (v : string) : string := match sget cp v with Some w => w | None => v end.
  (** A word in a subcircuit whose parameters have the values [E]: a global name, or one of these
      parameters (whose value may be a global name), or a literal.  Global definitions come first. *)
  Definition meaning (E : dict) (v : string) : string :=
    if in_dec String.string_dec v (map fst cp) then global v
    else match sget E v with Some u => global u | None => v end.
  Definition meanings (E : dict) (ps : dict) : dict := map (fun kv => (fst kv, meaning E (snd kv))) ps.
  (** The values of the parameters of [s] instantiated with parameters [ps]. *)
  Definition bound (s : sub) (ps : dict) : dict :=
    map (fun kv => (fst kv, match sget ps (fst kv) with Some w => w | None => snd kv end)) (sb_params s).
  (** The flat netlist of [c], instantiated with values [E]: as [device_of], with the parameters
      evaluated. *)
  Inductive valued : sub -> dict -> device -> Prop :=
  | val_leaf c E e l : In e (sb_elems c) -> lfind L (e_model e) = Some (Prim l) ->
      valued c E (mkDev [e_name e] (e_model e) (map (fun pn => (fst pn, net_of c (snd pn))) (e_pins e)) (meanings E (e_params e)))
  | val_sub c E e s d pins : In e (sb_elems c) -> lfind L (e_model e) = Some (Sub s) -> valued s (bound s (meanings E (e_params e))) d ->
      Forall2 (fun a b => fst a = fst b /\ outside c e (snd a) = Some (snd b)) (dv_pins d) pins ->
      valued c E (mkDev (e_name e :: dv_path d) (dv_model d) pins (dv_params d)).
  (** [c] is instantiated with values [E] somewhere in the design. *)
  Inductive used (t : sub) : sub -> dict -> Prop :=
  | used_top : used t t (bound t cp)
  | used_in c E e s : used t c E -> In e (sb_elems c) -> lfind L (e_model e) = Some (Sub s) -> used t s (bound s (meanings E (e_params e))).
  (** An instance of a subcircuit in [c] has a parameter given by a parameter of [c]. *)
  Definition passes_on (c : sub) : Prop := exists e s k v,
    In e (sb_elems c) /\ lfind L (e_model e) = Some (Sub s) /\ In (k, v) (e_params e) /\ In v (map fst (sb_params c)).
  (** Names made from the name of a subcircuit by adding numbers. *)
  Definition numbered (m : string) (k : nat) : string := (m ++ "_" ++ zstr (Z.of_nat k))%string.
  Inductive derived : string -> Prop :=
  | derived_one m s k : lfind L m = Some (Sub s) -> derived (numbered m k)
  | derived_more m k : derived m -> derived (numbered m k).
End Values.
Definition params_distinct (L : lib) : Prop := forall c, In c L -> NoDup (map fst (cell_params c)).
(** The value of a global parameter is neither a global parameter nor a parameter of a subcircuit. *)
Definition literal_globals (L : lib) (cp : dict) : Prop := forall k v, In (k, v) cp -> ~ In v (map fst cp) /\ forall c, In (Sub c) L -> ~ In v (map fst (sb_params c)).
