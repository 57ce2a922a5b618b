(** How far a net is from the supply, through the channels of devices. *)
From Coq Require Import String.
From Verif Require Import Base.Prelude Model.Netlist.

(** Device [e] joins two nets by its source and its drain. *)
Definition joins (e : elem) (n m : string) : Prop :=
  (sget (e_pins e) "S" = Some n /\ sget (e_pins e) "D" = Some m) \/ (sget (e_pins e) "D" = Some n /\ sget (e_pins e) "S" = Some m).
(** [near k n]: net [n] is reached from the nets [start] through at most [k] devices, without entering a net of [blocked]. *)
Inductive near (els : list elem) (start blocked : string -> Prop) : nat -> string -> Prop :=
| near_start k n : start n -> near els start blocked k n
| near_step k n m e : near els start blocked k n -> In e els -> joins e n m -> ~ blocked m -> near els start blocked (S k) m.
Definition reached els start blocked n : Prop := exists k, near els start blocked k n.
(** [n] is at least as near as [m]; strictly nearer. *)
Definition no_farther els start blocked (n m : string) : Prop := reached els start blocked n /\ forall k, near els start blocked k m -> near els start blocked k n.
Definition nearer els start blocked (n m : string) : Prop := exists k, near els start blocked k n /\ ~ near els start blocked k m.
(** The same device with the two pins exchanged, everything else as it was. *)
Definition exchanged (e e' : elem) : Prop :=
  e_name e' = e_name e /\ e_model e' = e_model e /\ e_params e' = e_params e /\ map fst (e_pins e') = map fst (e_pins e) /\
  sget (e_pins e') "D" = sget (e_pins e) "S" /\ sget (e_pins e') "S" = sget (e_pins e) "D" /\
  forall p, p <> "D"%string -> p <> "S"%string -> sget (e_pins e') p = sget (e_pins e) p.
(** The supply nets of a circuit: listed, a port, and used by some device. *)
Definition supply (els : list elem) (ports l : list string) (n : string) : Prop :=
  In n l /\ In n ports /\ exists e p, In e els /\ In (p, n) (e_pins e).
