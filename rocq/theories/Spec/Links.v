(** What the database should know about a netlist once it is linked. *)
From Coq Require Import String.
From Verif Require Import Base.Prelude Model.PnrInput Model.PnrLink.
Local Open Scope list_scope.

(** A global signal names a net by its own name or with its prefix. *)
Definition names (s : gsig) (x : string) : Prop := x = snd s \/ x = (fst (fst s) ++ "." ++ snd s)%string.
Definition supply (sigs : list gsig) (x : string) : Prop := exists s, In s sigs /\ names s x.
(** The first global signal that names the net gives its kind. *)
Definition first_kind (sigs : list gsig) (x f : string) : Prop :=
  exists l s l', sigs = l ++ s :: l' /\ names s x /\ (forall s', In s' l -> ~ names s' x) /\ f = snd (fst s).
(** The template of an instance: the concrete one if there is one. *)
Definition tmpl (i : vinst) (x : string) : Prop := in_tmpl i = Some x \/ in_tmpl i = None /\ in_atmpl i = Some x.
(** Pin k of instance b is on net x; a connection of net x. *)
Definition on_pin (m : vmod) (x : string) (k b : nat) : Prop := exists i f, nth_error (vm_insts m) b = Some i /\ nth_error (in_fa i) k = Some (f, x).
Definition net_of (m : vmod) (x : string) : Prop := exists k b, on_pin m x k b.
Definition on (m : vmod) (x : string) (c : conn) : Prop := match c with ToBlk k b => on_pin m x k b | ToTerm t => nth_error (vm_params m) t = Some x end.
(** The name of the pin or terminal at a connection. *)
Definition pin_name (m : vmod) (c : conn) (f : string) : Prop :=
  match c with ToBlk k b => exists i a, nth_error (vm_insts m) b = Some i /\ nth_error (in_fa i) k = Some (f, a) | ToTerm t => nth_error (vm_params m) t = Some f end.
(** The netIter of a pin or terminal of a node. *)
Definition iter_at (n : lnode) (c : conn) : option (option nat) :=
  match c with
  | ToBlk k b => match nth_error (ld_blocks n) b with Some bl => option_map snd (nth_error (lb_pins bl) k) | None => None end
  | ToTerm t => option_map snd (nth_error (ld_terms n) t)
  end.
Definition net_name (n : lnode) (i : nat) : option string := option_map ln_name (nth_error (ld_nets n) i).
Definition counterpart (n : lnode) (i : nat) : option nat := match nth_error (ld_nets n) i with Some q => ln_sym q | None => None end.
