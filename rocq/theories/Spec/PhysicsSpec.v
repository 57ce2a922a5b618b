(** What is assumed of transistors when a netlist is simplified, and which devices are dummies. *)
From Coq Require Import String.
From Verif Require Import Base.Prelude Base.PyDict Model.Netlist Model.DefineSD Spec.NetlistSpec.

(** The model at the end of the chain of bases. *)
Inductive root (L : models) : string -> string -> Prop :=
| root_end m : dget String.eqb L m = Some (MDev None) \/ (exists l, dget String.eqb L m = Some (MCkt l)) -> root L m m
| root_step m b r : dget String.eqb L m = Some (MDev (Some b)) -> root L b r -> root L m r.
(** Switched off by a supply, or with drain, gate and source together. *)
Definition dummy (L : models) (power gnd : list string) (e : elem) : Prop :=
  exists d g s, sget (e_pins e) "D" = Some d /\ sget (e_pins e) "G" = Some g /\ sget (e_pins e) "S" = Some s /\
    (root L (e_model e) "PMOS" /\ In g power \/ root L (e_model e) "NMOS" /\ In g gnd \/
     (root L (e_model e) "NMOS" \/ root L (e_model e) "PMOS") /\ d = g /\ g = s).

Inductive polarity := Nch | Pch.
Definition exchange {V} (g : string -> option V) (k : string) : option V :=
  if String.eqb k "D" then g "S"%string else if String.eqb k "S" then g "D"%string else g k.
(** [pol] says which models are transistors; [hi] and [lo] are the values of the supplies.  A transistor is symmetric; the
    multiplicity does not matter; off, it says nothing about its terminals; nor does it with all three pins together. *)
Record physical {V} (I : interp V) (pol : string -> option polarity) (hi lo : V) : Prop := mkPhys {
  ph_sym_dev : forall m f g, pol m <> None -> i_dev I m f g -> i_dev I m f (exchange g);
  ph_sym_unit : forall m f g a b, pol m <> None -> i_unit I m f g a b -> i_unit I m f g b a;
  ph_par_dev : forall m f f' g, (forall k, k <> PARALLEL -> f k = f' k) -> i_dev I m f g -> i_dev I m f' g;
  ph_par_unit : forall m f f' g a b, (forall k, k <> PARALLEL -> f k = f' k) -> i_unit I m f g a b -> i_unit I m f' g a b;
  ph_off_dev : forall m f g, (pol m = Some Nch /\ g "G"%string = Some lo) \/ (pol m = Some Pch /\ g "G"%string = Some hi) -> i_dev I m f g;
  ph_off_unit : forall m f g a b, (pol m = Some Nch /\ g "G"%string = Some lo) \/ (pol m = Some Pch /\ g "G"%string = Some hi) -> i_unit I m f g a b;
  ph_short_dev : forall m f g a, pol m <> None -> g "D"%string = Some a -> g "G"%string = Some a -> g "S"%string = Some a -> i_dev I m f g;
  ph_short_unit : forall m f g a, pol m <> None -> g "G"%string = Some a -> i_unit I m f g a a }.
(** Every stack has at least one device. *)
Definition stack_pos (els : list elem) : Prop :=
  forall e s k, In e els -> sget (e_params e) STACK = Some s -> py_int s = Some k -> (0 < k)%Z.
