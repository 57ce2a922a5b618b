(** Circuits up to the names of instances and of internal nets. *)
From Coq Require Import String.
From Verif Require Import Base.Prelude Base.PyDict Model.Netlist Model.Hier Spec.HierSpec.

(** The order of the pins of a device does not matter. *)
Definition like (d d' : device) : Prop :=
  dv_path d = dv_path d' /\ dv_model d = dv_model d' /\ Permutation (dv_pins d) (dv_pins d') /\ dv_params d = dv_params d'.
(** Two subcircuits have the same flat netlist up to the paths of devices and the paths and names
    of nets that are not ports: [f] renames devices and [g] renames nets. *)
Definition same_circuit (L : lib) (c : sub) (L' : lib) (c' : sub) : Prop := exists f g,
  (forall p, g (Port p) = Port p) /\
  (forall path n, exists path' n', g (Inner path n) = Inner path' n') /\
  (forall d, device_of L c d -> exists d', device_of L' c' d' /\ like (ren_dev f g d) d') /\
  (forall d', device_of L' c' d' -> exists d, device_of L c d /\ like (ren_dev f g d) d') /\
  (forall d1 d2, device_of L c d1 -> device_of L c d2 -> f (dv_path d1) = f (dv_path d2) -> dv_path d1 = dv_path d2) /\
  (forall d1 d2 p1 p2 r1 r2, device_of L c d1 -> device_of L c d2 -> In (p1, r1) (dv_pins d1) -> In (p2, r2) (dv_pins d2) -> g r1 = g r2 -> r1 = r2).
