(** Occurrences of a template in a subcircuit. *)
From Coq Require Import String.
From Verif Require Import Base.Prelude Base.PyDict Model.Netlist Model.Hier Spec.HierSpec.

(** No net is called like an element. *)
Definition apart_names (c : sub) : Prop := (forall e1 e2, In e1 (sb_elems c) -> In e2 (sb_elems c) -> ~ on e1 (e_name e2)) /\ (forall e, In e (sb_elems c) -> ~ In (e_name e) (sb_pins c)).
(** [m] pairs nodes of [p] with nodes of [T] one to one; every element of [T] is paired with an
    element of [p] that has the same pins on the paired nets; everything else paired is a net on
    both sides. *)
Record occurrence (p T : sub) (m : list (string * string)) : Prop := {
  oc_fun : NoDup (map fst m);
  oc_inj : NoDup (map snd m);
  oc_all : forall t, In t (sb_elems T) -> exists x, In (x, e_name t) m;
  oc_elem : forall x t, In (x, e_name t) m -> In t (sb_elems T) -> exists e, In e (sb_elems p) /\ e_name e = x /\
    (forall q, In q (map fst (e_pins e)) <-> In q (map fst (e_pins t))) /\
    (forall q n, In (q, n) (e_pins e) -> exists y, In (n, y) m /\ In (q, y) (e_pins t));
  oc_net : forall x y, In (x, y) m -> ~ In y (map e_name (sb_elems T)) -> ~ In x (map e_name (sb_elems p));
  oc_touch : forall x y, In (x, y) m -> ~ In y (map e_name (sb_elems T)) -> exists t, In t (sb_elems T) /\ on t y
}.
