(** Hierarchies as graphs. *)
From Coq Require Import String.
From Verif Require Import Base.Prelude.

(** [c] is instantiated by [m]. *)
Definition child (ch : list (string * list string)) (m c : string) : Prop := exists cs, In (m, cs) ch /\ In c cs.

Inductive reach (ch : list (string * list string)) : string -> string -> Prop :=
| reach_refl x : reach ch x x
| reach_step x y z : child ch x y -> reach ch y z -> reach ch x z.

(** No module contains itself, directly or indirectly. *)
Definition acyclic (ch : list (string * list string)) : Prop := exists rank : string -> nat, forall m c, child ch m c -> rank c < rank m.
