(** Symmetric nodes of a graph. *)
From Coq Require Import String.
From Verif Require Import Base.Prelude Model.FindSym.

(** [a] and [b] are reached from [p1] and [p2] by walks of the same length that avoid the stop points. *)
Inductive parallel (G : cgraph) (stop : list string) (p1 p2 : string) : string -> string -> Prop :=
| par_start : ~ In p1 stop -> ~ In p2 stop -> parallel G stop p1 p2 p1 p2
| par_step x y a b : parallel G stop p1 p2 x y -> In a (g_nb G x) -> In b (g_nb G y) -> ~ In a stop -> ~ In b stop -> parallel G stop p1 p2 a b.
