(** Which connections of two nets may be paired. *)
From Coq Require Import String.
From Verif Require Import Base.Prelude Model.SymConst Model.SymNet.

(** [i] and [j] form one of the symmetric sets of instances. *)
Definition partners (w : list written) (i j : string) : Prop := exists l, In (WSet l) w /\ forall x, In x l <-> x = i \/ x = j.
(** The two connections are of the same kind: the same pins below, and instances of the same model. *)
Definition alike (model : string -> string) (a b : conn * string) : Prop :=
  snd a = snd b /\ match fst a, fst b with CPin i _, CPin j _ => model i = model j | CPort _, CPort _ => True | _, _ => False end.
Definition eligible (model : string -> string) (smb : list written) (skip : list string) (user : bool) (a b : conn * string) : Prop :=
  alike model a b /\ match fst a, fst b with CPin i _, CPin j _ => ~ In i skip /\ ~ In j skip /\ (user = true \/ partners smb i j) | _, _ => True end.
