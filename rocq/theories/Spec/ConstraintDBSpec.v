(** Histories of a constraint database. *)
From Coq Require Import String.
From Verif Require Import Base.Prelude Model.ConstraintDB.

Section S.
  Variables (C F : Type) (repr : C -> string) (tr : C -> option F) (base : list F) (unsat : list F -> bool).
  Notation db := (db C F).
  Notation step := (step C F repr tr base unsat).
  (** Names drawn for checkpoints are not in use. *)
  Fixpoint fresh_names (h : list (op C)) (s : db) : Prop :=
    match h with
    | [] => True
    | o :: tl => match o with OCheckpoint id => ~ In id (map fst (commits s)) | _ => True end /\ fresh_names tl (fst (step s o))
    end.
  (** The checkpoint [id] is not taken back at any time of the history. *)
  Fixpoint alive (id : string) (h : list (op C)) (s : db) : Prop :=
    In id (map fst (commits s)) /\ match h with [] => True | o :: tl => alive id tl (fst (step s o)) end.
  (** The newest checkpoint. *)
  Definition latest (s : db) (id : string) : Prop := exists l n, commits s = l ++ [(id, n)].
  (** No constraint with one of these texts is appended. *)
  Fixpoint avoids (texts : list string) (h : list (op C)) : Prop :=
    match h with
    | [] => True
    | OAppend c :: tl => ~ In (repr c) texts /\ avoids texts tl
    | _ :: tl => avoids texts tl
    end.
  (** Adding formulae does not make a contradiction go away. *)
  Definition monotone : Prop := forall a b c, unsat (a ++ c) = true -> unsat (a ++ b ++ c) = true.
End S.
