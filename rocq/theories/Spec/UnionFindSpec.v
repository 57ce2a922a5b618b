(** What a history of connect operations means, independent of any data structure. *)
From Coq Require Import Relations.
From Verif Require Import Base.Prelude Model.UnionFind.

(** The pairs connected by a history. *)
Definition connected_pairs (ops : list ufop) (a b : nat) : Prop := In (UConnect a b) ops.

(** Reflexive-symmetric-transitive closure. *)
Definition same_net (ops : list ufop) : nat -> nat -> Prop :=
  clos_refl_sym_trans nat (connected_pairs ops).

(** Every operation only mentions objects created before it; [n] objects exist at the start. *)
Fixpoint ops_valid (n : nat) (ops : list ufop) : Prop :=
  match ops with
  | [] => True
  | UNew :: tl => ops_valid (S n) tl
  | URoot x :: tl => x < n /\ ops_valid n tl
  | UConnect a b :: tl => a < n /\ b < n /\ ops_valid n tl
  end.

Definition count_new (ops : list ufop) : nat :=
  length (filter (fun o => match o with UNew => true | _ => false end) ops).
