(** Trees of pairs of ports. *)
From Coq Require Import ZArith.
From Verif Require Import Base.Prelude.
Local Open Scope Z_scope.

(** Two ports are linked by pairs, in either direction. *)
Inductive linked (es : list (nat * nat)) : nat -> nat -> Prop :=
| l_refl u : linked es u u
| l_step u v w : In (u, v) es \/ In (v, u) es -> linked es v w -> linked es u w.
Definition spans (n : nat) (es : list (nat * nat)) : Prop := forall u v, (u < n)%nat -> (v < n)%nat -> linked es u v.
Definition among (n : nat) (es : list (nat * nat)) : Prop := forall u v, In (u, v) es -> (u < n)%nat /\ (v < n)%nat /\ u <> v.
Definition total (w : nat -> nat -> Z) (es : list (nat * nat)) : Z := fold_right Z.add 0 (map (fun e => w (fst e) (snd e)) es).
(** A spanning tree: as few pairs as can link all. *)
Definition tree (n : nat) (es : list (nat * nat)) : Prop := among n es /\ spans n es /\ (length es + 1 = n)%nat.
Definition up_to (w : nat -> nat -> Z) (m : Z) (es : list (nat * nat)) : list (nat * nat) := filter (fun e => w (fst e) (snd e) <=? m) es.
Definition all_pairs (n : nat) : list (nat * nat) := filter (fun e => negb (fst e =? snd e)%nat) (list_prod (seq 0 n) (seq 0 n)).
