(** What bringing a sequence pair in line with ordering constraints means. *)
From Verif Require Import Base.Prelude Model.SeqEnum Model.SymmGroup Model.KeepOrder Spec.SeqEnumSpec.

(** The shuffles only change the order. *)
Definition shuffles (w : luck) : Prop :=
  (forall v l, Permutation l (l_pos w v l)) /\ (forall v l, Permutation l (l_neg w v l)).

(** A relation without cycles: every step goes up. *)
Definition acyclic (e : list (nat * nat)) : Prop := exists rank : nat -> nat, forall u v, In (u, v) e -> rank u < rank v.

(** A listing of the blocks [b] in which all that [e] relates is in order. *)
Definition listing (b : list nat) (e : list (nat * nat)) (l : list nat) : Prop :=
  Permutation b l /\ forall u v, In (u, v) e -> precedes l u v.

(** All blocks of the constraints are in the sequence. *)
Definition holds_all (d : odesign) (l : list nat) : Prop :=
  (forall a b m, In ((a, b), m) (o_orders d) -> In a l /\ In b l) /\
  (forall g, In g (o_syms d) ->
     (forall a b, In (a, b) (g_pairs g) -> In a l /\ In b l) /\ (forall s, In s (map fst (g_self g)) -> In s l)) /\
  (forall a b m, In ((a, b), m) (o_abuts d) -> In a l /\ In b l).

(** Nothing is paired with itself, with a self-symmetric block of its group or abuts itself. *)
Definition proper (d : odesign) : Prop :=
  (forall g a b, In g (o_syms d) -> In (a, b) (g_pairs g) -> a <> b /\ ~ In a (map fst (g_self g)) /\ ~ In b (map fst (g_self g))) /\
  (forall a b m, In ((a, b), m) (o_abuts d) -> a <> b).

(** The block of an ordering constraint. *)
Definition constrained (d : odesign) (x : nat) : Prop := exists a b m, In ((a, b), m) (o_orders d) /\ (x = a \/ x = b).

(** Only the places of the blocks that [P] holds of have changed. *)
Definition rearranged (P : nat -> Prop) (l r : list nat) : Prop :=
  Permutation l r /\ forall i, i < length l -> ~ P (nth i l 0) -> nth i r 0 = nth i l 0.
