(** What an exhaustive search over sequence pairs is. *)
From Verif Require Import Base.Prelude Model.SeqEnum.

(** [a] comes before [b] in the sequence. *)
Definition precedes (l : list nat) (a b : nat) : Prop := exists l1 l2 l3, l = l1 ++ a :: l2 ++ b :: l3.

(** The geometric reading of a pair of sequences: left of, and above. *)
Definition left_of (p q : list nat) (a b : nat) : Prop := precedes p a b /\ precedes q a b.
Definition above (p q : list nat) (a b : nat) : Prop := precedes p a b /\ precedes q b a.

(** The pair of sequences keeps an ordering constraint. *)
Definition keeps (p q : list nat) (c : ordering) : Prop :=
  match snd c with
  | DirH => left_of p q (fst (fst c)) (snd (fst c))
  | DirV => above p q (fst (fst c)) (snd (fst c))
  end.

(** An arrangement of the blocks 0 .. n-1. *)
Definition arrangement (n : nat) (l : list nat) : Prop := Permutation (seq 0 n) l.

(** A choice of variants: every block one of its own; the same in every group. *)
Definition choice (sizes : list nat) (groups : list (list nat)) (s : list nat) : Prop :=
  length s = length sizes /\
  (forall i, i < length sizes -> nth i s 0 < nth i sizes 0) /\
  (forall g a b, In g groups -> In a g -> In b g -> nth a s 0 = nth b s 0).

(** A list of candidates holds everything that satisfies [P], once. *)
Definition each_once {A} (P : A -> Prop) (l : list A) : Prop := NoDup l /\ forall x, In x l <-> P x.

(** The groups of a design: sets of its blocks, disjoint, with equal numbers of variants. *)
Definition groups_ok (d : design) : Prop :=
  (forall g, In g (d_groups d) -> g <> [] /\ forall i, In i g -> i < length (d_sizes d)) /\
  (forall g a b, In g (d_groups d) -> In a g -> In b g -> nth a (d_sizes d) 0 = nth b (d_sizes d) 0) /\
  (forall k1 k2 g1 g2 i, nth_error (d_groups d) k1 = Some g1 -> nth_error (d_groups d) k2 = Some g2 ->
     In i g1 -> In i g2 -> k1 = k2).
Definition variants_ok (d : design) : Prop := forall s, In s (d_sizes d) -> 0 < s.
Definition orders_ok (d : design) : Prop :=
  forall c, In c (d_orders d) -> fst (fst c) < length (d_sizes d) /\ snd (fst c) < length (d_sizes d).

(** All that an exhaustive search looks at. *)
Definition candidate_ok (d : design) (x : candidate) : Prop :=
  let '(p, q, sl) := x in
  arrangement (length (d_sizes d)) p /\ arrangement (length (d_sizes d)) q /\ choice (d_sizes d) (d_groups d) sl.
Definition keeps_all (d : design) (x : candidate) : Prop :=
  let '(p, q, _) := x in forall c, In c (d_orders d) -> keeps p q c.

(** The result of a search through [l] that keeps the [size] smallest different costs. *)
Definition best (cost : candidate -> Z) (size : nat) (l : list candidate) (o : list (Z * candidate)) : Prop :=
  StronglySorted Z.lt (map fst o) /\ length o <= size /\
  (forall k x, In (k, x) o -> In x l /\ cost x = k /\ (0 <= k)%Z) /\
  (forall x, In x l -> (0 <= cost x)%Z ->
     In (cost x) (map fst o) \/ (length o = size /\ forall k, In k (map fst o) -> (k < cost x)%Z)).
