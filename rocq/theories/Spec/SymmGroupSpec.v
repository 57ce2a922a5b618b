(** What symmetry groups, sequence pairs and moves are meant to be. *)
From Verif Require Import Base.Prelude Model.SeqEnum Spec.SeqEnumSpec Model.SymmGroup.

(** An element of a symmetry constraint: a pair or a self-symmetric block. *)
Inductive elt := EPair (p : nat * nat) | ESelf (x : nat * dir).
Definition elems (g : group) : list elt := map EPair (g_pairs g) ++ map ESelf (g_self g).

(** Elements that constraints tie to one axis, directly or through others. *)
Inductive linked (sps : list group) : elt -> elt -> Prop :=
| linked_one c x y : In c sps -> In x (elems c) -> In y (elems c) -> linked sps x y
| linked_trans x y z : linked sps x y -> linked sps y z -> linked sps x z.

(** No constraint names an element twice. *)
Definition no_repeats (sps : list group) : Prop := forall c, In c sps -> NoDup (elems c).

(** The blocks of an element. *)
Definition elt_blocks (x : elt) : list nat := match x with EPair p => [fst p; snd p] | ESelf s => [fst s] end.

(** Constraints agree on each block: it has one partner, or one mark. *)
Definition agreed (sps : list group) : Prop :=
  (forall c x, In c sps -> In x (elems c) -> NoDup (elt_blocks x)) /\
  (forall c c' x y b, In c sps -> In c' sps -> In x (elems c) -> In y (elems c') ->
     In b (elt_blocks x) -> In b (elt_blocks y) -> x = y).

(** All entries of the sequences: the blocks and one node for each axis. *)
Definition all_nodes (d : pdesign) : list nat :=
  seq 0 (blocks_no d) ++ map (fun k => blocks_no d + 2 + k) (seq 0 (length (pd_groups d))).

(** A sequence pair of the design. *)
Definition sp_ok (d : pdesign) (s : sp) : Prop :=
  Permutation (all_nodes d) (p_pos s) /\ Permutation (all_nodes d) (p_neg s) /\
  choice (pd_sizes d) (pd_same d) (p_sel s).

(** No block is in two groups, or twice in one. *)
Definition separate (d : pdesign) : Prop :=
  NoDup (flat_map (fun g => flat_map elt_blocks (elems g)) (pd_groups d)).

Definition same_ok (d : pdesign) : Prop :=
  (forall s, In s (pd_sizes d) -> 0 < s) /\
  (forall g, In g (pd_same d) -> g <> [] /\ forall i, In i g -> i < length (pd_sizes d)) /\
  (forall g a b, In g (pd_same d) -> In a g -> In b g -> nth a (pd_sizes d) 0 = nth b (pd_sizes d) 0) /\
  (forall k1 k2 g1 g2 i, nth_error (pd_same d) k1 = Some g1 -> nth_error (pd_same d) k2 = Some g2 ->
     In i g1 -> In i g2 -> k1 = k2).

(** One block is taken out and put in at another place. *)
Definition moved (l r : list nat) (a new : nat) : Prop :=
  exists l1 l2 r1 r2, l = l1 ++ a :: l2 /\ r = r1 ++ a :: r2 /\ l1 ++ l2 = r1 ++ r2 /\ length r1 = new /\ length r1 <> length l1.

(** Two blocks exchange their places. *)
Definition exchanged (l r : list nat) (a b : nat) : Prop :=
  In a l /\ In b l /\ r = map (fun x => if x =? a then b else if x =? b then a else x) l.

(** Two sets of entries exchange their places: the others stay, each set keeps its order, and
    the smaller set takes the first places of the larger one. *)
Definition swapped (as_ bs l r : list nat) : Prop :=
  length r = length l /\
  (forall i, i < length l -> ~ In (nth i l 0) as_ -> ~ In (nth i l 0) bs -> nth i r 0 = nth i l 0) /\
  filter (fun x => has x as_) r = filter (fun x => has x as_) l /\
  filter (fun x => has x bs) r = filter (fun x => has x bs) l /\
  (length (places l as_) <= length (places l bs) -> places r as_ = firstn (length (places l as_)) (places l bs)) /\
  (length (places l bs) <= length (places l as_) -> places r bs = firstn (length (places l bs)) (places l as_)).

(** Mirror images within a group. *)
Definition mirror (d : pdesign) (k : nat) (g : group) (a b : nat) : Prop :=
  In (a, b) (g_pairs g) \/ In (b, a) (g_pairs g) \/ (a = b /\ (In a (map fst (g_self g)) \/ a = blocks_no d + 2 + k)).
Definition belongs (d : pdesign) (k : nat) (g : group) (a : nat) : Prop := exists b, mirror d k g a b.

(** [l] without the entries outside [P]. *)
Inductive part (P : nat -> Prop) : list nat -> list nat -> Prop :=
| part_nil : part P [] []
| part_in x l m : P x -> part P l m -> part P (x :: l) (x :: m)
| part_out x l m : ~ P x -> part P l m -> part P (x :: l) m.

(** Symmetric-feasible: of each group, the negative sequence is the mirror image of the positive
    one: in the same order about a horizontal axis, backwards about a vertical one. *)
Definition feasible (d : pdesign) (s : sp) : Prop :=
  forall k g p q, nth_error (pd_groups d) k = Some g ->
    part (belongs d k g) (p_pos s) p -> part (belongs d k g) (p_neg s) q ->
    Forall2 (mirror d k g) p (match g_axis g with DirH => q | DirV => rev q end).

(** Symmetric blocks are blocks, not terminals. *)
Definition no_terminals (d : pdesign) : Prop :=
  forall g x b, In g (pd_groups d) -> In x (elems g) -> In b (elt_blocks x) -> b < blocks_no d.
