(** What a walk over a tree of objects is to give. *)
From Coq Require Import String.
From Verif Require Import Base.Prelude Model.Visitor.

(** The tree that a value stands for, whatever is shared in it. *)
Inductive label := LbModel (cls : string) (keys : list string) | LbSeq | LbMap (keys : list string).
Inductive tree := TLeaf (l : leaf) | TNode (b : label) (ts : list tree).
Definition label_of (o : obj) : label :=
  match o with OModel cls fs => LbModel cls (map fst fs) | OSeq _ _ => LbSeq | OMap _ kvs => LbMap (map fst kvs) end.

(** The value [v] stands for the tree [t], which is at most [n] deep. *)
Inductive stands (h : list obj) : nat -> val -> tree -> Prop :=
| st_leaf n l : stands h n (VLeaf l) (TLeaf l)
| st_node n id o ts : nth_error h id = Some o -> Forall2 (stands h n) (kids o) ts -> stands h (S n) (VRef id) (TNode (label_of o) ts).
(** A tree without other types and without cycles. *)
Definition proper (h : list obj) (v : val) : Prop := exists n t, stands h n v t.

(** The tree with all leaves mapped; whether some leaf is replaced; the leaves in order. *)
Fixpoint mapped (f : leaf -> option leaf) (t : tree) : tree :=
  match t with
  | TLeaf l => TLeaf (match f l with Some l' => l' | None => l end)
  | TNode b ts => TNode b (map (mapped f) ts)
  end.
Fixpoint leaves (t : tree) : list leaf :=
  match t with TLeaf l => [l] | TNode _ ts => flat_map leaves ts end.
Definition touched (f : leaf -> option leaf) (t : tree) : Prop := exists l, In l (leaves t) /\ f l <> None.

(** What is seen of a value by the walk: the value itself and what its objects contain. *)
Inductive reaches (h : list obj) : val -> val -> Prop :=
| re_self v : reaches h v v
| re_kid id o k v : nth_error h id = Some o -> In k (kids o) -> reaches h k v -> reaches h (VRef id) v.
(** The results of a method for leaves, in order. *)
Definition collected {R} (g : leaf -> option R) (t : tree) : list R :=
  flat_map (fun l => match g l with Some r => [r] | None => [] end) (leaves t).
(** All names of objects are those of objects in the heap. *)
Definition closed (h : list obj) : Prop := forall o id, In o h -> In (VRef id) (kids o) -> id < length h.
Definition in_heap (h : list obj) (v : val) : Prop := forall id, v = VRef id -> id < length h.
