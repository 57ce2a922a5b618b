(** Model of align/cell_fabric/remove_duplicates.py:10-27 [class UnionFind].
    An object is a number; the heap maps each object to its [dad] (object identity is number
    equality).  [None] = the object does not exist or the loop did not end within the fuel,
    which is one more than the number of objects. *)
From Verif Require Import Base.Prelude.

Definition heap := list nat.

(** Attribute assignment [x.dad = v]. *)
Fixpoint upd {A} (l : list A) (i : nat) (v : A) : list A :=
  match l, i with
  | [], _ => []
  | _ :: tl, 0 => v :: tl
  | a :: tl, S j => a :: upd tl j v
  end.

(** remove_duplicates.py:11-12 [__init__]: a new object is its own dad. *)
Definition uf_new (d : heap) : heap := d ++ [length d].

(** remove_duplicates.py:15-17: [while root.dad != root: root = root.dad]. *)
Fixpoint root_loop (fuel : nat) (d : heap) (x : nat) : option nat :=
  match fuel with
  | 0 => None
  | S f =>
    match nth_error d x with
    | None => None
    | Some y => if y =? x then Some x else root_loop f d y
    end
  end.

(** remove_duplicates.py:20-22: [while x.dad != x: x.dad,x = root,x.dad]. *)
Fixpoint compress (fuel : nat) (d : heap) (x r : nat) : option heap :=
  match fuel with
  | 0 => None
  | S f =>
    match nth_error d x with
    | None => None
    | Some y => if y =? x then Some d else compress f (upd d x r) y r
    end
  end.

(** remove_duplicates.py:14-24 [root]. *)
Definition uf_root (d : heap) (x : nat) : option (nat * heap) :=
  match root_loop (S (length d)) d x with
  | None => None
  | Some r =>
    match compress (S (length d)) d x r with
    | None => None
    | Some d' => Some (r, d')
    end
  end.

(** remove_duplicates.py:26-27 [self.connect(other)]: [other.root().dad = self.root()]
    (the right-hand side is evaluated first). *)
Definition uf_connect (d : heap) (self other : nat) : option heap :=
  match uf_root d self with
  | None => None
  | Some (rs, d1) =>
    match uf_root d1 other with
    | None => None
    | Some (ro, d2) => Some (upd d2 ro rs)
    end
  end.

(** Histories of operations. *)
Inductive ufop := UNew | URoot (x : nat) | UConnect (a b : nat).

Definition ufstep (d : heap) (o : ufop) : option heap :=
  match o with
  | UNew => Some (uf_new d)
  | URoot x => match uf_root d x with Some (_, d') => Some d' | None => None end
  | UConnect a b => uf_connect d a b
  end.

Fixpoint ufrun (d : heap) (ops : list ufop) : option heap :=
  match ops with
  | [] => Some d
  | o :: tl => match ufstep d o with Some d' => ufrun d' tl | None => None end
  end.
