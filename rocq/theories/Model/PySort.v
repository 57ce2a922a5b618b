(** Python's [sorted(l, key=...)] / [list.sort(key=...)] with an integer key: a stable
    ascending sort.  Used for grid.py:43, remove_duplicates.py:231, drc.py:91,127,
    manipulate_hierarchy.py:154 and others.  Modelled as insertion sort; CPython's timsort is
    also stable, so the two agree on every input (PySortP.v proves the sort is a stable
    ordered permutation, which determines it). *)
From Verif Require Import Base.Prelude.
Local Open Scope Z_scope.

Section Sort.
  Context {A : Type} (key : A -> Z).

  (** Insert before the first element whose key is not smaller. *)
  Fixpoint insert_by (x : A) (l : list A) : list A :=
    match l with
    | [] => [x]
    | y :: tl => if key x <=? key y then x :: l else y :: insert_by x tl
    end.

  Definition sort_by (l : list A) : list A := fold_right insert_by [] l.
End Sort.

(** Python's [enumerate(l)]. *)
Definition enumerate {A} (l : list A) : list (Z * A) :=
  combine (map Z.of_nat (seq 0 (length l))) l.
