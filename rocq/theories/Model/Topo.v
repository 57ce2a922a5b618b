(** Model of [compute_topoorder]: align/pnr/hpwl.py:140-155 and the identical
    align/pnr/placer_pythonic.py:8-25 (there the instance key is a parameter).
    [ch] gives, for every key of [modules], the template names of its instances in order. *)
From Coq Require Import String.
From Verif Require Import Base.Prelude Base.PyDict Model.RemoveDuplicates.
Local Open Scope nat_scope.

(** The mutable variables [order], [found_modules], [found_leaves] (sets as lists without
    observable order). *)
Record topo := mkTopo { t_order : list string; t_mods : list string; t_leaves : list string }.

Definition smem (x : string) (l : list string) : bool := existsb (String.eqb x) l.

(** hpwl.py:143-153 [aux].  [fuel] bounds the recursion depth; [None] = recursion too deep. *)
Fixpoint topo_aux (fuel : nat) (ch : list (string * list string)) (cn : string) (s : topo) : option topo :=
  match fuel with
  | 0 => None
  | Datatypes.S fuel' =>
    match dget String.eqb ch cn with
    | Some cs =>
      match foldM (fun s c => if smem c (t_mods s) || smem c (t_leaves s) then Some s else topo_aux fuel' ch c s) cs
                  (mkTopo (t_order s) (cn :: t_mods s) (t_leaves s)) with
      | Some s' => Some (mkTopo (t_order s' ++ [cn]) (t_mods s') (t_leaves s'))
      | None => None
      end
    | None => Some (mkTopo (t_order s ++ [cn]) (t_mods s) (cn :: t_leaves s))
    end
  end.

(** hpwl.py:140-155. *)
Definition compute_topoorder (fuel : nat) (ch : list (string * list string)) (cn : string) : option topo :=
  topo_aux fuel ch cn (mkTopo [] [] []).
