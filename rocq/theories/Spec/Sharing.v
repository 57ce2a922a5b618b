(** What routing a hierarchy with shared cells has to produce: one node for each placement of a cell that is used. *)
From Coq Require Import String Ascii.
From Verif Require Import Base.Prelude Base.PyStr Model.PnrGeom Model.RouteHier Spec.Unfold.
Local Open Scope list_scope.

(** Placement [j] of cell [i] is used below one of the placements [runs] of cell [idx] *)
Inductive used (db : hdb) (idx : nat) (runs : list nat) : nat * nat -> Prop :=
| used_top l : In l runs -> used db idx runs (idx, l)
| used_in i j n bs b c : used db idx runs (i, j) -> nth_error db i = Some n -> placement n j = Some bs -> In b bs -> b_child b = Some c -> used db idx runs (c, b_sel b).
(** All placements of a cell have the cell's blocks, in the same order *)
Definition uniform (db : hdb) : Prop := forall i n j bs, nth_error db i = Some n -> placement n j = Some bs -> map b_child bs = map b_child (h_blocks n).
(** The tree below a finished node *)
Fixpoint shape (d : nat) (db : hdb) (k : nat) (t : htree) : Prop :=
  match d with
  | O => False
  | Datatypes.S d => exists n, nth_error db k = Some n /\ t_name t = h_name n /\
      Forall2 (fun b kd => fst kd = info b /\ match b_child b, snd kd with None, None => True | Some c, Some t' => shape d db c t' | _, _ => False end) (h_blocks n) (t_kids t)
  end.
(** Node [k] is a copy of placement [j] of cell [n] at the origin, each child replaced by the new node [at_ c sel] *)
Definition copied (n : hnode) (j : nat) (at_ : nat * nat -> nat -> Prop) (m : hnode) : Prop :=
  h_name m = h_name n /\ h_top m = h_top n /\ h_ort m = oN /\ fst (h_box m) = (0, 0)%Z /\
  (forall w h bs, nth_error (h_as n) j = Some (w, h, bs) -> snd (h_box m) = (w, h)) /\
  exists bs, placement n j = Some bs /\
    Forall2 (fun b b' => info b' = info b /\ b_sel b' = b_sel b /\ match b_child b, b_child b' with None, None => True | Some c, Some k => at_ (c, b_sel b) k | _, _ => False end) bs (h_blocks m).
