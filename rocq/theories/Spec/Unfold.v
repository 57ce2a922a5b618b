(** What routing a hierarchy has to produce: a tree of nodes with the shape of the design, each node at its
    place in the outermost frame. *)
From Coq Require Import String Ascii.
From Verif Require Import Base.Prelude Base.PyStr Model.PnrGeom Model.RouteHier.
Local Open Scope list_scope.

(** A tree: the cell's name, and for each of its blocks the instance's name, orientation and box in the cell, and the
    tree below unless the block is a leaf cell *)
Inductive htree := HT (nm : chars) (kids : list ((chars * omark * bbox) * option htree)).
Definition t_name (t : htree) := match t with HT nm _ => nm end.
Definition t_kids (t : htree) := match t with HT _ ks => ks end.
Fixpoint hsize (t : htree) : nat :=
  match t with HT _ ks => Datatypes.S (fold_right (fun k n => let '(_, o) := k in match o with None => n | Some t' => hsize t' + n end)%nat 0%nat ks) end.
Definition info (b : tblk) := (b_name b, b_ort b, b_box b).

(** The design below placement [sel] of cell [i] *)
Fixpoint design (d : nat) (db : hdb) (i sel : nat) (t : htree) : Prop :=
  match d with
  | O => False
  | Datatypes.S d => exists n bs, nth_error db i = Some n /\ placement n sel = Some bs /\ t_name t = h_name n /\
      Forall2 (fun b k => fst k = info b /\ match b_child b, snd k with None, None => True | Some c, Some t' => design d db c (b_sel b) t' | _, _ => False end) bs (t_kids t)
  end.
(** The routed copy at index [k], all its descendants from [lo] on *)
Fixpoint routed (d : nat) (db : hdb) (p : nat -> list chars) (lo k : nat) (box : bbox) (ort : omark) (path : list chars) (t : htree) : Prop :=
  match d with
  | O => False
  | Datatypes.S d => exists n, nth_error db k = Some n /\ t_name t = h_name n /\ h_box n = box /\ h_ort n = ort /\ p k = path /\
      let '(w, h) := node_size box ort in
      Forall2 (fun b kd => fst kd = info b /\
        match b_child b, snd kd with
        | None, None => True
        | Some c, Some t' => (lo <= c < k)%nat /\ (exists m, nth_error db c = Some m /\ h_parent m = [k]) /\
            routed d db p lo c (transform_bbox (b_box b) (fst box) w h ort Forward) (rel2abs ort (b_ort b)) (path ++ [b_name b]) t'
        | _, _ => False
        end) (h_blocks n) (t_kids t)
  end.

