(** C19: half-perimeter boxes are exact and order independent. *)
From Coq Require Import String ZifyBool.
From Verif Require Import Base.Prelude Base.PyDict Model.Transformation Model.Hpwl Spec.Geometry Spec.HpwlSpec Proofs.TransformationP Proofs.SemiP.
Local Open Scope Z_scope.

(** The accumulator after adding the rectangles [rs]. *)
Definition sp_all (rs : list Rect) : semi := fold_left sp_addRect rs sp_empty.

Theorem C19_exact rs : half_perimeter rs (sp_dist (sp_all rs)).
Proof. unfold sp_all. rewrite fold_add_empty. apply half_perimeter_box. Qed.

(** Order and repetition do not matter: only the set of rectangles does. *)
Theorem C19_order_independent rs rs' : (forall r, In r rs <-> In r rs') -> sp_all rs = sp_all rs'.
Proof. intros H. unfold sp_all. rewrite !fold_add_empty. f_equal. now apply box_ext. Qed.

Theorem C19_invariant t rs : unit_tr t -> sp_dist (sp_all (map (fun r => canonical (hitRect t r)) rs)) = sp_dist (sp_all rs).
Proof.
  intros Ht. unfold sp_all. rewrite !fold_add_empty. change (map _ rs) with (map (place t) rs).
  rewrite box_place by assumption. apply dist_place; [assumption|apply okbox_box].
Qed.

Theorem C19_monotone rs rs' : incl rs rs' -> sp_dist (sp_all rs) <= sp_dist (sp_all rs').
Proof.
  intros H. unfold sp_all. rewrite !fold_add_empty. rewrite <- (box_incl rs rs' H). apply dist_join; apply okbox_box.
Qed.

(** [update] with another accumulator is adding all its rectangles, placed. *)
Theorem C19_update t rs rs2 : unit_tr t ->
  sp_update (sp_all rs) (sp_all rs2) t = sp_all (rs ++ map (fun r => canonical (hitRect t r)) rs2).
Proof.
  intros Ht. unfold sp_all. rewrite !fold_add_empty, update_join by apply okbox_box.
  change (map _ rs2) with (map (place t) rs2). now rewrite box_app, box_place.
Qed.

(** A point is a degenerate rectangle. *)
Theorem C19_point s x y : sp_addPoint s (x, y) = sp_addRect s (mkRect x y x y).
Proof.
  unfold sp_addPoint, sp_addRect, iv_add. destruct s as [[[m|] [M|]] [[m'|] [M'|]]]; cbn [fst snd sp_x sp_y iv_m iv_M llx lly urx ury];
  repeat match goal with
         | |- context [Z.ltb ?a ?b] => destruct (Z.ltb_spec a b); cbn [iv_m iv_M]
         end; try reflexivity; lia.
Qed.

Example C19_instance : unit_tr (mkTr 5 7 (-1) 1) /\
  sp_dist (sp_all [mkRect 0 0 2 3; mkRect (-4) 1 1 9; mkRect 6 2 3 1]) = 19 /\
  half_perimeter [mkRect 0 0 2 3; mkRect (-4) 1 1 9; mkRect 6 2 3 1] 19.
Proof.
  split; [split; simpl; auto|]. split; [reflexivity|]. exact (C19_exact [mkRect 0 0 2 3; mkRect (-4) 1 1 9; mkRect 6 2 3 1]).
Qed.

Print Assumptions C19_exact.
Print Assumptions C19_order_independent.
Print Assumptions C19_invariant.
Print Assumptions C19_monotone.
Print Assumptions C19_update.
Print Assumptions C19_point.
