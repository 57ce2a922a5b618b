(** Facts about the database's geometry. *)
From Coq Require Import ZifyBool.
From Verif Require Import Base.Prelude Model.PnrGeom Spec.Isometry.
Local Open Scope Z_scope.

(** The orientations of datatype.h by their names: N, W, S, E are 0 to 3 quarter turns, F a mirror after it *)
Definition matrix (o : omark) : mat :=
  match o with
  | oN => turns 0 | oW => turns 1 | oS => turns 2 | oE => turns 3
  | oFN => mmul m_flip (turns 0) | oFW => mmul m_flip (turns 1) | oFS => mmul m_flip (turns 2) | oFE => mmul m_flip (turns 3)
  end.
Ltac pt := repeat match goal with p : point |- _ => destruct p | b : bbox |- _ => destruct b end.
Ltac geo := pt; cbn in *; repeat f_equal; lia.

Lemma point_place p t w h o : 0 <= w -> 0 <= h -> transform_point p t w h o Forward = place (matrix o) w h t p.
Proof. intros Hw Hh. destruct p as (x & y), t as (a & b). destruct o; unfold place, transform_point, padd; cbn [matrix turns mmul m_turn m_one m_flip mapp low_corner map fold_right fst snd]; f_equal; lia. Qed.
Lemma point_inverse p t w h o : transform_point (transform_point p t w h o Forward) t w h o Backward = p /\ transform_point (transform_point p t w h o Backward) t w h o Forward = p.
Proof. destruct p as (x & y), t as (a & b). split; destruct o; unfold transform_point, padd, psub; cbn [fst snd]; f_equal; lia. Qed.
Lemma box_inverse p t w h o : transform_bbox (transform_bbox p t w h o Forward) t w h o Backward = p /\ transform_bbox (transform_bbox p t w h o Backward) t w h o Forward = p.
Proof. destruct p as ((x & y) & (x' & y')), t as (a & b). split; destruct o; unfold transform_bbox, padd, psub; cbn [fst snd]; apply f_equal2; apply f_equal2; lia. Qed.
Lemma box_inside p b t w h o d : inside p b <-> inside (transform_point p t w h o d) (transform_bbox b t w h o d).
Proof. destruct b as ((x & y) & (x' & y')), t as (a & b), p as (px & py). destruct d, o; unfold inside, transform_point, transform_bbox, padd, psub; cbn [fst snd]; lia. Qed.
Lemma compose a b : matrix (rel2abs a b) = mmul (matrix a) (matrix b).
Proof. destruct a, b; reflexivity. Qed.
Lemma matrix_inj a b : matrix a = matrix b -> a = b.
Proof. destruct a, b; intros E; try reflexivity; vm_compute in E; discriminate E. Qed.
(** A child of size (w, h) placed with orientation c in the box b of a node of size (W, H), itself placed at T with orientation o *)
Lemma nested p w h c b W H T o : node_size b c = (w, h) ->
  transform_point (transform_point p (fst b) w h c Forward) T W H o Forward = transform_point p (fst (transform_bbox b T W H o Forward)) w h (rel2abs o c) Forward.
Proof.
  destruct b as ((x & y) & (x' & y')), p as (px & py), T as (a & e). cbn [fst snd].
  destruct c; cbn [node_size]; intros [= <- <-]; destruct o; unfold transform_point, transform_bbox, padd, psub; cbn [fst snd rel2abs]; f_equal; lia.
Qed.
Lemma nested_size b c W H T o : node_size (transform_bbox b T W H o Forward) (rel2abs o c) = node_size b c.
Proof. destruct b as ((x & y) & (x' & y')), T as (a & e). destruct c, o; unfold transform_bbox, padd, psub; cbn [fst snd rel2abs node_size]; f_equal; lia. Qed.
Lemma contact_inverse t w h o c : transform_contact t w h o Backward (transform_contact t w h o Forward c) = c.
Proof. destruct c as [p q r s]. unfold transform_contact. cbn [c_placed c_origin c_pcenter c_ocenter]. now rewrite !(proj1 (box_inverse _ _ _ _ _)), !(proj1 (point_inverse _ _ _ _ _)). Qed.
Lemma terminal_iter t w h o d cs : transform_terminal t w h o d cs = Nat.iter (length cs) (map (transform_contact t w h o d)) cs.
Proof.
  unfold transform_terminal, transform_contacts. generalize cs at 1 3. intros l. induction l as [|x l IH] in cs |- *; [reflexivity|]. cbn [fold_left length]. rewrite IH. clear.
  induction (length l) as [|n IH]; [reflexivity|]. cbn [Nat.iter nat_rect]. unfold Nat.iter in *. cbn [nat_rect]. now rewrite IH.
Qed.
