From Verif Require Import Base.Prelude Model.Transformation Spec.Geometry.
From Coq Require Import ZifyBool.
Local Open Scope Z_scope.

Lemma Tr_eq a b : oX a = oX b -> oY a = oY b -> sX a = sX b -> sY a = sY b -> a = b.
Proof. destruct a, b; simpl; congruence. Qed.

Lemma hit_mult A B p : hit (mult A B) p = hit A (hit B p).
Proof. destruct p as [x y]; unfold hit, mult; simpl; f_equal; ring. Qed.

Lemma hit_determines A B : (forall p, hit A p = hit B p) -> A = B.
Proof.
  intros H.
  pose proof (H (0,0)) as H0. pose proof (H (1,1)) as H1.
  destruct A as [a b c d], B as [a' b' c' d']; unfold hit in *; cbn [oX oY sX sY] in *.
  injection H0 as H01 H02. injection H1 as H11 H12.
  assert (a = a') by lia. assert (b = b') by lia.
  f_equal; lia.
Qed.

Lemma mult_assoc A B C : mult A (mult B C) = mult (mult A B) C.
Proof. apply Tr_eq; unfold mult; simpl; ring. Qed.

Lemma mult_1_l A : mult tr_default A = A.
Proof. apply Tr_eq; unfold mult; cbn -[Z.mul]; lia. Qed.

Lemma mult_1_r A : mult A tr_default = A.
Proof. apply Tr_eq; unfold mult; cbn -[Z.mul]; lia. Qed.

Lemma unit_tr_mult A B : unit_tr A -> unit_tr B -> unit_tr (mult A B).
Proof. unfold unit_tr, mult; simpl. intros [[->| ->] [->| ->]] [[->| ->] [->| ->]]; lia. Qed.

Lemma unit_tr_inv A : unit_tr A -> unit_tr (inv A).
Proof. unfold unit_tr, inv; simpl; auto. Qed.

Lemma unit_tr_default : unit_tr tr_default.
Proof. unfold unit_tr; simpl; auto. Qed.

Lemma mult_inv_r A : unit_tr A -> mult A (inv A) = tr_default.
Proof.
  destruct A as [a b c d]; unfold unit_tr, mult, inv, tr_default; cbn [oX oY sX sY].
  intros [[->| ->] [->| ->]]; f_equal; lia.
Qed.

Lemma mult_inv_l A : unit_tr A -> mult (inv A) A = tr_default.
Proof.
  destruct A as [a b c d]; unfold unit_tr, mult, inv, tr_default; cbn [oX oY sX sY].
  intros [[->| ->] [->| ->]]; f_equal; lia.
Qed.

Lemma hit_default p : hit tr_default p = p.
Proof. destruct p as [x y]; unfold hit, tr_default; cbn [oX oY sX sY]. f_equal; lia. Qed.

Lemma canonical_ordered r : ordered (canonical r).
Proof.
  unfold ordered, canonical.
  destruct (urx r <? llx r) eqn:?; destruct (ury r <? lly r) eqn:?; simpl; lia.
Qed.

Lemma canonical_id r : ordered r -> canonical r = r.
Proof.
  unfold ordered, canonical. intros [H1 H2]. destruct r as [a b c d]; simpl in *.
  destruct (c <? a) eqn:?; [lia|]. destruct (d <? b) eqn:?; [lia|]. reflexivity.
Qed.

Lemma canonical_min_max r :
  canonical r = mkRect (Z.min (llx r) (urx r)) (Z.min (lly r) (ury r))
                       (Z.max (llx r) (urx r)) (Z.max (lly r) (ury r)).
Proof.
  unfold canonical. destruct r as [a b c d]; simpl.
  destruct (c <? a) eqn:?; destruct (d <? b) eqn:?; f_equal; lia.
Qed.

Lemma canonical_same_box r : same_box (canonical r) r.
Proof.
  intros p. rewrite canonical_min_max. unfold in_box; cbn [llx lly urx ury]. lia.
Qed.

Lemma hitRect_corners t r :
  hitRect t r = mkRect (sX t * llx r + oX t) (sY t * lly r + oY t)
                       (sX t * urx r + oX t) (sY t * ury r + oY t).
Proof. reflexivity. Qed.

Lemma hitRect_in_box t r p : unit_tr t -> in_box (hitRect t r) (hit t p) <-> in_box r p.
Proof.
  destruct p as [x y]. rewrite hitRect_corners. unfold in_box, hit; cbn [llx lly urx ury fst snd].
  intros [[->| ->] [->| ->]]; lia.
Qed.

Lemma hitRect_width t r : unit_tr t -> width (hitRect t r) = width r.
Proof. rewrite hitRect_corners. unfold width; cbn [llx lly urx ury]. intros [[->| ->] _]; lia. Qed.

Lemma hitRect_height t r : unit_tr t -> height (hitRect t r) = height r.
Proof. rewrite hitRect_corners. unfold height; cbn [llx lly urx ury]. intros [_ [->| ->]]; lia. Qed.

Lemma canonical_width r : width (canonical r) = width r.
Proof. rewrite canonical_min_max. unfold width; cbn [llx lly urx ury]; lia. Qed.

Lemma canonical_height r : height (canonical r) = height r.
Proof. rewrite canonical_min_max. unfold height; cbn [llx lly urx ury]; lia. Qed.

Lemma hitRect_disjoint t a b :
  unit_tr t -> box_disjoint (hitRect t a) (hitRect t b) <-> box_disjoint a b.
Proof.
  rewrite !hitRect_corners. unfold box_disjoint; cbn [llx lly urx ury].
  intros [[->| ->] [->| ->]]; lia.
Qed.

Lemma canonical_disjoint a b : box_disjoint (canonical a) (canonical b) <-> box_disjoint a b.
Proof. rewrite !canonical_min_max. unfold box_disjoint; cbn [llx lly urx ury]; lia. Qed.

Lemma hitRect_mult A B r : hitRect (mult A B) r = hitRect A (hitRect B r).
Proof. rewrite !hitRect_corners. unfold mult; cbn [llx lly urx ury oX oY sX sY]. f_equal; ring. Qed.

(** Canonicalising early or late gives the same placed rectangle. *)
Lemma hitRect_canonical_comm t r :
  unit_tr t -> canonical (hitRect t (canonical r)) = canonical (hitRect t r).
Proof.
  intros Hu. rewrite (canonical_min_max r), !canonical_min_max, !hitRect_corners.
  cbn [llx lly urx ury]. destruct Hu as [[->| ->] [->| ->]]; f_equal; lia.
Qed.

Lemma genTr_unit t w h : unit_tr (genTr t w h).
Proof. destruct t; unfold unit_tr, genTr; simpl; auto. Qed.

Lemma genTr_box t w h :
  canonical (hitRect (genTr t w h) (mkRect 0 0 w h)) = canonical (mkRect 0 0 w h).
Proof.
  rewrite !canonical_min_max, hitRect_corners. destruct t; cbn -[Z.mul Z.min Z.max]; f_equal; lia.
Qed.

(** Preconditions under which the PnR database hands out blocks: the origin box starts at the
    origin and has the block's width and height; the placed box has the same size. *)
Definition blk_ok (b : Blk) : Prop :=
  b_originBox b = mkRect 0 0 (b_width b) (b_height b) /\
  0 <= b_width b /\ 0 <= b_height b /\
  urx (b_placedBox b) - llx (b_placedBox b) = b_width b /\
  ury (b_placedBox b) - lly (b_placedBox b) = b_height b.

Lemma gen_transformation_box b :
  blk_ok b -> canonical (hitRect (gen_transformation b) (b_originBox b)) = b_placedBox b.
Proof.
  destruct b as [t w h ob [a b c d]]; unfold blk_ok, gen_transformation, postMult;
    cbn [b_orient b_width b_height b_originBox b_placedBox llx lly urx ury].
  intros (-> & Hw & Hh & Ha & Hb).
  rewrite canonical_min_max, hitRect_corners.
  destruct t; cbn -[Z.mul Z.min Z.max Z.add]; f_equal; lia.
Qed.

Lemma gen_transformation_unit b : unit_tr (gen_transformation b).
Proof.
  unfold gen_transformation, postMult. apply unit_tr_mult.
  - unfold unit_tr; simpl; auto.
  - apply genTr_unit.
Qed.
