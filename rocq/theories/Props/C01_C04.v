(** Properties C01-C04: placement transformations. *)
From Verif Require Import Base.Prelude Model.Transformation Spec.Geometry Proofs.TransformationP.
Local Open Scope Z_scope.

(** C01. Composition = apply the right operand first. *)
Theorem C01_mult_is_composition : forall A B p, hit (mult A B) p = hit A (hit B p).
Proof. exact hit_mult. Qed.
Print Assumptions C01_mult_is_composition.

(** The product is the only transformation that composes them. *)
Theorem C01_mult_unique : forall A B C,
  (forall p, hit C p = hit A (hit B p)) -> C = mult A B.
Proof. intros A B C H. apply hit_determines. intros p. rewrite H. symmetry. apply hit_mult. Qed.
Print Assumptions C01_mult_unique.

Theorem C01_post_pre : forall A B p,
  hit (postMult A B) p = hit A (hit B p) /\ hit (preMult A B) p = hit B (hit A p).
Proof. intros; split; apply hit_mult. Qed.
Print Assumptions C01_post_pre.

Theorem C01_assoc_identity : forall A B C,
  mult A (mult B C) = mult (mult A B) C /\ mult tr_default A = A /\ mult A tr_default = A.
Proof. intros; split; [apply mult_assoc | split; [apply mult_1_l | apply mult_1_r]]. Qed.
Print Assumptions C01_assoc_identity.

Theorem C01_rect : forall A B r, hitRect (mult A B) r = hitRect A (hitRect B r).
Proof. exact hitRect_mult. Qed.
Print Assumptions C01_rect.

(** C02. *)
Theorem C02_inverse : forall A p, unit_tr A ->
  hit (inv A) (hit A p) = p /\ hit A (hit (inv A) p) = p /\ unit_tr (inv A).
Proof.
  intros A p H. rewrite <- !hit_mult, mult_inv_l, mult_inv_r, hit_default by assumption.
  auto using unit_tr_inv.
Qed.
Print Assumptions C02_inverse.

Example C02_nonvacuous : unit_tr (mkTr 7 (-3) (-1) 1) /\ hit (mkTr 7 (-3) (-1) 1) (2, 5) = (5, 2).
Proof. split; [unfold unit_tr; simpl; lia | reflexivity]. Qed.

(** The guard is needed: with a scale factor of 2 [inv] is not an inverse. *)
Theorem C02_inverse_needs_unit :
  exists A p, hit (inv A) (hit A p) <> p.
Proof. exists (mkTr 0 0 2 1), (1, 0). discriminate. Qed.
Print Assumptions C02_inverse_needs_unit.

(** C03. *)
Theorem C03_placed_rect : forall t r, unit_tr t ->
  let r' := canonical (hitRect t r) in
  ordered r' /\ width r' = width r /\ height r' = height r /\
  (forall p, in_box r' (hit t p) <-> in_box r p).
Proof.
  intros t r H r'. unfold r'.
  rewrite canonical_width, canonical_height, hitRect_width, hitRect_height by assumption.
  split; [apply canonical_ordered|]. split; [reflexivity|]. split; [reflexivity|].
  intros p. rewrite (canonical_same_box (hitRect t r) (hit t p)). now apply hitRect_in_box.
Qed.
Print Assumptions C03_placed_rect.

Theorem C03_disjointness : forall t a b, unit_tr t ->
  (box_disjoint (canonical (hitRect t a)) (canonical (hitRect t b)) <-> box_disjoint a b).
Proof. intros t a b H. rewrite canonical_disjoint. now apply hitRect_disjoint. Qed.
Print Assumptions C03_disjointness.

Theorem C03_containment : forall t a b, unit_tr t ->
  ((forall p, in_box (canonical (hitRect t a)) p -> in_box (canonical (hitRect t b)) p) <->
   (forall p, in_box a p -> in_box b p)).
Proof.
  intros t a b H. split; intros Hab p Hp.
  - apply (hitRect_in_box t b p H). apply canonical_same_box. apply Hab.
    apply canonical_same_box. now apply hitRect_in_box.
  - assert (E : p = hit t (hit (inv t) p)).
    { rewrite <- hit_mult, mult_inv_r, hit_default by assumption. reflexivity. }
    rewrite E in *. apply canonical_same_box. apply hitRect_in_box; [assumption|].
    apply Hab. apply (hitRect_in_box t a); [assumption|]. now apply canonical_same_box.
Qed.
Print Assumptions C03_containment.

Theorem C03_canonical_early_late : forall t r, unit_tr t ->
  canonical (hitRect t (canonical r)) = canonical (hitRect t r).
Proof. exact hitRect_canonical_comm. Qed.
Print Assumptions C03_canonical_early_late.

(** C04. *)
Theorem C04_genTr_footprint : forall t w h, 0 <= w -> 0 <= h ->
  unit_tr (genTr t w h) /\
  canonical (hitRect (genTr t w h) (mkRect 0 0 w h)) = mkRect 0 0 w h.
Proof.
  intros t w h Hw Hh. split; [apply genTr_unit|].
  rewrite genTr_box. apply canonical_id. unfold ordered; simpl; lia.
Qed.
Print Assumptions C04_genTr_footprint.

(** What the four tags mean: FN mirrors left and right, FS top and bottom, S both. *)
Theorem C04_tags : forall w h x y,
  hit (genTr N w h) (x, y) = (x, y) /\ hit (genTr FN w h) (x, y) = (w - x, y) /\
  hit (genTr FS w h) (x, y) = (x, h - y) /\ hit (genTr S w h) (x, y) = (w - x, h - y).
Proof. intros. unfold hit, genTr, tag_scale. cbn [sX sY oX oY Z.eqb Pos.eqb]. repeat split; f_equal; lia. Qed.
Print Assumptions C04_tags.

Theorem C04_gen_transformation : forall b, blk_ok b ->
  canonical (hitRect (gen_transformation b) (b_originBox b)) = b_placedBox b /\
  sX (gen_transformation b) = fst (tag_scale (b_orient b)) /\
  sY (gen_transformation b) = snd (tag_scale (b_orient b)).
Proof.
  intros b H. split; [now apply gen_transformation_box|].
  destruct b as [t w h o p]; destruct t; split; reflexivity.
Qed.
Print Assumptions C04_gen_transformation.

Example C04_nonvacuous : blk_ok (mkBlk FS 30 20 (mkRect 0 0 30 20) (mkRect (-5) 100 25 120)).
Proof. repeat split; simpl; lia. Qed.

(** The precondition on the origin box matters: [gen_transformation] subtracts the lower-left
    corner of the origin box as if no mirroring took place, so for a mirrored block whose
    origin box does not start at 0 the placed box is missed. *)
Theorem C04_offset_origin_refuted : exists b,
  urx (b_originBox b) - llx (b_originBox b) = b_width b /\
  ury (b_originBox b) - lly (b_originBox b) = b_height b /\
  urx (b_placedBox b) - llx (b_placedBox b) = b_width b /\
  ury (b_placedBox b) - lly (b_placedBox b) = b_height b /\
  canonical (hitRect (gen_transformation b) (b_originBox b)) <> b_placedBox b.
Proof.
  exists (mkBlk FN 10 10 (mkRect 5 0 15 10) (mkRect 0 0 10 10)).
  repeat split; discriminate.
Qed.
Print Assumptions C04_offset_origin_refuted.
