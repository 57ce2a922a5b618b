(** Bounding boxes as a join semilattice; the semi-perimeter accumulator. *)
From Coq Require Import String ZifyBool.
From Verif Require Import Base.Prelude Base.PyDict Model.Transformation Model.Hpwl Spec.Geometry Spec.HpwlSpec Proofs.TransformationP.
Local Open Scope Z_scope.

Definition bjoin (a b : option Rect) : option Rect :=
  match a, b with
  | None, x => x
  | x, None => x
  | Some p, Some q => Some (mkRect (Z.min (llx p) (llx q)) (Z.min (lly p) (lly q)) (Z.max (urx p) (urx q)) (Z.max (ury p) (ury q)))
  end.

Lemma bjoin_comm a b : bjoin a b = bjoin b a.
Proof. destruct a, b; simpl; try reflexivity. f_equal. f_equal; lia. Qed.
Lemma bjoin_assoc a b c : bjoin a (bjoin b c) = bjoin (bjoin a b) c.
Proof. destruct a, b, c; simpl; try reflexivity. f_equal. f_equal; lia. Qed.
Lemma bjoin_idem a : bjoin a a = a.
Proof. destruct a as [[]|]; simpl; [|reflexivity]. f_equal. f_equal; lia. Qed.
Lemma bjoin_none_r a : bjoin a None = a.
Proof. now destruct a. Qed.

Fixpoint box (l : list Rect) : option Rect :=
  match l with [] => None | r :: tl => bjoin (Some (canonical r)) (box tl) end.

Lemma box_app a b : box (a ++ b) = bjoin (box a) (box b).
Proof. induction a as [|r a IH]; [reflexivity|]. cbn [app box]. now rewrite IH, bjoin_assoc. Qed.

Lemma box_in r l : In r l -> bjoin (Some (canonical r)) (box l) = box l.
Proof.
  induction l as [|x l IH]; cbn [In box]; [tauto|]. intros [->|H].
  - now rewrite bjoin_assoc, bjoin_idem.
  - rewrite bjoin_assoc, (bjoin_comm (Some (canonical r))), <- bjoin_assoc, IH by assumption. reflexivity.
Qed.

Lemma box_incl a b : incl a b -> bjoin (box a) (box b) = box b.
Proof.
  induction a as [|r a IH]; intros H; [reflexivity|]. cbn [box]. rewrite <- bjoin_assoc, IH by (intros x Hx; apply H; now right).
  apply box_in, H. now left.
Qed.

Lemma box_ext a b : (forall r, In r a <-> In r b) -> box a = box b.
Proof.
  intros H. rewrite <- (box_incl a b) by (intros x; apply H). rewrite bjoin_comm. symmetry. apply box_incl. intros x; apply H.
Qed.

Lemma canonical_ordered' r : llx (canonical r) <= urx (canonical r) /\ lly (canonical r) <= ury (canonical r).
Proof. exact (canonical_ordered r). Qed.

Lemma box_ordered l r : box l = Some r -> ordered r.
Proof.
  revert r. induction l as [|x l IH]; cbn [box]; [discriminate|]. intros r.
  pose proof (canonical_ordered' x). destruct (box l) as [q|].
  - specialize (IH q eq_refl). unfold ordered in IH. cbn [bjoin]. intros [= <-]. unfold ordered. cbn [llx lly urx ury]. lia.
  - cbn [bjoin]. intros [= <-]. assumption.
Qed.

Definition sp_of (b : option Rect) : semi :=
  match b with
  | None => sp_empty
  | Some r => mkSp (mkIv (Some (llx r)) (Some (urx r))) (mkIv (Some (lly r)) (Some (ury r)))
  end.

Lemma canonical_coords r : canonical r = mkRect (Z.min (llx r) (urx r)) (Z.min (lly r) (ury r)) (Z.max (llx r) (urx r)) (Z.max (lly r) (ury r)).
Proof. unfold canonical. destruct (Z.ltb_spec (urx r) (llx r)), (Z.ltb_spec (ury r) (lly r)); f_equal; lia. Qed.

Definition okbox (b : option Rect) : Prop := match b with None => True | Some r => ordered r end.

Lemma okbox_box l : okbox (box l).
Proof. destruct (box l) eqn:E; simpl; [now apply (box_ordered l)|exact I]. Qed.

Lemma okbox_join a b : okbox a -> okbox b -> okbox (bjoin a b).
Proof. destruct a, b; simpl; auto. unfold ordered. simpl. lia. Qed.

Lemma add_join b r : okbox b -> sp_addRect (sp_of b) r = sp_of (bjoin b (Some (canonical r))).
Proof.
  rewrite canonical_coords. unfold sp_addRect. destruct b as [q|]; cbn [sp_of bjoin okbox]; unfold ordered; intros Hq.
  - cbn [sp_x sp_y iv_add iv_m iv_M llx lly urx ury]. unfold iv_add. cbn [iv_m iv_M].
    f_equal; f_equal.
    + destruct (Z.ltb_spec (llx r) (llx q)); [destruct (Z.ltb_spec (urx r) (llx r))|destruct (Z.ltb_spec (urx r) (llx q))]; f_equal; lia.
    + destruct (Z.ltb_spec (urx q) (llx r)); [destruct (Z.ltb_spec (llx r) (urx r))|destruct (Z.ltb_spec (urx q) (urx r))]; f_equal; lia.
    + destruct (Z.ltb_spec (lly r) (lly q)); [destruct (Z.ltb_spec (ury r) (lly r))|destruct (Z.ltb_spec (ury r) (lly q))]; f_equal; lia.
    + destruct (Z.ltb_spec (ury q) (lly r)); [destruct (Z.ltb_spec (lly r) (ury r))|destruct (Z.ltb_spec (ury q) (ury r))]; f_equal; lia.
  - unfold sp_empty, iv_empty, iv_add. cbn [sp_x sp_y iv_m iv_M llx lly urx ury]. f_equal; f_equal.
    + destruct (Z.ltb_spec (urx r) (llx r)); f_equal; lia.
    + destruct (Z.ltb_spec (llx r) (urx r)); f_equal; lia.
    + destruct (Z.ltb_spec (ury r) (lly r)); f_equal; lia.
    + destruct (Z.ltb_spec (lly r) (ury r)); f_equal; lia.
Qed.

Lemma fold_add l b : okbox b -> fold_left sp_addRect l (sp_of b) = sp_of (bjoin b (box l)).
Proof.
  revert b. induction l as [|r l IH]; intros b Hb; cbn [fold_left box]; [now rewrite bjoin_none_r|].
  rewrite add_join by assumption. rewrite IH, bjoin_assoc; [reflexivity|].
  apply okbox_join; [assumption|]. apply canonical_ordered.
Qed.

Lemma fold_add_empty l : fold_left sp_addRect l sp_empty = sp_of (box l).
Proof. exact (fold_add l None I). Qed.

(** * Placing *)
Definition place (t : Tr) (r : Rect) : Rect := canonical (hitRect t r).

Lemma place_coords t r : place t r = mkRect (Z.min (sX t * llx r + oX t) (sX t * urx r + oX t)) (Z.min (sY t * lly r + oY t) (sY t * ury r + oY t))
  (Z.max (sX t * llx r + oX t) (sX t * urx r + oX t)) (Z.max (sY t * lly r + oY t) (sY t * ury r + oY t)).
Proof. unfold place. rewrite canonical_coords. reflexivity. Qed.

Lemma canonical_idem r : canonical (canonical r) = canonical r.
Proof. apply canonical_id, canonical_ordered. Qed.
Lemma canonical_place t r : canonical (place t r) = place t r.
Proof. apply canonical_idem. Qed.

Lemma place_join t a b : unit_tr t -> okbox a -> okbox b -> option_map (place t) (bjoin a b) = bjoin (option_map (place t) a) (option_map (place t) b).
Proof.
  intros ([Hx|Hx] & [Hy|Hy]); destruct a as [a|], b as [b|]; cbn [bjoin option_map okbox]; try reflexivity; unfold ordered; intros Ha Hb;
    rewrite !place_coords, Hx, Hy; cbn [llx lly urx ury]; f_equal; f_equal; lia.
Qed.

Lemma place_canonical t r : unit_tr t -> place t (canonical r) = place t r.
Proof.
  intros ([Hx|Hx] & [Hy|Hy]); rewrite canonical_coords, !place_coords, Hx, Hy; cbn [llx lly urx ury]; f_equal; lia.
Qed.

Lemma box_place t l : unit_tr t -> box (map (place t) l) = option_map (place t) (box l).
Proof.
  intros Ht. induction l as [|r l IH]; [reflexivity|]. cbn [map box]. rewrite IH, place_join by (auto using okbox_box; apply canonical_ordered).
  cbn [option_map]. now rewrite canonical_place, place_canonical.
Qed.

Lemma sp_rect_of b : sp_rect (sp_of b) = b.
Proof. destruct b as [[]|]; reflexivity. Qed.

Lemma update_join b b2 t : okbox b -> sp_update (sp_of b) (sp_of b2) t = sp_of (bjoin b (option_map (place t) b2)).
Proof.
  intros Hb. unfold sp_update. rewrite sp_rect_of. destruct b2 as [r|]; cbn [option_map]; [|now rewrite bjoin_none_r].
  rewrite add_join by assumption. unfold place. now rewrite canonical_idem.
Qed.

Lemma dist_place t b : unit_tr t -> okbox b -> sp_dist (sp_of (option_map (place t) b)) = sp_dist (sp_of b).
Proof.
  intros ([Hx|Hx] & [Hy|Hy]); destruct b as [r|]; cbn [option_map okbox]; try reflexivity; unfold ordered; intros Hr;
    rewrite place_coords, Hx, Hy; unfold sp_dist, iv_dist; cbn [sp_of sp_x sp_y iv_m iv_M llx lly urx ury]; lia.
Qed.

Lemma dist_join a b : okbox a -> okbox b -> sp_dist (sp_of a) <= sp_dist (sp_of (bjoin a b)).
Proof.
  destruct a as [a|], b as [b|]; cbn [bjoin okbox]; unfold ordered, sp_dist, iv_dist; cbn [sp_of sp_x sp_y iv_m iv_M llx lly urx ury sp_empty iv_empty]; lia.
Qed.

Lemma place_mult T t r : unit_tr T -> place T (place t r) = place (mult T t) r.
Proof. intros HT. unfold place at 2. rewrite place_canonical by assumption. unfold place. now rewrite hitRect_mult. Qed.

Lemma place_default r : place tr_default r = canonical r.
Proof. rewrite place_coords, canonical_coords. cbn [tr_default sX sY oX oY]. f_equal; lia. Qed.

(** The box has the least and greatest coordinates. *)
Lemma box_extremes l r : box l = Some r -> least (llx r) (xs l) /\ greatest (urx r) (xs l) /\ least (lly r) (ys l) /\ greatest (ury r) (ys l).
Proof.
  revert r. induction l as [|x l IH]; cbn [box]; [discriminate|]. intros r.
  unfold least, greatest in *. cbn [xs ys flat_map app]. fold (xs l). fold (ys l). rewrite canonical_coords.
  destruct (box l) as [q|] eqn:Eb.
  - destruct (IH q eq_refl) as ((A1 & A2) & (B1 & B2) & (C1 & C2) & (D1 & D2)). cbn [bjoin]. intros [= <-]. cbn [llx lly urx ury].
    repeat split.
    + destruct (Z.min_dec (Z.min (llx x) (urx x)) (llx q)) as [->| ->]; [|simpl; auto].
      destruct (Z.min_dec (llx x) (urx x)) as [->| ->]; simpl; auto.
    + intros z [<-|[<-|Hz]]; [lia|lia|]. specialize (A2 z Hz). lia.
    + destruct (Z.max_dec (Z.max (llx x) (urx x)) (urx q)) as [->| ->]; [|simpl; auto].
      destruct (Z.max_dec (llx x) (urx x)) as [->| ->]; simpl; auto.
    + intros z [<-|[<-|Hz]]; [lia|lia|]. specialize (B2 z Hz). lia.
    + destruct (Z.min_dec (Z.min (lly x) (ury x)) (lly q)) as [->| ->]; [|simpl; auto].
      destruct (Z.min_dec (lly x) (ury x)) as [->| ->]; simpl; auto.
    + intros z [<-|[<-|Hz]]; [lia|lia|]. specialize (C2 z Hz). lia.
    + destruct (Z.max_dec (Z.max (lly x) (ury x)) (ury q)) as [->| ->]; [|simpl; auto].
      destruct (Z.max_dec (lly x) (ury x)) as [->| ->]; simpl; auto.
    + intros z [<-|[<-|Hz]]; [lia|lia|]. specialize (D2 z Hz). lia.
  - assert (l = []) as -> by (destruct l as [|y l]; [reflexivity|]; cbn [box] in Eb; destruct (box l); discriminate).
    cbn [bjoin]. intros [= <-]. cbn [llx lly urx ury xs ys flat_map]. repeat split;
      solve [destruct (Z.min_dec (llx x) (urx x)) as [->| ->]; simpl; auto
            |destruct (Z.max_dec (llx x) (urx x)) as [->| ->]; simpl; auto
            |destruct (Z.min_dec (lly x) (ury x)) as [->| ->]; simpl; auto
            |destruct (Z.max_dec (lly x) (ury x)) as [->| ->]; simpl; auto
            |intros z [<-|[<-|[]]]; lia].
Qed.

Lemma half_perimeter_box l : half_perimeter l (sp_dist (sp_of (box l))).
Proof.
  destruct (box l) as [r|] eqn:E.
  - right. destruct (box_extremes l r E) as (A & B & C & D). exists (llx r), (urx r), (lly r), (ury r).
    repeat (split; [assumption|]). reflexivity.
  - left. split; [|reflexivity]. destruct l as [|y l]; [reflexivity|]. cbn [box] in E. destruct (box l); discriminate.
Qed.
