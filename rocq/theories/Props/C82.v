(** C82: the database's transformations are the eight isometries, and compose down the hierarchy. *)
From Coq Require Import ZifyBool.
From Verif Require Import Base.Prelude Model.PnrGeom Spec.Isometry Proofs.PnrGeomP.
Local Open Scope Z_scope.

(** Forward is the placement of a cell by the isometry its name says, Backward undoes it; boxes go with their points. *)
Theorem C82_point p t w h o : 0 <= w -> 0 <= h -> transform_point p t w h o Forward = place (matrix o) w h t p.
Proof. exact (point_place p t w h o). Qed.
Print Assumptions C82_point.
Theorem C82_inverse p b t w h o : transform_point (transform_point p t w h o Forward) t w h o Backward = p /\ transform_point (transform_point p t w h o Backward) t w h o Forward = p /\
  transform_bbox (transform_bbox b t w h o Forward) t w h o Backward = b /\ transform_bbox (transform_bbox b t w h o Backward) t w h o Forward = b.
Proof. destruct (point_inverse p t w h o), (box_inverse b t w h o). auto. Qed.
Print Assumptions C82_inverse.
Theorem C82_box p b t w h o d : inside p b <-> inside (transform_point p t w h o d) (transform_bbox b t w h o d).
Proof. exact (box_inside p b t w h o d). Qed.
Print Assumptions C82_box.
(** The table is the product of the matrices. *)
Theorem C82_compose a b c : (matrix c = mmul (matrix a) (matrix b) <-> c = rel2abs a b).
Proof. rewrite <- compose. split; [apply matrix_inj|congruence]. Qed.
Print Assumptions C82_compose.

(** Cells within cells: each has a box in its parent, an orientation there and a size of its own, which fit. *)
Record cell := mkCell { k_box : bbox; k_ort : omark; k_w : Z; k_h : Z }.
Definition extent (m : mat) (w h : Z) : Z * Z := let '((a, b), (c, d)) := m in (Z.abs a * w + Z.abs b * h, Z.abs c * w + Z.abs d * h).
Definition fits (k : cell) : Prop := 0 <= k_w k /\ 0 <= k_h k /\ snd (k_box k) = padd (fst (k_box k)) (extent (matrix (k_ort k)) (k_w k) (k_h k)).
(** Where a point of the innermost cell is in the outermost frame *)
Definition nest (l : list cell) (p : point) : point := fold_right (fun k q => place (matrix (k_ort k)) (k_w k) (k_h k) (fst (k_box k)) q) p l.
(** What the router computes on its way down: box and orientation in the outermost frame (router.py:261-275 and TransformNode) *)
Definition down (top : bbox * omark) (l : list cell) : bbox * omark :=
  fold_left (fun bo k => let '(w, h) := node_size (fst bo) (snd bo) in (transform_bbox (k_box k) (fst (fst bo)) w h (snd bo) Forward, rel2abs (snd bo) (k_ort k))) l top.
Lemma fits_size k : fits k -> node_size (k_box k) (k_ort k) = (k_w k, k_h k).
Proof.
  destruct k as [((x & y) & ur) c w h]. unfold fits. cbn [k_box k_ort k_w k_h fst snd]. intros (Hw & Hh & ->).
  destruct c; unfold padd, extent, node_size; (match goal with |- context [matrix ?o] => let v := eval vm_compute in (matrix o) in change (matrix o) with v end); cbn [fst snd]; f_equal; lia.
Qed.
Theorem C82_path k l p : fits k -> Forall fits l ->
  let '(b, o) := down (k_box k, k_ort k) l in let '(w, h) := node_size b o in
  transform_point p (fst b) w h o Forward = nest (k :: l) p /\ (w, h) = match rev l with [] => (k_w k, k_h k) | k' :: _ => (k_w k', k_h k') end.
Proof.
  intros Hk. induction l as [|k' l IH] using rev_ind in p |- *; intros Hl.
  - cbn [down fold_left rev nest fold_right]. rewrite (fits_size k Hk). split; [|reflexivity]. apply point_place; apply Hk.
  - apply Forall_app in Hl as (Hl & Hk'). inversion_clear Hk' as [|? ? F _]. unfold down in *. rewrite fold_left_app. cbn [fold_left]. specialize (fun q => IH q Hl).
    destruct (fold_left _ l _) as (b & o). cbn [fst snd]. destruct (node_size b o) as (w & h). rewrite nested_size, (fits_size k' F), rev_app_distr. cbn [rev app]. split; [|reflexivity].
    rewrite <- (nested p (k_w k') (k_h k') (k_ort k') (k_box k') w h (fst b) o (fits_size k' F)). rewrite (point_place p (fst (k_box k')) (k_w k') (k_h k') (k_ort k')) by apply F. rewrite (proj1 (IH _)). unfold nest. cbn [fold_right]. now rewrite fold_right_app.
Qed.
Print Assumptions C82_path.

(** A terminal's contacts are moved once for each contact: right for one, wrong for more. *)
Theorem C82_terminal t w h o d c : transform_terminal t w h o d [c] = [transform_contact t w h o d c].
Proof. reflexivity. Qed.
Print Assumptions C82_terminal.
Theorem C82_terminal_inverse t w h o cs : transform_terminal t w h o Backward (transform_terminal t w h o Forward cs) = cs.
Proof.
  rewrite !terminal_iter. assert (L : forall n, length (Nat.iter n (map (transform_contact t w h o Forward)) cs) = length cs) by (induction n as [|n IH]; [reflexivity|]; cbn [Nat.iter nat_rect]; rewrite map_length; exact IH).
  rewrite L. clear L. generalize (length cs). intros n. assert (I : forall l, map (transform_contact t w h o Backward) (map (transform_contact t w h o Forward) l) = l) by (intros l; rewrite map_map; transitivity (map (fun c => c) l); [apply map_ext, contact_inverse|apply map_id]).
  assert (C : forall (f : list contact -> list contact) k l, Nat.iter k f (f l) = f (Nat.iter k f l)) by (intros f k l; induction k as [|k IH]; [reflexivity|]; cbn [Nat.iter nat_rect]; unfold Nat.iter in *; now rewrite IH).
  induction n as [|n IH]; [reflexivity|]. change (Nat.iter (Datatypes.S n) (map (transform_contact t w h o Forward)) cs) with (map (transform_contact t w h o Forward) (Nat.iter n (map (transform_contact t w h o Forward)) cs)).
  change (Nat.iter (Datatypes.S n) (map (transform_contact t w h o Backward)) ?x) with (map (transform_contact t w h o Backward) (Nat.iter n (map (transform_contact t w h o Backward)) x)). rewrite <- C, I. exact IH.
Qed.
Print Assumptions C82_terminal_inverse.
Definition rect (x y x' y' : Z) : contact := mkContact ((x, y), (x', y')) ((x, y), (x', y')) ((x + x') / 2, (y + y') / 2) ((x + x') / 2, (y + y') / 2).
Theorem C82_terminal_refuted : exists t w h o c1 c2, 0 < w /\ 0 < h /\ inside (fst (c_placed c1)) ((0, 0), (w, h)) /\ inside (snd (c_placed c1)) ((0, 0), (w, h)) /\
  transform_terminal t w h o Forward [c1; c2] <> [transform_contact t w h o Forward c1; transform_contact t w h o Forward c2].
Proof.
  exists (100, 0), 20, 20, oN, (rect 0 0 4 4), (rect 8 8 12 12). repeat split; try (cbn; lia). vm_compute. discriminate.
Qed.
Print Assumptions C82_terminal_refuted.
(** A guard ring's corners are moved as points: the same rectangle, but its lower left may become its upper right. *)
Theorem C82_guardring t w h b d : transform_guardring t w h oN d b = transform_bbox b t w h oN d /\ transform_guardring t w h oFW d b = transform_bbox b t w h oFW d.
Proof. destruct b as ((x & y) & (x' & y')), t as (a & e), d; split; reflexivity. Qed.
Print Assumptions C82_guardring.
Theorem C82_guardring_refuted t w h b d o : fst (fst b) < fst (snd b) -> snd (fst b) < snd (snd b) -> o <> oN -> o <> oFW ->
  forall p, ~ inside p (transform_guardring t w h o d b).
Proof.
  intros Hx Hy N1 N2 (px & py). destruct b as ((x & y) & (x' & y')), t as (a & e), d, o; try congruence; unfold inside, transform_guardring, transform_point, padd, psub; cbn [fst snd] in *; lia.
Qed.
Print Assumptions C82_guardring_refuted.
(** A routed child's metal put into its block: right if the child's box is in the child's own frame (bottom up), or if
    it is not turned by a quarter. *)
Definition upright (o : omark) : Prop := o = oN \/ o = oS \/ o = oFN \/ o = oFS.
(** The contact's placed pose is its original pose moved as the cell is. *)
Definition moved (o : omark) (w h : Z) (t : point) (c c' : contact) : Prop :=
  c_origin c' = c_origin c /\ c_ocenter c' = c_ocenter c /\ c_pcenter c' = place (matrix o) w h t (c_ocenter c) /\
  forall p, inside p (c_origin c) <-> inside (place (matrix o) w h t p) (c_placed c').
Lemma checkin_moved o w h t cs : 0 <= w -> 0 <= h -> Forall2 (moved o w h t) cs (map (origin_to_placed t w h o) cs).
Proof.
  intros Hw Hh. induction cs as [|c cs IH]; cbn [map]; constructor; [|exact IH]. unfold moved, origin_to_placed, transform_contact. cbn [c_placed c_origin c_pcenter c_ocenter].
  rewrite (proj1 (box_inverse _ _ _ _ _)), (proj1 (point_inverse _ _ _ _ _)), point_place by assumption. split; [reflexivity|]. split; [reflexivity|]. split; [reflexivity|]. intros p. rewrite <- point_place by assumption. apply box_inside.
Qed.
Theorem C82_checkin_own o w h t cs : 0 <= w -> 0 <= h -> Forall2 (moved o w h t) cs (checkin ((0, 0), (w, h)) t o cs).
Proof. intros Hw Hh. unfold checkin. cbn [fst snd]. rewrite !Z.sub_0_r. now apply checkin_moved. Qed.
Print Assumptions C82_checkin_own.
Theorem C82_checkin_upright k cs : fits k -> upright (k_ort k) -> Forall2 (moved (k_ort k) (k_w k) (k_h k) (fst (k_box k))) cs (checkin (k_box k) (fst (k_box k)) (k_ort k) cs).
Proof.
  intros F U. pose proof (fits_size k F) as E. unfold checkin. destruct k as [((x & y) & (x' & y')) o w h]. cbn [k_box k_ort k_w k_h fst snd] in *.
  assert (E' : (x' - x, y' - y) = (w, h)) by (destruct U as [->|[->|[->| ->]]]; exact E). injection E' as -> ->. apply checkin_moved; apply F.
Qed.
Print Assumptions C82_checkin_upright.
(** Top down a child turned by a quarter that is not square gets its metal outside its box. *)
Ltac fit := split; [vm_compute; discriminate|]; split; [vm_compute; discriminate|reflexivity].
Theorem C82_checkin_refuted : exists k c c', fits k /\ checkin (k_box k) (fst (k_box k)) (k_ort k) [c] = [c'] /\
  inside (fst (c_origin c)) ((0, 0), (k_w k, k_h k)) /\ inside (snd (c_origin c)) ((0, 0), (k_w k, k_h k)) /\ forall p, inside p (c_placed c') -> ~ inside p (k_box k).
Proof.
  exists (mkCell ((100, 0), (110, 40)) oW 40 10), (rect 2 2 4 4). eexists. split; [fit|]. split; [reflexivity|]. split; [unfold inside; cbn; lia|]. split; [unfold inside; cbn; lia|].
  intros p (Hp & _) (Hq & _). cbn in Hp, Hq. lia.
Qed.
Print Assumptions C82_checkin_refuted.
Example C82_nonvacuous : fits (mkCell ((0, 0), (60, 50)) oN 60 50) /\ Forall fits [mkCell ((10, 5), (20, 45)) oW 40 10; mkCell ((8, 2), (38, 6)) oFS 30 4] /\
  down (((0, 0), (60, 50)), oN) [mkCell ((10, 5), (20, 45)) oW 40 10; mkCell ((8, 2), (38, 6)) oFS 30 4] = (((14, 13), (18, 43)), oFW) /\
  nest [mkCell ((0, 0), (60, 50)) oN 60 50; mkCell ((10, 5), (20, 45)) oW 40 10; mkCell ((8, 2), (38, 6)) oFS 30 4] (1, 2) = (16, 14).
Proof. split; [fit|]. split; [constructor; [fit|]; constructor; [fit|constructor]|]. split; reflexivity. Qed.
