(** C75: every transistor of a primitive gets the unit cells that its size asks for. *)
From Coq Require Import String Ascii ZifyBool.
From Verif Require Import Base.Prelude Base.PyDict Model.Transformation Model.Canvas Model.TransistorArray Model.MosGen Proofs.CanvasP Proofs.MosGenP Props.C42.
Local Open Scope Z_scope.

(** The number of cells of a device in an array; each cell holds two fingers. *)
Definition units (n : string) (rows : list (list string)) : Z := Z.of_nat (length (filter (String.eqb n) (concat rows))).
Definition valid (unit_size : Z) (d : mosdev) : Prop := 0 < md_nfin d <= unit_size /\ 0 < md_nf d /\ (2 | md_nf d) /\ 0 < md_m d.
Lemma m_eff_pos d : 0 < md_m d -> 0 < m_eff d.
Proof. unfold m_eff. destruct (md_par d) as [k|]; [|easy]. destruct (Z.ltb_spec 1 k); nia. Qed.
Lemma fingers_pos u d : valid u d -> 0 < fingers d /\ (2 | fingers d).
Proof. intros (_ & H2 & H3 & H4). apply m_eff_pos in H4. unfold fingers. split; [nia|now apply Z.divide_mul_l]. Qed.
Lemma valid_ok u n0 d : valid u d -> md_nfin d = n0 -> dev_ok u n0 d = true.
Proof. intros (H1 & H2 & (k & H3) & H4) <-. unfold dev_ok. rewrite H3, Z.mod_mul by lia. lia. Qed.

(** The fingers that the netlist asks for, and those counted by the generator. *)
Definition asked (d : mosdev) : Z := md_nf d * md_m d * Z.max 1 (match md_par d with Some k => k | None => 1 end).
Theorem C75_fingers d : fingers d = asked d.
Proof. unfold fingers, asked, m_eff. destruct (md_par d) as [k|]; [|lia]. destruct (Z.ltb_spec 1 k); [rewrite Z.max_r by lia; ring|rewrite Z.max_l by lia; ring]. Qed.
Print Assumptions C75_fingers.

(** * Variants *)
(** Without a constraint all variants have the same number of cells; up to twelve factorisations they are all offered. *)
Theorem C75_variants limit u ds l : (forall ps, incl (limit ps) ps) -> Forall (valid u) ds -> unequal ds = false -> blocks limit u GNone ds = Some l ->
  (forall x y, In (x, y) l -> x * y = no_units ds /\ 0 < x /\ 0 < y) /\
  ((length (pairs_of (no_units ds)) <= 12)%nat -> forall x y, x * y = no_units ds -> 0 < x -> 0 < y -> In (x, y) l).
Proof.
  intros Hl Hv Hu. unfold blocks, base_shape. destruct ds as [|d0 ds]; [discriminate|]. set (D := d0 :: ds) in *. destruct (negb _); [discriminate|]. destruct (Z.ltb_spec (no_units D) 0); [discriminate|].
  destruct (Z.eq_dec (no_units D) 0) as [E0|E0]; [rewrite E0; discriminate|]. pose proof (Z.sqrt_spec (no_units D) ltac:(lia)) as S. cbv zeta in S. pose proof (Z.sqrt_nonneg (no_units D)) as Hs0. assert (Hs1 : 0 < Z.sqrt (no_units D)) by nia.
  destruct (divide_down_spec (no_units D) ltac:(lia) (Z.to_nat (Z.sqrt (no_units D))) ltac:(lia)) as (r & -> & Hr & Hm). rewrite Hu. cbv beta iota zeta. unfold add_primitive. cbn [fst snd].
  assert (Em : no_units D / r * r = no_units D) by (pose proof (Z.div_mod (no_units D) r ltac:(lia)); lia). rewrite Em. intros [= <-].
  assert (G : forall x y, In (x, y) (pairs_of (no_units D)) <-> x * y = no_units D /\ 0 < x /\ 0 < y) by (intros x y; unfold pairs_of; rewrite nodup_In; apply C42_variants; lia).
  destruct (Nat.ltb_spec 12 (length (pairs_of (no_units D)))) as [L|L]; (split; [intros x y Hxy; apply G; try now apply Hl|]).
  - intros; lia.
  - exact Hxy.
  - intros _ x y E Hx Hy. now apply G.
Qed.
Print Assumptions C75_variants.
(** Legal sizes only filter those variants; exact patterns only those of their sizes. *)
Theorem C75_legal limit u L ds l : Forall (valid u) ds -> unequal ds = false -> blocks limit u (GLegal L) ds = Some l ->
  forall x y, In (x, y) l <-> x * y = no_units ds /\ 0 < x /\ 0 < y /\ exists cx cy, In (cx, cy) L /\ (cx = None \/ cx = Some x) /\ (cy = None \/ cy = Some y).
Proof.
  intros Hv Hu. unfold blocks, base_shape. destruct ds as [|d0 ds]; [discriminate|]. set (D := d0 :: ds) in *. destruct (negb _); [discriminate|]. destruct (Z.ltb_spec (no_units D) 0); [discriminate|].
  destruct (Z.eq_dec (no_units D) 0) as [E0|E0]; [rewrite E0; discriminate|]. pose proof (Z.sqrt_spec (no_units D) ltac:(lia)) as S. cbv zeta in S. pose proof (Z.sqrt_nonneg (no_units D)) as Hs0. assert (Hs1 : 0 < Z.sqrt (no_units D)) by nia.
  destruct (divide_down_spec (no_units D) ltac:(lia) (Z.to_nat (Z.sqrt (no_units D))) ltac:(lia)) as (r & -> & Hr & Hm). rewrite Hu. cbv beta iota zeta. unfold add_primitive. cbn [fst snd].
  assert (Em : no_units D / r * r = no_units D) by (pose proof (Z.div_mod (no_units D) r ltac:(lia)); lia). rewrite Em. intros [= <-] x y.
  rewrite filter_In. unfold pairs_of at 1. rewrite nodup_In, C42_variants by lia. unfold check_legal. rewrite existsb_exists. cbn [fst snd]. split.
  - intros ((H1 & H2 & H3) & (cx & cy) & Hi & Ht). repeat split; try assumption. exists cx, cy. cbn in Ht. unfold tag_ok in Ht. repeat split; [exact Hi| |].
    + destruct cx as [w|]; [right; f_equal|left; reflexivity]. lia.
    + destruct cy as [w|]; [right; f_equal|left; reflexivity]. destruct (match cx with Some w => w =? x | None => true end); [lia|discriminate].
  - intros (H1 & H2 & H3 & cx & cy & Hi & Hx & Hy). split; [now repeat split|]. exists (cx, cy). split; [exact Hi|]. cbn. destruct Hx as [->| ->], Hy as [->| ->]; cbn; lia.
Qed.
Print Assumptions C75_legal.

(** * Arrays *)
Definition grid (X Y : Z) (nm : Z -> Z -> string) : list (list string) := map (fun y => map (fun x => nm x y) (zrange X)) (zrange Y).
Lemma units_grid X Y nm n c : 0 <= Y -> (forall y, 0 <= y < Y -> countb (fun x => String.eqb n (nm x y)) (zrange X) = c) -> units n (grid X Y nm) = Y * c.
Proof.
  intros HY H. unfold units, grid. change (countb (String.eqb n) (concat (map (fun y => map (fun x => nm x y) (zrange X)) (zrange Y))) = Y * c). rewrite (countb_concat _ _ c).
  - rewrite map_length, zrange_len, Z2Nat.id by exact HY. reflexivity.
  - intros l Hl. apply in_map_iff in Hl as (y & <- & Hy). apply in_zrange in Hy. rewrite countb_map. now apply H.
Qed.
(** The grid of a draw whose cell numbers are known. *)
Lemma draw_grid g user ds x Y X p nm : choose_pattern (length ds) (same_params ds) user x = (X, p) ->
  (forall x' y', 0 <= x' < X -> 0 <= y' < Y -> exists i, cell_index (exact_of g) (match middle ds X with Some _ => 3 | None => p end) (middle ds X) X x' y' = Some i /\ nth_error (sort_names ds) i = Some (nm x' y')) ->
  draw g user ds (x, Y) = Some (grid X Y nm).
Proof.
  intros E H. unfold draw. cbn [fst snd]. rewrite E. unfold grid. apply mapM_map_ext. intros y Hy. apply mapM_map_ext. intros x' Hx. apply in_zrange in Hy, Hx. destruct (H x' y Hx Hy) as (i & -> & ->). reflexivity.
Qed.
Lemma fold_fingers1 d : no_units [d] = - ((- fingers d) / 2).
Proof. unfold no_units. cbn [map fold_right length]. now rewrite Z.add_0_r. Qed.
Lemma fold_fingers2 a b : no_units [a; b] = - ((- (fingers a + fingers b)) / 4).
Proof. unfold no_units. cbn [map fold_right length]. now rewrite Z.add_0_r. Qed.

(** One transistor: every variant has exactly its cells. *)
Theorem C75_single limit u d l xy : (forall ps, incl (limit ps) ps) -> valid u d -> blocks limit u GNone [d] = Some l -> In xy l ->
  exists rows, draw GNone None [d] xy = Some rows /\ 2 * units (md_name d) rows = asked d /\ length rows = Z.to_nat (snd xy) /\ Forall (fun r => length r = Z.to_nat (fst xy)) rows.
Proof.
  rewrite <- C75_fingers. intros Hl Hv Hb Hi. destruct xy as [x y]. destruct (proj1 (C75_variants limit u [d] l Hl (Forall_cons _ Hv (Forall_nil _)) eq_refl Hb) x y Hi) as (E & Hx & Hy).
  exists (grid x y (fun _ _ => md_name d)). cbn [fst snd]. repeat split.
  - apply (draw_grid _ _ _ _ _ _ 0); [reflexivity|]. intros x' y' _ _. exists 0%nat. split; reflexivity.
  - rewrite (units_grid _ _ _ _ x) by (try lia; intros; rewrite (countb_ext _ (fun _ => true)) by (intros; apply String.eqb_refl); rewrite countb_true, zrange_len; lia).
    destruct (fingers_pos u d Hv) as (Hf & k & Hk). rewrite fold_fingers1, Hk in E. replace (- (k * 2)) with ((- k) * 2) in E by ring. rewrite Z.div_mul in E by lia. lia.
  - unfold grid. now rewrite map_length, zrange_len.
  - unfold grid. rewrite Forall_map, Forall_forall. intros z _. now rewrite map_length, zrange_len.
Qed.
Print Assumptions C75_single.

(** Two transistors. *)
Definition ordered (a b : mosdev) : bool := String.leb (md_name a) (md_name b).
Definition lo (a b : mosdev) : mosdev := if ordered a b then a else b.
Definition up (a b : mosdev) : mosdev := if ordered a b then b else a.
Lemma names2 a b : md_name a <> md_name b -> sort_names [a; b] = [md_name (lo a b); md_name (up a b)].
Proof. intros N. rewrite sort_names_two by exact N. unfold lo, up, ordered. now destruct (String.leb _ _). Qed.
Lemma lo_up a b : md_name a <> md_name b -> md_name (lo a b) <> md_name (up a b).
Proof. intros N. unfold lo, up. destruct (ordered a b); [exact N|intros E; now apply N]. Qed.
Definition pick (P : Z -> Z -> bool) (a b : mosdev) (x y : Z) : string := md_name (if P x y then lo a b else up a b).
Lemma draw_two g user a b x Y X p (P : Z -> Z -> bool) : md_name a <> md_name b -> choose_pattern 2 (same_params [a; b]) user x = (X, p) ->
  (forall x' y', 0 <= x' < X -> 0 <= y' < Y -> cell_index (exact_of g) (match middle [a; b] X with Some _ => 3 | None => p end) (middle [a; b] X) X x' y' = Some (if P x' y' then 0%nat else 1%nat)) ->
  draw g user [a; b] (x, Y) = Some (grid X Y (pick P a b)).
Proof.
  intros N E H. apply (draw_grid g user [a; b] x Y X p); [exact E|]. intros x' y' Hx Hy. exists (if P x' y' then 0%nat else 1%nat). split; [now apply H|].
  rewrite names2 by exact N. unfold pick. now destruct (P x' y').
Qed.
Lemma units_two a b X Y (P : Z -> Z -> bool) c : md_name a <> md_name b -> 0 <= X -> 0 <= Y -> (forall y, 0 <= y < Y -> countb (fun x => P x y) (zrange X) = c) ->
  units (md_name (lo a b)) (grid X Y (pick P a b)) = Y * c /\ units (md_name (up a b)) (grid X Y (pick P a b)) = Y * (X - c).
Proof.
  intros N HX HY H. pose proof (lo_up a b N) as N'. split; apply units_grid; try exact HY; intros y Hy.
  - rewrite <- (H y Hy). apply countb_ext. intros x _. unfold pick. destruct (P x y); [apply String.eqb_refl|now apply String.eqb_neq].
  - pose proof (countb_negb (fun x => P x y) (zrange X)) as E. rewrite zrange_len, (H y Hy) in E. rewrite (countb_ext _ (fun x => negb (P x y))); [lia|].
    intros x _. unfold pick. destruct (P x y); [apply String.eqb_neq; congruence|apply String.eqb_refl].
Qed.
(** The three symmetric patterns. *)
Definition P_cc (x y : Z) : bool := ((x / 2) mod 2 + x mod 2 + y mod 2) mod 2 =? 0.
Definition P_id (x y : Z) : bool := (x mod 2 + y mod 2) mod 2 =? 0.
Definition P_ncc (X x y : Z) : bool := x <? X / 2.
Lemma count_id y k : 0 <= k -> countb (fun x => P_id x y) (zrange (2 * k)) = k.
Proof.
  intros Hk. replace k with (Z.of_nat (Z.to_nat k)) by lia. rewrite (countb_period _ 2) by (try lia; intros i; unfold P_id; f_equal; lia).
  replace (countb _ _) with 1; [lia|]. unfold countb, P_id. change (zrange 2) with [0; 1]. cbn [filter]. change (0 mod 2) with 0. change (1 mod 2) with 1.
  assert (y mod 2 = 0 \/ y mod 2 = 1) as [-> | ->] by lia; reflexivity.
Qed.
Lemma count_cc y k : 0 <= k -> countb (fun x => P_cc x y) (zrange (4 * k)) = 2 * k.
Proof.
  intros Hk. replace k with (Z.of_nat (Z.to_nat k)) by lia. rewrite (countb_period _ 4) by (try lia; intros i; unfold P_cc; f_equal; replace ((i + 4) / 2) with (i / 2 + 2) by lia; lia).
  replace (countb _ _) with 2; [lia|]. unfold countb, P_cc. change (zrange 4) with [0; 1; 2; 3]. cbn [filter]. change (0 / 2) with 0. change (1 / 2) with 0. change (2 / 2) with 1. change (3 / 2) with 1. change (0 mod 2) with 0. change (1 mod 2) with 1. change (2 mod 2) with 0. change (3 mod 2) with 1.
  assert (y mod 2 = 0 \/ y mod 2 = 1) as [-> | ->] by lia; reflexivity.
Qed.
Definition symmetric (user : option upat) (a b : mosdev) : Prop :=
  match user with None => same_params [a; b] = true | Some cc | Some id_ | Some ncc => True | Some _ => False end.
Lemma same_fingers a b : same_params [a; b] = true -> fingers a = fingers b /\ total_size a = total_size b.
Proof. unfold same_params. cbn. unfold params_eqb, fingers, total_size. intros H. assert (md_nfin b = md_nfin a /\ md_nf b = md_nf a /\ m_eff b = m_eff a) as (-> & -> & ->) by lia. easy. Qed.

(** Two transistors with the same number of fingers: each gets exactly its cells, in every variant. *)
Lemma equal_draw user a b x Y : md_name a <> md_name b -> total_size a = total_size b -> symmetric user a b -> 0 < x ->
  exists P, draw GNone user [a; b] (x, Y) = Some (grid (2 * x) Y (pick P a b)) /\ (forall y, countb (fun x' => P x' y) (zrange (2 * x)) = x) /\
            (match user with Some id_ => P = P_id | Some ncc => if x mod 2 =? 0 then P = P_ncc (2 * x) else P = P_id | _ => if x mod 2 =? 0 then P = P_cc else P = P_id end).
Proof.
  intros N E S Hx. assert (M : forall X, middle [a; b] X = None) by (intros X; cbn; rewrite E, Z.eqb_refl; reflexivity).
  set (odd := negb (2 * x mod 4 =? 0)). assert (Eo : odd = negb (x mod 2 =? 0)) by (subst odd; lia).
  destruct (x mod 2 =? 0) eqn:Ex; cbn [negb] in Eo.
  - assert (E4 : 2 * x = 4 * (x / 2)) by lia.
    destruct user as [[]|]; unfold symmetric in S; try contradiction.
    + exists P_cc. repeat split; [|intros y; rewrite E4, count_cc; lia]. apply (draw_two _ _ _ _ _ _ _ 1); [exact N|cbn [choose_pattern pattern_map]; fold odd; now rewrite Eo|].
      intros x' y' _ _. rewrite M. unfold cell_index, exact_of, P_cc. cbn [Z.eqb Pos.eqb]. f_equal. destruct (Z.eqb_spec (((x' / 2) mod 2 + x' mod 2 + y' mod 2) mod 2) 0) as [->|]; [reflexivity|]. lia.
    + exists P_id. repeat split; [|intros y; apply count_id; lia]. apply (draw_two _ _ _ _ _ _ _ 2); [exact N|cbn [choose_pattern pattern_map]; fold odd; now rewrite Eo|].
      intros x' y' _ _. rewrite M. unfold cell_index, exact_of, P_id. cbn [Z.eqb Pos.eqb]. f_equal. destruct (Z.eqb_spec ((x' mod 2 + y' mod 2) mod 2) 0) as [->|]; [reflexivity|]. lia.
    + exists (P_ncc (2 * x)). repeat split; [|intros y; unfold P_ncc; rewrite countb_lt by lia; lia]. apply (draw_two _ _ _ _ _ _ _ 4); [exact N|cbn [choose_pattern pattern_map]; fold odd; now rewrite Eo|].
      intros x' y' _ _. rewrite M. reflexivity.
    + exists P_cc. repeat split; [|intros y; rewrite E4, count_cc; lia]. apply (draw_two _ _ _ _ _ _ _ 1); [exact N|rewrite S; cbn [choose_pattern pattern_map]; fold odd; now rewrite Eo|].
      intros x' y' _ _. rewrite M. unfold cell_index, exact_of, P_cc. cbn [Z.eqb Pos.eqb]. f_equal. destruct (Z.eqb_spec (((x' / 2) mod 2 + x' mod 2 + y' mod 2) mod 2) 0) as [->|]; [reflexivity|]. lia.
  - exists P_id. split; [|split; [intros y; apply count_id; lia|destruct user as [[]|]; reflexivity]]. apply (draw_two _ _ _ _ _ _ _ 2); [exact N|cbn [choose_pattern]; fold odd; now rewrite Eo|].
    intros x' y' _ _. rewrite M. unfold cell_index, exact_of, P_id. cbn [Z.eqb Pos.eqb]. f_equal. destruct (Z.eqb_spec ((x' mod 2 + y' mod 2) mod 2) 0) as [->|]; [reflexivity|]. lia.
Qed.

Theorem C75_equal limit u user a b l xy : (forall ps, incl (limit ps) ps) -> valid u a -> valid u b -> md_name a <> md_name b -> md_nfin a = md_nfin b -> asked a = asked b ->
  symmetric user a b -> blocks limit u GNone [a; b] = Some l -> In xy l ->
  exists rows, draw GNone user [a; b] xy = Some rows /\ 2 * units (md_name a) rows = asked a /\ 2 * units (md_name b) rows = asked b.
Proof.
  rewrite <- !C75_fingers. intros Hl Ha Hb N En Ef Sy Hbl Hi. assert (Et : total_size a = total_size b) by (unfold total_size; unfold fingers in Ef; rewrite En, <- !Z.mul_assoc, Ef; reflexivity).
  destruct xy as [x y]. destruct (proj1 (C75_variants limit u [a; b] l Hl (Forall_cons _ Ha (Forall_cons _ Hb (Forall_nil _))) ltac:(cbn; rewrite Et, Z.eqb_refl; reflexivity) Hbl) x y Hi) as (E & Hx & Hy).
  destruct (equal_draw user a b x y N Et Sy Hx) as (P & Hd & Hc & _). eexists. split; [exact Hd|].
  destruct (units_two a b (2 * x) y P x N ltac:(lia) ltac:(lia) (fun y' _ => Hc y')) as (U1 & U2).
  destruct (fingers_pos u a Ha) as (Hf & k & Hk). rewrite fold_fingers2, <- Ef, Hk in E. replace (- (k * 2 + k * 2)) with ((- k) * 4) in E by ring. rewrite Z.div_mul in E by lia.
  rewrite <- Ef, Hk. replace (2 * x - x) with x in U2 by lia. unfold lo, up in U1, U2. destruct (ordered a b); rewrite U1, U2; lia.
Qed.
Print Assumptions C75_equal.

(** * Common centroid *)
(** Twice the sum of the distances of the cells of a device to the middle of their row. *)
Definition row_moment (n : string) (r : list string) : Z :=
  fold_right Z.add 0 (map (fun kc : nat * string => if String.eqb n (snd kc) then 2 * Z.of_nat (fst kc) + 1 - Z.of_nat (length r) else 0) (combine (seq 0 (length r)) r)).
Definition moment (n : string) (rows : list (list string)) : Z := fold_right Z.add 0 (map (row_moment n) rows).
Definition zsum (f : Z -> Z) (n : nat) : Z := fold_right Z.add 0 (map (fun k => f (Z.of_nat k)) (seq 0 n)).
Lemma zsum_S f n : zsum f (Datatypes.S n) = zsum f n + f (Z.of_nat n).
Proof. unfold zsum. rewrite seq_S, map_app. cbn [map Nat.add]. generalize (map (fun k => f (Z.of_nat k)) (seq 0 n)). intros l. induction l as [|c l IH]; cbn [app fold_right]; [lia|]. rewrite IH. lia. Qed.
Lemma zsum_ext f g n : (forall i, 0 <= i < Z.of_nat n -> f i = g i) -> zsum f n = zsum g n.
Proof. intros H. unfold zsum. f_equal. apply map_ext_in. intros k Hk. apply in_seq in Hk. apply H. lia. Qed.
Lemma combine_map {A B} (f : A -> B) l : combine l (map f l) = map (fun a => (a, f a)) l.
Proof. induction l as [|a l IH]; [reflexivity|]. cbn. now rewrite IH. Qed.
Lemma row_moment_grid n nm X : 0 <= X -> row_moment n (map nm (zrange X)) = zsum (fun x => if String.eqb n (nm x) then 2 * x + 1 - X else 0) (Z.to_nat X).
Proof.
  intros HX. unfold row_moment, zsum. rewrite map_length, zrange_len. unfold zrange. rewrite map_map, combine_map, map_map. f_equal. apply map_ext. intros k. cbn [fst snd]. now rewrite Z2Nat.id.
Qed.
Lemma moment_grid n X Y nm : 0 <= X -> moment n (grid X Y nm) = zsum (fun y => zsum (fun x => if String.eqb n (nm x y) then 2 * x + 1 - X else 0) (Z.to_nat X)) (Z.to_nat Y).
Proof. intros HX. unfold moment, grid, zsum at 1. rewrite map_map. change (zrange Y) with (map Z.of_nat (seq 0 (Z.to_nat Y))). rewrite map_map. f_equal. apply map_ext. intros k. apply (row_moment_grid n (fun x => nm x (Z.of_nat k)) X HX). Qed.
Lemma sum_id (s : bool) y X k : zsum (fun x => if Bool.eqb s (P_id x y) then 2 * x + 1 - X else 0) (2 * k) =
  if Bool.eqb s (y mod 2 =? 0) then 2 * Z.of_nat k * Z.of_nat k - Z.of_nat k - Z.of_nat k * X else 2 * Z.of_nat k * Z.of_nat k + Z.of_nat k - Z.of_nat k * X.
Proof.
  induction k as [|k IH]; [cbn; destruct (Bool.eqb _ _); lia|]. replace (2 * Datatypes.S k)%nat with (Datatypes.S (Datatypes.S (2 * k))) by lia. rewrite !zsum_S, IH.
  replace (P_id (Z.of_nat (2 * k)) y) with (y mod 2 =? 0) by (unfold P_id; lia). replace (P_id (Z.of_nat (Datatypes.S (2 * k))) y) with (negb (y mod 2 =? 0)) by (unfold P_id; lia).
  destruct s, (y mod 2 =? 0); cbn [Bool.eqb negb]; nia.
Qed.
Lemma sum_cc (s : bool) y X k : zsum (fun x => if Bool.eqb s (P_cc x y) then 2 * x + 1 - X else 0) (4 * k) = 8 * Z.of_nat k * Z.of_nat k - 2 * Z.of_nat k * X.
Proof.
  induction k as [|k IH]; [cbn; lia|]. replace (4 * Datatypes.S k)%nat with (Datatypes.S (Datatypes.S (Datatypes.S (Datatypes.S (4 * k))))) by lia. rewrite !zsum_S, IH.
  set (z := y mod 2 =? 0).
  replace (P_cc (Z.of_nat (4 * k)) y) with z by (unfold P_cc, z; lia). replace (P_cc (Z.of_nat (Datatypes.S (4 * k))) y) with (negb z) by (unfold P_cc, z; lia).
  replace (P_cc (Z.of_nat (Datatypes.S (Datatypes.S (4 * k)))) y) with (negb z) by (unfold P_cc, z; lia). replace (P_cc (Z.of_nat (Datatypes.S (Datatypes.S (Datatypes.S (4 * k))))) y) with z by (unfold P_cc, z; lia).
  destruct s, z; cbn [Bool.eqb negb]; nia.
Qed.
Lemma sum_alt (s : bool) (v : Z) n : zsum (fun y => if Bool.eqb s (y mod 2 =? 0) then - v else v) n = if (Z.of_nat n mod 2 =? 0) then 0 else if s then - v else v.
Proof.
  induction n as [|n IH]; [reflexivity|]. rewrite zsum_S, IH. replace (Z.of_nat (Datatypes.S n) mod 2 =? 0) with (negb (Z.of_nat n mod 2 =? 0)) by lia. destruct (Z.of_nat n mod 2 =? 0), s; cbn [Bool.eqb negb]; lia.
Qed.
Lemma moment_pick a b (s : bool) X Y P : md_name a <> md_name b -> 0 <= X ->
  moment (md_name (if s then lo a b else up a b)) (grid X Y (pick P a b)) = zsum (fun y => zsum (fun x => if Bool.eqb s (P x y) then 2 * x + 1 - X else 0) (Z.to_nat X)) (Z.to_nat Y).
Proof.
  intros N HX. rewrite moment_grid by exact HX. apply zsum_ext. intros y _. apply zsum_ext. intros x _. pose proof (lo_up a b N) as N'. unfold pick.
  destruct s, (P x y); cbn [Bool.eqb]; rewrite ?String.eqb_refl; try reflexivity; destruct (String.eqb_spec (md_name (lo a b)) (md_name (up a b))), (String.eqb_spec (md_name (up a b)) (md_name (lo a b))); congruence.
Qed.
(** The default pattern of matched pairs and 'cc': both devices have the same centre, unless the number of pairs
    per row and the number of rows are both odd. *)
Theorem C75_centroid user a b x Y : md_name a <> md_name b -> total_size a = total_size b -> symmetric user a b -> user <> Some ncc -> 0 < x -> 0 < Y ->
  ((x mod 2 = 0 /\ user <> Some id_) \/ Y mod 2 = 0) ->
  exists rows, draw GNone user [a; b] (x, Y) = Some rows /\ moment (md_name a) rows = 0 /\ moment (md_name b) rows = 0.
Proof.
  intros N E Sy Hn Hx HY Hc. destruct (equal_draw user a b x Y N E Sy Hx) as (P & Hd & _ & HP). eexists. split; [exact Hd|].
  assert (G : forall s : bool, moment (md_name (if s then lo a b else up a b)) (grid (2 * x) Y (pick P a b)) = 0).
  { intros s. rewrite moment_pick by (try exact N; lia). assert (P = P_cc /\ x mod 2 = 0 \/ P = P_id /\ Y mod 2 = 0) as [(-> & Ex)|(-> & Ey)].
    { destruct (Z.eqb_spec (x mod 2) 0) as [e|e]; destruct user as [[]|]; cbn in Sy; try contradiction; try (left; now split); right; (split; [exact HP|]); destruct Hc as [(H1 & H2)|H1]; try exact H1; try contradiction; congruence. }
    - rewrite (zsum_ext _ (fun _ => 0)).
      + induction (Z.to_nat Y) as [|n IH]; [reflexivity|]. rewrite zsum_S, IH. reflexivity.
      + intros y _. replace (Z.to_nat (2 * x)) with (4 * Z.to_nat (x / 2))%nat by lia. rewrite sum_cc. replace (Z.of_nat (Z.to_nat (x / 2))) with (x / 2) by lia. nia.
    - rewrite (zsum_ext _ (fun y => if Bool.eqb s (y mod 2 =? 0) then - x else x)).
      + rewrite sum_alt. replace (Z.of_nat (Z.to_nat Y)) with Y by lia. now rewrite Ey.
      + intros y _. replace (Z.to_nat (2 * x)) with (2 * Z.to_nat x)%nat by lia. rewrite sum_id. replace (Z.of_nat (Z.to_nat x)) with x by lia. destruct (Bool.eqb _ _); lia. }
  pose proof (G true) as G1. pose proof (G false) as G2. cbn beta iota in G1, G2. unfold lo, up in G1, G2. destruct (ordered a b); split; assumption.
Qed.
Print Assumptions C75_centroid.
(** Otherwise the two centres are one cell apart. *)
Theorem C75_centroid_refuted a b x Y : md_name a <> md_name b -> same_params [a; b] = true -> 0 < x -> 0 < Y -> x mod 2 = 1 -> Y mod 2 = 1 ->
  exists rows, draw GNone None [a; b] (x, Y) = Some rows /\ Z.abs (moment (md_name a) rows) = x /\ moment (md_name b) rows = - moment (md_name a) rows.
Proof.
  intros N S Hx HY Ex Ey. destruct (same_fingers a b S) as (_ & E). destruct (equal_draw None a b x Y N E S Hx) as (P & Hd & _ & HP). eexists. split; [exact Hd|]. rewrite Ex in HP. cbn in HP. subst P.
  assert (G : forall s : bool, moment (md_name (if s then lo a b else up a b)) (grid (2 * x) Y (pick P_id a b)) = if s then - x else x).
  { intros s. rewrite moment_pick by (try exact N; lia). rewrite (zsum_ext _ (fun y => if Bool.eqb s (y mod 2 =? 0) then - x else x)).
    - rewrite sum_alt. replace (Z.of_nat (Z.to_nat Y)) with Y by lia. now rewrite Ey.
    - intros y _. replace (Z.to_nat (2 * x)) with (2 * Z.to_nat x)%nat by lia. rewrite sum_id. replace (Z.of_nat (Z.to_nat x)) with x by lia. destruct (Bool.eqb _ _); lia. }
  pose proof (G true) as G1. pose proof (G false) as G2. cbn beta iota in G1, G2. unfold lo, up in G1, G2. destruct (ordered a b); rewrite G1, G2; lia.
Qed.
Print Assumptions C75_centroid_refuted.

(** * Two transistors of different size *)
(** They get one row.  The device whose name comes first gets as many cells as the smaller one has fingers. *)
Theorem C75_ratio limit u user a b : valid u a -> valid u b -> md_name a <> md_name b -> md_nfin a = md_nfin b -> fingers a <> fingers b ->
  let n := - ((- (fingers a + fingers b)) / 4) in
  let m := Z.min (fingers a) (fingers b) in
  blocks limit u GNone [a; b] = Some [(n, 1)] /\
  exists rows, draw GNone user [a; b] (n, 1) = Some rows /\ units (md_name (lo a b)) rows = m /\ units (md_name (up a b)) rows = 2 * n - m.
Proof.
  intros Ha Hb N En Ef n m. destruct (fingers_pos u a Ha) as (Fa & ka & Ka), (fingers_pos u b Hb) as (Fb & kb & Kb).
  assert (Et : total_size a <> total_size b).
  { unfold total_size. rewrite <- En, <- !Z.mul_assoc. fold (fingers a) (fingers b). destruct Ha as (H1 & _). intros E. apply Ef. nia. }
  assert (Hn : no_units [a; b] = n) by apply fold_fingers2. assert (Hm0 : 0 < n) by (subst n; lia).
  split.
  - unfold blocks, base_shape. cbn [forallb]. rewrite (valid_ok u (md_nfin a) a Ha eq_refl), (valid_ok u (md_nfin a) b Hb (eq_sym En)). cbn [andb negb]. rewrite Hn. destruct (Z.ltb_spec n 0); [lia|].
    pose proof (Z.sqrt_spec n ltac:(lia)) as S. cbv zeta in S. pose proof (Z.sqrt_nonneg n) as Hs0. assert (Hs1 : 0 < Z.sqrt n) by nia.
    destruct (divide_down_spec n Hm0 (Z.to_nat (Z.sqrt n)) ltac:(lia)) as (r & -> & _). unfold unequal. destruct (Z.eqb_spec (total_size a) (total_size b)); [contradiction|]. reflexivity.
  - assert (M : middle [a; b] (2 * n) = Some (n - m / 2, n + m / 2)).
    { unfold middle. destruct (Z.eqb_spec (total_size a) (total_size b)); [contradiction|]. subst m. rewrite (Z.mul_comm 2 n), Z.div_mul by lia. destruct (Z.ltb_spec (fingers b) (fingers a)); [rewrite Z.min_r by lia|rewrite Z.min_l by lia]; reflexivity. }
    set (P := fun x (_ : Z) => (n - m / 2 <=? x) && (x <? n + m / 2)).
    exists (grid (2 * n) 1 (pick P a b)). split.
    + apply (draw_two _ _ _ _ _ _ _ (snd (choose_pattern 2 (same_params [a; b]) user n))); [exact N|reflexivity|]. intros x y Hx Hy. rewrite M. reflexivity.
    + assert (Em : m = 2 * (m / 2)) by (subst m; destruct (Z.min_spec (fingers a) (fingers b)) as [(_ & ->)|(_ & ->)]; lia).
      destruct (units_two a b (2 * n) 1 P m N ltac:(lia) ltac:(lia)) as (U1 & U2).
      * intros y _. unfold P. rewrite countb_between by (subst n m; lia). lia.
      * rewrite U1, U2. lia.
Qed.
Print Assumptions C75_ratio.
(** Those are the asked sizes only if the first name has twice the fingers of the second, and those are a multiple of four. *)
Theorem C75_ratio_exact_refuted u user a b rows : valid u a -> valid u b -> md_name a <> md_name b -> md_nfin a = md_nfin b -> fingers a <> fingers b ->
  draw GNone user [a; b] (no_units [a; b], 1) = Some rows ->
  (2 * units (md_name a) rows = fingers a /\ 2 * units (md_name b) rows = fingers b) <-> (fingers (lo a b) = 2 * fingers (up a b) /\ (4 | fingers (up a b))).
Proof.
  intros Ha Hb N En Ef Hd. destruct (C75_ratio (fun l => l) u user a b Ha Hb N En Ef) as (_ & rows' & Hd' & U1 & U2). rewrite fold_fingers2, Hd' in Hd. assert (rows' = rows) as -> by congruence.
  destruct (fingers_pos u a Ha) as (Fa & ka & Ka), (fingers_pos u b Hb) as (Fb & kb & Kb).
  assert (G : forall p q, fingers p + fingers q = fingers a + fingers b -> Z.min (fingers p) (fingers q) = Z.min (fingers a) (fingers b) -> 0 < fingers p -> 0 < fingers q -> fingers p <> fingers q -> units (md_name p) rows = Z.min (fingers a) (fingers b) -> units (md_name q) rows = 2 * - ((- (fingers a + fingers b)) / 4) - Z.min (fingers a) (fingers b) ->
     (2 * units (md_name p) rows = fingers p /\ 2 * units (md_name q) rows = fingers q) <-> (fingers p = 2 * fingers q /\ (4 | fingers q))).
  { intros p q <- <- Fp Fq Np V1 V2. rewrite V1, V2. split.
    - intros (H1 & H2). assert (H3 : fingers p = 2 * fingers q) by lia. split; [exact H3|]. exists (fingers q / 4). lia.
    - intros (H1 & k & H2). rewrite H1. lia. }
  unfold lo, up in *. destruct (ordered a b).
  - apply G; auto.
  - rewrite and_comm. apply G; auto; lia.
Qed.
Print Assumptions C75_ratio_exact_refuted.
(** In particular a smaller first device is drawn with twice its fingers, and a current mirror 1:2 as 1:1. *)
Theorem C75_mirror_refuted u user a b rows : valid u a -> valid u b -> ordered a b = true -> md_name a <> md_name b -> md_nfin a = md_nfin b -> fingers b = 2 * fingers a ->
  draw GNone user [a; b] (no_units [a; b], 1) = Some rows -> units (md_name a) rows = fingers a /\ fingers a / 2 <= units (md_name b) rows <= fingers a / 2 + 1.
Proof.
  intros Ha Hb O N En Ef Hd. destruct (fingers_pos u a Ha) as (Fa & ka & Ka). destruct (C75_ratio (fun l => l) u user a b Ha Hb N En ltac:(lia)) as (_ & rows' & Hd' & U1 & U2). rewrite fold_fingers2, Hd' in Hd. assert (rows' = rows) as -> by congruence.
  unfold lo, up in U1, U2. rewrite O in U1, U2. rewrite U1, U2, Z.min_l by lia. lia.
Qed.
Print Assumptions C75_mirror_refuted.

(** * Other findings *)
(** Two transistors with the same number of fingers, split differently into NF and M: no default variant with an
    even number of pairs per row can be drawn. *)
Theorem C75_mixed_refuted g a b x Y : exact_of g = None -> total_size a = total_size b -> same_params [a; b] = false -> 0 < x -> x mod 2 = 0 -> 0 < Y -> draw g None [a; b] (x, Y) = None.
Proof.
  intros Hg E S Hx Ex HY. unfold draw. cbn [fst snd length]. rewrite S. cbn [choose_pattern pattern_map]. replace (2 * x mod 4 =? 0) with true by lia. cbn [negb]. rewrite Hg. unfold middle. rewrite E, Z.eqb_refl.
  apply (mapM_none _ _ 0); [apply in_zrange; lia|]. apply (mapM_none _ _ 0); [apply in_zrange; lia|]. reflexivity.
Qed.
Print Assumptions C75_mixed_refuted.
(** A pattern of the user is replaced without notice when the number of pairs per row is odd. *)
Theorem C75_user_refuted g user a b x Y : x mod 2 = 1 -> draw g user [a; b] (x, Y) = draw g (Some id_) [a; b] (x, Y).
Proof. intros Ex. unfold draw. cbn [fst snd length choose_pattern]. replace (2 * x mod 4 =? 0) with false by lia. reflexivity. Qed.
Print Assumptions C75_user_refuted.
(** Without an exact pattern only the first two names are ever drawn. *)
Theorem C75_third_refuted g user ds xy rows n i : exact_of g = None -> draw g user ds xy = Some rows -> NoDup (sort_names ds) -> nth_error (sort_names ds) i = Some n -> (2 <= i)%nat -> units n rows = 0.
Proof.
  intros Hg Hd Hn Hi Hi2. unfold draw in Hd. destruct (choose_pattern _ _ _ _) as [X p]. rewrite Hg in Hd. unfold units. replace (filter (String.eqb n) (concat rows)) with (@nil string); [reflexivity|]. symmetry.
  destruct (filter (String.eqb n) (concat rows)) as [|c tl] eqn:E; [reflexivity|]. exfalso. assert (Hc : In c (filter (String.eqb n) (concat rows))) by (rewrite E; now left). apply filter_In in Hc as (Hc & En). apply String.eqb_eq in En as <-.
  apply in_concat in Hc as (r & Hr & Hc). destruct (In_nth_error _ _ Hr) as (k1 & Hk1). destruct (mapM_nth _ _ _ _ _ Hd Hk1) as (y & _ & Hy). destruct (In_nth_error _ _ Hc) as (k2 & Hk2). destruct (mapM_nth _ _ _ _ _ Hy Hk2) as (x & _ & Hx).
  destruct (cell_index _ _ _ _ _ _) as [k|] eqn:Ek; [|discriminate]. assert (k = i) as ->.
  { apply (proj1 (NoDup_nth_error (sort_names ds)) Hn); [apply nth_error_Some; congruence|congruence]. }
  revert Ek. unfold cell_index. set (q := match middle ds X with Some _ => 3 | None => p end). clearbody q.
  destruct (q =? 0); [intros [= <-]; lia|]. destruct (q =? 1); [intros [= <-]; lia|]. destruct (q =? 2); [intros [= <-]; lia|]. destruct (q =? 3); [destruct (middle ds X) as [[l r']|]; [|discriminate]; destruct ((l <=? x) && (x <? r')); intros [= <-]; lia|].
  destruct (q =? 4); [|discriminate]. destruct (x <? X / 2); intros [= <-]; lia.
Qed.
Print Assumptions C75_third_refuted.

(** * Exact patterns *)
Lemma nth_in_range {A} (l : list A) k : 0 <= k < Z.of_nat (length l) -> exists a, nth_error l (Z.to_nat k) = Some a.
Proof. intros H. destruct (nth_error l (Z.to_nat k)) eqn:E; [eauto|]. apply nth_error_None in E. lia. Qed.
(** The first pattern is drawn letter by letter, upper and lower case alike. *)
Theorem C75_exact pat ps user ds x Y X rows : X = (if (length ds =? 2)%nat then 2 * x else x) -> draw (GExact (pat :: ps)) user ds (x, Y) = Some rows ->
  forall i j, 0 <= i < X -> 0 <= j < Y -> exists prow c row, nth_error pat (Z.to_nat j) = Some prow /\ nth_error prow (Z.to_nat i) = Some c /\
    nth_error rows (Z.to_nat j) = Some row /\ nth_error row (Z.to_nat i) = nth_error (sort_names ds) (letter_index c) /\ letter_index c = letter_index (upcase c) /\ (letter_index c < length (sort_names ds))%nat.
Proof.
  intros -> Hd i j Hi Hj. unfold draw in Hd. destruct (choose_pattern (length ds) (same_params ds) user (fst (x, Y))) as [X p] eqn:Ec. cbn [fst snd exact_of] in *.
  assert (X = if (length ds =? 2)%nat then 2 * x else x) as EX by (unfold choose_pattern in Ec; destruct (length ds) as [|[|[|k]]]; cbn [Nat.eqb]; congruence). rewrite <- EX in Hi. clear EX Ec.
  pose proof (nth_zrange Y j Hj) as Nj. pose proof (nth_zrange X i Hi) as Ni.
  destruct (nth_in_range rows j) as (row & Er); [rewrite (mapM_length _ _ _ Hd), zrange_len; lia|]. destruct (mapM_nth _ _ _ _ _ Hd Er) as (j' & Ej & Hr). assert (j' = j) as -> by congruence.
  destruct (nth_in_range row i) as (n & En); [rewrite (mapM_length _ _ _ Hr), zrange_len; lia|]. destruct (mapM_nth _ _ _ _ _ Hr En) as (i' & Ei & Hc). assert (i' = i) as -> by congruence. cbn [cell_index] in Hc. unfold exact_at in Hc.
  destruct (nth_error pat (Z.to_nat j)) as [prow|] eqn:Ep; [|discriminate]. destruct (nth_error prow (Z.to_nat i)) as [c|] eqn:Ecc; [|discriminate]. destruct (is_letter c); [|discriminate].
  exists prow, c, row. repeat split; auto.
  - congruence.
  - unfold letter_index. f_equal. f_equal. destruct c as [[] [] [] [] [] [] [] []]; reflexivity.
  - apply nth_error_Some. congruence.
Qed.
Print Assumptions C75_exact.
(** A variant that comes from a second pattern, of another size, cannot be drawn. *)
Theorem C75_exact_second_refuted limit u pat ps user ds l xy : Forall (valid u) ds -> unequal ds = false -> blocks limit u (GExact (pat :: ps)) ds = Some l -> In xy l ->
  (forall row, nth_error pat 0 = Some row -> xy <> ((if (length ds =? 2)%nat then Z.of_nat (length row) / 2 else Z.of_nat (length row)), Z.of_nat (length pat))) ->
  draw (GExact (pat :: ps)) user ds xy = None.
Proof.
  intros Hv Hu Hb Hi Hne. unfold blocks in Hb. destruct (base_shape u (GExact (pat :: ps)) ds) as [[x0 y0]|] eqn:Eb; [|discriminate]. rewrite Hu in Hb. unfold add_primitive in Hb. cbn [fst snd] in Hb.
  destruct (sizes_of (pat :: ps)) as [ks|]; [|discriminate]. cbn [option_map] in Hb. assert (El : filter (fun p => existsb (pairZ_eqb p) ks) (pairs_of (x0 * y0)) = l) by congruence. rewrite <- El in Hi. apply filter_In in Hi as (Hi & _). clear Hb El. unfold pairs_of in Hi. rewrite nodup_In in Hi.
  unfold base_shape in Eb. destruct ds as [|d0 ds']; [discriminate|]. set (D := d0 :: ds') in *. destruct (negb _); [discriminate|]. destruct (no_units D <? 0); [discriminate|]. destruct (divide_down _ _) as [r|]; [|discriminate]. rewrite Hu in Eb.
  destruct pat as [|row rows]; [discriminate|]. injection Eb as Ex0 Ey. assert (Ex : (if (length D =? 2)%nat then Z.of_nat (length row) / 2 else Z.of_nat (length row)) = x0) by exact Ex0. clear Ex0. specialize (Hne row eq_refl). rewrite Ex in Hne. destruct xy as [x y].
  assert (Ly : y0 = Z.of_nat (length (row :: rows))) by (rewrite <- Ey; cbn [length]; lia).
  assert (Hpos : 0 < x0 * y0) by (destruct (Z.le_gt_cases (x0 * y0) 0) as [L|L]; [|exact L]; assert (x0 * y0 = 0) as E0 by (assert (0 <= x0) by (rewrite <- Ex; destruct (length D =? 2)%nat; lia); assert (0 < y0) by (rewrite Ly; cbn [length]; lia); nia); rewrite E0 in Hi; destruct Hi).
  apply C42_variants in Hi; [|exact Hpos]. destruct Hi as (Em & Hx & Hy).
  assert (Hcase : y0 < y \/ x0 < x) by (destruct (Z.lt_ge_cases y0 y); [now left|]; destruct (Z.lt_ge_cases x0 x); [now right|]; exfalso; apply Hne; rewrite <- Ly; f_equal; nia).
  unfold draw. destruct (choose_pattern _ _ _ _) as [X p] eqn:Ec. cbn [fst snd exact_of] in *.
  assert (EX : X = if (length D =? 2)%nat then 2 * x else x) by (unfold choose_pattern in Ec; destruct (length D) as [|[|[|k]]]; cbn [Nat.eqb]; congruence).
  assert (HX : 0 < X) by (rewrite EX; destruct (length D =? 2)%nat; lia).
  destruct Hcase as [L|L].
  - apply (mapM_none _ _ y0); [apply in_zrange; nia|]. apply (mapM_none _ _ 0); [apply in_zrange; lia|]. cbn [cell_index]. unfold exact_at. replace (nth_error (row :: rows) (Z.to_nat y0)) with (@None (list ascii)); [reflexivity|]. symmetry. apply nth_error_None. lia.
  - apply (mapM_none _ _ 0); [apply in_zrange; lia|]. apply (mapM_none _ _ (Z.of_nat (length row))); [apply in_zrange; rewrite EX, <- Ex in *; destruct (length D =? 2)%nat; lia|].
    cbn [cell_index]. unfold exact_at. cbn [Z.to_nat nth_error]. replace (nth_error row (Z.to_nat (Z.of_nat (length row)))) with (@None ascii); [reflexivity|]. symmetry. apply nth_error_None. lia.
Qed.
Print Assumptions C75_exact_second_refuted.

Local Open Scope string_scope.
Local Open Scope list_scope.
Definition dA : mosdev := mkMos "MA" 6 4 3 None 0.
Definition dB : mosdev := mkMos "MB" 6 4 3 None 0.
Definition dC : mosdev := mkMos "MC" 6 2 2 (Some 2) 0.
Definition ids (l : list (Z * Z)) := l.
(** The sizes of an exact pattern are not compared with those of the netlist: three cells to one, for equal devices. *)
Theorem C75_exact_sizes_refuted : exists pat rows, blocks ids 12 (GExact [pat]) [dA; dB] = Some [(2, 1)] /\ draw (GExact [pat]) None [dA; dB] (2, 1) = Some rows /\ units "MA" rows = 3 /\ units "MB" rows = 1.
Proof. exists [["A"; "A"; "a"; "B"]%char]. eexists. repeat split; vm_compute; reflexivity. Qed.
Print Assumptions C75_exact_sizes_refuted.
(** A matched pair has four default variants, all drawn; a mirror has one. *)
Example C75_nonvacuous :
  valid 12 dA /\ valid 12 dB /\ valid 12 dC /\ symmetric None dA dB /\ fingers dC = 8 /\ no_units [dA; dB] = 6 /\ unequal [dA; dB] = false /\ unequal [dA; dC] = true /\
  blocks ids 12 GNone [dA; dB] = Some [(2, 3); (3, 2); (1, 6); (6, 1)] /\
  draw GNone None [dA; dB] (2, 3) = Some [["MA"; "MB"; "MB"; "MA"]; ["MB"; "MA"; "MA"; "MB"]; ["MA"; "MB"; "MB"; "MA"]] /\
  draw GNone None [dA; dB] (3, 2) = Some [["MA"; "MB"; "MA"; "MB"; "MA"; "MB"]; ["MB"; "MA"; "MB"; "MA"; "MB"; "MA"]] /\
  blocks ids 12 GNone [dA; dC] = Some [(5, 1)] /\ draw GNone None [dA; dC] (5, 1) = Some [["MC"; "MA"; "MA"; "MA"; "MA"; "MA"; "MA"; "MA"; "MA"; "MC"]] /\
  same_params [dA; mkMos "MB" 6 6 2 None 0] = false /\ total_size dA = total_size (mkMos "MB" 6 6 2 None 0).
Proof.
  repeat split; try (vm_compute; reflexivity); try (vm_compute; congruence).
  - now exists 2.
  - now exists 2.
  - now exists 1.
Qed.
