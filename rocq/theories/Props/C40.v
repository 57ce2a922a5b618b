(** C40: scaling of placements. *)
From Coq Require Import String ZifyBool.
From Verif Require Import Base.Prelude Model.Transformation Model.ScalePlacement Spec.ScaleSpec.
Local Open Scope Z_scope.

(** The scaled number is the exact ratio rounded towards minus infinity; an error is logged exactly if it was rounded. *)
Theorem C40_scalar mul div v : 0 < div -> let (q, e) := scalar_rational_scaling mul div v in
  div * q <= mul * v < div * q + div /\ (e = false <-> ratio mul div v q).
Proof. intros H. unfold scalar_rational_scaling, ratio. pose proof (Z.div_mod (mul * v) div) as D. pose proof (Z.mod_pos_bound (mul * v) div H). split; [nia|]. rewrite negb_false_iff, Z.eqb_eq. nia. Qed.

Lemma sc_exact mul div v : 0 < div -> snd (scalar_rational_scaling mul div v) = false -> ratio mul div v (fst (scalar_rational_scaling mul div v)).
Proof. intros H E. pose proof (C40_scalar mul div v H) as S. destruct (scalar_rational_scaling mul div v). now apply S. Qed.
Lemma no_error mul div d v : snd (scale_with mul div d) = [] -> In v (numbers d) -> snd (scalar_rational_scaling mul div v) = false.
Proof.
  cbn [scale_with snd]. intros E H. destruct (snd (scalar_rational_scaling mul div v)) eqn:Ev; [|reflexivity]. exfalso. assert (In v (filter (fun w => snd (scalar_rational_scaling mul div w)) (numbers d))) as Hi by (apply filter_In; auto). rewrite E in Hi. destruct Hi.
Qed.

(** One number: back and forth is the identity exactly if the first scaling reports nothing, and otherwise one half unit smaller. *)
Theorem C40_number sf v : 0 < sf ->
  let '(q, e) := scalar_rational_scaling sf 2 v in let '(v', e') := scalar_rational_scaling 2 sf q in
  (e = false <-> v' = v) /\ (e = false -> e' = false) /\ (e = true -> v' = v - 1).
Proof.
  intros H. unfold scalar_rational_scaling. cbn beta iota. destruct (Z.eqb_spec ((sf * v) mod 2) 0) as [E|E]; cbn [negb].
  - assert (D : 2 * (sf * v / 2) = v * sf) by (pose proof (Z.div_mod (sf * v) 2); lia). rewrite D, Z.div_mul, Z.mod_mul by lia. split; [tauto|]. split; [reflexivity|discriminate].
  - assert (D : 2 * (sf * v / 2) = (v - 1) * sf + (sf - 1)) by (pose proof (Z.div_mod (sf * v) 2); pose proof (Z.mod_pos_bound (sf * v) 2); lia).
    rewrite D. rewrite Z.div_add_l, (Z.div_small (sf - 1)) by lia. split; [split; [discriminate|lia]|]. split; [discriminate|lia].
Qed.
(** The other way round. *)
Theorem C40_number_invert sf v : 0 < sf ->
  let '(q, e) := scalar_rational_scaling 2 sf v in let '(v', e') := scalar_rational_scaling sf 2 q in
  (e = false <-> v' = v) /\ (e = false -> e' = false) /\ (e = true -> v' < v /\ 2 * (v - v') < sf + 2).
Proof.
  intros H. unfold scalar_rational_scaling. cbn beta iota. pose proof (Z.div_mod (2 * v) sf). pose proof (Z.mod_pos_bound (2 * v) sf H).
  set (q := 2 * v / sf) in *. destruct (Z.eqb_spec ((2 * v) mod sf) 0) as [E|E]; cbn [negb].
  - assert (D : sf * q = v * 2) by lia. rewrite D, Z.div_mul, Z.mod_mul by lia. split; [tauto|]. split; [reflexivity|discriminate].
  - pose proof (Z.div_mod (sf * q) 2). pose proof (Z.mod_pos_bound (sf * q) 2). split; [split; [discriminate|lia]|]. split; [discriminate|lia].
Qed.

Section Map.
  Variables (f g : Z -> Z).
  Lemma map_id_in (A : Type) (h : A -> A) l : (forall x, In x l -> h x = x) -> map h l = l.
  Proof. induction l as [|a l IH]; intros H; [reflexivity|]. simpl. rewrite H by now left. f_equal. apply IH. intros x Hx. apply H. now right. Qed.
End Map.
Lemma round_trip mul div mul' div' d :
  (forall v, In v (numbers d) -> fst (scalar_rational_scaling mul' div' (fst (scalar_rational_scaling mul div v))) = v) ->
  fst (scale_with mul' div' (fst (scale_with mul div d))) = d.
Proof.
  intros Hn. destruct d as [ms ls]. cbn [scale_with fst p_modules p_leaves]. unfold numbers in Hn. cbn [p_modules p_leaves] in Hn. f_equal.
  - rewrite map_map. apply map_id_in. intros m Hm. assert (Hm' : forall v, In v (mod_numbers m) -> fst (scalar_rational_scaling mul' div' (fst (scalar_rational_scaling mul div v))) = v).
    { intros v Hv. apply Hn. apply in_or_app. left. apply in_flat_map. eauto. }
    destruct m as [n b is_]. unfold mod_numbers, rect_numbers in Hm'. cbn [m_bbox m_instances] in Hm'. unfold scale_mod, scale_rect. cbn [m_name m_bbox m_instances llx lly urx ury].
    rewrite !Hm' by (apply in_or_app; left; simpl; auto). f_equal; [now destruct b|]. rewrite map_map. apply map_id_in. intros i Hi. destruct i as [a c t]. unfold scale_inst, scale_tr. cbn [i_name i_ctn i_tr oX oY sX sY].
    rewrite !Hm' by (apply in_or_app; right; apply in_flat_map; eexists; split; [exact Hi|]; simpl; auto). now destruct t.
  - rewrite map_map. apply map_id_in. intros m Hm. assert (Hm' : forall v, In v (leaf_numbers m) -> fst (scalar_rational_scaling mul' div' (fst (scalar_rational_scaling mul div v))) = v).
    { intros v Hv. apply Hn. apply in_or_app. right. apply in_flat_map. eauto. }
    destruct m as [n b is_]. unfold leaf_numbers in Hm'. cbn [l_bbox l_terminals] in Hm'. unfold scale_leaf, scale_rect. cbn [l_name l_bbox l_terminals llx lly urx ury].
    rewrite !Hm' by (apply in_or_app; left; unfold rect_numbers; simpl; auto). f_equal; [now destruct b|]. rewrite map_map. apply map_id_in. intros i Hi. destruct i as [a t]. unfold scale_term, scale_rect. cbn [t_name t_rect llx lly urx ury].
    rewrite !Hm' by (apply in_or_app; right; apply in_flat_map; eexists; split; [exact Hi|]; unfold rect_numbers; simpl; auto). now destruct t.
Qed.

(** The whole placement round-trips in both directions if the first step logs no error. *)
Theorem C40_roundtrip d sf invert : 0 < sf -> let (d', log) := scale_placement_verilog d sf invert in log = [] ->
  fst (scale_placement_verilog d' sf (negb invert)) = d.
Proof.
  intros H. destruct (scale_placement_verilog d sf invert) as (d', log) eqn:E. intros ->. unfold scale_placement_verilog in *. destruct invert; cbn [negb]; assert (d' = fst (scale_with _ _ d)) as -> by (rewrite E; reflexivity); apply round_trip; intros v Hv.
  - assert (En : snd (scalar_rational_scaling 2 sf v) = false) by (apply (no_error _ _ d); [now rewrite E|assumption]). pose proof (C40_number_invert sf v H) as K. destruct (scalar_rational_scaling 2 sf v) as (q, e). cbn [fst snd] in *. destruct (scalar_rational_scaling sf 2 q). cbn [fst]. now apply K.
  - assert (En : snd (scalar_rational_scaling sf 2 v) = false) by (apply (no_error _ _ d); [now rewrite E|assumption]). pose proof (C40_number sf v H) as K. destruct (scalar_rational_scaling sf 2 v) as (q, e). cbn [fst snd] in *. destruct (scalar_rational_scaling 2 sf q). cbn [fst]. now apply K.
Qed.
(** When nothing is logged: coordinates that are multiples of the unit. *)
Theorem C40_log_empty d sf invert : 0 < sf -> (snd (scale_placement_verilog d sf invert) = [] <-> forall v, In v (numbers d) -> if invert then (sf | 2 * v) else (2 | sf * v)).
Proof.
  intros H. assert (G : forall mul div, 0 < div -> (snd (scale_with mul div d) = [] <-> forall v, In v (numbers d) -> (div | mul * v))).
  { intros mul div Hd. split.
    - intros E v Hv. pose proof (sc_exact mul div v Hd (no_error _ _ _ _ E Hv)) as R. unfold ratio in R. exists (fst (scalar_rational_scaling mul div v)). lia.
    - intros Hv. cbn [scale_with snd]. induction (numbers d) as [|v l IH]; [reflexivity|]. simpl. destruct (Hv v (or_introl eq_refl)) as (k & Hk). rewrite Hk, Z.mod_mul by lia. simpl. apply IH. intros w Hw. apply Hv. now right. }
  destruct invert; apply G; lia.
Qed.

(** Without errors the flattened layout is scaled uniformly, with the same instances. *)
Lemma reaches_scale mul div d n t path c t' : 0 < div -> snd (scale_with mul div d) = [] -> reaches d n t path c t' ->
  forall s, ratio mul div (oX t) (oX s) -> ratio mul div (oY t) (oY s) -> sX s = sX t -> sY s = sY t ->
  exists s', reaches (fst (scale_with mul div d)) n s path c s' /\ ratio mul div (oX t') (oX s') /\ ratio mul div (oY t') (oY s') /\ sX s' = sX t' /\ sY s' = sY t'.
Proof.
  intros Hd Hl R. induction R as [n t|m i n t path c t' Hm Hi Hn R IH]; intros s E1 E2 E3 E4; [exists s; split; [constructor|auto]|].
  destruct (IH (mult s (i_tr (scale_inst mul div i)))) as (s' & R' & F).
  - assert (ratio mul div (oX (i_tr i)) (fst (scalar_rational_scaling mul div (oX (i_tr i))))).
    { apply sc_exact; [assumption|]. apply (no_error _ _ d); [assumption|]. apply in_or_app. left. apply in_flat_map. exists m. split; [assumption|]. apply in_or_app. right. apply in_flat_map. exists i. split; [assumption|]. now left. }
    unfold ratio in *. cbn [mult scale_inst scale_tr i_tr oX sX]. rewrite E3. pose proof (f_equal (Z.mul (sX t)) H). lia.
  - assert (ratio mul div (oY (i_tr i)) (fst (scalar_rational_scaling mul div (oY (i_tr i))))).
    { apply sc_exact; [assumption|]. apply (no_error _ _ d); [assumption|]. apply in_or_app. left. apply in_flat_map. exists m. split; [assumption|]. apply in_or_app. right. apply in_flat_map. exists i. split; [assumption|]. right. now left. }
    unfold ratio in *. cbn [mult scale_inst scale_tr i_tr oY sY]. rewrite E4. pose proof (f_equal (Z.mul (sY t)) H). lia.
  - cbn [mult scale_inst scale_tr i_tr sX]. congruence.
  - cbn [mult scale_inst scale_tr i_tr sY]. congruence.
  - exists s'. split; [|exact F]. apply (reach_inst _ (scale_mod mul div m) (scale_inst mul div i)); [apply in_map; assumption|apply in_map; assumption|assumption|exact R'].
Qed.
Lemma shape_scale mul div d c b : 0 < div -> snd (scale_with mul div d) = [] -> shape d c b -> exists b', shape (fst (scale_with mul div d)) c b' /\ rect_ratio mul div b b'.
Proof.
  intros Hd Hl H. assert (Hr : forall r, incl (rect_numbers r) (numbers d) -> rect_ratio mul div r (scale_rect mul div r)).
  { intros r Hi. assert (forall v, In v (rect_numbers r) -> ratio mul div v (fst (scalar_rational_scaling mul div v))) as Q by (intros v Hv; apply sc_exact; [assumption|]; apply (no_error _ _ d); auto).
    unfold rect_ratio. cbn [scale_rect llx lly urx ury]. repeat split; apply Q; unfold rect_numbers; simpl; auto. }
  exists (scale_rect mul div b). destruct H as [(l & Hi & En & [->|(t & Ht & ->)])|(m & Hi & En & ->)].
  - split.
    + left. exists (scale_leaf mul div l). split; [now apply in_map|]. split; [assumption|]. now left.
    + apply Hr. intros v Hv. apply in_or_app. right. apply in_flat_map. exists l. split; [assumption|]. apply in_or_app. now left.
  - split.
    + left. exists (scale_leaf mul div l). split; [now apply in_map|]. split; [assumption|]. right. exists (scale_term mul div t). split; [now apply in_map|reflexivity].
    + apply Hr. intros v Hv. apply in_or_app. right. apply in_flat_map. exists l. split; [assumption|]. apply in_or_app. right. apply in_flat_map. eauto.
  - split.
    + right. exists (scale_mod mul div m). split; [now apply in_map|]. split; [assumption|reflexivity].
    + apply Hr. intros v Hv. apply in_or_app. left. apply in_flat_map. exists m. split; [assumption|]. apply in_or_app. now left.
Qed.
Theorem C40_flat d sf invert top path c r : 0 < sf -> let (d', log) := scale_placement_verilog d sf invert in log = [] -> flat_shape d top path c r ->
  exists r', flat_shape d' top path c r' /\ if invert then rect_ratio 2 sf r r' else rect_ratio sf 2 r r'.
Proof.
  intros H. destruct (scale_placement_verilog d sf invert) as (d', log) eqn:E. intros ->.
  assert (G : forall mul div, 0 < div -> scale_with mul div d = (d', []) -> flat_shape d top path c r -> exists r', flat_shape d' top path c r' /\ rect_ratio mul div r r').
  { intros mul div Hd Es (t & b & R & S & ->). assert (Hl : snd (scale_with mul div d) = []) by now rewrite Es. replace d' with (fst (scale_with mul div d)) by now rewrite Es.
    destruct (reaches_scale _ _ _ _ _ _ _ _ Hd Hl R (mkTr 0 0 1 1)) as (s & R' & F1 & F2 & F3 & F4); [unfold ratio; simpl; lia|unfold ratio; simpl; lia|reflexivity|reflexivity|].
    destruct (shape_scale _ _ _ _ _ Hd Hl S) as (b' & S' & (Q1 & Q2 & Q3 & Q4)). exists (hitRect s b'). split; [exists s, b'; auto|]. unfold rect_ratio, ratio in *. cbn [hitRect hit llx lly urx ury]. rewrite F3, F4. pose proof (f_equal (Z.mul (sX t)) Q1). pose proof (f_equal (Z.mul (sX t)) Q3). pose proof (f_equal (Z.mul (sY t)) Q2). pose proof (f_equal (Z.mul (sY t)) Q4). repeat split; lia. }
  unfold scale_placement_verilog in E. destruct invert; apply G; first [assumption|lia].
Qed.

(** Even with rounding, boxes at the origin that did not overlap do not overlap afterwards. *)
Lemma floor_add div a b : 0 < div -> a / div + b / div <= (a + b) / div.
Proof. intros H. apply Z.div_le_lower_bound; [assumption|]. pose proof (Z.mul_div_le a div H). pose proof (Z.mul_div_le b div H). lia. Qed.
Lemma floor_sub div a b : 0 < div -> (a - b) / div <= a / div - b / div.
Proof. intros H. pose proof (floor_add div (a - b) b H). replace (a - b + b) with a in * by lia. lia. Qed.
Section NoOverlap.
  Variables (mul div : Z).
  Hypotheses (Hm : 0 <= mul) (Hd : 0 < div).
  Notation sc v := (fst (scalar_rational_scaling mul div v)).
  Lemma sc_add a b : sc a + sc b <= sc (a + b).
  Proof. unfold scalar_rational_scaling. cbn [fst]. rewrite Z.mul_add_distr_l. now apply floor_add. Qed.
  Lemma sc_sub a b : sc (a - b) <= sc a - sc b.
  Proof. unfold scalar_rational_scaling. cbn [fst]. rewrite Z.mul_sub_distr_l. now apply floor_sub. Qed.
  Lemma sc_mono a b : a <= b -> sc a <= sc b.
  Proof. intros H. unfold scalar_rational_scaling. cbn [fst]. apply Z.div_le_mono; [assumption|nia]. Qed.
  Lemma sc_zero : sc 0 = 0.
  Proof. unfold scalar_rational_scaling. cbn [fst]. rewrite Z.mul_0_r. reflexivity. Qed.
  (** The box of the scaled instance lies in the scaled box, one axis. *)
  Lemma shrink s o w : (s = 1 \/ s = -1) -> 0 <= w -> let a := Z.min o (s * w + o) in let b := Z.max o (s * w + o) in
    sc a <= Z.min (sc o) (s * sc w + sc o) /\ Z.max (sc o) (s * sc w + sc o) <= sc b.
  Proof.
    intros Hs Hw a b. pose proof (sc_mono 0 w Hw) as W. rewrite sc_zero in W. pose proof (sc_add o w). pose proof (sc_sub o w). destruct Hs as [-> | ->].
    - replace a with o by lia. replace b with (o + w) by lia. lia.
    - replace a with (o - w) by lia. replace b with o by lia. lia.
  Qed.
  Lemma inst_shrinks i b : at_origin b -> reflection (i_tr i) -> within (inst_box (scale_inst mul div i) (scale_rect mul div b)) (scale_rect mul div (inst_box i b)).
  Proof.
    intros (E1 & E2 & E3 & E4) (R1 & R2). destruct b as [x0 y0 x1 y1]. simpl in E1, E2, E3, E4. subst x0 y0. destruct i as [nm ct [ox oy sx sy]]. cbn [i_tr sX sY] in *.
    assert (C : forall a b c d', canonical (mkRect a b c d') = mkRect (Z.min a c) (Z.min b d') (Z.max a c) (Z.max b d')).
    { intros. unfold canonical. simpl. destruct (c <? a) eqn:Q1, (d' <? b) eqn:Q2; simpl; f_equal; lia. }
    pose proof (shrink sx ox x1 R1 E3) as (A1 & A2). pose proof (shrink sy oy y1 R2 E4) as (B1 & B2). unfold inst_box, hitRect, hit. cbn [scale_inst scale_tr scale_rect i_tr oX oY sX sY llx lly urx ury]. rewrite sc_zero, !Z.mul_0_r. rewrite !C. cbn [scale_rect llx lly urx ury]. unfold within. cbn [llx lly urx ury]. rewrite !Z.add_0_l. cbn [scale_rect llx lly urx ury]. tauto.
  Qed.
End NoOverlap.
Theorem C40_no_overlap mul div i i' b b' : 0 <= mul -> 0 < div -> at_origin b -> at_origin b' -> reflection (i_tr i) -> reflection (i_tr i') ->
  apart (inst_box i b) (inst_box i' b') -> apart (inst_box (scale_inst mul div i) (scale_rect mul div b)) (inst_box (scale_inst mul div i') (scale_rect mul div b')).
Proof.
  intros Hm Hd Ob Ob' Ri Ri' Ha. pose proof (inst_shrinks mul div Hm Hd i b Ob Ri) as (A1 & A2 & A3 & A4). pose proof (inst_shrinks mul div Hm Hd i' b' Ob' Ri') as (B1 & B2 & B3 & B4).
  cbn [scale_rect llx lly urx ury] in *. unfold apart in *. pose proof (sc_mono mul div Hm Hd). destruct Ha as [Ha|[Ha|[Ha|Ha]]]; apply (H _ _) in Ha; lia.
Qed.
(** The parent box still contains them. *)
Theorem C40_inside mul div i b p : 0 <= mul -> 0 < div -> at_origin b -> reflection (i_tr i) -> within (inst_box i b) p -> within (inst_box (scale_inst mul div i) (scale_rect mul div b)) (scale_rect mul div p).
Proof.
  intros Hm Hd Ob Ri (W1 & W2 & W3 & W4). pose proof (inst_shrinks mul div Hm Hd i b Ob Ri) as (A1 & A2 & A3 & A4). cbn [scale_rect llx lly urx ury] in *. unfold within. cbn [scale_rect llx lly urx ury]. pose proof (sc_mono mul div Hm Hd) as M.
  apply M in W1, W2, W3, W4. lia.
Qed.
(** For boxes that do not start at the origin, rounding can make instances overlap. *)
Theorem C40_overlap_refuted : exists sf i i' b b', reflection (i_tr i) /\ reflection (i_tr i') /\ apart (inst_box i b) (inst_box i' b') /\
  ~ apart (inst_box (scale_inst 2 sf i) (scale_rect 2 sf b)) (inst_box (scale_inst 2 sf i') (scale_rect 2 sf b')).
Proof.
  exists 10, (mkInst "a" "A" (mkTr 0 0 1 1)), (mkInst "b" "B" (mkTr 6 0 1 1)), (mkRect 0 0 10 10), (mkRect 4 0 14 10). split; [|split; [|split]]; vm_compute; intuition congruence.
Qed.
(** Rounding moves pins: touching shapes of two leaves come apart. *)
Theorem C40_open_refuted : exists sf i i' b b', reflection (i_tr i) /\ reflection (i_tr i') /\ at_origin b /\ urx (inst_box i b) = llx (inst_box i' b') /\
  urx (inst_box (scale_inst 2 sf i) (scale_rect 2 sf b)) < llx (inst_box (scale_inst 2 sf i') (scale_rect 2 sf b')).
Proof.
  exists 10, (mkInst "a" "A" (mkTr 4 0 1 1)), (mkInst "b" "B" (mkTr 10 0 1 1)), (mkRect 0 0 6 10), (mkRect 0 0 10 10). split; [|split; [|split; [|split]]]; vm_compute; intuition congruence.
Qed.

Definition pl : placement := mkPl
  [mkMod "top" (mkRect 0 0 40 20) [mkInst "x0" "sub" (mkTr 20 0 (-1) 1); mkInst "x1" "sub" (mkTr 20 0 1 1)]; mkMod "sub" (mkRect 0 0 20 20) [mkInst "u" "nmos" (mkTr 10 20 1 (-1))]]
  [mkLeaf "nmos" (mkRect 0 0 10 10) [mkTerm "D" (mkRect (-2) 0 2 10)]].
Example C40_nonvacuous : snd (scale_placement_verilog pl 5 false) = [] /\ snd (scale_placement_verilog pl 7 true) <> [] /\
  (exists r, flat_shape pl "top" ["x0"; "u"]%string "nmos" r /\ r <> mkRect 0 0 10 10) /\
  reflection (mkTr 20 0 (-1) 1) /\ at_origin (mkRect 0 0 20 20) /\ apart (inst_box (mkInst "x0" "sub" (mkTr 20 0 (-1) 1)) (mkRect 0 0 20 20)) (inst_box (mkInst "x1" "sub" (mkTr 20 0 1 1)) (mkRect 0 0 20 20)).
Proof.
  split; [reflexivity|]. split; [discriminate|]. split.
  - exists (mkRect 10 20 0 10). split; [|discriminate]. exists (mkTr 10 20 (-1) (-1)), (mkRect 0 0 10 10). split; [|split; [|reflexivity]].
    + eapply (reach_inst _ _ (mkInst "x0" "sub" (mkTr 20 0 (-1) 1))); [now left|now left|reflexivity|]. eapply (reach_inst _ _ (mkInst "u" "nmos" (mkTr 10 20 1 (-1)))); [right; now left|now left|reflexivity|]. constructor.
    + left. eexists. split; [now left|]. split; [reflexivity|now left].
  - split; [split; simpl; auto|]. split; [unfold at_origin; simpl; lia|]. unfold apart. vm_compute. left. discriminate.
Qed.

Print Assumptions C40_scalar.
Print Assumptions C40_number.
Print Assumptions C40_number_invert.
Print Assumptions C40_roundtrip.
Print Assumptions C40_log_empty.
Print Assumptions C40_flat.
Print Assumptions C40_no_overlap.
Print Assumptions C40_inside.
Print Assumptions C40_overlap_refuted.
Print Assumptions C40_open_refuted.
