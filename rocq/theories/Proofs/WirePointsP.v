(** The points that are blocked. *)
From Coq Require Import ZArith ZifyBool.
From Verif Require Import Base.Prelude Model.GlobalGrid Model.AStar Model.DetailGrid Model.WireDraw Spec.AStarSpec Spec.DetailGridSpec Spec.WireDrawSpec Proofs.GridUseP Proofs.DetailLinkP.
Local Open Scope Z_scope.

Lemma floor_spec a u : 0 < u -> mult u (floor_to a u) /\ floor_to a u <= a < floor_to a u + u.
Proof. intros H. unfold floor_to. split; [now exists (a / u)|]. pose proof (Z.div_mod a u). pose proof (Z.mod_pos_bound a u H). lia. Qed.
Lemma ceil_spec a u : 0 < u -> mult u (ceil_to a u) /\ ceil_to a u - u < a <= ceil_to a u.
Proof. intros H. unfold ceil_to. split; [now exists (- (- a / u))|]. pose proof (Z.div_mod (- a) u). pose proof (Z.mod_pos_bound (- a) u H). lia. Qed.
Lemma mult_gap u a b : 0 < u -> mult u a -> mult u b -> a < b -> a + u <= b.
Proof. intros H (p & ->) (q & ->) L. assert (p + 1 <= q) by nia. nia. Qed.
Lemma first_spec lo u : 0 < u -> mult u (first_line lo u) /\ lo < first_line lo u <= lo + u.
Proof.
  intros H. unfold first_line. pose proof (Z.quot_rem' lo u) as E. pose proof (Z.rem_bound_abs lo u ltac:(lia)) as B. set (q := Z.quot lo u) in *. set (r := Z.rem lo u) in *. clearbody q r.
  destruct (r =? 0) eqn:E0; [split; [exists (q + 1); nia|lia]|]. destruct (q * u <? lo) eqn:E1; (split; [eexists; reflexivity|nia]).
Qed.
Lemma upto_mult lo hi u z : 0 < u -> mult u lo -> (In z (upto lo hi u) <-> mult u z /\ lo <= z <= hi).
Proof.
  intros H M. unfold upto. rewrite (starts_in _ _ _ _ H). split.
  - intros (i & -> & B). destruct M as (q & ->). split; [exists (q + Z.of_nat i); lia|]. nia.
  - intros ((q & ->) & B). destruct M as (p & ->). assert (p <= q) by nia. exists (Z.to_nat (q - p)). rewrite Z2Nat.id by lia. split; [ring|lia].
Qed.
Lemma line_places lo hi u c : 0 < u -> (In c (upto (first_line lo u) (hi - 1) u) <-> mult u c /\ lo < c < hi).
Proof.
  intros H. destruct (first_spec lo u H) as [M B]. rewrite (upto_mult _ _ _ _ H M). split; intros [M' B']; (split; [exact M'|]); [lia|].
  assert (first_line lo u <= c); [|lia]. destruct (Z.lt_ge_cases c (first_line lo u)) as [L|L]; [|exact L]. pose proof (mult_gap u _ _ H M' M L). lia.
Qed.
Definition nothing (lo hi u : Z) : Prop := forall z, mult u z -> ~ lo <= z <= hi.
Lemma nothing_iff lo hi u : 0 < u -> (nothing lo hi u <-> hi < ceil_to lo u).
Proof.
  intros H. destruct (ceil_spec lo u H) as [M B]. split; intros N.
  - destruct (Z.lt_ge_cases hi (ceil_to lo u)) as [L|L]; [exact L|]. exfalso. apply (N _ M). lia.
  - intros z Mz Bz. destruct (Z.lt_ge_cases z (ceil_to lo u)) as [L|L]; [|lia]. pose proof (mult_gap u _ _ H Mz M L). lia.
Qed.
Lemma places_some lo hi u other z : 0 < u -> ~ nothing lo hi u -> (In z (cross_places lo hi u other) <-> mult u z /\ lo <= z <= hi).
Proof.
  intros H N. rewrite (nothing_iff _ _ _ H) in N. unfold cross_places. destruct (hi <? ceil_to lo u) eqn:E; [lia|]. destruct (ceil_spec lo u H) as [M B]. rewrite (upto_mult _ _ _ _ H M). split; intros [Mz Bz]; (split; [exact Mz|]); [lia|].
  destruct (Z.lt_ge_cases z (ceil_to lo u)) as [L|L]; [|lia]. pose proof (mult_gap u _ _ H Mz M L). lia.
Qed.
Lemma places_floor lo hi u z : 0 < u -> (In z (cross_places lo hi u (floor_to lo u)) <-> mult u z /\ (lo <= z <= hi \/ nothing lo hi u /\ z <= lo < z + u)).
Proof.
  intros H. assert (nothing lo hi u \/ ~ nothing lo hi u) as [N|N] by (rewrite (nothing_iff _ _ _ H); lia).
  - assert (hi <? ceil_to lo u = true) as E by (apply (nothing_iff _ _ _ H) in N; lia). unfold cross_places. rewrite E. destruct (floor_spec lo u H) as [M B].
    assert (ceil_to (floor_to lo u) u = floor_to lo u) as Ef. { destruct (ceil_spec (floor_to lo u) u H) as [M2 B2]. destruct (Z.lt_ge_cases (floor_to lo u) (ceil_to (floor_to lo u) u)) as [L|L]; [pose proof (mult_gap u _ _ H M M2 L); lia|lia]. }
    rewrite Ef, (upto_mult _ _ _ _ H M). split.
    + intros [Mz Bz]. split; [exact Mz|]. right. split; [exact N|]. lia.
    + intros [Mz [Bz|[_ Bz]]]; [now destruct (N z Mz)|]. split; [exact Mz|]. destruct (Z.lt_total z (floor_to lo u)) as [L|[L|L]]; [pose proof (mult_gap u _ _ H Mz M L); lia|lia|pose proof (mult_gap u _ _ H M Mz L); lia].
  - rewrite (places_some _ _ _ _ _ H N). tauto.
Qed.

Section R.
Variable R : rules.
Hypothesis P : positive R.
Lemma nexts_in m m' : In m' (nexts R m) <-> beside R m m'.
Proof. unfold nexts, beside. rewrite in_app_iff. destruct (m =? 0) eqn:E0; destruct (m =? r_layers R - 1) eqn:E1; cbn; split; intros H; try tauto; intuition lia. Qed.
(** The points of one obstacle, with the space of Grid_Inactive_new. *)
Definition obs_points (o : sink) : list (Z * Z) :=
  let m := s_metal o in if r_vert R m then rect_points R m (s_x0 o) (s_y0 o - r_ee R m) (s_x1 o) (s_y1 o + r_ee R m) else rect_points R m (s_x0 o - r_ee R m) (s_y0 o) (s_x1 o + r_ee R m) (s_y1 o).
Lemma points_ok o x y : broad R o -> (In (x, y) (obs_points o) <-> touched R o x y).
Proof.
  intros B. unfold obs_points, rect_points, touched, broad, no_place, lo_end, hi_end, gap_ends, across, along in *. set (m := s_metal o) in *. pose proof (po_unit R P m) as Hu. pose proof (po_cross R P) as Hc. set (h := Z.quot (r_width R m) 2) in *. destruct (r_vert R m) eqn:V.
  - rewrite in_flat_map. split.
    + intros (c & Hx & H). rewrite (line_places _ _ _ _ Hu) in Hx. apply in_flat_map in H. destruct H as (m' & Hm & H). apply in_map_iff in H. destruct H as (z & E & H). injection E as -> ->. apply nexts_in in Hm. apply (places_floor _ _ _ _ (Hc m')) in H.
      destruct H as [Mz H]. split; [tauto|]. split; [lia|]. exists m'. split; [exact Hm|]. split; [exact Mz|]. destruct H as [H|[N H]]; [left; lia|right; split; [|lia]]. intros w Mw Bw. apply (N w Mw). lia.
    + intros (Mx & Bx & m' & Hm & Mz & H). exists x. split; [apply (line_places _ _ _ _ Hu); tauto|]. apply in_flat_map. exists m'. split; [now apply nexts_in|]. apply in_map_iff. exists y. split; [reflexivity|]. apply (places_floor _ _ _ _ (Hc m')). split; [exact Mz|].
      destruct H as [H|[N H]]; [left; lia|right; split; [|lia]]. intros w Mw Bw. apply (N w Mw). lia.
  - specialize (B eq_refl). rewrite in_flat_map.
    assert (forall m', beside R m m' -> ~ nothing (s_x0 o - r_ee R m) (s_x1 o + r_ee R m) (r_cross R m')) as B' by (intros m' Hm N; apply (B m' Hm); intros w Mw Bw; apply (N w Mw); lia). split.
    + intros (c & Hx & H). rewrite (line_places _ _ _ _ Hu) in Hx. apply in_flat_map in H. destruct H as (m' & Hm & H). apply in_map_iff in H. destruct H as (z & E & H). injection E as -> ->. apply nexts_in in Hm. apply (places_some _ _ _ _ _ (Hc m') (B' m' Hm)) in H.
      destruct H as [Mz H]. split; [tauto|]. split; [lia|]. exists m'. split; [exact Hm|]. split; [exact Mz|]. left. lia.
    + intros (Mx & Bx & m' & Hm & Mz & H). exists y. split; [apply (line_places _ _ _ _ Hu); tauto|]. apply in_flat_map. exists m'. split; [now apply nexts_in|]. apply in_map_iff. exists x. split; [reflexivity|]. apply (places_some _ _ _ _ _ (Hc m') (B' m' Hm)). split; [exact Mz|].
      destruct H as [H|[N H]]; [lia|]. exfalso. now apply (B m' Hm).
Qed.

(** *** The nodes *)
Definition spot (v : vertex) : Z * Z * Z := (metal v, vx v, vy v).
Lemma node_at_spot m x y vs : forall vs' i, map spot vs = map spot vs' -> node_at m x y i vs = node_at m x y i vs'.
Proof. induction vs as [|v vs IH]; intros [|v' vs'] i E; try discriminate; [reflexivity|]. cbn in E. injection E as E1 E2 E3 E. cbn [node_at]. rewrite E1, E2, E3. destruct (_ && _); [reflexivity|]. now apply IH. Qed.
Lemma alter_spot f i vs : (forall v, spot (f v) = spot v) -> map spot (alter_at f i vs) = map spot vs.
Proof. intros H. revert i. induction vs as [|v vs IH]; intros [|i]; cbn; try reflexivity; [now rewrite H|now rewrite IH]. Qed.
Definition hit (vs : list vertex) (obs : list sink) (u : nat) : bool := existsb (fun o => existsb (fun p => (map_index vs (s_metal o) p =? u)%nat) (obs_points o)) obs.
Lemma map_index_flat vs vs' m p : map spot vs = map spot vs' -> map_index vs m p = map_index vs' m p.
Proof. intros E. unfold map_index. now rewrite (node_at_spot m (fst p) (snd p) vs vs' O E). Qed.
Lemma off_flat i vs : map spot (alter_at off_node i vs) = map spot vs.
Proof. apply alter_spot. reflexivity. Qed.
Lemma off_off v : off_node (off_node v) = off_node v.
Proof. reflexivity. Qed.
Lemma off_points m ps : forall vs, let r := fold_left (fun vs p => alter_at off_node (map_index vs m p) vs) ps vs in map spot r = map spot vs /\
  forall u, nth_error r u = option_map (fun v => if existsb (fun p => (map_index vs m p =? u)%nat) ps then off_node v else v) (nth_error vs u).
Proof.
  induction ps as [|p ps IH]; intros vs; cbn [fold_left existsb].
  - split; [reflexivity|]. intros u. now destruct (nth_error vs u).
  - destruct (IH (alter_at off_node (map_index vs m p) vs)) as [F N]. split; [now rewrite F, off_flat|]. intros u. rewrite N, alter_nth.
    assert (existsb (fun q => (map_index (alter_at off_node (map_index vs m p) vs) m q =? u)%nat) ps = existsb (fun q => (map_index vs m q =? u)%nat) ps) as ->.
    { clear. induction ps as [|q ps IH]; [reflexivity|]. cbn. rewrite IH. now rewrite (map_index_flat _ vs m q (off_flat _ vs)). }
    rewrite Nat.eqb_sym. destruct (map_index vs m p =? u)%nat; destruct (nth_error vs u) as [v|]; cbn; try reflexivity. now destruct (existsb _ ps).
Qed.
Lemma inactive_nth obs : forall vs, map spot (Grid_Inactive_new R obs vs) = map spot vs /\
  forall u, nth_error (Grid_Inactive_new R obs vs) u = option_map (fun v => if hit vs obs u then off_node v else v) (nth_error vs u).
Proof.
  induction obs as [|o obs IH]; intros vs; [split; [reflexivity|]; intros u; cbn; now destruct (nth_error vs u)|].
  unfold Grid_Inactive_new. cbn [fold_left]. cbv zeta.
  assert ((s_metal o <? r_layers R - 1) || (0 <? s_metal o) = true) as -> by (pose proof (po_layers R P); lia).
  set (vs' := if r_vert R (s_metal o) then _ else _).
  assert (vs' = fold_left (fun vs p => alter_at off_node (map_index vs (s_metal o) p) vs) (obs_points o) vs) as E by (unfold vs', Inactivate, obs_points; now destruct (r_vert R (s_metal o))).
  destruct (off_points (s_metal o) (obs_points o) vs) as [F N]. rewrite <- E in F, N. clearbody vs'. destruct (IH vs') as [F' N']. unfold Grid_Inactive_new in F', N'. split; [now rewrite F', F|]. intros u. rewrite N', N.
  assert (hit vs' obs u = hit vs obs u) as ->.
  { unfold hit. clear - F. induction obs as [|o' obs IH]; [reflexivity|]. cbn. rewrite IH. f_equal. clear IH. induction (obs_points o') as [|q ps IH]; [reflexivity|]. cbn. rewrite IH. now rewrite (map_index_flat vs' vs _ q F). }
  unfold hit. cbn [existsb]. destruct (nth_error vs u) as [v|]; cbn; [|reflexivity]. destruct (existsb (fun p => (map_index vs (s_metal o) p =? u)%nat) (obs_points o)); destruct (existsb _ obs); reflexivity.
Qed.
Lemma map_index_first vs m p u : (u < length vs)%nat -> (map_index vs m p = u <-> first_sits vs u m (fst p) (snd p) \/ u = O /\ forall k, ~ sits vs k m (fst p) (snd p)).
Proof.
  intros L. unfold map_index. destruct (node_at m (fst p) (snd p) O vs) as [i|] eqn:E.
  - destruct (node_at_some _ _ _ _ _ _ E) as (_ & S1 & S2). rewrite Nat.sub_0_r in S1, S2. split.
    + intros <-. left. now split.
    + intros [[H1 H2]|[_ H]]; [|now destruct (H i)]. destruct (Nat.lt_total i u) as [X|[X|X]]; [now destruct (H2 i X)|exact X|now destruct (S2 u X)].
  - pose proof (node_at_none _ _ _ _ _ E) as N. split; [intros <-; right; now split|]. intros [[H1 _]|[-> _]]; [now destruct (N u)|reflexivity].
Qed.
Lemma hit_ok vs obs u : Forall (broad R) obs -> (u < length vs)%nat ->
  (hit vs obs u = true <-> exists o x y, In o obs /\ touched R o x y /\ (first_sits vs u (s_metal o) x y \/ u = O /\ forall k, ~ sits vs k (s_metal o) x y)).
Proof.
  intros B L. rewrite Forall_forall in B. unfold hit. rewrite existsb_exists. split.
  - intros (o & Ho & H). apply existsb_exists in H. destruct H as ([x y] & Hp & H). apply Nat.eqb_eq, (map_index_first _ _ _ _ L) in H. exists o, x, y. split; [exact Ho|]. split; [now apply points_ok; [apply B|]|exact H].
  - intros (o & x & y & Ho & Ht & H). exists o. split; [exact Ho|]. apply existsb_exists. exists (x, y). split; [apply points_ok; [now apply B|exact Ht]|]. apply Nat.eqb_eq, (map_index_first _ _ _ _ L). exact H.
Qed.
Lemma off_fixed v : fixed v (off_node v).
Proof. repeat split. Qed.
(** With one node at each place, blocking is a list of points. *)
Lemma sits_of vs u v : nth_error vs u = Some v -> sits vs u (metal v) (vx v) (vy v).
Proof. intros H. exists v. auto. Qed.
Lemma nth_ext_error {A} (l : list A) : forall l', (forall u, nth_error l u = nth_error l' u) -> l = l'.
Proof. induction l as [|a l IH]; intros [|b l'] H; [reflexivity|specialize (H O); discriminate|specialize (H O); discriminate|]. pose proof (H O) as H0. cbn in H0. injection H0 as ->. f_equal. apply IH. intros u. exact (H (S u)). Qed.
Lemma inactive_list vs obs : single vs -> (forall v, In v vs -> active v = true) -> Forall (broad R) obs ->
  exists pl, Grid_Inactive_new R obs vs = InactivePointlist pl vs /\ forall o x y u, In o obs -> touched R o x y -> sits vs u (s_metal o) x y -> In (x, y) (pl (s_metal o)).
Proof.
  intros S1 A B. destruct (inactive_nth obs vs) as [F N]. set (r := Grid_Inactive_new R obs vs) in *.
  exists (fun m => map (fun w => (vx w, vy w)) (filter (fun w => negb (active w) && (metal w =? m)) r)). split.
  - apply nth_ext_error. intros u. unfold InactivePointlist. rewrite nth_error_map. rewrite N. destruct (nth_error vs u) as [v|] eqn:E; [|reflexivity]. cbn [option_map]. f_equal.
    assert (listed (fun m => map (fun w => (vx w, vy w)) (filter (fun w => negb (active w) && (metal w =? m)) r)) v = hit vs obs u) as ->; [|reflexivity].
    destruct (hit vs obs u) eqn:Eh.
    + unfold listed. apply existsb_exists. exists (vx v, vy v). cbn. split; [|lia]. apply in_map_iff. exists (off_node v). split; [reflexivity|]. apply filter_In. split; [|cbn; lia]. apply nth_error_In with u. rewrite N, E. cbn. now rewrite Eh.
    + apply not_true_iff_false. intros X. unfold listed in X. apply existsb_exists in X. destruct X as (q & Hq & Eq). apply in_map_iff in Hq. destruct Hq as (w & <- & Hw). apply filter_In in Hw. destruct Hw as [Hw Aw]. cbn [fst snd] in Eq. apply In_nth_error in Hw. destruct Hw as (k & Hk).
      rewrite N in Hk. destruct (nth_error vs k) as [v'|] eqn:E'; [|discriminate]. cbn in Hk. injection Hk as <-.
      assert (k = u) as ->. { apply (S1 k u (metal v) (vx v) (vy v)); [|now apply sits_of]. exists v'. split; [exact E'|]. destruct (hit vs obs k); cbn in *; lia. }
      rewrite Eh in Aw. rewrite (A v') in Aw by (now apply nth_error_In with u). discriminate.
  - intros o x y u Ho Ht Hs. pose proof Hs as (v & Hv & Em & Ex & Ey). apply in_map_iff. exists (off_node v). split; [cbn; congruence|]. apply filter_In. split; [|cbn; lia]. apply nth_error_In with u. rewrite N, Hv. cbn.
    assert (hit vs obs u = true) as ->; [|reflexivity]. apply hit_ok; [exact B|apply nth_error_Some; congruence|]. exists o, x, y. split; [exact Ho|]. split; [exact Ht|]. left. split; [exact Hs|]. intros k Hk Hs'. assert (k = u) by (eapply S1; eassumption). lia.
Qed.
End R.
