(** The edges of the tiles. *)
From Coq Require Import ZArith ZifyBool.
From Verif Require Import Base.Prelude Model.GlobalGraph Model.GlobalGrid Spec.GlobalGridSpec Proofs.DijkstraP Proofs.GlobalGraphP Proofs.FindSTsP Proofs.GlobalGridP.
Local Open Scope Z_scope.

Lemma total_app a b : total (a ++ b) = total a + total b.
Proof. unfold total. induction a as [|x a IH]; cbn; lia. Qed.
Lemma side_snoc s dir unit ms m len n : side s dir unit (ms ++ [m]) len true n = if dir m then add_cap n (len / unit m) (side s dir unit ms len true n) else side s dir unit ms len true n.
Proof.
  unfold side, tracks. cbn [andb]. rewrite existsb_app, filter_app. cbn [existsb filter]. destruct (dir m) eqn:D.
  - cbn [orb]. rewrite orb_true_r. rewrite map_app, total_app. cbn [map]. destruct (existsb dir ms) eqn:E; cbn [add_cap].
    + repeat f_equal. cbn. lia.
    + assert (filter dir ms = []) as ->. { clear - E. induction ms as [|x ms IH]; [reflexivity|]. cbn in *. destruct (dir x); [discriminate|]. auto. } cbn. do 2 f_equal. lia.
  - cbn [orb]. rewrite orb_false_r, app_nil_r. reflexivity.
Qed.
Lemma side_no s dir unit ms len n : side s dir unit ms len false n = [].
Proof. reflexivity. Qed.
Lemma side_skip s dir unit ms m len b n : dir m = false -> side s dir unit (ms ++ [m]) len b n = side s dir unit ms len b n.
Proof. intros D. destruct b; [rewrite side_snoc, D; reflexivity|reflexivity]. Qed.

Lemma filter_id {A} (f : A -> bool) l : (forall x, In x l -> f x = true) -> filter f l = l.
Proof. intros H. induction l as [|a l IH]; [reflexivity|]. cbn. rewrite (H a) by now left. f_equal. apply IH. intros x Hx. apply H. now right. Qed.

Section Edges.
Variable s : setup.
Hypothesis V : valid s.
Let vert m := vertical (drc s) m.
Let hori m := negb (vertical (drc s) m).
Definition wid (i : nat) : Z := size_at (x_unit s) (urx s) (left_of s i).
Definition hei (j : nat) : Z := size_at (y_unit s) (ury s) (bottom_of s j).
Definition own (k : nat) (ms : list Z) : list Z := filter (fun m => Nat.eqb (layer_of s m) k) ms.
Definition after (ms : list Z) (k i j : nat) : gtile :=
  G (cx s i) (cy s j) (wid i) (hei j) (metals_of s k) k
    (side s vert (unit_x (drc s)) (own k ms) (wid i) (S j <? rows s)%nat (cell s k i (S j)))
    (side s vert (unit_x (drc s)) (own k ms) (wid i) (0 <? j)%nat (cell s k i (j - 1)))
    (side s hori (unit_y (drc s)) (own k ms) (hei j) (S i <? columns s)%nat (cell s k (S i) j))
    (side s hori (unit_y (drc s)) (own k ms) (hei j) (0 <? i)%nat (cell s k (i - 1) j)) [] [].
Definition inv (f : nat -> nat -> nat -> gtile) (ts : list gtile) : Prop :=
  length ts = (layers s * columns s * rows s)%nat /\ forall k i j, in_grid s k i j -> nth_error ts (cell s k i j) = Some (f k i j).
Lemma inv_new : inv (after []) (new_tiles s).
Proof. split; [apply (new_length s V)|]. intros k i j H. rewrite (new_nth s V k i j H). unfold after, new_tile, own, side. cbn [filter existsb]. rewrite !andb_false_r. reflexivity. Qed.
Lemma inv_map {B} (h : gtile -> B) f g ts ts' : inv f ts -> inv g ts' -> (forall k i j, in_grid s k i j -> h (f k i j) = h (g k i j)) -> map h ts = map h ts'.
Proof.
  intros [L I] [L' I'] H. apply nth_ext_opt. intros n. rewrite !nth_error_map. destruct (Nat.lt_ge_cases n (layers s * columns s * rows s)) as [X|X].
  - destruct (cell_surj s n X) as (k & i & j & G & ->). rewrite (I k i j G), (I' k i j G). cbn. f_equal. auto.
  - rewrite (proj2 (nth_error_None ts n)), (proj2 (nth_error_None ts' n)) by lia. reflexivity.
Qed.
Lemma own_snoc k ms m : own k (ms ++ [m]) = own k ms ++ if Nat.eqb (layer_of s m) k then [m] else [].
Proof. unfold own. rewrite filter_app. cbn. now destruct (Nat.eqb (layer_of s m) k). Qed.
Lemma wid_pos i : (i < columns s)%nat -> 0 < wid i.
Proof. intros H. apply (columns_lt s V) in H. unfold wid. rewrite size_eq. pose proof (ux_pos s V). lia. Qed.
Lemma hei_pos i : (i < rows s)%nat -> 0 < hei i.
Proof. intros H. apply (rows_lt s V) in H. unfold hei. rewrite size_eq. pose proof (uy_pos s V). lia. Qed.
Lemma pred_grid k i j : in_grid s k i (S j) -> in_grid s k i j.
Proof. unfold in_grid. lia. Qed.
Lemma pred_grid' k i j : in_grid s k (S i) j -> in_grid s k i j.
Proof. unfold in_grid. lia. Qed.

Lemma step_ok ms m ts : inv (after ms) ts -> exists ts', metal_edges s m ts = Some ts' /\ inv (after (ms ++ [m])) ts'.
Proof.
  intros I. pose proof I as [Len Nth]. pose proof (inv_map spot _ _ _ _ I inv_new (fun _ _ _ _ => eq_refl)) as Sp. unfold metal_edges. rewrite !(pm_ext _ _ _ _ Sp).
  set (kk := layer_of s m). destruct (vertical (drc s) m) eqn:D.
  - destruct (neighbours_xy s V kk) as (N1 & N2 & Q). set (ps := neighbours _ _) in *.
    destruct (join_ok (add_north s m) (add_south s m) (fun _ _ _ => eq_refl) ps ts N1 N2) as (ts' & E & L' & Nth').
    { intros a b H. apply Q in H. destruct H as (i & j & H & -> & ->). rewrite Len. split; apply cell_lt; auto using pred_grid. }
    exists ts'. split; [exact E|]. split; [lia|]. intros k i j Gr. rewrite (Nth' _ _ (Nth k i j Gr)). f_equal. pose proof Gr as (Gk & Gi & Gj).
    assert (Z.quot (wid i) (unit_x (drc s) m) = wid i / unit_x (drc s) m) as Qu by (apply Z.quot_div_nonneg; [pose proof (wid_pos i Gi); lia|apply (v_unit_x s V)]).
    assert (fwd_of (add_north s m) ps (cell s k i j) (after ms k i j) = if Nat.eqb kk k && (S j <? rows s)%nat then add_north s m (cell s k i (S j)) (after ms k i j) else after ms k i j) as ->.
    { unfold fwd_of. destruct (Nat.eqb_spec kk k) as [->|Nk]; cbn [andb].
      - destruct (Nat.ltb_spec (S j) (rows s)) as [Hj|Hj].
        + rewrite (find_some_fst ps (cell s k i j) (cell s k i (S j)) N1); [reflexivity|]. apply Q. exists i, j. repeat split; auto.
        + rewrite find_none_fst; [reflexivity|]. intros X. apply in_map_iff in X. destruct X as ([a b] & Ea & X). cbn in Ea. subst a. apply Q in X. destruct X as (i' & j' & X & E1 & _). destruct (cell_inj s _ _ _ _ _ _ Gr (pred_grid _ _ _ X) E1) as (_ & <- & <-). destruct X. lia.
      - rewrite find_none_fst; [reflexivity|]. intros X. apply in_map_iff in X. destruct X as ([a b] & Ea & X). cbn in Ea. subst a. apply Q in X. destruct X as (i' & j' & X & E1 & _). destruct (cell_inj s _ _ _ _ _ _ Gr (pred_grid _ _ _ X) E1) as (E2 & _). congruence. }
    set (t1 := if Nat.eqb kk k && (S j <? rows s)%nat then add_north s m (cell s k i (S j)) (after ms k i j) else after ms k i j).
    assert (bwd_of (add_south s m) ps (cell s k i j) t1 = if Nat.eqb kk k && (0 <? j)%nat then add_south s m (cell s k i (j - 1)) t1 else t1) as ->.
    { unfold bwd_of. destruct (Nat.eqb_spec kk k) as [->|Nk]; cbn [andb].
      - destruct (Nat.ltb_spec 0 j) as [Hj|Hj].
        + rewrite (find_some_snd ps (cell s k i (j - 1)) (cell s k i j) N2); [reflexivity|]. apply Q. exists i, (j - 1)%nat. replace (S (j - 1)) with j by lia. auto.
        + rewrite find_none_snd; [reflexivity|]. intros X. apply in_map_iff in X. destruct X as ([a b] & Ea & X). cbn in Ea. subst b. apply Q in X. destruct X as (i' & j' & X & _ & E1). destruct (cell_inj s _ _ _ _ _ _ Gr X E1) as (_ & _ & E3). lia.
      - rewrite find_none_snd; [reflexivity|]. intros X. apply in_map_iff in X. destruct X as ([a b] & Ea & X). cbn in Ea. subst b. apply Q in X. destruct X as (i' & j' & X & _ & E1). destruct (cell_inj s _ _ _ _ _ _ Gr X E1) as (E2 & _). congruence. }
    subst t1. unfold after. rewrite own_snoc. fold kk. assert (hori m = false) as Dh by (unfold hori; now rewrite D). assert (vert m = true) as Dv by exact D.
    destruct (Nat.eqb kk k); cbn [andb]; [|now rewrite app_nil_r]. rewrite !(side_skip s hori) by exact Dh.
    destruct (S j <? rows s)%nat, (0 <? j)%nat; rewrite ?side_snoc, ?Dv; unfold add_north, add_south, set_north, set_south; cbn [gx gy gw gh gmetal glayer north south east west down up]; rewrite ?Qu; reflexivity.
  - destruct (neighbours_yx s V kk) as (N1 & N2 & Q). set (ps := neighbours _ _) in *.
    destruct (join_ok (add_east s m) (add_west s m) (fun _ _ _ => eq_refl) ps ts N1 N2) as (ts' & E & L' & Nth').
    { intros a b H. apply Q in H. destruct H as (i & j & H & -> & ->). rewrite Len. split; apply cell_lt; auto using pred_grid'. }
    exists ts'. split; [exact E|]. split; [lia|]. intros k i j Gr. rewrite (Nth' _ _ (Nth k i j Gr)). f_equal. pose proof Gr as (Gk & Gi & Gj).
    assert (Z.quot (hei j) (unit_y (drc s) m) = hei j / unit_y (drc s) m) as Qu by (apply Z.quot_div_nonneg; [pose proof (hei_pos j Gj); lia|apply (v_unit_y s V)]).
    assert (fwd_of (add_east s m) ps (cell s k i j) (after ms k i j) = if Nat.eqb kk k && (S i <? columns s)%nat then add_east s m (cell s k (S i) j) (after ms k i j) else after ms k i j) as ->.
    { unfold fwd_of. destruct (Nat.eqb_spec kk k) as [->|Nk]; cbn [andb].
      - destruct (Nat.ltb_spec (S i) (columns s)) as [Hj|Hj].
        + rewrite (find_some_fst ps (cell s k i j) (cell s k (S i) j) N1); [reflexivity|]. apply Q. exists i, j. repeat split; auto.
        + rewrite find_none_fst; [reflexivity|]. intros X. apply in_map_iff in X. destruct X as ([a b] & Ea & X). cbn in Ea. subst a. apply Q in X. destruct X as (i' & j' & X & E1 & _). destruct (cell_inj s _ _ _ _ _ _ Gr (pred_grid' _ _ _ X) E1) as (_ & <- & <-). destruct X. lia.
      - rewrite find_none_fst; [reflexivity|]. intros X. apply in_map_iff in X. destruct X as ([a b] & Ea & X). cbn in Ea. subst a. apply Q in X. destruct X as (i' & j' & X & E1 & _). destruct (cell_inj s _ _ _ _ _ _ Gr (pred_grid' _ _ _ X) E1) as (E2 & _). congruence. }
    set (t1 := if Nat.eqb kk k && (S i <? columns s)%nat then add_east s m (cell s k (S i) j) (after ms k i j) else after ms k i j).
    assert (bwd_of (add_west s m) ps (cell s k i j) t1 = if Nat.eqb kk k && (0 <? i)%nat then add_west s m (cell s k (i - 1) j) t1 else t1) as ->.
    { unfold bwd_of. destruct (Nat.eqb_spec kk k) as [->|Nk]; cbn [andb].
      - destruct (Nat.ltb_spec 0 i) as [Hj|Hj].
        + rewrite (find_some_snd ps (cell s k (i - 1) j) (cell s k i j) N2); [reflexivity|]. apply Q. exists (i - 1)%nat, j. replace (S (i - 1)) with i by lia. auto.
        + rewrite find_none_snd; [reflexivity|]. intros X. apply in_map_iff in X. destruct X as ([a b] & Ea & X). cbn in Ea. subst b. apply Q in X. destruct X as (i' & j' & X & _ & E1). destruct (cell_inj s _ _ _ _ _ _ Gr X E1) as (_ & E3 & _). lia.
      - rewrite find_none_snd; [reflexivity|]. intros X. apply in_map_iff in X. destruct X as ([a b] & Ea & X). cbn in Ea. subst b. apply Q in X. destruct X as (i' & j' & X & _ & E1). destruct (cell_inj s _ _ _ _ _ _ Gr X E1) as (E2 & _). congruence. }
    subst t1. unfold after. rewrite own_snoc. fold kk. assert (hori m = true) as Dh by (unfold hori; now rewrite D). assert (vert m = false) as Dv by exact D.
    destruct (Nat.eqb kk k); cbn [andb]; [|now rewrite app_nil_r]. rewrite !(side_skip s vert) by exact Dv.
    destruct (S i <? columns s)%nat, (0 <? i)%nat; rewrite ?side_snoc, ?Dh; unfold add_east, add_west, set_east, set_west; cbn [gx gy gw gh gmetal glayer north south east west down up]; rewrite ?Qu; reflexivity.
Qed.
Lemma metals_ok : forall rest ms ts, inv (after ms) ts -> exists ts', fold_opt (metal_edges s) rest ts = Some ts' /\ inv (after (ms ++ rest)) ts'.
Proof.
  induction rest as [|m rest IH]; intros ms ts I; cbn [fold_opt]; [exists ts; rewrite app_nil_r; auto|]. destruct (step_ok ms m ts I) as (t1 & -> & I1).
  destruct (IH (ms ++ [m]) t1 I1) as (t2 & E & I2). exists t2. split; [exact E|]. rewrite <- app_assoc in I2. exact I2.
Qed.

(** The metals of a layer. *)
Lemma metals_in k m : In m (metals_of s k) <-> metal_in s k m.
Proof.
  unfold metals_of, metal_in. rewrite filter_In, in_map_iff. destruct V as [_ _ _ Hp]. split.
  - intros ((j & <- & Hj) & H). apply in_seq in Hj. nia.
  - intros (H1 & H2). split; [|lia]. exists (Z.to_nat (m - lmetal s - Z.of_nat k * per_layer s)). split; [lia|]. apply in_seq. lia.
Qed.
Lemma sorted_seq f n a : (forall i j, (i < j)%nat -> f i < f j) -> StronglySorted Z.lt (map f (seq a n)).
Proof.
  intros H. revert a. induction n as [|n IH]; intros a; cbn; constructor; [apply IH|]. apply Forall_forall. intros x Hx. apply in_map_iff in Hx. destruct Hx as (j & <- & Hj). apply in_seq in Hj. apply H. lia.
Qed.
Lemma sorted_filter f l : StronglySorted Z.lt l -> StronglySorted Z.lt (filter f l).
Proof. induction 1 as [|a l S IH F]; cbn; [constructor|]. destruct (f a); [|exact IH]. constructor; [exact IH|]. rewrite Forall_forall in *. intros x Hx. apply filter_In in Hx. apply F, Hx. Qed.
Lemma sorted_ext : forall l l', StronglySorted Z.lt l -> StronglySorted Z.lt l' -> (forall x, In x l <-> In x l') -> l = l'.
Proof.
  induction l as [|a l IH]; intros [|b l'] S S' H.
  - reflexivity.
  - exfalso. apply (proj2 (H b)). now left.
  - exfalso. apply (proj1 (H a)). now left.
  - apply StronglySorted_inv in S, S'. destruct S as [S F], S' as [S' F']. rewrite Forall_forall in F, F'.
    assert (a = b) as <-. { destruct (proj1 (H a)) as [E|E]; [now left|auto|]. destruct (proj2 (H b)) as [E'|E']; [now left|auto|]. apply F' in E. apply F in E'. lia. }
    f_equal. apply IH; auto. intros x. split; intros X.
    + destruct (proj1 (H x)) as [<-|Y]; [now right| |exact Y]. apply F in X. lia.
    + destruct (proj2 (H x)) as [<-|Y]; [now right| |exact Y]. apply F' in X. lia.
Qed.
Lemma metals_sorted k : StronglySorted Z.lt (metals_of s k).
Proof. unfold metals_of. apply sorted_filter, sorted_seq. intros; lia. Qed.
Lemma own_all k : (k < layers s)%nat -> own k (all_metals s) = metals_of s k.
Proof.
  intros Hk. apply sorted_ext; [apply sorted_filter, sorted_seq; intros; lia|apply metals_sorted|]. intros m. unfold own. rewrite filter_In, metals_in. unfold metal_in, all_metals, layer_of. rewrite in_map_iff. destruct V as [_ _ _ Hp].
  split.
  - intros ((j & <- & Hj) & H). apply in_seq in Hj. replace ((lmetal s <=? lmetal s + Z.of_nat j) && (lmetal s + Z.of_nat j <=? hmetal s)) with true in H by lia. apply Nat.eqb_eq in H.
    split; [lia|]. set (d := lmetal s + Z.of_nat j - lmetal s) in *. pose proof (Z.div_mod d (per_layer s) ltac:(lia)). pose proof (Z.mod_pos_bound d (per_layer s) Hp). assert (0 <= d / per_layer s) by (apply Z.div_pos; lia).
    assert (d / per_layer s = Z.of_nat k) as E by lia. rewrite E in H0. split; lia.
  - intros (H1 & H2). split; [exists (Z.to_nat (m - lmetal s)); split; [lia|apply in_seq; lia]|]. replace ((lmetal s <=? m) && (m <=? hmetal s)) with true by lia. apply Nat.eqb_eq.
    rewrite <- (Z.div_unique_pos (m - lmetal s) (per_layer s) (Z.of_nat k) (m - lmetal s - per_layer s * Z.of_nat k)); lia.
Qed.
Lemma metals_last k : (S k < layers s)%nat -> last (metals_of s k) 0 = lmetal s + Z.of_nat (S k) * per_layer s - 1.
Proof.
  intros Hk. apply (layers_lt s V) in Hk. destruct V as [_ _ _ Hp]. unfold metals_of. set (f := fun j : nat => lmetal s + Z.of_nat k * per_layer s + Z.of_nat j).
  assert (filter (fun m => m <=? hmetal s) (map f (seq 0 (Z.to_nat (per_layer s)))) = map f (seq 0 (Z.to_nat (per_layer s)))) as ->.
  { apply filter_id. intros x Hx. apply in_map_iff in Hx. destruct Hx as (j & <- & Hj). apply in_seq in Hj. unfold f. lia. }
  destruct (Z.to_nat (per_layer s)) as [|n] eqn:E; [lia|]. rewrite seq_S, map_app. cbn [map]. rewrite last_last. unfold f. cbn [plus]. lia.
Qed.

(** The edges between layers. *)
Definition cap_of (t : gtile) : Z := Z.quot (gw t * gh t) (via_area (drc s) (last (gmetal t) 0)).
Definition cap_at (n : nat) : Z := match nth_error (new_tiles s) n with Some t => cap_of t | None => 0 end.
Definition add_up (b : nat) (t : gtile) : gtile := set_up t (up t ++ [(b, cap_of t)]).
Definition add_down (a : nat) (t : gtile) : gtile := set_down t (down t ++ [(a, cap_at a)]).
Definition basis (t : gtile) := (gx t, gy t, gw t, gh t, gmetal t, glayer t).
Lemma basis_spot ts ts' : map basis ts = map basis ts' -> map spot ts = map spot ts'.
Proof.
  revert ts'. induction ts as [|t ts IH]; intros [|t' ts'] E; try discriminate; [reflexivity|]. cbn in *. assert (basis t = basis t' /\ map basis ts = map basis ts') as [E1 E2] by (split; congruence).
  f_equal; [|auto]. unfold basis in E1. unfold spot. congruence.
Qed.
Lemma alter_basis f i : (forall t, basis (f t) = basis t) -> forall ts ts', alter f i ts = Some ts' -> map basis ts' = map basis ts.
Proof.
  intros Hf. induction i as [|i IH]; intros [|t ts] ts' E; cbn in E; try discriminate; [injection E as <-; cbn; now rewrite Hf|].
  destruct (alter f i ts) as [u|] eqn:Eu; [|discriminate]. injection E as <-. cbn. f_equal. auto.
Qed.
Lemma xy_find k i j : in_grid s k i j -> pm_find (cx s i, cy s j) (pm xy_lt k (new_tiles s)) = Some (cell s k i j).
Proof.
  intros Gr. destruct (pm_ok s V xy_lt xy_irr xy_tra xy_tot k) as (_ & _ & I). unfold pm_find. destruct (find _ _) as [[p n]|] eqn:E.
  - apply find_some in E. destruct E as [E1 E2]. apply I in E1. destruct E1 as (i' & j' & G' & -> & ->). cbn in E2. f_equal. destruct Gr as (_ & A & B). destruct G' as (_ & A' & B').
    assert (i' = i) as -> by (apply (cx_eq s V); auto; lia). assert (j' = j) as -> by (apply (cy_eq s V); auto; lia). reflexivity.
  - exfalso. eapply find_none in E; [|apply (I (cx s i, cy s j) (cell s k i j)); eauto]. cbn in E. rewrite !Z.eqb_refl in E. discriminate.
Qed.
Lemma up_join : forall is ts, map basis ts = map basis (new_tiles s) -> (forall n, In n is -> exists k i j, in_grid s (S k) i j /\ n = cell s k i j) ->
  fold_opt (up_edge s) is ts = join add_up add_down (map (fun n => (n, n + columns s * rows s)%nat) is) ts.
Proof.
  unfold join. induction is as [|n is IH]; intros ts B H; cbn [fold_opt map]; [reflexivity|]. cbn [fst snd]. destruct (H n ltac:(now left)) as (k & i & j & Gr & ->). assert (in_grid s k i j) as G0 by (unfold in_grid in *; lia).
  assert (exists t, nth_error ts (cell s k i j) = Some t /\ basis t = basis (new_tile s k (left_of s i) (bottom_of s j))) as (t & Ht & Bt).
  { assert (nth_error (map basis ts) (cell s k i j) = nth_error (map basis (new_tiles s)) (cell s k i j)) as X by now rewrite B. rewrite !nth_error_map, (new_nth s V k i j G0) in X. destruct (nth_error ts (cell s k i j)) as [t|]; [|discriminate]. cbn in X. exists t. split; [reflexivity|congruence]. }
  unfold up_edge at 1. rewrite Ht. assert (gx t = cx s i /\ gy t = cy s j /\ glayer t = k /\ gw t = wid i /\ gh t = hei j /\ gmetal t = metals_of s k) as (-> & -> & -> & Ew & Eh & Em) by (change (basis t = (cx s i, cy s j, wid i, hei j, metals_of s k, k)) in Bt; unfold basis in Bt; repeat split; congruence).
  rewrite (pm_ext _ _ _ _ (basis_spot _ _ B)), (xy_find (S k) i j Gr). replace (cell s k i j + columns s * rows s)%nat with (cell s (S k) i j) by (unfold cell; lia).
  assert (Z.quot (gw t * gh t) (via_area (drc s) (last (gmetal t) 0)) = cap_of t) as -> by reflexivity.
  assert (cap_of t = cap_at (cell s k i j)) as Ec by (unfold cap_at; rewrite (new_nth s V k i j G0); unfold cap_of; now rewrite Ew, Eh, Em).
  assert (alter (fun t0 => set_up t0 (up t0 ++ [(cell s (S k) i j, cap_of t)])) (cell s k i j) ts = alter (add_up (cell s (S k) i j)) (cell s k i j) ts) as ->.
  { clear - Ht. revert Ht. generalize (cell s k i j). revert ts. intros ts n. revert ts. induction n as [|n IH]; intros [|t0 ts] Ht; cbn in *; try discriminate; [injection Ht as ->; reflexivity|]. now rewrite (IH ts Ht). }
  destruct (alter (add_up (cell s (S k) i j)) (cell s k i j) ts) as [t1|] eqn:E1; [|reflexivity]. unfold add_down at 1. rewrite Ec.
  destruct (alter (fun t0 => set_down t0 (down t0 ++ [(cell s k i j, cap_at (cell s k i j))])) (cell s (S k) i j) t1) as [t2|] eqn:E2; [|reflexivity]. apply IH; [|intros x Hx; apply H; now right].
  assert (map basis t2 = map basis t1) as -> by (eapply alter_basis; [|exact E2]; reflexivity). assert (map basis t1 = map basis ts) as -> by (eapply alter_basis; [|exact E1]; reflexivity). exact B.
Qed.
Definition final (k i j : nat) : gtile :=
  let t := after (all_metals s) k i j in
  G (gx t) (gy t) (gw t) (gh t) (gmetal t) (glayer t) (north t) (south t) (east t) (west t)
    (if (0 <? k)%nat then [(cell s (k - 1) i j, cap_at (cell s (k - 1) i j))] else []) (if (S k <? layers s)%nat then [(cell s (S k) i j, cap_of t)] else []).
Lemma grid_final : exists ts, GlobalGrid s = Some ts /\ inv final ts.
Proof.
  unfold GlobalGrid. destruct (metals_ok (all_metals s) [] (new_tiles s) inv_new) as (t1 & -> & I1). cbn [app] in I1. set (is := filter _ _).
  assert (forall n, In n is <-> exists k i j, in_grid s (S k) i j /\ n = cell s k i j) as Hi.
  { intros n. unfold is. rewrite filter_In, in_seq, (new_length s V), (layers_eq s V). split.
    - intros [[_ H1] H2]. destruct (cell_surj s n H1) as (k & i & j & Gr & ->). rewrite (new_nth s V k i j Gr) in H2. cbn [glayer new_tile] in H2. apply Nat.ltb_lt in H2. exists k, i, j. split; [|reflexivity]. unfold in_grid in *. lia.
    - intros (k & i & j & Gr & ->). assert (in_grid s k i j) as G0 by (unfold in_grid in *; lia). split; [split; [lia|apply cell_lt, G0]|]. rewrite (new_nth s V k i j G0). cbn [glayer new_tile]. apply Nat.ltb_lt. unfold in_grid in Gr. lia. }
  rewrite up_join; [|apply (inv_map basis _ _ _ _ I1 inv_new (fun _ _ _ _ => eq_refl))|intros n Hn; now apply Hi].
  assert (NoDup is) as Nd by (apply NoDup_filter, seq_NoDup). set (ps := map (fun n => (n, n + columns s * rows s)%nat) is).
  assert (NoDup (map fst ps)) as N1 by (unfold ps; rewrite map_map; cbn; now rewrite map_id).
  assert (NoDup (map snd ps)) as N2 by (unfold ps; rewrite map_map; cbn; apply NoDup_map_inj; [exact Nd|intros; lia]).
  assert (forall a b, In (a, b) ps <-> exists k i j, in_grid s (S k) i j /\ a = cell s k i j /\ b = cell s (S k) i j) as Q.
  { intros a b. unfold ps. rewrite in_map_iff. split.
    - intros (n & [= <- <-] & H). apply Hi in H. destruct H as (k & i & j & Gr & ->). exists k, i, j. split; [exact Gr|]. split; [reflexivity|]. unfold cell. lia.
    - intros (k & i & j & Gr & -> & ->). exists (cell s k i j). split; [f_equal; unfold cell; lia|]. apply Hi. eauto. }
  pose proof I1 as [Len Nth]. destruct (join_ok add_up add_down (fun _ _ _ => eq_refl) ps t1 N1 N2) as (ts & E & L & Nth').
  { intros a b H. apply Q in H. destruct H as (k & i & j & Gr & -> & ->). rewrite Len. split; apply cell_lt; auto. unfold in_grid in *. lia. }
  exists ts. split; [exact E|]. split; [lia|]. intros k i j Gr. rewrite (Nth' _ _ (Nth k i j Gr)). f_equal.
  assert (fwd_of add_up ps (cell s k i j) (after (all_metals s) k i j) = if (S k <? layers s)%nat then add_up (cell s (S k) i j) (after (all_metals s) k i j) else after (all_metals s) k i j) as ->.
  { unfold fwd_of. destruct (Nat.ltb_spec (S k) (layers s)) as [Hk|Hk].
    - rewrite (find_some_fst ps (cell s k i j) (cell s (S k) i j) N1); [reflexivity|]. apply Q. exists k, i, j. repeat split; unfold in_grid in *; try tauto; lia.
    - rewrite find_none_fst; [reflexivity|]. intros X. apply in_map_iff in X. destruct X as ([a b] & Ea & X). cbn in Ea. subst a. apply Q in X. destruct X as (k' & i' & j' & X & E1 & _).
      assert (in_grid s k' i' j') as X' by (unfold in_grid in *; lia). destruct (cell_inj s _ _ _ _ _ _ Gr X' E1) as (<- & _). unfold in_grid in X. lia. }
  set (t0 := if (S k <? layers s)%nat then _ else _).
  assert (bwd_of add_down ps (cell s k i j) t0 = if (0 <? k)%nat then add_down (cell s (k - 1) i j) t0 else t0) as ->.
  { unfold bwd_of. destruct (Nat.ltb_spec 0 k) as [Hk|Hk].
    - rewrite (find_some_snd ps (cell s (k - 1) i j) (cell s k i j) N2); [reflexivity|]. apply Q. exists (k - 1)%nat, i, j. replace (S (k - 1)) with k by lia. auto.
    - rewrite find_none_snd; [reflexivity|]. intros X. apply in_map_iff in X. destruct X as ([a b] & Ea & X). cbn in Ea. subst b. apply Q in X. destruct X as (k' & i' & j' & X & _ & E1). destruct (cell_inj s _ _ _ _ _ _ Gr X E1) as (E2 & _). lia. }
  subst t0. unfold final. destruct (S k <? layers s)%nat, (0 <? k)%nat; reflexivity.
Qed.
Lemma grid_is_ok ts : inv final ts -> grid_ok s ts.
Proof.
  intros [L I]. split; [exact L|]. intros k i j Gr. exists (final k i j). split; [apply I, Gr|]. pose proof Gr as (Gk & Gi & Gj). pose proof (proj1 (columns_lt s V i) Gi) as Xi. pose proof (proj1 (rows_lt s V j) Gj) as Xj.
  assert (wid i = right_of s i - left_of s i) as Ew by (unfold wid; rewrite size_eq; unfold right_of, left_of; lia).
  assert (hei j = top_of s j - bottom_of s j) as Eh by (unfold hei; rewrite size_eq; unfold top_of, bottom_of; lia).
  unfold tile_ok, final, after. cbn [gx gy gw gh gmetal glayer north south east west down up]. rewrite !(own_all k Gk).
  split; [exact Ew|]. split; [exact Eh|]. split; [exact (proj2 (center_bounds _ _ _ (ux_pos s V) Xi))|]. split; [exact (proj2 (center_bounds _ _ _ (uy_pos s V) Xj))|]. split; [reflexivity|].
  split; [intros m; apply metals_in|]. split; [apply metals_sorted|]. split; [reflexivity|]. split; [reflexivity|]. split; [reflexivity|]. split; [reflexivity|]. split.
  - destruct (Nat.ltb_spec (S k) (layers s)); [|reflexivity]. unfold cap_of. cbn [gw gh gmetal]. now rewrite (metals_last k) by assumption.
  - destruct (Nat.ltb_spec 0 k); [|reflexivity]. assert (in_grid s (k - 1) i j) as G1 by (unfold in_grid in *; lia). unfold cap_at. rewrite (new_nth s V _ _ _ G1). unfold cap_of, new_tile. cbn [gw gh gmetal]. rewrite (metals_last (k - 1)) by lia.
    replace (S (k - 1)) with k by lia. reflexivity.
Qed.
End Edges.
