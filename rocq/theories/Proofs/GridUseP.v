(** Consequences for the tiles of a grid. *)
From Coq Require Import ZArith ZifyBool.
From Verif Require Import Base.Prelude Model.GlobalGraph Spec.GlobalGraphSpec Model.GlobalGrid Spec.GlobalGridSpec Proofs.DijkstraP Proofs.GlobalGraphP Proofs.FindSTsP Proofs.GlobalGridP Proofs.GridEdgesP.
Local Open Scope Z_scope.

Section Use.
Variables (s : setup) (ts : list gtile).
Hypothesis V : valid s.
Hypothesis Ok : grid_ok s ts.
Lemma tile_of n t : nth_error ts n = Some t -> exists k i j, in_grid s k i j /\ n = cell s k i j /\ tile_ok s k i j t.
Proof.
  intros H. destruct Ok as [L I]. pose proof (nth_lt' _ _ _ H) as X. rewrite L in X. destruct (cell_surj s n X) as (k & i & j & Gr & ->). destruct (I k i j Gr) as (t' & H' & T). rewrite H in H'. injection H' as <-. eauto 10.
Qed.
Lemma tile_at k i j t : in_grid s k i j -> nth_error ts (cell s k i j) = Some t -> tile_ok s k i j t.
Proof. intros Gr H. destruct Ok as [_ I]. destruct (I k i j Gr) as (t' & H' & T). rewrite H in H'. now injection H' as <-. Qed.

Lemma column_of x : llx s <= x < urx s -> exists i, (i < columns s)%nat /\ left_of s i <= x < right_of s i.
Proof.
  intros H. pose proof (ux_pos s V) as U. exists (Z.to_nat ((x - llx s) / x_unit s)). pose proof (Z.div_mod (x - llx s) (x_unit s) ltac:(lia)). pose proof (Z.mod_pos_bound (x - llx s) (x_unit s) U).
  assert (0 <= (x - llx s) / x_unit s) by (apply Z.div_pos; lia). assert (left_of s (Z.to_nat ((x - llx s) / x_unit s)) <= x < left_of s (S (Z.to_nat ((x - llx s) / x_unit s)))) by (unfold left_of; nia).
  split; [apply (columns_lt s V); lia|unfold right_of; lia].
Qed.
Lemma row_of y : lly s <= y < ury s -> exists j, (j < rows s)%nat /\ bottom_of s j <= y < top_of s j.
Proof.
  intros H. pose proof (uy_pos s V) as U. exists (Z.to_nat ((y - lly s) / y_unit s)). pose proof (Z.div_mod (y - lly s) (y_unit s) ltac:(lia)). pose proof (Z.mod_pos_bound (y - lly s) (y_unit s) U).
  assert (0 <= (y - lly s) / y_unit s) by (apply Z.div_pos; lia). assert (bottom_of s (Z.to_nat ((y - lly s) / y_unit s)) <= y < bottom_of s (S (Z.to_nat ((y - lly s) / y_unit s)))) by (unfold bottom_of; nia).
  split; [apply (rows_lt s V); lia|unfold top_of; lia].
Qed.
Lemma column_one x i i' : left_of s i <= x < right_of s i -> left_of s i' <= x < right_of s i' -> i = i'.
Proof.
  intros H H'. unfold right_of in *. destruct (Nat.lt_trichotomy i i') as [X|[X|X]]; [|exact X|].
  - pose proof (left_mono s V (S i) i' X). lia.
  - pose proof (left_mono s V (S i') i X). lia.
Qed.
Lemma row_one x i i' : bottom_of s i <= x < top_of s i -> bottom_of s i' <= x < top_of s i' -> i = i'.
Proof.
  intros H H'. unfold top_of in *. destruct (Nat.lt_trichotomy i i') as [X|[X|X]]; [|exact X|].
  - pose proof (bottom_mono s V (S i) i' X). lia.
  - pose proof (bottom_mono s V (S i') i X). lia.
Qed.

(** The tiles of a pin. *)
Lemma spots : map spot ts = map spot (new_tiles s).
Proof.
  apply nth_ext_opt. intros n. rewrite !nth_error_map. destruct Ok as [L I]. destruct (Nat.lt_ge_cases n (layers s * columns s * rows s)) as [X|X].
  - destruct (cell_surj s n X) as (k & i & j & Gr & ->). destruct (I k i j Gr) as (t & -> & T). rewrite (new_nth s V k i j Gr). cbn. f_equal. destruct T as (Tw & Th & Tx & Ty & Tl & _). unfold spot. cbn. rewrite Tl.
    destruct Gr as (_ & Gi & Gj). pose proof (proj2 (center_bounds _ _ _ (ux_pos s V) (proj1 (columns_lt s V i) Gi))) as Cx. pose proof (proj2 (center_bounds _ _ _ (uy_pos s V) (proj1 (rows_lt s V j) Gj))) as Cy.
    rewrite size_eq in Cx, Cy. rewrite Cx, Cy, Tx, Ty, Tw, Th. unfold right_of, top_of. replace (left_of s (S i)) with (left_of s i + x_unit s) by (unfold left_of; lia). replace (bottom_of s (S j)) with (bottom_of s j + y_unit s) by (unfold bottom_of; lia). reflexivity.
  - rewrite (proj2 (nth_error_None ts n)), (proj2 (nth_error_None (new_tiles s) n)) by (rewrite ?(new_length s V); lia). reflexivity.
Qed.
Lemma find_center k x y n : pm_find (x, y) (pm xy_lt k ts) = Some n <-> exists i j, in_grid s k i j /\ n = cell s k i j /\ x = cx s i /\ y = cy s j.
Proof.
  rewrite (pm_ext _ _ _ _ spots). split.
  - unfold pm_find. destruct (find _ _) as [[p m]|] eqn:E; [|discriminate]. intros [= ->]. apply find_some in E. destruct E as [E1 E2]. destruct (pm_ok s V xy_lt xy_irr xy_tra xy_tot k) as (_ & _ & I). apply I in E1. destruct E1 as (i & j & Gr & -> & ->). cbn in E2. exists i, j. repeat split; auto; try apply Gr; lia.
  - intros (i & j & Gr & -> & -> & ->). now apply xy_find.
Qed.
(** A start of a column, possibly outside. *)
Lemma center_out z i : urx s > llx s -> (i < columns s)%nat -> center_at (x_unit s) (urx s) (llx s + z * x_unit s) = cx s i -> z = Z.of_nat i.
Proof.
  intros Hu Hi E. pose proof (ux_pos s V) as U. pose proof (cx_bounds s V i Hi) as [B1 B2]. pose proof (left_mono s V 0 i ltac:(lia)) as B3. unfold left_of in B3 at 1. set (x := llx s + z * x_unit s) in *.
  destruct (Z.lt_ge_cases x (urx s)) as [L|L].
  - destruct (center_bounds (x_unit s) (urx s) x U L) as [[C1 C2] _]. rewrite E in C1, C2. unfold left_of, x in *. nia.
  - unfold center_at, size_at in E. replace (urx s <? x + x_unit s) with true in E by lia. pose proof (Z.quot_rem' (urx s - x) 2). pose proof (Z.rem_bound_neg_pos (urx s - x) 2). pose proof (Z.quot_opp_l (x - urx s) 2 ltac:(lia)) as Qo.
    replace (- (x - urx s)) with (urx s - x) in Qo by lia. rewrite Z.quot_div_nonneg in Qo by lia. pose proof (Z.div_mod (x - urx s) 2 ltac:(lia)). pose proof (Z.mod_pos_bound (x - urx s) 2 ltac:(lia)). lia.
Qed.
Lemma center_out_y z i : ury s > lly s -> (i < rows s)%nat -> center_at (y_unit s) (ury s) (lly s + z * y_unit s) = cy s i -> z = Z.of_nat i.
Proof.
  intros Hu Hi E. pose proof (uy_pos s V) as U. pose proof (cy_bounds s V i Hi) as [B1 B2]. pose proof (bottom_mono s V 0 i ltac:(lia)) as B3. unfold bottom_of in B3 at 1. set (x := lly s + z * y_unit s) in *.
  destruct (Z.lt_ge_cases x (ury s)) as [L|L].
  - destruct (center_bounds (y_unit s) (ury s) x U L) as [[C1 C2] _]. rewrite E in C1, C2. unfold bottom_of, x in *. nia.
  - unfold center_at, size_at in E. replace (ury s <? x + y_unit s) with true in E by lia. pose proof (Z.quot_opp_l (x - ury s) 2 ltac:(lia)) as Qo.
    replace (- (x - ury s)) with (ury s - x) in Qo by lia. rewrite Z.quot_div_nonneg in Qo by lia. pose proof (Z.div_mod (x - ury s) 2 ltac:(lia)). pose proof (Z.mod_pos_bound (x - ury s) 2 ltac:(lia)). lia.
Qed.
Lemma starts_in lo hi step x : 0 < step -> In x (starts lo hi step) <-> exists i : nat, x = lo + Z.of_nat i * step /\ x < hi.
Proof.
  intros H. split.
  - intros X. apply In_nth_error in X. destruct X as [i X]. rewrite starts_nth in X by exact H. destruct (lo + Z.of_nat i * step <? hi) eqn:E; [|discriminate]. injection X as <-. exists i. lia.
  - intros (i & -> & X). apply (nth_error_In _ i). rewrite starts_nth by exact H. replace (lo + Z.of_nat i * step <? hi) with true by lia. reflexivity.
Qed.
Lemma pin_ok m px py qx qy n : px < urx s -> py < ury s ->
  In n (ConvertNetBlockPin s ts m px py qx qy) <-> exists i j, in_grid s (layer_of s m) i j /\ n = cell s (layer_of s m) i j /\ overlaps s i j px py qx qy.
Proof.
  intros Hx Hy. pose proof (ux_pos s V) as U. pose proof (uy_pos s V) as W. unfold ConvertNetBlockPin, overlaps. rewrite in_flat_map.
  set (zx := (px - llx s) / x_unit s). set (zy := (py - lly s) / y_unit s).
  assert (zx * x_unit s <= px - llx s < (zx + 1) * x_unit s) as Bx by (pose proof (Z.div_mod (px - llx s) (x_unit s) ltac:(lia)); pose proof (Z.mod_pos_bound (px - llx s) (x_unit s) U); unfold zx; lia).
  assert (zy * y_unit s <= py - lly s < (zy + 1) * y_unit s) as By by (pose proof (Z.div_mod (py - lly s) (y_unit s) ltac:(lia)); pose proof (Z.mod_pos_bound (py - lly s) (y_unit s) W); unfold zy; lia).
  split.
  - intros (x & Hx1 & H). apply in_flat_map in H. destruct H as (y & Hy1 & H). apply starts_in in Hx1, Hy1; auto. destruct Hx1 as (a & Ea & La), Hy1 as (b & Eb & Lb).
    destruct (pm_find _ _) as [n'|] eqn:E; [|destruct H]. destruct H as [<-|[]]. apply find_center in E. destruct E as (i & j & Gr & -> & Cx & Cy). exists i, j. split; [exact Gr|]. split; [reflexivity|]. destruct Gr as (_ & Gi & Gj).
    pose proof (proj1 (columns_lt s V i) Gi) as X1. pose proof (proj1 (rows_lt s V j) Gj) as Y1. pose proof (left_mono s V 0 i ltac:(lia)) as X2. pose proof (bottom_mono s V 0 j ltac:(lia)) as Y2. unfold left_of in X2 at 1. unfold bottom_of in Y2 at 1.
    assert (zx + Z.of_nat a = Z.of_nat i) as Ex by (apply (center_out _ i); [lia|exact Gi|]; rewrite <- Cx, Ea; f_equal; lia).
    assert (zy + Z.of_nat b = Z.of_nat j) as Ey by (apply (center_out_y _ j); [lia|exact Gj|]; rewrite <- Cy, Eb; f_equal; lia).
    unfold right_of, top_of, left_of, bottom_of. subst x y. rewrite !Nat2Z.inj_succ, <- Ex, <- Ey. nia.
  - intros (i & j & Gr & -> & O1 & O2 & O3 & O4). unfold right_of, top_of, left_of, bottom_of in O1, O2, O3, O4. rewrite Nat2Z.inj_succ in O2, O4.
    assert (zx <= Z.of_nat i) by nia. assert (zy <= Z.of_nat j) by nia. exists (left_of s i). split.
    + apply starts_in; [exact U|]. exists (Z.to_nat (Z.of_nat i - zx)). unfold left_of. split; [|lia]. replace (Z.of_nat (Z.to_nat (Z.of_nat i - zx))) with (Z.of_nat i - zx) by lia. lia.
    + apply in_flat_map. exists (bottom_of s j). split.
      * apply starts_in; [exact W|]. exists (Z.to_nat (Z.of_nat j - zy)). unfold bottom_of. split; [|lia]. replace (Z.of_nat (Z.to_nat (Z.of_nat j - zy))) with (Z.of_nat j - zy) by lia. lia.
      * rewrite (proj2 (find_center (layer_of s m) _ _ (cell s (layer_of s m) i j))); [now left|]. exists i, j. repeat split; try apply Gr.
Qed.

(** The graph. *)
Definition all_next (t : gtile) : edges := north t ++ south t ++ east t ++ west t ++ up t ++ down t.
Lemma side_in dir unit ms len b n e c : In (e, c) (side s dir unit ms len b n) -> b = true /\ e = n /\ side s dir unit ms len true n = [(n, c)].
Proof. unfold side. destruct b; cbn [andb]; [|intros []]. destruct (existsb dir ms); [|intros []]. intros [[= <- <-]|[]]. auto. Qed.
Definition step_to (k i j k' i' j' : nat) : Prop :=
  (k = k' /\ i = i' /\ (j' = S j \/ j = S j')) \/ (k = k' /\ j = j' /\ (i' = S i \/ i = S i')) \/ (i = i' /\ j = j' /\ (k' = S k \/ k = S k')).
Lemma metals_same k i j i' j' t t' : tile_ok s k i j t -> tile_ok s k i' j' t' -> gmetal t = gmetal t'.
Proof. intros (_ & _ & _ & _ & _ & M & S & _) (_ & _ & _ & _ & _ & M' & S' & _). apply sorted_ext; auto. intros x. now rewrite M, M'. Qed.
Lemma next_ok k i j t b c : in_grid s k i j -> nth_error ts (cell s k i j) = Some t -> In (b, c) (all_next t) ->
  exists k' i' j' u, in_grid s k' i' j' /\ b = cell s k' i' j' /\ step_to k i j k' i' j' /\ nth_error ts b = Some u /\ In (cell s k i j, c) (all_next u).
Proof.
  intros Gr Ht H. pose proof (tile_at _ _ _ _ Gr Ht) as T. pose proof Ok as [_ I]. pose proof T as (Tw & Th & _ & _ & _ & _ & _ & Tn & Ts & Te & Tww & Tu & Td). cbv zeta in *. unfold all_next in H.
  assert (forall k' i' j', in_grid s k' i' j' -> b = cell s k' i' j' -> step_to k i j k' i' j' -> (forall u, nth_error ts b = Some u -> tile_ok s k' i' j' u -> In (cell s k i j, c) (all_next u)) ->
    exists k' i' j' u, in_grid s k' i' j' /\ b = cell s k' i' j' /\ step_to k i j k' i' j' /\ nth_error ts b = Some u /\ In (cell s k i j, c) (all_next u)) as Fin.
  { intros k' i' j' G' -> St Q. destruct (I k' i' j' G') as (u & Hu & Tu'). exists k', i', j', u. repeat split; try apply G'; auto. }
  rewrite !in_app_iff in H. unfold all_next. destruct H as [H|[H|[H|[H|[H|H]]]]].
  - rewrite Tn in H. apply side_in in H. destruct H as (B & -> & E). apply Nat.ltb_lt in B. apply (Fin k i (S j)); [clear - Gr B; unfold in_grid in *; lia|reflexivity|left; auto|].
    intros u Hu U. pose proof (metals_same _ _ _ _ _ _ _ T U) as M. destruct U as (Uw & Uh & _ & _ & _ & _ & _ & Un & Us & Ue & Uww & Uu & Ud). unfold all_next. rewrite !in_app_iff. right. left. rewrite Us. cbn [Nat.ltb Nat.leb Nat.sub]. rewrite Nat.sub_0_r.
    rewrite <- M. replace (gw u) with (gw t) by (rewrite Uw, Tw; reflexivity). unfold side in *. cbn [andb] in *. destruct (existsb _ (gmetal t)); [|discriminate]. injection E as E. rewrite E. now left.
  - rewrite Ts in H. apply side_in in H. destruct H as (B & -> & E). apply Nat.ltb_lt in B. apply (Fin k i (j - 1)%nat); [clear - Gr B; unfold in_grid in *; lia|reflexivity|left; split; [reflexivity|]; split; [reflexivity|]; right; clear - B; lia|].
    intros u Hu U. pose proof (metals_same _ _ _ _ _ _ _ T U) as M. destruct U as (Uw & Uh & _ & _ & _ & _ & _ & Un & Us & Ue & Uww & Uu & Ud). unfold all_next. rewrite !in_app_iff. left. rewrite Un. replace (S (j - 1)) with j by (clear - B; lia). replace (j <? rows s)%nat with true by (clear - Gr; unfold in_grid in Gr; symmetry; apply Nat.ltb_lt; lia).
    rewrite <- M. replace (gw u) with (gw t) by (rewrite Uw, Tw; reflexivity). unfold side in *. cbn [andb] in *. destruct (existsb _ (gmetal t)); [|discriminate]. injection E as E. rewrite E. now left.
  - rewrite Te in H. apply side_in in H. destruct H as (B & -> & E). apply Nat.ltb_lt in B. apply (Fin k (S i) j); [clear - Gr B; unfold in_grid in *; lia|reflexivity|right; left; auto|].
    intros u Hu U. pose proof (metals_same _ _ _ _ _ _ _ T U) as M. destruct U as (Uw & Uh & _ & _ & _ & _ & _ & Un & Us & Ue & Uww & Uu & Ud). unfold all_next. rewrite !in_app_iff. do 3 right. left. rewrite Uww. cbn [Nat.ltb Nat.leb Nat.sub]. rewrite Nat.sub_0_r.
    rewrite <- M. replace (gh u) with (gh t) by (rewrite Uh, Th; reflexivity). unfold side in *. cbn [andb] in *. destruct (existsb _ (gmetal t)); [|discriminate]. injection E as E. rewrite E. now left.
  - rewrite Tww in H. apply side_in in H. destruct H as (B & -> & E). apply Nat.ltb_lt in B. apply (Fin k (i - 1)%nat j); [clear - Gr B; unfold in_grid in *; lia|reflexivity|right; left; split; [reflexivity|]; split; [reflexivity|]; right; clear - B; lia|].
    intros u Hu U. pose proof (metals_same _ _ _ _ _ _ _ T U) as M. destruct U as (Uw & Uh & _ & _ & _ & _ & _ & Un & Us & Ue & Uww & Uu & Ud). unfold all_next. rewrite !in_app_iff. do 2 right. left. rewrite Ue. replace (S (i - 1)) with i by (clear - B; lia). replace (i <? columns s)%nat with true by (clear - Gr; unfold in_grid in Gr; symmetry; apply Nat.ltb_lt; lia).
    rewrite <- M. replace (gh u) with (gh t) by (rewrite Uh, Th; reflexivity). unfold side in *. cbn [andb] in *. destruct (existsb _ (gmetal t)); [|discriminate]. injection E as E. rewrite E. now left.
  - rewrite Tu in H. destruct (Nat.ltb_spec (S k) (layers s)) as [B|]; [|destruct H]. destruct H as [[= <- <-]|[]]. apply (Fin (S k) i j); [clear - Gr B; unfold in_grid in *; lia|reflexivity|right; right; auto|].
    intros u Hu U. destruct U as (Uw & Uh & _ & _ & _ & _ & _ & Un & Us & Ue & Uww & Uu & Ud). unfold all_next. rewrite !in_app_iff. do 5 right. rewrite Ud. cbn [Nat.ltb Nat.leb Nat.sub]. rewrite Nat.sub_0_r. replace (gw u) with (gw t) by (rewrite Uw, Tw; reflexivity). replace (gh u) with (gh t) by (rewrite Uh, Th; reflexivity). now left.
  - rewrite Td in H. destruct (Nat.ltb_spec 0 k) as [B|]; [|destruct H]. destruct H as [[= <- <-]|[]]. apply (Fin (k - 1)%nat i j); [clear - Gr B; unfold in_grid in *; lia|reflexivity|right; right; split; [reflexivity|]; split; [reflexivity|]; right; clear - B; lia|].
    intros u Hu U. destruct U as (Uw & Uh & _ & _ & _ & _ & _ & Un & Us & Ue & Uww & Uu & Ud). unfold all_next. rewrite !in_app_iff. do 4 right. left. rewrite Uu. replace (S (k - 1)) with k by (clear - B; lia). replace (k <? layers s)%nat with true by (clear - Gr; unfold in_grid in Gr; symmetry; apply Nat.ltb_lt; lia). replace (gw u) with (gw t) by (rewrite Uw, Tw; reflexivity). replace (gh u) with (gh t) by (rewrite Uh, Th; reflexivity). now left.
Qed.
Lemma as_tile_next t b c : In (TEdge (Some b) c) (t_next (as_tile t)) <-> In (b, c) (all_next t).
Proof.
  unfold as_tile. cbn [t_next]. rewrite in_map_iff. split; [intros ([b' c'] & [= -> ->] & H); exact H|intros H; exists (b, c); auto].
Qed.
Lemma tiles_wf t e n : In t (map as_tile ts) -> In e (t_next t) -> te_next e = Some n -> (n < length (map as_tile ts))%nat.
Proof.
  intros Ht He En. apply in_map_iff in Ht. destruct Ht as (t' & <- & Ht). destruct e as [nx c]. cbn in En. subst nx. apply as_tile_next in He. apply In_nth_error in Ht. destruct Ht as [a Ha]. destruct (tile_of a t' Ha) as (k & i & j & Gr & -> & _).
  destruct (next_ok k i j t' n c Gr Ha He) as (k' & i' & j' & u & G' & _ & _ & Hu & _). rewrite map_length. eapply nth_lt', Hu.
Qed.
Lemma graph_ok : exists g, CreateAdjacentList (map as_tile ts) = Some g /\ describes (map as_tile ts) (fun _ => true) (length ts) g /\
  forall a b w, edge_of (nodes g) a b w -> edge_of (nodes g) b a w /\ exists k i j k' i' j', in_grid s k i j /\ in_grid s k' i' j' /\ a = cell s k i j /\ b = cell s k' i' j' /\ step_to k i j k' i' j'.
Proof.
  destruct (create_ok (map as_tile ts) tiles_wf) as (g & E & D & _). exists g. split; [exact E|]. rewrite map_length in D. split; [exact D|]. destruct D as (_ & _ & _ & Ed). intros a b w H. apply Ed in H. destruct H as (t & u & c & Ha & Hb & _ & _ & Hin & Hc & ->).
  rewrite nth_error_map in Ha, Hb. destruct (nth_error ts a) as [t0|] eqn:Ea; [|discriminate]. destruct (nth_error ts b) as [u0|] eqn:Eb; [|discriminate]. cbn in Ha, Hb. injection Ha as <-. injection Hb as <-. apply as_tile_next in Hin.
  destruct (tile_of a t0 Ea) as (k & i & j & Gr & -> & _). destruct (next_ok k i j t0 b c Gr Ea Hin) as (k' & i' & j' & u1 & G' & -> & St & Hu & Hin'). rewrite Eb in Hu. injection Hu as <-. split.
  - apply Ed. exists (as_tile u0), (as_tile t0), c. rewrite !nth_error_map, Ea, Eb. repeat split; auto; [apply as_tile_next; exact Hin'|]. lia.
  - exists k, i, j, k', i', j'. auto.
Qed.
(** Layers of a net. *)
Lemma prefix_ok l hi : l <= lmetal s -> forall a b t u, (a <= b)%nat -> nth_error (map as_tile ts) a = Some t -> nth_error (map as_tile ts) b = Some u -> in_layers l hi u = true -> in_layers l hi t = true.
Proof.
  intros Hl a b t u Hab Ha Hb Hu. rewrite nth_error_map in Ha, Hb. destruct (nth_error ts a) as [t0|] eqn:Ea; [|discriminate]. destruct (nth_error ts b) as [u0|] eqn:Eb; [|discriminate]. cbn in Ha, Hb. injection Ha as <-. injection Hb as <-.
  destruct (tile_of a t0 Ea) as (k & i & j & Gr & -> & T). destruct (tile_of b u0 Eb) as (k' & i' & j' & G' & -> & U). destruct T as (_ & _ & _ & _ & _ & Mt & _), U as (_ & _ & _ & _ & _ & Mu & _). destruct V as [_ _ _ Hp].
  assert (k <= k')%nat as Hk. { destruct Gr as (A1 & A2 & A3), G' as (B1 & B2 & B3). destruct (Nat.le_gt_cases k k') as [|X]; [assumption|exfalso]. unfold cell in Hab.
    assert (S k' * columns s <= k * columns s)%nat by (apply Nat.mul_le_mono_r; lia). assert (k' * columns s + i' < k * columns s + i)%nat by (cbn in *; lia).
    assert (S (k' * columns s + i') * rows s <= (k * columns s + i) * rows s)%nat by (apply Nat.mul_le_mono_r; lia). cbn in *. lia. }
  unfold in_layers in *. rewrite forallb_forall in *. cbn [t_metal as_tile] in *. intros m Hm. apply Mt in Hm. destruct Hm as (M1 & M2).
  destruct (Nat.eq_dec k k') as [<-|Ne]; [apply Hu, Mu; split; assumption|].
  assert (metal_in s k' (lmetal s + Z.of_nat k' * per_layer s)) as Q. { destruct G' as (B1 & _). apply (layers_lt s V) in B1. split; [lia|]. nia. }
  apply Mu, Hu in Q. assert ((Z.of_nat k + 1) * per_layer s <= Z.of_nat k' * per_layer s) by (apply Z.mul_le_mono_nonneg_r; lia). lia.
Qed.
End Use.

(** Less capacity. *)
Definition fewer (e e' : edges) : Prop := Forall2 (fun a b => fst b = fst a /\ (0 <= snd a -> 0 <= snd b <= snd a)) e e'.
Lemma fewer_refl e : fewer e e.
Proof. apply F2_refl. intros a. split; [reflexivity|lia]. Qed.
Lemma fewer_trans a b c : fewer a b -> fewer b c -> fewer a c.
Proof. apply F2_trans. intros x y z [X1 X2] [Y1 Y2]. split; [congruence|lia]. Qed.
Lemma less_fewer n e : 0 <= n -> fewer e (less_cap n e).
Proof.
  intros Hn. destruct e as [|[k c] r]; cbn [less_cap]; constructor; [|apply fewer_refl]. split; [reflexivity|]. intros Hc. cbn [fst snd] in *. split; [lia|]. apply Z.max_lub; [exact Hc|].
  destruct (Z.le_ge_cases 0 (2 * c - 3 * n)) as [P|P]; [rewrite Z.quot_div_nonneg by lia; apply Z.div_le_upper_bound; lia|]. pose proof (Z.quot_opp_l (3 * n - 2 * c) 2 ltac:(lia)) as Qo.
  replace (- (3 * n - 2 * c)) with (2 * c - 3 * n) in Qo by lia. rewrite (Z.quot_div_nonneg (3 * n - 2 * c)) in Qo by lia. pose proof (Z.div_pos (3 * n - 2 * c) 2 ltac:(lia) ltac:(lia)). lia.
Qed.
Definition lessened (t t' : gtile) : Prop :=
  basis t' = basis t /\ up t' = up t /\ down t' = down t /\ fewer (north t) (north t') /\ fewer (south t) (south t') /\ fewer (east t) (east t') /\ fewer (west t) (west t').
Lemma plate_ok s pts ts : Forall2 lessened ts (AdjustPlateEdgeCapacity s pts ts).
Proof.
  unfold AdjustPlateEdgeCapacity. induction ts as [|t ts IH]; cbn; constructor; [|exact IH]. clear IH.
  assert (forall l t0, lessened t t0 -> lessened t (fold_left (adjust_metal s pts) l t0)) as Q.
  { induction l as [|m l IH]; intros t0 H; [exact H|]. cbn. apply IH. destruct H as (B & U & D & N & S & E & W). unfold adjust_metal. destruct (vertical (drc s) m); unfold lessened, basis in *; cbn; repeat split; auto; eapply fewer_trans; eauto; apply less_fewer; unfold count; lia. }
  apply Q. repeat split; apply fewer_refl.
Qed.
Lemma plate_same s pts ts : (forall m p, ~ In p (pts m)) -> (forall t e c, In t ts -> In (e, c) (all_next t) -> 0 <= c) -> AdjustPlateEdgeCapacity s pts ts = ts.
Proof.
  intros Hp Hc. unfold AdjustPlateEdgeCapacity. rewrite <- (map_id ts) at 2. apply map_ext_in. intros t Ht.
  assert (forall m, pts m = []) as Em. { intros m. destruct (pts m) as [|p l] eqn:E; [reflexivity|]. exfalso. apply (Hp m p). rewrite E. now left. }
  assert (forall e, (forall b c, In (b, c) e -> 0 <= c) -> less_cap 0 e = e) as L0.
  { intros [|[b c] r] H; [reflexivity|]. cbn [less_cap]. do 2 f_equal. replace (2 * c - 3 * 0) with (c * 2) by lia. rewrite Z.quot_mul by lia. pose proof (H b c (or_introl eq_refl)). lia. }
  assert (forall m, adjust_metal s pts t m = t) as A. { intros m. unfold adjust_metal. rewrite Em. cbn [count filter length]. unfold count. cbn [filter length Z.of_nat].
    assert (forall d, (forall x, In x d -> In x (all_next t)) -> less_cap 0 d = d) as L1 by (intros d Hd; apply L0; intros b c H; eapply Hc; [exact Ht|apply Hd, H]).
    destruct (vertical (drc s) m); unfold set_north, set_south, set_east, set_west; cbn [gx gy gw gh gmetal glayer north south east west down up]; rewrite !L1; try (destruct t; reflexivity); intros x Hx; unfold all_next; rewrite !in_app_iff; tauto. }
  induction (gmetal t) as [|m l IH]; [reflexivity|]. cbn. now rewrite A.
Qed.
