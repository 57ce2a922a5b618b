(** The places of the nodes and the tracks of the metals. *)
From Coq Require Import ZArith ZifyBool.
From Verif Require Import Base.Prelude Model.GlobalGrid Model.AStar Model.DetailGrid Spec.AStarSpec Spec.DetailGridSpec Proofs.GlobalGridP Proofs.GridUseP Proofs.DetailGridP Proofs.DetailLinkP.
Local Open Scope Z_scope.

Lemma lines_in d m lo hi z : 0 < unit d m -> In z (lines d m lo hi) <-> on_line d m z /\ lo <= z <= hi.
Proof.
  intros U. unfold lines, upto, ceil_to. rewrite starts_in by exact U. set (u := unit d m) in *. set (o := off d m). set (q := - (- (lo - o) / u)).
  assert ((q - 1) * u < lo - o <= q * u) as Q. { unfold q. pose proof (Z.div_mod (- (lo - o)) u ltac:(lia)). pose proof (Z.mod_pos_bound (- (lo - o)) u U). nia. }
  replace (- (- (lo - o) / u)) with q by reflexivity. split.
  - intros (i & -> & H). split; [exists (q + Z.of_nat i); unfold u, o; lia|]. nia.
  - intros ((k & ->) & H). assert (q <= k) by (unfold u, o in *; nia). exists (Z.to_nat (k - q)). rewrite Z2Nat.id by lia. unfold u, o in *. split; lia.
Qed.

Section Place.
Variable a : args.
Notation d := (dr a).
Hypothesis P : proper a.
Lemma adjacent_in m lo hi z : In z (adjacent d m lo hi) <-> crosses d m z /\ lo <= z <= hi.
Proof.
  unfold adjacent, crosses. destruct (z_set_ok (if m =? 0 then lines d (m + 1) lo hi else if m =? layers d - 1 then lines d (m - 1) lo hi else lines d (m - 1) lo hi ++ lines d (m + 1) lo hi)) as [_ H]. rewrite H. clear H.
  destruct (m =? 0); [apply lines_in, pr_unit, P|]. destruct (m =? layers d - 1); [apply lines_in, pr_unit, P|]. rewrite in_app_iff, !lines_in by apply (pr_unit a P). tauto.
Qed.
Lemma rem_line m z : 0 <= z -> on_line d m z -> Z.rem z (unit d m) =? off d m = true.
Proof.
  intros Hz (k & ->). pose proof (pr_unit a P m). pose proof (pr_off a P m). rewrite Z.rem_mod_nonneg by lia. rewrite Z.mod_add by lia. rewrite Z.mod_small by lia. apply Z.eqb_refl.
Qed.
Lemma marked_ok m z : 0 <= z -> crosses d m z -> marked d m z = true.
Proof.
  unfold crosses, marked. intros Hz H. destruct (m =? 0); [reflexivity|]. destruct (m =? layers d - 1); [reflexivity|]. cbn [orb]. destruct H as [H|H]; rewrite (rem_line _ z Hz H); [reflexivity|apply orb_true_r].
Qed.
Lemma marked_all m lo hi : 0 <= lo -> filter (marked d m) (adjacent d m lo hi) = adjacent d m lo hi.
Proof.
  intros Hl. assert (forall z, In z (adjacent d m lo hi) -> marked d m z = true) as H by (intros z Hz; apply adjacent_in in Hz; apply marked_ok; [lia|tauto]).
  induction (adjacent d m lo hi) as [|z l IH]; [reflexivity|]. cbn. rewrite (H z (or_introl eq_refl)). f_equal. apply IH. intros w Hw. apply H. now right.
Qed.
(** The lines of a track hold the crossings in its box. *)
Lemma track_line m p m' pts : In (m', pts) (track_lines a m p) <-> aligned a m p /\ m' = m /\
  let b := track_box a p in exists c, on_line d m c /\ (if vert d m then bx0 b <= c <= bx1 b else by0 b <= c <= by1 b) /\
    pts = map (place d m c) (adjacent d m (if vert d m then by0 b else bx0 b) (if vert d m then by1 b else bx1 b)).
Proof.
  pose proof (pr_chip a P) as [Px Py]. unfold track_lines, aligned. cbv zeta. assert (0 <= bx0 (track_box a p) /\ 0 <= by0 (track_box a p)) as [B1 B2] by (unfold track_box; cbn; lia). set (b := track_box a p) in *. clearbody b.
  destruct (vert d m).
  - destruct (_ =? _) eqn:E; [|split; [intros []|lia]]. rewrite in_map_iff. split.
    + intros (c & Hc & Hi). apply lines_in in Hi; [|apply (pr_unit a P)]. injection Hc as <- <-. rewrite marked_all by exact B2. split; [lia|]. split; [reflexivity|]. exists c. tauto.
    + intros (_ & -> & c & H1 & H2 & ->). exists c. split; [unfold pts_of; now rewrite marked_all|]. apply lines_in; [apply (pr_unit a P)|tauto].
  - destruct (_ =? _) eqn:E; [|split; [intros []|lia]]. rewrite in_map_iff. split.
    + intros (c & Hc & Hi). apply lines_in in Hi; [|apply (pr_unit a P)]. injection Hc as <- <-. rewrite marked_all by exact B1. split; [lia|]. split; [reflexivity|]. exists c. tauto.
    + intros (_ & -> & c & H1 & H2 & ->). exists c. split; [unfold pts_of; now rewrite marked_all|]. apply lines_in; [apply (pr_unit a P)|tauto].
Qed.
Lemma range_in m : In m (metal_range a) <-> lo_metal a <= m <= hi_metal a.
Proof.
  unfold metal_range. rewrite in_map_iff. split; [intros (k & <- & H); apply in_seq in H; lia|]. intros H. exists (Z.to_nat (m - lo_metal a)). split; [lia|]. apply in_seq. lia.
Qed.
Lemma line_in m pts : In (m, pts) (all_lines a) <-> lo_metal a <= m <= hi_metal a /\ exists p, In p (tracks a m) /\ In (m, pts) (track_lines a m p).
Proof.
  unfold all_lines, metal_lines. rewrite in_flat_map. split.
  - intros (m' & H1 & H2). apply in_flat_map in H2. destruct H2 as (p & H2 & H3). pose proof H3 as H4. apply track_line in H4. destruct H4 as (_ & -> & _). apply range_in in H1. eauto.
  - intros (H1 & p & H2 & H3). exists m. split; [now apply range_in|]. apply in_flat_map. eauto.
Qed.
Theorem nodes_ok m x y : (exists u, sits (Grid a) u m x y) <-> lo_metal a <= m <= hi_metal a /\ crossing d m x y /\ exists p, In p (tracks a m) /\ aligned a m p /\ inside (track_box a p) x y.
Proof.
  setoid_rewrite grid_sits. rewrite vertices_ok. split.
  - intros (u & v & H & G). apply build_inv in H. destruct H as (L1 & m' & p1 & pt & p2 & L2 & E & _ & ->). destruct (node_geo (vert d m') m' (0 + u) (is_nil p1) (is_nil p2) pt) as (G1 & G2 & G3). rewrite G1, G2, G3 in G. destruct G as (-> & <- & <-).
    assert (In (m, p1 ++ pt :: p2) (all_lines a)) as Hl by (rewrite E; apply in_or_app; right; now left). apply line_in in Hl. destruct Hl as (Hm & p & Hp & Hl). apply track_line in Hl. cbv zeta in Hl. destruct Hl as (Ha & _ & c & Hc & Hb & Ep).
    assert (In pt (map (place d m c) (adjacent d m (if vert d m then by0 (track_box a p) else bx0 (track_box a p)) (if vert d m then by1 (track_box a p) else bx1 (track_box a p))))) as Hi by (rewrite <- Ep; apply in_or_app; right; now left).
    apply in_map_iff in Hi. destruct Hi as (z & <- & Hz). apply adjacent_in in Hz. split; [exact Hm|]. unfold crossing, inside, place. destruct (vert d m); cbn [fst snd]; (split; [tauto|]); exists p; tauto.
  - intros (Hm & Hc & p & Hp & Ha & Hi). set (b := track_box a p) in *. set (c := if vert d m then x else y). set (z := if vert d m then y else x).
    set (pts := map (place d m c) (adjacent d m (if vert d m then by0 b else bx0 b) (if vert d m then by1 b else bx1 b))).
    assert (In (m, pts) (all_lines a)) as Hl.
    { apply line_in. split; [exact Hm|]. exists p. split; [exact Hp|]. apply track_line. split; [exact Ha|]. split; [reflexivity|]. exists c. unfold crossing, inside, c, pts in *. destruct (vert d m); tauto. }
    assert (In (x, y) pts) as Hin.
    { unfold pts. apply in_map_iff. exists z. unfold place, c, z, crossing, inside in *. split; [destruct (vert d m); reflexivity|]. apply adjacent_in. destruct (vert d m); tauto. }
    apply in_split in Hl. destruct Hl as (L1 & L2 & E). apply in_split in Hin. destruct Hin as (p1 & p2 & E2). rewrite E, E2. exists (total L1 + length p1)%nat. eexists. split; [apply build_nth|]. apply node_geo.
Qed.
(** Neighbours in a sorted list. *)
Lemma sorted_next l x y : Sorted.StronglySorted Z.lt l -> In x l -> In y l -> x < y -> (forall z, In z l -> ~ x < z < y) -> exists l1 l2, l = l1 ++ x :: y :: l2.
Proof.
  induction 1 as [|w l S IH F]; [intros []|]. intros Hx Hy Hlt Hb. rewrite Forall_forall in F. destruct Hx as [->|Hx].
  - destruct Hy as [->|Hy]; [lia|]. destruct l as [|w l]; [destruct Hy|]. destruct Hy as [->|Hy]; [exists [], l; reflexivity|]. exfalso. apply (Hb w); [right; now left|]. split; [apply F; now left|]. apply StronglySorted_inv in S. destruct S as [_ S]. rewrite Forall_forall in S. now apply S.
  - destruct Hy as [->|Hy]; [specialize (F x Hx); lia|]. destruct (IH Hx Hy Hlt) as (l1 & l2 & ->); [intros z Hz; apply Hb; now right|]. exists (w :: l1), l2. reflexivity.
Qed.
Theorem wires_ok m p x y x' y' : lo_metal a <= m <= hi_metal a -> In p (tracks a m) -> aligned a m p -> inside (track_box a p) x y -> inside (track_box a p) x' y' ->
  crossing d m x y -> crossing d m x' y' -> follows d m x y x' y' ->
  exists u n n', nth_error (Grid a) u = Some n /\ nth_error (Grid a) (S u) = Some n' /\ sits (Grid a) u m x y /\ sits (Grid a) (S u) m x' y' /\ joined d m n n' u (S u).
Proof.
  intros Hm Hp Ha I1 I2 C1 C2 F. set (b := track_box a p) in *. set (c := if vert d m then x else y). set (z := if vert d m then y else x). set (z' := if vert d m then y' else x').
  set (zs := adjacent d m (if vert d m then by0 b else bx0 b) (if vert d m then by1 b else bx1 b)).
  assert (In (m, map (place d m c) zs) (all_lines a)) as Hl.
  { apply line_in. split; [exact Hm|]. exists p. split; [exact Hp|]. apply track_line. split; [exact Ha|]. split; [reflexivity|]. exists c. unfold crossing, inside, c, zs in *. destruct (vert d m); tauto. }
  assert (exists l1 l2, zs = l1 ++ z :: z' :: l2) as (l1 & l2 & Ez).
  { apply sorted_next; [apply adjacent_sorted| | | |]; unfold zs, z, z', crossing, inside, follows in *; destruct (vert d m).
    1-4: apply adjacent_in; tauto. 1-2: tauto. 1-2: intros w Hw Hb; apply adjacent_in in Hw; destruct F as (_ & _ & F); apply (F w Hb); tauto. }
  apply in_split in Hl. destruct Hl as (L1 & L2 & E). rewrite Ez, map_app in E. cbn [map] in E.
  assert (place d m c z = (x, y) /\ place d m c z' = (x', y')) as [Ep Ep'] by (unfold place, c, z, z', follows in *; destruct (vert d m); destruct F as (-> & _); auto). rewrite Ep, Ep' in E.
  set (q1 := map (place d m c) l1) in *. set (q2 := map (place d m c) l2) in *. set (u := (total L1 + length q1)%nat).
  assert (nth_error (vertices a) u = Some (node_of (vert d m) m u (is_nil q1) false (x, y))) as H1 by (rewrite vertices_ok, E; apply build_nth).
  assert (nth_error (vertices a) (S u) = Some (node_of (vert d m) m (S u) false (is_nil q2) (x', y'))) as H2.
  { rewrite vertices_ok, E. replace (q1 ++ (x, y) :: (x', y') :: q2) with ((q1 ++ [(x, y)]) ++ (x', y') :: q2) by (now rewrite <- app_assoc). replace (S u) with (total L1 + length (q1 ++ [(x, y)]))%nat by (rewrite app_length; cbn; lia). rewrite build_nth. cbn [Nat.add]. do 2 f_equal. now destruct q1. }
  exists u. do 2 eexists. rewrite (grid_nth a u), H1, (grid_nth a (S u)), H2. cbn [option_map]. split; [reflexivity|]. split; [reflexivity|]. rewrite !grid_sits. split; [eexists; split; [exact H1|apply node_geo]|]. split; [eexists; split; [exact H2|apply node_geo]|].
  unfold joined, node_of. destruct (vert d m); cbn; (split; [now left|left; lia]).
Qed.
End Place.

(** *** The runs of tiles *)
Definition ends_run (post : list (option nat)) : Prop := match post with [] | None :: _ => True | _ => False end.
Definition is_run (cells : list (option nat)) (s e : nat) : Prop :=
  exists pre run post, cells = pre ++ map Some (s :: run) ++ post /\ e = last (s :: run) O /\ (pre = [] \/ exists pre', pre = pre' ++ [None]) /\ ends_run post.
Lemma last_any (l : list nat) c x y : last (c :: l) x = last (c :: l) y.
Proof. revert c. induction l as [|b l IH]; intros c; [reflexivity|]. change (last (b :: l) x = last (b :: l) y). apply IH. Qed.
Lemma last_cons (l : list nat) c x : last (c :: l) x = last l c.
Proof. revert c x. induction l as [|b l IH]; intros c x; [reflexivity|]. change (last (b :: l) x = last (b :: l) c). apply last_any. Qed.
Lemma runs_ok cells : (forall s0 prev s e, In (s, e) (runs_from (Some s0) prev cells) <->
  (s = s0 /\ exists run post, cells = map Some run ++ post /\ e = last run prev /\ ends_run post) \/
  (exists pre run post, cells = pre ++ None :: map Some (s :: run) ++ post /\ e = last (s :: run) O /\ ends_run post)) /\
  (forall prev s e, In (s, e) (runs_from None prev cells) <-> is_run cells s e).
Proof.
  induction cells as [|[c|] r [IHS IHN]].
  - split.
    + intros s0 prev s e. cbn [runs_from]. split.
      * intros [H|[]]. injection H as <- <-. left. split; [reflexivity|]. exists [], []. repeat split.
      * intros [(-> & run & post & E & -> & _)|(pre & run & post & E & _)]; [|destruct pre; discriminate]. destruct run; [|discriminate]. now left.
    + intros prev s e. cbn [runs_from]. split; [intros []|]. intros (pre & run & post & E & _). destruct pre; discriminate.
  - split.
    + intros s0 prev s e. cbn [runs_from]. rewrite IHS. split; (intros [(-> & run & post & E & -> & H)|(pre & run & post & E & -> & H)]).
      * left. split; [reflexivity|]. exists (c :: run), post. split; [now rewrite E|]. split; [now rewrite last_cons|exact H].
      * right. exists (Some c :: pre), run, post. split; [now rewrite E|]. auto.
      * left. split; [reflexivity|]. destruct run as [|c' run]; [cbn in E; subst post; destruct H|]. cbn in E. injection E as <- E. exists run, post. split; [exact E|]. split; [now rewrite last_cons|exact H].
      * right. destruct pre as [|x pre]; [discriminate|]. cbn in E. injection E as <- E. exists pre, run, post. auto.
    + intros prev s e. cbn [runs_from]. rewrite IHS. split.
      * intros [(-> & run & post & E & -> & H)|(pre & run & post & E & -> & H)].
        -- exists [], run, post. split; [now rewrite E|]. split; [now rewrite last_cons|]. split; [now left|exact H].
        -- exists ((Some c :: pre) ++ [None]), run, post. split; [rewrite E, <- app_assoc; reflexivity|]. split; [reflexivity|]. split; [right; eauto|exact H].
      * intros (pre & run & post & E & -> & Hp & H). destruct Hp as [->|(pre' & ->)].
        -- cbn in E. injection E as <- E. left. split; [reflexivity|]. exists run, post. split; [exact E|]. split; [now rewrite last_cons|exact H].
        -- right. rewrite <- app_assoc in E. destruct pre' as [|x pre']; [discriminate|]. cbn [app] in E. injection E as <- E. exists pre', run, post. auto.
  - split.
    + intros s0 prev s e. cbn [runs_from In]. rewrite IHN. split.
      * intros [H|(pre & run & post & E & -> & Hp & H)].
        -- injection H as <- <-. left. split; [reflexivity|]. exists [], (None :: r). repeat split.
        -- right. destruct Hp as [->|(pre' & ->)]; [exists [], run, post|exists (None :: pre'), run, post]; rewrite E; (split; [|auto]); [reflexivity|rewrite <- app_assoc; reflexivity].
      * intros [(-> & run & post & E & -> & H)|(pre & run & post & E & -> & H)].
        -- left. destruct run; [reflexivity|discriminate].
        -- right. destruct pre as [|x pre]; cbn in E; injection E as E; [exists [], run, post|subst x]; [repeat split; auto|]. exists (pre ++ [None]), run, post. split; [rewrite H0, <- app_assoc; reflexivity|]. split; [reflexivity|]. split; [right; eauto|exact H].
    + intros prev s e. cbn [runs_from]. rewrite IHN. split; intros (pre & run & post & E & -> & Hp & H).
      * exists (None :: pre), run, post. split; [now rewrite E|]. split; [reflexivity|]. split; [right|exact H]. destruct Hp as [->|(pre' & ->)]; [exists []; reflexivity|exists (None :: pre'); reflexivity].
      * destruct pre as [|x pre]; [discriminate|]. cbn in E. injection E as <- E. exists pre, run, post. split; [exact E|]. split; [reflexivity|]. split; [|exact H]. destruct Hp as [Hp|(pre' & Hp)]; [discriminate|]. destruct pre' as [|x pre']; [left; now injection Hp|right; injection Hp as _ Hp; eauto].
Qed.
Lemma all_some (f : nat -> option nat) l : (forall y, In y l -> f y <> None) -> exists run, map f l = map Some run.
Proof.
  induction l as [|y l IH]; intros H; [exists []; reflexivity|]. destruct IH as (run & E); [intros z Hz; apply H; now right|]. destruct (f y) as [c|] eqn:Ey; [|destruct (H y (or_introl eq_refl) Ey)]. exists (c :: run). cbn. now rewrite Ey, E.
Qed.
Lemma nth_last (l : list nat) s : nth_error (s :: l) (length l) = Some (last (s :: l) O).
Proof. revert s. induction l as [|b l IH]; intros s; [reflexivity|]. cbn [length nth_error]. rewrite IH. reflexivity. Qed.
Lemma run_at (f : nat -> option nat) n s e : is_run (map f (seq 0 n)) s e <-> exists i k, (i <= k < n)%nat /\ f i = Some s /\ f k = Some e /\ (forall y, (i <= y <= k)%nat -> f y <> None) /\ (forall y, S y = i -> f y = None) /\ ((S k < n)%nat -> f (S k) = None).
Proof.
  assert (forall k, nth_error (map f (seq 0 n)) k = if (k <? n)%nat then Some (f k) else None) as Hn.
  { intros k. rewrite nth_error_map. destruct (k <? n)%nat eqn:E; [|replace (nth_error (seq 0 n) k) with (@None nat); [reflexivity|symmetry; apply nth_error_None; rewrite seq_length; lia]].
    rewrite (nth_error_nth' (seq 0 n) O) by (rewrite seq_length; lia). rewrite seq_nth by lia. reflexivity. }
  assert (forall k o, nth_error (map f (seq 0 n)) k = Some o -> (k < n)%nat /\ f k = o) as Hs by (intros k o H; rewrite Hn in H; destruct (k <? n)%nat eqn:E; [|discriminate]; injection H as <-; split; [lia|reflexivity]).
  split.
  - intros (pre & run & post & E & -> & Hp & He). exists (length pre), (length pre + length run)%nat.
    assert (forall k, (k <= length run)%nat -> exists c, f (length pre + k)%nat = Some c /\ nth_error (s :: run) k = Some c /\ (length pre + k < n)%nat) as K.
    { intros k Hk. destruct (nth_error (s :: run) k) as [c|] eqn:Ec; [|apply nth_error_None in Ec; cbn in Ec; lia]. exists c. destruct (Hs (length pre + k)%nat (Some c)) as [K1 K2]; [|auto].
      rewrite E, nth_error_app2 by lia. replace (length pre + k - length pre)%nat with k by lia. rewrite nth_error_app1 by (rewrite map_length; cbn; lia). rewrite nth_error_map, Ec. reflexivity. }
    split; [destruct (K (length run) (le_n _)) as (c & _ & _ & Kn); lia|]. split; [destruct (K O ltac:(lia)) as (c & K1 & K2 & _); cbn in K2; injection K2 as <-; now rewrite Nat.add_0_r in K1|].
    split; [destruct (K (length run) (le_n _)) as (c & K1 & K2 & _); rewrite nth_last in K2; now rewrite K2|].
    split; [intros y Hy; destruct (K (y - length pre)%nat ltac:(lia)) as (c & K1 & _); replace (length pre + (y - length pre))%nat with y in K1 by lia; congruence|].
    split.
    + intros y Hy. destruct Hp as [->|(pre' & ->)]; [discriminate|]. rewrite app_length in Hy. cbn in Hy. destruct (Hs y None) as [_ H]; [|exact H]. rewrite E, <- app_assoc, nth_error_app2 by lia. replace (y - length pre')%nat with O by lia. reflexivity.
    + intros Hk. destruct (Hs (S (length pre + length run)) None) as [_ H]; [|exact H]. rewrite E, app_assoc, nth_error_app2 by (rewrite app_length, map_length; cbn; lia). rewrite app_length, map_length. cbn [length]. replace (S (length pre + length run) - (length pre + S (length run)))%nat with O by lia.
      destruct post as [|[c|] post]; [|destruct He|reflexivity]. exfalso. apply (f_equal (@length (option nat))) in E. rewrite map_length, seq_length, !app_length, map_length in E. cbn in E. lia.
  - intros (i & k & Hik & Hi & Hk & Hb & Hp & Hq). destruct (all_some f (seq i (S k - i))) as (run & Er); [intros y Hy; apply in_seq in Hy; apply Hb; lia|].
    assert (length run = (S k - i)%nat) as Lr by (apply (f_equal (@length (option nat))) in Er; now rewrite !map_length, seq_length in Er).
    assert (forall z, (z < S k - i)%nat -> nth_error run z = f (i + z)%nat) as Rz.
    { intros z Hz. assert (nth_error (map Some run) z = Some (f (i + z)%nat)) as X by (rewrite <- Er, nth_error_map, (nth_error_nth' _ O) by (rewrite seq_length; lia); rewrite seq_nth by lia; reflexivity).
      rewrite nth_error_map in X. destruct (nth_error run z); [cbn in X; now injection X|discriminate]. }
    destruct run as [|s' run]; [cbn [length] in Lr; lia|]. pose proof (Rz O ltac:(lia)) as R0. cbn in R0. rewrite Nat.add_0_r, Hi in R0. injection R0 as ->.
    exists (map f (seq 0 i)), run, (map f (seq (S k) (n - S k))). split; [|split; [|split]].
    + rewrite <- Er, <- !map_app. f_equal. rewrite app_assoc. rewrite <- seq_app. replace (i + (S k - i))%nat with (S k) by lia. rewrite <- seq_app. f_equal. lia.
    + cbn [length] in Lr. pose proof (Rz (length run) ltac:(lia)) as X. rewrite nth_last in X. replace (i + length run)%nat with k in X by lia. rewrite Hk in X. now injection X.
    + destruct i as [|i]; [now left|]. right. exists (map f (seq 0 i)). rewrite seq_S, map_app. cbn. now rewrite (Hp i eq_refl).
    + destruct (n - S k)%nat as [|q] eqn:Eq; [exact I|]. cbn [seq map ends_run]. rewrite Hq by lia. exact I.
Qed.

Section Tracks.
Variable a : args.
Hypothesis P : placed a.
Lemma cell_in l x y i : cell a l x y = Some i <-> In i (tiles a) /\ tlayer (gr a) i = l /\ txi (gr a) i = x /\ tyi (gr a) i = y.
Proof.
  unfold cell. split.
  - intros H. apply find_some in H. destruct H as [H1 H2]. apply in_rev in H1. apply andb_prop in H2. destruct H2 as [H2 H3]. apply andb_prop in H2. destruct H2 as [H2 H4]. apply Nat.eqb_eq in H2, H3, H4. auto.
  - intros (H & <- & <- & <-). destruct (find _ _) as [k|] eqn:E.
    + apply find_some in E. destruct E as [H1 H2]. apply in_rev in H1. apply andb_prop in H2. destruct H2 as [H2 H3]. apply andb_prop in H2. destruct H2 as [H2 H4]. apply Nat.eqb_eq in H2, H3, H4. f_equal. now apply (pl_one a P).
    + exfalso. apply in_rev in H. apply (find_none _ _ E) in H. rewrite !Nat.eqb_refl in H. discriminate.
Qed.
Lemma cell_used l x y : cell a l x y <> None <-> used a l x y.
Proof. unfold used. split; [intros H; destruct (cell a l x y) as [i|] eqn:E; [apply cell_in in E; eauto|congruence]|]. intros (i & H). apply cell_in in H. congruence. Qed.
Lemma cell_free l x y : cell a l x y = None <-> ~ used a l x y.
Proof. rewrite <- cell_used. destruct (cell a l x y); split; intros; try congruence. destruct H. congruence. Qed.
Theorem tracks_ok m s e : In (s, e) (tracks a m) <-> longest a m s e.
Proof.
  unfold tracks, longest. rewrite in_flat_map. assert (forall l, existsb (Z.eqb m) (metals (gr a) l) = true <-> In m (metals (gr a) l)) as Hx.
  { intros l. rewrite existsb_exists. split; [intros (z & H1 & H2); apply Z.eqb_eq in H2; now subst|intros H; exists m; split; [exact H|apply Z.eqb_refl]]. }
  cbv zeta. split.
  - intros (l & Hl & H). destruct (existsb _ _) eqn:Em; [|destruct H]. apply Hx in Em. apply in_seq in Hl. destruct (vert (dr a) m).
    + apply in_flat_map in H. destruct H as (x & Hxr & H). apply (proj2 (runs_ok _)) in H. apply run_at in H. destruct H as (i & k & Hik & Hi & Hk & Hb & Hp & Hq). apply cell_in in Hi, Hk. destruct Hi as (T1 & <- & <- & <-). destruct Hk as (T2 & E1 & E2 & <-).
      split; [exact T1|]. split; [exact T2|]. split; [congruence|]. split; [exact Em|]. split; [congruence|]. split; [lia|]. split; [intros y Hy; now apply cell_used, Hb|]. split; [intros y Hy; now apply cell_free, Hp|].
      destruct (lt_dec (S (tyi (gr a) e)) (S (max_y (gr a)))) as [Lt|Ge]; [apply cell_free, Hq; lia|]. intros (w & Hw & _ & _ & E3). pose proof (pl_in a P w Hw). lia.
    + apply in_flat_map in H. destruct H as (x & Hxr & H). apply (proj2 (runs_ok _)) in H. unfold row in H. apply run_at in H. destruct H as (i & k & Hik & Hi & Hk & Hb & Hp & Hq). apply cell_in in Hi, Hk. destruct Hi as (T1 & <- & <- & <-). destruct Hk as (T2 & E1 & <- & E2).
      split; [exact T1|]. split; [exact T2|]. split; [congruence|]. split; [exact Em|]. split; [congruence|]. split; [lia|]. split; [intros y Hy; now apply cell_used, Hb|]. split; [intros y Hy; now apply cell_free, Hp|].
      destruct (lt_dec (S (txi (gr a) e)) (S (max_x (gr a)))) as [Lt|Ge]; [apply cell_free, Hq; lia|]. intros (w & Hw & _ & E3 & _). pose proof (pl_in a P w Hw). lia.
  - intros (T1 & T2 & El & Em & H). exists (tlayer (gr a) s). pose proof (pl_in a P s T1) as Ps. pose proof (pl_in a P e T2) as Pe. split; [apply in_seq; lia|]. apply Hx in Em. rewrite Em. destruct (vert (dr a) m); destruct H as (E & Le & Hb & Hp & Hq); apply in_flat_map.
    + exists (txi (gr a) s). split; [apply in_seq; lia|]. apply (proj2 (runs_ok _)). apply run_at. exists (tyi (gr a) s), (tyi (gr a) e). split; [lia|]. split; [now apply cell_in|]. split; [apply cell_in; auto|]. split; [intros y Hy; now apply cell_used, Hb|]. split; [intros y Hy; now apply cell_free, Hp|]. intros _. now apply cell_free.
    + exists (tyi (gr a) s). split; [apply in_seq; lia|]. apply (proj2 (runs_ok _)). unfold row. apply run_at. exists (txi (gr a) s), (txi (gr a) e). split; [lia|]. split; [now apply cell_in|]. split; [apply cell_in; auto|]. split; [intros y Hy; now apply cell_used, Hb|]. split; [intros y Hy; now apply cell_free, Hp|]. intros _. now apply cell_free.
Qed.
(** Each tile of the path is in a track of its metals. *)
Lemma grow (f : nat -> Prop) (D : forall n, f n \/ ~ f n) i n : f i -> (i <= n)%nat -> (forall k, f k -> (k <= n)%nat) -> exists lo hi, (lo <= i <= hi)%nat /\ (forall k, (lo <= k <= hi)%nat -> f k) /\ (forall k, S k = lo -> ~ f k) /\ ~ f (S hi).
Proof.
  intros Hi Hin Hn.
  assert (exists lo, (lo <= i)%nat /\ (forall k, (lo <= k <= i)%nat -> f k) /\ (forall k, S k = lo -> ~ f k)) as (lo & L1 & L2 & L3).
  { clear Hin Hn n. induction i as [|i IH]; [exists O; split; [lia|]; split; [intros k Hk; replace k with O by lia; exact Hi|discriminate]|]. destruct (D i) as [Di|Di].
    - destruct (IH Di) as (lo & H1 & H2 & H3). exists lo. split; [lia|]. split; [|exact H3]. intros k Hk. destruct (Nat.eq_dec k (S i)) as [->|X]; [exact Hi|apply H2; lia].
    - exists (S i). split; [lia|]. split; [intros k Hk; replace k with (S i) by lia; exact Hi|]. intros k Hk. injection Hk as ->. exact Di. }
  assert (exists hi, (i <= hi)%nat /\ (forall k, (i <= k <= hi)%nat -> f k) /\ ~ f (S hi)) as (hi & H1 & H2 & H3).
  { clear L1 L2 L3 lo. remember (n - i)%nat as g eqn:Eg. revert i Hi Hin Eg. induction g as [|g IH]; intros i Hi Hin Eg; destruct (D (S i)) as [Di|Di].
    - specialize (Hn _ Di). lia.
    - exists i. split; [lia|]. split; [|exact Di]. intros k Hk. replace k with i by lia. exact Hi.
    - destruct (IH (S i) Di) as (hi & A1 & A2 & A3); [specialize (Hn _ Di); lia|lia|]. exists hi. split; [lia|]. split; [|exact A3]. intros k Hk. destruct (Nat.eq_dec k i) as [->|X]; [exact Hi|apply A2; lia].
    - exists i. split; [lia|]. split; [|exact Di]. intros k Hk. replace k with i by lia. exact Hi. }
  exists lo, hi. split; [lia|]. split; [|auto]. intros k Hk. destruct (le_dec k i); [apply L2; lia|apply H2; lia].
Qed.
Lemma used_dec l x y : used a l x y \/ ~ used a l x y.
Proof. rewrite <- cell_used. destruct (cell a l x y); [left; congruence|right; intros H; now apply H]. Qed.
Lemma tile_track m i : In i (tiles a) -> In m (metals (gr a) (tlayer (gr a) i)) -> exists s e, longest a m s e /\ tlayer (gr a) s = tlayer (gr a) i /\
  if vert (dr a) m then txi (gr a) s = txi (gr a) i /\ txi (gr a) e = txi (gr a) i /\ (tyi (gr a) s <= tyi (gr a) i <= tyi (gr a) e)%nat
  else tyi (gr a) s = tyi (gr a) i /\ tyi (gr a) e = tyi (gr a) i /\ (txi (gr a) s <= txi (gr a) i <= txi (gr a) e)%nat.
Proof.
  intros Hi Hm. pose proof (pl_in a P i Hi) as (_ & Px & Py). unfold longest. cbv zeta. destruct (vert (dr a) m).
  - destruct (grow (used a (tlayer (gr a) i) (txi (gr a) i)) (used_dec _ _) (tyi (gr a) i) (max_y (gr a))) as (lo & hi & H1 & H2 & H3 & H4); [exists i; auto|exact Py|intros k (w & Hw & _ & _ & <-); apply (pl_in a P w Hw)|].
    destruct (H2 lo ltac:(lia)) as (s & S1 & S2 & S3 & S4). destruct (H2 hi ltac:(lia)) as (e & E1 & E2 & E3 & E4). exists s, e. rewrite S2, S3, S4, E2, E3, E4. repeat (split; auto); lia.
  - destruct (grow (fun x => used a (tlayer (gr a) i) x (tyi (gr a) i)) (fun x => used_dec _ x _) (txi (gr a) i) (max_x (gr a))) as (lo & hi & H1 & H2 & H3 & H4); [exists i; auto|exact Px|intros k (w & Hw & _ & <- & _); apply (pl_in a P w Hw)|].
    destruct (H2 lo ltac:(lia)) as (s & S1 & S2 & S3 & S4). destruct (H2 hi ltac:(lia)) as (e & E1 & E2 & E3 & E4). exists s, e. rewrite S2, S3, S4, E2, E3, E4. repeat (split; auto); lia.
Qed.
(** With regular tiles the box of a tile is in the one of its track. *)
Theorem cover_ok (R : regular a) (Q : proper a) m i x y : In i (tiles a) -> In m (metals (gr a) (tlayer (gr a) i)) -> lo_metal a <= m <= hi_metal a ->
  inside (track_box a (i, i)) x y -> crossing (dr a) m x y -> exists u, sits (Grid a) u m x y.
Proof.
  intros Hi Hm Hr Hb Hc. apply (nodes_ok a Q). split; [exact Hr|]. split; [exact Hc|]. destruct (tile_track m i Hi Hm) as (s & e & Hl & _ & H). exists (s, e). split; [now apply tracks_ok|].
  destruct Hl as (Ts & Te & _). unfold aligned, inside, track_box in *. cbn [fst snd bx0 bx1 by0 by1] in *. destruct (vert (dr a) m); destruct H as (E1 & E2 & E3).
  - destruct (rg_col a R s i Ts Hi E1) as [X1 X2]. destruct (rg_col a R e i Te Hi E2) as [X3 X4]. destruct (rg_up a R s i Ts Hi ltac:(lia)) as [Y1 Y2]. destruct (rg_up a R i e Hi Te ltac:(lia)) as [Y3 Y4]. rewrite X1, X2, X3, X4. split; [reflexivity|lia].
  - destruct (rg_row a R s i Ts Hi E1) as [X1 X2]. destruct (rg_row a R e i Te Hi E2) as [X3 X4]. destruct (rg_right a R s i Ts Hi ltac:(lia)) as [Y1 Y2]. destruct (rg_right a R i e Hi Te ltac:(lia)) as [Y3 Y4]. rewrite X1, X2, X3, X4. split; [reflexivity|lia].
Qed.
End Tracks.
