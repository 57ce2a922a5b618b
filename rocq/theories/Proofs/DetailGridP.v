(** The nodes of the detailed router's grid, line by line. *)
From Coq Require Import ZArith ZifyBool.
From Verif Require Import Base.Prelude Model.GlobalGrid Model.AStar Model.DetailGrid Spec.AStarSpec Spec.DetailGridSpec Proofs.GlobalGridP Proofs.GridUseP.
Local Open Scope Z_scope.

(** *** One line in closed form *)
Definition node_of (vertical : bool) (m : Z) (i : nat) (first last : bool) (p : Z * Z) : vertex :=
  let n := if last then [] else [S i] in let b := if first then [] else [(i - 1)%nat] in
  if vertical then V (fst p) (snd p) m true true true n b [] [] None None else V (fst p) (snd p) m true true true [] [] n b None None.
Definition is_nil {A} (l : list A) : bool := match l with [] => true | _ => false end.
Fixpoint line_nodes (vertical : bool) (m : Z) (first : bool) (b : nat) (pts : list (Z * Z)) : list vertex :=
  match pts with [] => [] | p :: r => node_of vertical m b first (is_nil r) p :: line_nodes vertical m false (S b) r end.
Lemma line_len vertical m pts : forall f b, length (line_nodes vertical m f b pts) = length pts.
Proof. induction pts as [|p r IH]; intros f b; cbn; [reflexivity|]. now rewrite IH. Qed.
Lemma line_nth vertical m p1 p p2 : forall f b, nth_error (line_nodes vertical m f b (p1 ++ p :: p2)) (length p1) =
  Some (node_of vertical m (b + length p1) (f && is_nil p1) (is_nil p2) p).
Proof.
  induction p1 as [|q p1 IH]; intros f b; cbn [app length line_nodes nth_error is_nil].
  - rewrite Nat.add_0_r, andb_true_r. reflexivity.
  - rewrite IH, andb_false_r. cbn [andb]. do 2 f_equal. lia.
Qed.
(** The last node of a line changes when one is added. *)
Lemma alter_app {A} (f : A -> A) l r i : i = length l -> alter_at f i (l ++ r) = l ++ match r with [] => [] | a :: r => f a :: r end.
Proof. intros ->. induction l as [|a l IH]; cbn; [now destruct r|]. now rewrite IH. Qed.
Fixpoint inner (vertical : bool) (m : Z) (first : bool) (b : nat) (pts : list (Z * Z)) : list vertex :=
  match pts with [] => [] | p :: r => node_of vertical m b first false p :: inner vertical m false (S b) r end.
Lemma inner_len vertical m pts : forall f b, length (inner vertical m f b pts) = length pts.
Proof. induction pts as [|p r IH]; intros f b; cbn; [reflexivity|]. now rewrite IH. Qed.
Lemma line_snoc vertical m q s : forall l f b, line_nodes vertical m f b (l ++ q :: s) = inner vertical m f b l ++ line_nodes vertical m (f && is_nil l) (b + length l) (q :: s).
Proof.
  induction l as [|p l IH]; intros f b; cbn [app line_nodes inner length is_nil].
  - rewrite Nat.add_0_r, andb_true_r. reflexivity.
  - rewrite IH, andb_false_r. cbn [andb app]. replace (is_nil (l ++ q :: s)) with false by (now destruct l). f_equal. f_equal. rewrite Nat.add_succ_r. reflexivity.
Qed.

Section Line.
Variables (d : pdk) (m : Z).
Notation vt := (vert d m).
Definition place (c z : Z) : Z * Z := if vt then (c, z) else (z, c).
Definition state_of (vs : list vertex) (c : Z) (zs : list Z) : option nat * list vertex :=
  (match zs with [] => None | _ => Some (length vs) end, vs ++ line_nodes vt m true (length vs) (map (place c) zs)).
Lemma add_node_ok vs c zs z : Sorted.StronglySorted Z.lt (zs ++ [z]) ->
  (if vt then add_node true m c z (state_of vs c zs) else add_node false m z c (state_of vs c zs)) = state_of vs c (zs ++ [z]).
Proof.
  intros Hs.
  destruct (list_eq_dec Z.eq_dec zs []) as [->|Hz].
  - unfold state_of, add_node. cbn [map line_nodes app]. rewrite !app_nil_r. unfold place, node_of, new_node. destruct vt; reflexivity.
  - destruct (exists_last Hz) as (l & y & ->). clear Hz. rewrite <- app_assoc in Hs. cbn [app] in Hs.
    assert (y < z) as Hyz.
    { clear - Hs. induction l as [|w l IH]; [apply StronglySorted_inv in Hs; destruct Hs as [_ H]; now inversion H|]. apply IH. cbn [app] in Hs. now apply StronglySorted_inv in Hs. }
    unfold state_of, add_node. set (B := length vs).
    replace (match l ++ [y] with [] => None | _ => Some B end) with (Some B) by (now destruct l). replace (match (l ++ [y]) ++ [z] with [] => None | _ => Some B end) with (Some B) by (now destruct l).
    replace ((l ++ [y]) ++ [z]) with (l ++ [y; z]) by (now rewrite <- app_assoc). rewrite !map_app. cbn [map]. rewrite !line_snoc. cbn [line_nodes is_nil]. set (I := inner vt m true B (map (place c) l)).
    assert (length I = length l) as LI by (unfold I; now rewrite inner_len, map_length). set (n := node_of vt m (B + length (map (place c) l)) (true && is_nil (map (place c) l)) true (place c y)).
    assert (length (vs ++ I ++ [n]) = S (B + length l)) as Len by (rewrite !app_length, LI; cbn; unfold B; lia). rewrite Len.
    assert (nth (B + length l) (vs ++ I ++ [n]) nowhere = n) as Hn by (rewrite app_assoc, app_nth2; rewrite app_length, LI; [|unfold B; lia]; unfold B; rewrite Nat.sub_diag; reflexivity).
    replace (S (B + length l) - B)%nat with (S (length l)) by lia. cbn [back_to]. replace (S (B + length l) - 1)%nat with (B + length l)%nat by lia. rewrite Hn. clear Hn Len.
    assert (forall f, alter_at f (B + length l)%nat (vs ++ I ++ [n]) = vs ++ I ++ [f n]) as Ha by (intros f; rewrite app_assoc, alter_app by (rewrite app_length, LI; unfold B; lia); now rewrite <- app_assoc).
    subst n. rewrite !map_length in *. unfold node_of, place in *. destruct vt; cbn [vx vy fst snd] in *.
    + rewrite Z.eqb_refl. replace (1 <=? z - y) with true by lia. rewrite Ha. f_equal. rewrite <- !app_assoc. do 2 f_equal. cbn [app]. unfold add_to_north, new_node. cbn. rewrite ?Nat.sub_0_r. reflexivity.
    + rewrite Z.eqb_refl. replace (1 <=? z - y) with true by lia. rewrite Ha. f_equal. rewrite <- !app_assoc. do 2 f_equal. cbn [app]. unfold add_to_east, new_node. cbn. rewrite ?Nat.sub_0_r. reflexivity.
Qed.

Lemma add_line_go vs c : forall zs l, Sorted.StronglySorted Z.lt (l ++ filter (marked d m) zs) ->
  fold_left (fun sv z => if marked d m z then if vt then add_node true m c z sv else add_node false m z c sv else sv) zs (state_of vs c l) = state_of vs c (l ++ filter (marked d m) zs).
Proof.
  induction zs as [|z zs IH]; intros l H; cbn [filter fold_left] in *; [now rewrite app_nil_r|]. destruct (marked d m z); [|now apply IH].
  rewrite add_node_ok by (clear - H; induction l as [|w l IH]; cbn [app] in *; [apply StronglySorted_inv in H; constructor; [constructor|constructor]|apply StronglySorted_inv in H; destruct H as [H1 H2]; constructor; [now apply IH|]; rewrite Forall_forall in *; intros x Hx; apply H2; rewrite in_app_iff in *; cbn in *; tauto]).
  rewrite IH; rewrite <- app_assoc; [reflexivity|exact H].
Qed.
Lemma sorted_filter (f : Z -> bool) l : Sorted.StronglySorted Z.lt l -> Sorted.StronglySorted Z.lt (filter f l).
Proof. induction 1 as [|z l H IH F]; cbn; [constructor|]. destruct (f z); [|exact IH]. constructor; [exact IH|]. rewrite Forall_forall in *. intros x Hx. apply filter_In in Hx. now apply F. Qed.
Lemma add_line_ok vs c zs : Sorted.StronglySorted Z.lt zs -> add_line d m zs c vs = vs ++ line_nodes vt m true (length vs) (map (place c) (filter (marked d m) zs)).
Proof. intros H. unfold add_line. pose proof (add_line_go vs c zs [] (sorted_filter _ _ H)) as E. unfold state_of at 1 in E. cbn [map line_nodes] in E. rewrite app_nil_r in E. rewrite E. reflexivity. Qed.
End Line.

Lemma z_insert_in z l x : In x (z_insert z l) <-> x = z \/ In x l.
Proof. induction l as [|y l IH]; cbn; [intuition|]. destruct (z <? y) eqn:E1; [cbn; intuition|]. destruct (y <? z) eqn:E2; cbn; [rewrite IH; intuition|]. replace y with z by lia. intuition. Qed.
Lemma z_insert_sorted z l : Sorted.StronglySorted Z.lt l -> Sorted.StronglySorted Z.lt (z_insert z l).
Proof.
  induction 1 as [|y l H IH F]; cbn; [repeat constructor|]. destruct (z <? y) eqn:E1.
  - constructor; [now constructor|]. constructor; [lia|]. rewrite Forall_forall in *. intros x Hx. specialize (F x Hx). lia.
  - destruct (y <? z) eqn:E2; [|now constructor]. constructor; [exact IH|]. rewrite Forall_forall in *. intros x Hx. apply z_insert_in in Hx. destruct Hx as [->|Hx]; [lia|now apply F].
Qed.
Lemma z_set_go l : forall s, Sorted.StronglySorted Z.lt s -> Sorted.StronglySorted Z.lt (fold_left (fun s z => z_insert z s) l s) /\ forall x, In x (fold_left (fun s z => z_insert z s) l s) <-> In x s \/ In x l.
Proof.
  induction l as [|z l IH]; intros s H; cbn [fold_left]; [split; [exact H|cbn; tauto]|]. destruct (IH _ (z_insert_sorted z s H)) as [H1 H2]. split; [exact H1|]. intros x. rewrite H2, z_insert_in. cbn. intuition.
Qed.
Lemma z_set_ok l : Sorted.StronglySorted Z.lt (z_set l) /\ forall x, In x (z_set l) <-> In x l.
Proof. destruct (z_set_go l [] ltac:(constructor)) as [H1 H2]. split; [exact H1|]. intros x. unfold z_set. rewrite H2. cbn. tauto. Qed.
Lemma adjacent_sorted d m lo hi : Sorted.StronglySorted Z.lt (adjacent d m lo hi).
Proof. apply z_set_ok. Qed.

(** *** All lines in closed form *)
Section All.
Variable a : args.
Notation d := (dr a).
Fixpoint build (b : nat) (L : list (Z * list (Z * Z))) : list vertex :=
  match L with [] => [] | (m, pts) :: L => line_nodes (vert d m) m true b pts ++ build (b + length pts) L end.
Definition total (L : list (Z * list (Z * Z))) : nat := length (concat (map snd L)).
Lemma build_len L : forall b, length (build b L) = total L.
Proof. induction L as [|[m pts] L IH]; intros b; [reflexivity|]. unfold total. cbn [build map concat snd]. rewrite !app_length, line_len, IH. reflexivity. Qed.
Lemma build_app L1 L2 : forall b, build b (L1 ++ L2) = build b L1 ++ build (b + total L1) L2.
Proof.
  induction L1 as [|[m pts] L1 IH]; intros b; cbn [app build]; [unfold total; cbn; now rewrite Nat.add_0_r|]. rewrite IH, <- app_assoc. do 3 f_equal. unfold total. cbn [map concat snd]. rewrite app_length. lia.
Qed.
Definition pts_of (m : Z) (adj : list Z) (c : Z) : Z * list (Z * Z) := (m, map (place d m c) (filter (marked d m) adj)).
Definition track_lines (m : Z) (p : nat * nat) : list (Z * list (Z * Z)) :=
  let b := track_box a p in
  if vert d m then if tx (gr a) (fst p) =? tx (gr a) (snd p) then map (pts_of m (adjacent d m (by0 b) (by1 b))) (lines d m (bx0 b) (bx1 b)) else []
  else if ty (gr a) (fst p) =? ty (gr a) (snd p) then map (pts_of m (adjacent d m (bx0 b) (bx1 b))) (lines d m (by0 b) (by1 b)) else [].
Definition metal_lines (m : Z) : list (Z * list (Z * Z)) := flat_map (track_lines m) (tracks a m).
Definition all_lines : list (Z * list (Z * Z)) := flat_map metal_lines (metal_range a).
Lemma lines_fold m adj cs : Sorted.StronglySorted Z.lt adj -> forall vs, fold_left (fun vs c => add_line d m adj c vs) cs vs = vs ++ build (length vs) (map (pts_of m adj) cs).
Proof.
  intros H. induction cs as [|c cs IH]; intros vs; cbn [fold_left map build pts_of]; [now rewrite app_nil_r|]. rewrite IH, add_line_ok by exact H. rewrite <- app_assoc. do 2 f_equal. f_equal. rewrite app_length, line_len. reflexivity.
Qed.
Lemma track_fold m p vs : add_track a m vs p = vs ++ build (length vs) (track_lines m p).
Proof.
  unfold add_track, track_lines. destruct (vert d m); (destruct (_ =? _); [apply lines_fold, adjacent_sorted|cbn; now rewrite app_nil_r]).
Qed.
Lemma fold_build {A} (f : list vertex -> A -> list vertex) (g : A -> list (Z * list (Z * Z))) : (forall vs x, f vs x = vs ++ build (length vs) (g x)) ->
  forall l vs, fold_left f l vs = vs ++ build (length vs) (flat_map g l).
Proof.
  intros H l. induction l as [|x l IH]; intros vs; cbn [fold_left flat_map]; [cbn; now rewrite app_nil_r|]. rewrite IH, H, build_app, <- app_assoc. do 2 f_equal. f_equal. rewrite app_length, build_len. reflexivity.
Qed.
Theorem vertices_ok : vertices a = build 0 all_lines.
Proof.
  unfold vertices, all_lines. rewrite (fold_build _ metal_lines); [reflexivity|]. intros vs m. apply fold_build. intros. apply track_fold.
Qed.

(** *** The nodes *)
Lemma build_inv L : forall b i v, nth_error (build b L) i = Some v -> exists L1 m p1 p p2 L2, L = L1 ++ (m, p1 ++ p :: p2) :: L2 /\ i = (total L1 + length p1)%nat /\
  v = node_of (vert d m) m (b + i) (is_nil p1) (is_nil p2) p.
Proof.
  induction L as [|[m pts] L IH]; intros b i v H; [destruct i; discriminate|]. cbn [build] in H. destruct (lt_dec i (length pts)) as [Hi|Hi].
  - rewrite nth_error_app1 in H by (now rewrite line_len). assert (exists p1 p p2, pts = p1 ++ p :: p2 /\ length p1 = i) as (p1 & p & p2 & -> & <-).
    { destruct (nth_error pts i) as [p|] eqn:E; [|apply nth_error_None in E; lia]. apply nth_error_split in E. destruct E as (p1 & p2 & E1 & E2). eauto. }
    rewrite line_nth in H. injection H as <-. exists [], m, p1, p, p2, L. repeat split.
  - rewrite nth_error_app2 in H by (rewrite line_len; lia). rewrite line_len in H. apply IH in H. destruct H as (L1 & m' & p1 & p & p2 & L2 & -> & E & ->).
    exists ((m, pts) :: L1), m', p1, p, p2, L2. split; [reflexivity|]. split; [unfold total in *; cbn [map concat snd]; rewrite app_length; lia|]. f_equal. lia.
Qed.
Lemma build_nth L1 m p1 p p2 L2 b : nth_error (build b (L1 ++ (m, p1 ++ p :: p2) :: L2)) (total L1 + length p1) = Some (node_of (vert d m) m (b + (total L1 + length p1)) (is_nil p1) (is_nil p2) p).
Proof.
  rewrite build_app, nth_error_app2 by (rewrite build_len; lia). rewrite build_len. replace (total L1 + length p1 - total L1)%nat with (length p1) by lia. cbn [build]. rewrite nth_error_app1 by (rewrite line_len, app_length; cbn; lia).
  rewrite line_nth. cbn [andb]. do 2 f_equal. lia.
Qed.
Lemma node_geo vt m i f l p : metal (node_of vt m i f l p) = m /\ vx (node_of vt m i f l p) = fst p /\ vy (node_of vt m i f l p) = snd p.
Proof. unfold node_of. destruct vt; auto. Qed.
(** The neighbours of a node, with the place of the other one. *)
Definition step (vt : bool) (p q : Z * Z) : Prop := if vt then fst p = fst q /\ snd p < snd q else snd p = snd q /\ fst p < fst q.
Definition ordered (L : list (Z * list (Z * Z))) : Prop := forall m pts p1 p q p2, In (m, pts) L -> pts = p1 ++ p :: q :: p2 -> step (vert d m) p q.
Lemma all_ordered : ordered all_lines.
Proof.
  intros m pts p1 p q p2 H E. unfold all_lines in H. apply in_flat_map in H. destruct H as (m' & _ & H). unfold metal_lines in H. apply in_flat_map in H. destruct H as (pr & _ & H).
  assert (exists lo hi c, (m, pts) = pts_of m' (adjacent d m' lo hi) c) as (lo & hi & c & Ep).
  { unfold track_lines in H. destruct (vert d m'); destruct (_ =? _); try destruct H; apply in_map_iff in H; destruct H as (c & Hc & _); eauto. }
  unfold pts_of in Ep. injection Ep as -> Ep. rewrite E in Ep. pose proof (sorted_filter (marked d m') _ (adjacent_sorted d m' lo hi)) as S. set (zs := filter _ _) in *. clearbody zs. clear - Ep S.
  revert p1 Ep. induction S as [|z zs S IH F]; intros p1 Ep; [destruct p1; discriminate|]. cbn [map] in Ep. destruct p1 as [|w p1]; [|injection Ep as _ Ep; now apply (IH p1)].
  destruct zs as [|z' zs]; [discriminate|]. cbn [map app] in Ep. injection Ep as -> -> _. inversion F; subst. unfold step, place. destruct (vert d m'); cbn; auto.
Qed.
Lemma build_sides L u n v : ordered L -> nth_error (build 0 L) u = Some n -> In v (AStar.north n ++ AStar.south n ++ AStar.east n ++ AStar.west n) ->
  exists n', nth_error (build 0 L) v = Some n' /\ metal n' = metal n /\ step (vert d (metal n)) (vx n, vy n) (vx n', vy n') /\ v = S u /\ joined d (metal n) n n' u v \/
             nth_error (build 0 L) v = Some n' /\ metal n' = metal n /\ step (vert d (metal n)) (vx n', vy n') (vx n, vy n) /\ u = S v /\ joined d (metal n) n' n v u.
Proof.
  intros O H Hv. destruct (build_inv L 0 u n H) as (L1 & m & p1 & p & p2 & L2 & -> & E & En). destruct (node_geo (vert d m) m (0 + u) (is_nil p1) (is_nil p2) p) as (G1 & G2 & G3). rewrite <- En in G1, G2, G3. rewrite G1, G2, G3.
  assert (p2 <> [] /\ v = S u \/ p1 <> [] /\ v = (u - 1)%nat) as C.
  { rewrite En in Hv. unfold node_of in Hv. cbn [Nat.add] in Hv. destruct (vert d m); destruct p2; destruct p1; cbn in Hv; intuition (try congruence). }
  destruct C as [[N Ev]|[N Ev]].
  - destruct p2 as [|q p2]; [congruence|]. clear N. assert (nth_error (build 0 (L1 ++ (m, p1 ++ p :: q :: p2) :: L2)) v = Some (node_of (vert d m) m (0 + v) false (is_nil p2) q)) as Hv'.
    { replace (p1 ++ p :: q :: p2) with ((p1 ++ [p]) ++ q :: p2) by (now rewrite <- app_assoc). replace v with (total L1 + length (p1 ++ [p]))%nat by (rewrite app_length; cbn; lia). rewrite build_nth. do 2 f_equal. now destruct p1. }
    eexists. left. split; [exact Hv'|]. destruct (node_geo (vert d m) m (0 + v) false (is_nil p2) q) as (F1 & F2 & F3). rewrite F1, F2, F3. split; [reflexivity|]. split.
    { rewrite <- !surjective_pairing. apply (O m (p1 ++ p :: q :: p2) p1 p q p2); [apply in_or_app; right; now left|reflexivity]. }
    split; [exact Ev|]. rewrite En, Ev. unfold joined, node_of. cbn [Nat.add is_nil]. destruct (vert d m); cbn; (split; [now left|left; lia]).
  - destruct (exists_last N) as (p0 & q & ->). clear N. assert (nth_error (build 0 (L1 ++ (m, (p0 ++ [q]) ++ p :: p2) :: L2)) v = Some (node_of (vert d m) m (0 + v) (is_nil p0) false q)) as Hv'.
    { rewrite <- app_assoc. cbn [app]. replace v with (total L1 + length p0)%nat by (rewrite app_length in E; cbn in E; lia). apply build_nth. }
    eexists. right. split; [exact Hv'|]. destruct (node_geo (vert d m) m (0 + v) (is_nil p0) false q) as (F1 & F2 & F3). rewrite F1, F2, F3. split; [reflexivity|]. split.
    { rewrite <- !surjective_pairing. apply (O m (p0 ++ q :: p :: p2) p0 q p p2); [apply in_or_app; right; left; now rewrite <- app_assoc|reflexivity]. }
    assert (u = S v) as Eu by (rewrite app_length in E; cbn in E; lia). split; [exact Eu|]. rewrite En. unfold joined, node_of. cbn [Nat.add]. replace (is_nil (p0 ++ [q])) with false by (now destruct p0). destruct (vert d m); cbn; (split; [left; lia|left; lia]).
Qed.
End All.
