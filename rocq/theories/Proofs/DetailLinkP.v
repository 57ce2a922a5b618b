(** The links between metals, and the places of the nodes. *)
From Coq Require Import ZArith ZifyBool.
From Verif Require Import Base.Prelude Model.GlobalGrid Model.AStar Model.DetailGrid Spec.AStarSpec Spec.DetailGridSpec Proofs.GlobalGridP Proofs.GridUseP Proofs.DetailGridP.
Local Open Scope Z_scope.

(** *** Nodes that differ in their links only *)
Definition flat (v : vertex) : vertex := V (vx v) (vy v) (metal v) (active v) (via_down v) (via_up v) (AStar.north v) (AStar.south v) (AStar.east v) (AStar.west v) None None.
Lemma node_at_flat m x y vs : forall vs' i, map flat vs = map flat vs' -> node_at m x y i vs = node_at m x y i vs'.
Proof.
  induction vs as [|v vs IH]; intros [|v' vs'] i E; try discriminate; [reflexivity|]. cbn [map] in E. injection E as Ex Ey Em _ _ _ _ _ _ _ E. cbn [node_at]. now rewrite (IH vs' (S i) E), Ex, Ey, Em.
Qed.
Lemma alter_flat f i vs : (forall v, flat (f v) = flat v) -> map flat (alter_at f i vs) = map flat vs.
Proof. intros H. revert i. induction vs as [|v vs IH]; intros [|i]; cbn; [reflexivity|reflexivity|now rewrite H|now rewrite IH]. Qed.
Lemma alter_nth {A} (f : A -> A) (l : list A) : forall i k, nth_error (alter_at f i l) k = if (k =? i)%nat then option_map f (nth_error l k) else nth_error l k.
Proof.
  induction l as [|a l IH]; intros i k.
  - destruct i; cbn; destruct k; cbn; try reflexivity; destruct (_ =? _)%nat; reflexivity.
  - destruct i as [|i]; destruct k as [|k]; cbn; try reflexivity. apply IH.
Qed.
Lemma node_at_some m x y vs : forall i o, node_at m x y i vs = Some o -> (i <= o)%nat /\ sits vs (o - i) m x y /\ forall k, (k < o - i)%nat -> ~ sits vs k m x y.
Proof.
  induction vs as [|v vs IH]; intros i o H; [discriminate|]. cbn [node_at] in H. destruct ((metal v =? m) && (vx v =? x) && (vy v =? y)) eqn:E.
  - injection H as <-. rewrite Nat.sub_diag. split; [lia|]. split; [exists v; cbn; repeat split; lia|]. intros k Hk. lia.
  - apply IH in H. destruct H as (H1 & H2 & H3). split; [lia|]. replace (o - i)%nat with (S (o - S i)) by lia. split; [exact H2|]. intros [|k] Hk.
    + intros (w & Ew & G). cbn in Ew. injection Ew as <-. lia.
    + intros (w & Ew & G). cbn in Ew. apply (H3 k ltac:(lia)). exists w. auto.
Qed.
Lemma node_at_none m x y vs : forall i, node_at m x y i vs = None -> forall k, ~ sits vs k m x y.
Proof.
  induction vs as [|v vs IH]; intros i H k (w & Ew & G); [destruct k; discriminate|]. cbn [node_at] in H. destruct ((metal v =? m) && (vx v =? x) && (vy v =? y)) eqn:E; [discriminate|].
  destruct k as [|k]; cbn in Ew; [injection Ew as <-; lia|]. apply (IH (S i) H k). exists w. auto.
Qed.

Section Link.
Variables (hi : Z) (vs : list vertex).
Definition target (i : nat) : option nat :=
  let v := nth i vs nowhere in if hi <=? metal v then None else node_at (metal v + 1) (vx v) (vy v) O vs.
Definition lands (o i : nat) : bool := match target i with Some k => (k =? o)%nat | None => false end.
Definition with_links (is : list nat) (k : nat) (v : vertex) : vertex :=
  V (vx v) (vy v) (metal v) (active v) (via_down v) (via_up v) (AStar.north v) (AStar.south v) (AStar.east v) (AStar.west v)
    (if existsb (Nat.eqb k) is then match target k with Some o => Some o | None => AStar.up v end else AStar.up v)
    (match find (lands k) (rev is) with Some i => Some i | None => AStar.down v end).
Hypothesis Hn : forall i v, nth_error vs i = Some v -> AStar.up v = None /\ AStar.down v = None.
Lemma nth_of (l : list vertex) i v : nth_error l i = Some v -> nth i l nowhere = v.
Proof. revert i. induction l as [|a l IH]; intros [|i] H; try discriminate; cbn in *; [now injection H|now apply IH]. Qed.
Lemma connect_step ws i : map flat ws = map flat vs -> (i < length vs)%nat ->
  forall k, nth_error (connect hi ws i) k = option_map (fun w => V (vx w) (vy w) (metal w) (active w) (via_down w) (via_up w) (AStar.north w) (AStar.south w) (AStar.east w) (AStar.west w)
    (if (k =? i)%nat then match target i with Some o => Some o | None => AStar.up w end else AStar.up w) (if lands k i then Some i else AStar.down w)) (nth_error ws k).
Proof.
  intros F Hi k. assert (flat (nth i ws nowhere) = flat (nth i vs nowhere)) as Fi by (rewrite <- !(map_nth flat), F; reflexivity).
  assert (metal (nth i ws nowhere) = metal (nth i vs nowhere) /\ vx (nth i ws nowhere) = vx (nth i vs nowhere) /\ vy (nth i ws nowhere) = vy (nth i vs nowhere)) as (G1 & G2 & G3).
  { unfold flat in Fi. destruct (nth i ws nowhere), (nth i vs nowhere). injection Fi. cbn. auto. }
  unfold connect, lands, target. rewrite G1, G2, G3, (node_at_flat _ _ _ ws vs O F). destruct (hi <=? metal (nth i vs nowhere)).
  { destruct (nth_error ws k) as [w|]; [|reflexivity]. cbn. f_equal. destruct w; cbn. now destruct (k =? i)%nat. }
  destruct (node_at _ _ _ O vs) as [o|].
  - rewrite !alter_nth. rewrite (Nat.eqb_sym o k). destruct (k =? o)%nat, (k =? i)%nat; destruct (nth_error ws k) as [w|]; cbn; try reflexivity; destruct w; reflexivity.
  - destruct (nth_error ws k) as [w|]; [|reflexivity]. cbn. f_equal. destruct w; cbn. now destruct (k =? i)%nat.
Qed.
Lemma connect_flat ws i : map flat (connect hi ws i) = map flat ws.
Proof.
  unfold connect. destruct (_ <=? _); [reflexivity|]. destruct (node_at _ _ _ O ws); [|reflexivity]. rewrite !alter_flat; [reflexivity|intros v; now destruct v|intros v; now destruct v].
Qed.
Lemma connect_all is : (forall i, In i is -> (i < length vs)%nat) -> let ws := fold_left (connect hi) is vs in map flat ws = map flat vs /\ forall k, nth_error ws k = option_map (with_links is k) (nth_error vs k).
Proof.
  induction is as [|i is IH] using rev_ind; intros Hi.
  - cbn. split; [reflexivity|]. intros k. destruct (nth_error vs k) as [v|]; [|reflexivity]. cbn. f_equal. destruct v; reflexivity.
  - rewrite fold_left_app. cbn [fold_left]. destruct (IH (fun x Hx => Hi x (in_or_app _ _ _ (or_introl Hx)))) as [F H]. split; [now rewrite connect_flat|]. intros k.
    rewrite connect_step; [|exact F|apply Hi, in_or_app; right; now left]. rewrite H. destruct (nth_error vs k) as [v|] eqn:Ek; [|reflexivity]. cbn [option_map]. f_equal. destruct (Hn k v Ek) as [U D].
    unfold with_links. cbn [vx vy metal active via_down via_up AStar.north AStar.south AStar.east AStar.west AStar.up AStar.down]. rewrite existsb_app, rev_app_distr. cbn [rev app existsb find]. rewrite orb_false_r, U, D.
    f_equal.
    + destruct (k =? i)%nat eqn:E.
      * apply Nat.eqb_eq in E. subst i. rewrite orb_true_r. destruct (target k); [reflexivity|]. destruct (existsb _ is); reflexivity.
      * now rewrite orb_false_r.
    + destruct (lands k i); reflexivity.
Qed.
End Link.
Definition all (vs : list vertex) : list nat := seq 0 (length vs).
Lemma grid_nth a k : nth_error (Grid a) k = option_map (fun v => V (vx v) (vy v) (metal v) (active v) (via_down v) (via_up v) (AStar.north v) (AStar.south v) (AStar.east v) (AStar.west v)
    (target (hi_metal a) (vertices a) k) (find (lands (hi_metal a) (vertices a) k) (rev (all (vertices a))))) (nth_error (vertices a) k).
Proof.
  assert (forall i v, nth_error (vertices a) i = Some v -> AStar.up v = None /\ AStar.down v = None) as Hn.
  { intros i v H. rewrite vertices_ok in H. apply build_inv in H. destruct H as (L1 & m & p1 & p & p2 & L2 & _ & _ & ->). unfold node_of. destruct (vert _ m); auto. }
  destruct (connect_all (hi_metal a) (vertices a) Hn (all (vertices a))) as [_ H]; [intros i Hi; apply in_seq in Hi; lia|]. unfold Grid, all in *. rewrite H.
  destruct (nth_error (vertices a) k) as [v|] eqn:E; [|reflexivity]. cbn. f_equal. unfold with_links. destruct (Hn k v E) as [-> ->].
  assert (existsb (Nat.eqb k) (seq 0 (length (vertices a))) = true) as ->. { apply existsb_exists. exists k. split; [apply in_seq; split; [lia|apply nth_error_Some; congruence]|apply Nat.eqb_refl]. }
  f_equal; [destruct (target _ _ k); reflexivity|destruct (find _ _); reflexivity].
Qed.
Lemma grid_len a : length (Grid a) = length (vertices a).
Proof.
  assert (forall k, nth_error (Grid a) k = None <-> nth_error (vertices a) k = None) as H by (intros k; rewrite grid_nth; destruct (nth_error (vertices a) k); cbn; split; congruence).
  destruct (Nat.lt_trichotomy (length (Grid a)) (length (vertices a))) as [X|[X|X]]; [|exact X|].
  - exfalso. assert (nth_error (Grid a) (length (Grid a)) = None) as E by (now apply nth_error_None). apply H, nth_error_None in E. lia.
  - exfalso. assert (nth_error (vertices a) (length (vertices a)) = None) as E by (now apply nth_error_None). apply H, nth_error_None in E. lia.
Qed.
Lemma grid_sits a u m x y : sits (Grid a) u m x y <-> sits (vertices a) u m x y.
Proof.
  unfold sits. rewrite grid_nth. destruct (nth_error (vertices a) u) as [v|]; cbn; split; intros (w & E & G); try discriminate; injection E as <-; eexists; (split; [reflexivity|exact G]).
Qed.
(** The link upwards. *)
Lemma grid_up a u n : nth_error (Grid a) u = Some n -> forall v, AStar.up n = Some v <-> metal n < hi_metal a /\ sits (Grid a) v (metal n + 1) (vx n) (vy n) /\ forall k, (k < v)%nat -> ~ sits (Grid a) k (metal n + 1) (vx n) (vy n).
Proof.
  intros H v. rewrite grid_nth in H. destruct (nth_error (vertices a) u) as [w|] eqn:E; [|discriminate]. cbn in H. injection H as <-. cbn [AStar.up metal vx vy]. unfold target. rewrite (nth_of _ _ _ E). setoid_rewrite grid_sits.
  destruct (hi_metal a <=? metal w) eqn:Eh; [split; [discriminate|intros (L & _); lia]|]. destruct (node_at _ _ _ O _) as [o|] eqn:En.
  - pose proof (node_at_some _ _ _ _ _ _ En) as (_ & S1 & S2). rewrite Nat.sub_0_r in *. split.
    + intros Ev. injection Ev as <-. split; [lia|]. auto.
    + intros (_ & S3 & S4). f_equal. destruct (Nat.lt_trichotomy o v) as [X|[X|X]]; [destruct (S4 o X S1)|exact X|destruct (S2 v X S3)].
  - split; [discriminate|]. intros (_ & S3 & _). destruct (node_at_none _ _ _ _ _ En _ S3).
Qed.
Lemma find_last (f : nat -> bool) n i : find f (rev (seq 0 n)) = Some i <-> (i < n)%nat /\ f i = true /\ forall k, (i < k < n)%nat -> f k = false.
Proof.
  induction n as [|n IH]; [cbn; split; [discriminate|lia]|]. rewrite seq_S, rev_app_distr. cbn [Nat.add rev app find]. destruct (f n) eqn:E.
  - split; [intros H; injection H as <-; repeat split; try lia; exact E|]. intros (H1 & H2 & H3). f_equal. destruct (Nat.eq_dec i n) as [X|X]; [lia|]. rewrite (H3 n) in E by lia. discriminate.
  - rewrite IH. split; intros (H1 & H2 & H3).
    + split; [lia|]. split; [exact H2|]. intros k Hk. destruct (Nat.eq_dec k n) as [->|X]; [exact E|apply H3; lia].
    + assert (i <> n) by congruence. split; [lia|]. split; [exact H2|]. intros k Hk. apply H3. lia.
Qed.
(** The link downwards: the last node that links up to this one. *)
Lemma grid_down a v n : nth_error (Grid a) v = Some n -> forall u, AStar.down n = Some u <->
  (exists w, nth_error (Grid a) u = Some w /\ AStar.up w = Some v) /\ forall k w, (u < k)%nat -> nth_error (Grid a) k = Some w -> AStar.up w <> Some v.
Proof.
  intros H u. rewrite grid_nth in H. destruct (nth_error (vertices a) v) as [w|] eqn:E; [|discriminate]. cbn in H. injection H as <-. cbn [AStar.down]. unfold all. rewrite find_last.
  assert (forall k, (k < length (vertices a))%nat -> (lands (hi_metal a) (vertices a) v k = true <-> exists w, nth_error (Grid a) k = Some w /\ AStar.up w = Some v)) as K.
  { intros k Hk. rewrite grid_nth. destruct (nth_error (vertices a) k) as [q|] eqn:Eq; [|apply nth_error_None in Eq; lia]. cbn [option_map]. unfold lands. destruct (target _ _ k) as [o|].
    - split; [intros X; apply Nat.eqb_eq in X; subst; eexists; split; reflexivity|]. intros (w' & E1 & E2). injection E1 as <-. cbn in E2. injection E2 as ->. apply Nat.eqb_refl.
    - split; [discriminate|]. intros (w' & E1 & E2). injection E1 as <-. cbn in E2. discriminate. }
  split.
  - intros (H1 & H2 & H3). split; [now apply K|]. intros k q Hk Eq Eu. assert (k < length (vertices a))%nat as Lk by (rewrite <- grid_len; apply nth_error_Some; congruence).
    assert (lands (hi_metal a) (vertices a) v k = true) as X by (apply K; eauto). rewrite H3 in X by lia. discriminate.
  - intros ((q & Eq & Eu) & H3). assert (u < length (vertices a))%nat as Lu by (rewrite <- grid_len; apply nth_error_Some; congruence). split; [exact Lu|]. split; [apply K; eauto|].
    intros k Hk. destruct (lands _ _ v k) eqn:El; [|reflexivity]. apply K in El; [|lia]. destruct El as (q' & E1 & E2). destruct (H3 k q' ltac:(lia) E1 E2).
Qed.
