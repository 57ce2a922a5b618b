(** The tiles of the global router. *)
From Coq Require Import ZArith ZifyBool.
From Verif Require Import Base.Prelude Model.GlobalGraph Model.GlobalGrid Spec.GlobalGridSpec Proofs.DijkstraP Proofs.GlobalGraphP Proofs.FindSTsP.
Local Open Scope Z_scope.

(** 1. Loops. *)
Lemma starts_from_nth step hi : 0 < step -> forall fuel X i, hi - X <= Z.of_nat fuel ->
  nth_error (starts_from fuel hi step X) i = if X + Z.of_nat i * step <? hi then Some (X + Z.of_nat i * step) else None.
Proof.
  intros Hs. induction fuel as [|fuel IH]; intros X i Hf; cbn [starts_from].
  - replace (X + Z.of_nat i * step <? hi) with false by nia. now destruct i.
  - destruct (X <? hi) eqn:E.
    + destruct i as [|i]; cbn [nth_error]; [replace (X + Z.of_nat 0 * step) with X by lia; now rewrite E|]. rewrite IH by lia. replace (X + step + Z.of_nat i * step) with (X + Z.of_nat (S i) * step) by nia. reflexivity.
    + replace (X + Z.of_nat i * step <? hi) with false by nia. now destruct i.
Qed.
Lemma starts_nth lo hi step i : 0 < step -> nth_error (starts lo hi step) i = if lo + Z.of_nat i * step <? hi then Some (lo + Z.of_nat i * step) else None.
Proof. intros H. apply starts_from_nth; [exact H|lia]. Qed.
Definition number (lo hi step : Z) : nat := Z.to_nat ((hi - lo + step - 1) / step).
Lemma number_lt lo hi step i : 0 < step -> (i < number lo hi step)%nat <-> lo + Z.of_nat i * step < hi.
Proof.
  intros Hs. unfold number. pose proof (Z.div_mod (hi - lo + step - 1) step ltac:(lia)) as D. pose proof (Z.mod_pos_bound (hi - lo + step - 1) step Hs).
  set (q := (hi - lo + step - 1) / step) in *. split; intros H0; nia.
Qed.
Lemma starts_length lo hi step : 0 < step -> length (starts lo hi step) = number lo hi step.
Proof.
  intros Hs. set (l := starts lo hi step). assert (forall i, (i < length l)%nat <-> (i < number lo hi step)%nat) as H.
  { intros i. rewrite number_lt by exact Hs. rewrite <- nth_error_Some. unfold l. rewrite starts_nth by exact Hs. destruct (lo + Z.of_nat i * step <? hi) eqn:E; split; intros; try congruence; lia. }
  destruct (Nat.lt_trichotomy (length l) (number lo hi step)) as [X|[X|X]]; [|exact X|]; apply H in X; lia.
Qed.
Lemma size_eq unit hi X : size_at unit hi X = Z.min hi (X + unit) - X.
Proof. unfold size_at. destruct (hi <? X + unit) eqn:E; lia. Qed.
Lemma center_bounds unit hi X : 0 < unit -> X < hi -> X <= center_at unit hi X < Z.min hi (X + unit) /\ center_at unit hi X = X + size_at unit hi X / 2.
Proof. intros Hu Hx. unfold center_at. rewrite Z.quot_div_nonneg; rewrite ?size_eq; try lia. Qed.

(** 2. Nested lists of equal length. *)
Lemma nth_flat {A B} (f : A -> list B) n : forall l, (forall a, In a l -> length (f a) = n) -> forall q r, (r < n)%nat ->
  nth_error (flat_map f l) (q * n + r) = match nth_error l q with Some a => nth_error (f a) r | None => None end.
Proof.
  induction l as [|a l IH]; intros Hl q r Hr; [destruct (q * n + r)%nat, q; reflexivity|]. cbn [flat_map]. destruct q as [|q].
  - cbn. rewrite nth_error_app1; [reflexivity|]. rewrite (Hl a) by now left. exact Hr.
  - rewrite nth_error_app2 by (rewrite (Hl a) by (now left); nia). rewrite (Hl a) by now left. replace (S q * n + r - n)%nat with (q * n + r)%nat by nia. cbn [nth_error]. apply IH; [|exact Hr]. intros x Hx. apply Hl. now right.
Qed.
Lemma len_flat {A B} (f : A -> list B) n : forall l, (forall a, In a l -> length (f a) = n) -> length (flat_map f l) = (length l * n)%nat.
Proof. induction l as [|a l IH]; intros H; [reflexivity|]. cbn [flat_map length]. rewrite app_length, (H a) by (now left). rewrite IH; [lia|]. intros x Hx. apply H. now right. Qed.

(** 3. Ordered maps. *)
Section Order.
Variable lt : point -> point -> bool.
Hypothesis irr : forall p, lt p p = false.
Hypothesis tra : forall p q r, lt p q = true -> lt q r = true -> lt p r = true.
Hypothesis tot : forall p q, p <> q -> lt p q = true \/ lt q p = true.
Definition before (e f : point * nat) : Prop := lt (fst e) (fst f) = true.
Lemma insert_in p i m : ~ In p (map fst m) -> forall e, In e (pm_insert lt p i m) <-> e = (p, i) \/ In e m.
Proof.
  intros N e. induction m as [|[q j] m IH]; cbn; [intuition|]. cbn in N. destruct (lt p q) eqn:E1; [cbn; intuition|]. destruct (lt q p) eqn:E2; [cbn; rewrite IH by tauto; intuition|].
  destruct (tot p q); try congruence. intros ->. apply N. now left.
Qed.
Lemma insert_sorted p i m : ~ In p (map fst m) -> StronglySorted before m -> StronglySorted before (pm_insert lt p i m).
Proof.
  intros N S. induction m as [|[q j] m IH]; cbn; [repeat constructor|]. cbn in N. apply StronglySorted_inv in S. destruct S as [S F].
  destruct (lt p q) eqn:E1.
  - constructor; [constructor; assumption|]. constructor; [exact E1|]. rewrite Forall_forall in *. intros e He. unfold before in *. cbn. eapply tra; [exact E1|]. apply (F e He).
  - destruct (lt q p) eqn:E2; [|constructor; assumption]. constructor; [apply IH; tauto|]. rewrite Forall_forall in *. intros e He. apply insert_in in He; [|tauto]. destruct He as [-> |He]; [exact E2|apply F, He].
Qed.
Lemma fold_sorted l : NoDup (map fst l) -> let m := fold_left (fun m e => pm_insert lt (fst e) (snd e) m) l [] in
  StronglySorted before m /\ forall e, In e m <-> In e l.
Proof.
  intros N. cbn. assert (forall m0, StronglySorted before m0 -> (forall e, In e m0 -> ~ In (fst e) (map fst l)) ->
    StronglySorted before (fold_left (fun m e => pm_insert lt (fst e) (snd e) m) l m0) /\
    forall e, In e (fold_left (fun m e => pm_insert lt (fst e) (snd e) m) l m0) <-> In e m0 \/ In e l) as Q.
  { induction l as [|[p i] l IH]; intros m0 S D; cbn [fold_left fst snd]; [split; [exact S|intros e; cbn; tauto]|]. cbn in N. apply NoDup_cons_iff in N. destruct N as [N1 N2].
    assert (~ In p (map fst m0)) as Np. { intros H. apply in_map_iff in H. destruct H as (e & H1 & H2). apply (D e H2). left. now rewrite H1. }
    destruct (IH N2 (pm_insert lt p i m0)) as [I1 I2].
    - now apply insert_sorted.
    - intros e He. apply insert_in in He; [|exact Np]. destruct He as [-> |He]; [exact N1|]. intros X. apply (D e He). now right.
    - split; [exact I1|]. intros e. rewrite I2, insert_in by exact Np. cbn. intuition. }
  destruct (Q []) as [Q1 Q2]; [constructor|intros e []|]. split; [exact Q1|]. intros e. rewrite Q2. cbn. tauto.
Qed.
Lemma sorted_app l1 l2 : StronglySorted before (l1 ++ l2) -> forall a b, In a l1 -> In b l2 -> before a b.
Proof. induction l1 as [|x l1 IH]; intros S a b Ha Hb; [destruct Ha|]. cbn in S. apply StronglySorted_inv in S. destruct S as [S F]. destruct Ha as [<-|Ha]; [|now apply IH]. rewrite Forall_forall in F. apply F. apply in_or_app. now right. Qed.
Lemma sorted_r l1 l2 : StronglySorted before (l1 ++ l2) -> StronglySorted before l2.
Proof. induction l1 as [|x l1 IH]; intros S; [exact S|]. cbn in S. apply StronglySorted_inv in S. now apply IH. Qed.
Lemma in_pairs {A} (m : list A) a b : In (a, b) (combine m (tl m)) <-> exists l1 l2, m = l1 ++ a :: b :: l2.
Proof.
  split.
  - induction m as [|x [|y m] IH]; intros H; cbn in H; [destruct H|destruct H|]. destruct H as [[= <- <-]|H]; [exists [], m; reflexivity|]. destruct IH as (l1 & l2 & E); [exact H|]. exists (x :: l1), l2. cbn. now rewrite E.
  - intros (l1 & l2 & ->). induction l1 as [|x l1 IH]; [now left|]. destruct l1 as [|y l1]; right; exact IH.
Qed.
Lemma consecutive m a b : StronglySorted before m -> (In (a, b) (combine m (tl m)) <-> In a m /\ In b m /\ before a b /\ forall c, In c m -> before a c -> before c b -> False).
Proof.
  intros S. rewrite in_pairs. split.
  - intros (l1 & l2 & E). rewrite E in *. split; [apply in_or_app; right; now left|]. split; [apply in_or_app; right; right; now left|].
    pose proof (sorted_r _ _ S) as S2. apply StronglySorted_inv in S2. destruct S2 as [S2 F2]. rewrite Forall_forall in F2. split; [apply F2; now left|].
    intros c Hc H1 H2. apply in_app_or in Hc. destruct Hc as [Hc|[<-|[<-|Hc]]].
    + pose proof (sorted_app _ _ S c a Hc ltac:(now left)) as X. unfold before in *. pose proof (tra _ _ _ X H1) as Y. rewrite irr in Y. discriminate.
    + unfold before in H1. rewrite irr in H1. discriminate.
    + unfold before in H2. rewrite irr in H2. discriminate.
    + apply StronglySorted_inv in S2. destruct S2 as [_ F3]. rewrite Forall_forall in F3. pose proof (F3 c Hc) as X. unfold before in *. pose proof (tra _ _ _ X H2) as Y. rewrite irr in Y. discriminate.
  - intros (Ha & Hb & L & Q). apply in_split in Ha. destruct Ha as (l1 & l2 & E). rewrite E in *. destruct l2 as [|c l2].
    + exfalso. apply in_app_or in Hb. destruct Hb as [Hb|[<-|[]]].
      * pose proof (sorted_app _ _ S b a Hb ltac:(now left)) as X. unfold before in *. pose proof (tra _ _ _ X L) as Y. rewrite irr in Y. discriminate.
      * unfold before in L. rewrite irr in L. discriminate.
    + pose proof (sorted_r _ _ S) as S2. apply StronglySorted_inv in S2. destruct S2 as [S2 F2]. rewrite Forall_forall in F2. apply in_app_or in Hb. destruct Hb as [Hb|[<-|[<-|Hb]]].
      * exfalso. pose proof (sorted_app _ _ S b a Hb ltac:(now left)) as X. unfold before in *. pose proof (tra _ _ _ X L) as Y. rewrite irr in Y. discriminate.
      * exfalso. unfold before in L. rewrite irr in L. discriminate.
      * now exists l1, l2.
      * exfalso. apply (Q c); [apply in_or_app; right; right; now left|apply F2; now left|]. apply StronglySorted_inv in S2. destruct S2 as [_ F3]. rewrite Forall_forall in F3. now apply F3.
Qed.
End Order.
Lemma xy_irr p : xy_lt p p = false. Proof. unfold xy_lt. rewrite Z.eqb_refl. lia. Qed.
Lemma yx_irr p : yx_lt p p = false. Proof. unfold yx_lt. rewrite Z.eqb_refl. lia. Qed.
Lemma xy_tra p q r : xy_lt p q = true -> xy_lt q r = true -> xy_lt p r = true.
Proof. destruct p, q, r. unfold xy_lt. cbn. repeat match goal with |- context [(?a =? ?b)] => destruct (Z.eqb_spec a b) end; lia. Qed.
Lemma yx_tra p q r : yx_lt p q = true -> yx_lt q r = true -> yx_lt p r = true.
Proof. destruct p, q, r. unfold yx_lt. cbn. repeat match goal with |- context [(?a =? ?b)] => destruct (Z.eqb_spec a b) end; lia. Qed.
Lemma xy_tot p q : p <> q -> xy_lt p q = true \/ xy_lt q p = true.
Proof. destruct p as [a b], q as [c d]. unfold xy_lt. cbn. intros H. assert (a <> c \/ b <> d) by (destruct (Z.eq_dec a c), (Z.eq_dec b d); subst; auto). repeat match goal with |- context [(?a =? ?b)] => destruct (Z.eqb_spec a b) end; lia. Qed.
Lemma yx_tot p q : p <> q -> yx_lt p q = true \/ yx_lt q p = true.
Proof. destruct p as [a b], q as [c d]. unfold yx_lt. cbn. intros H. assert (a <> c \/ b <> d) by (destruct (Z.eq_dec a c), (Z.eq_dec b d); subst; auto). repeat match goal with |- context [(?a =? ?b)] => destruct (Z.eqb_spec a b) end; lia. Qed.

(** 4. Joining pairs of tiles. *)
Definition fwd_of (fwd : nat -> gtile -> gtile) (ps : list (nat * nat)) (n : nat) (t : gtile) : gtile :=
  match find (fun ab => Nat.eqb (fst ab) n) ps with Some ab => fwd (snd ab) t | None => t end.
Definition bwd_of (bwd : nat -> gtile -> gtile) (ps : list (nat * nat)) (n : nat) (t : gtile) : gtile :=
  match find (fun ab => Nat.eqb (snd ab) n) ps with Some ab => bwd (fst ab) t | None => t end.
Lemma find_none_fst (ps : list (nat * nat)) n : ~ In n (map fst ps) -> find (fun ab => Nat.eqb (fst ab) n) ps = None.
Proof. induction ps as [|[a b] ps IH]; intros H; [reflexivity|]. cbn in *. destruct (Nat.eqb_spec a n); [tauto|]. apply IH. tauto. Qed.
Lemma find_none_snd (ps : list (nat * nat)) n : ~ In n (map snd ps) -> find (fun ab => Nat.eqb (snd ab) n) ps = None.
Proof. induction ps as [|[a b] ps IH]; intros H; [reflexivity|]. cbn in *. destruct (Nat.eqb_spec b n); [tauto|]. apply IH. tauto. Qed.
Lemma find_some_fst (ps : list (nat * nat)) a b : NoDup (map fst ps) -> In (a, b) ps -> find (fun ab => Nat.eqb (fst ab) a) ps = Some (a, b).
Proof.
  induction ps as [|[c d] ps IH]; intros N H; [destruct H|]. cbn in *. apply NoDup_cons_iff in N. destruct N as [N1 N2]. destruct H as [[= -> ->]|H]; [now rewrite Nat.eqb_refl|].
  destruct (Nat.eqb_spec c a) as [->|]; [|now apply IH]. exfalso. apply N1. apply in_map_iff. exists (a, b). auto.
Qed.
Lemma find_some_snd (ps : list (nat * nat)) a b : NoDup (map snd ps) -> In (a, b) ps -> find (fun ab => Nat.eqb (snd ab) b) ps = Some (a, b).
Proof.
  induction ps as [|[c d] ps IH]; intros N H; [destruct H|]. cbn in *. apply NoDup_cons_iff in N. destruct N as [N1 N2]. destruct H as [[= -> ->]|H]; [now rewrite Nat.eqb_refl|].
  destruct (Nat.eqb_spec d b) as [->|]; [|now apply IH]. exfalso. apply N1. apply in_map_iff. exists (a, b). auto.
Qed.
Lemma join_ok fwd bwd : (forall a b t, fwd a (bwd b t) = bwd b (fwd a t)) -> forall ps ts, NoDup (map fst ps) -> NoDup (map snd ps) ->
  (forall a b, In (a, b) ps -> (a < length ts /\ b < length ts)%nat) ->
  exists ts', join fwd bwd ps ts = Some ts' /\ length ts' = length ts /\
    forall n t, nth_error ts n = Some t -> nth_error ts' n = Some (bwd_of bwd ps n (fwd_of fwd ps n t)).
Proof.
  intros Com. unfold join. induction ps as [|[a b] ps IH]; intros ts N1 N2 R; cbn [fold_opt].
  - exists ts. split; [reflexivity|]. split; [reflexivity|]. intros n t H. exact H.
  - cbn in N1, N2. apply NoDup_cons_iff in N1, N2. destruct N1 as [N1 N1'], N2 as [N2 N2']. destruct (R a b ltac:(now left)) as [Ra Rb]. cbn [fst snd].
    destruct (alter_ok (fwd b) a ts) as (t1 & -> & L1 & A1 & B1); [exact Ra|]. destruct (alter_ok (bwd a) b t1) as (t2 & -> & L2 & A2 & B2); [lia|].
    destruct (IH t2 N1' N2') as (t3 & E3 & L3 & Q3). { intros c d H. rewrite L2, L1. apply R. now right. }
    exists t3. split; [exact E3|]. split; [lia|]. intros n t Hn.
    assert (nth_error t1 n = Some (if Nat.eqb a n then fwd b t else t)) as H1. { destruct (Nat.eqb_spec a n) as [<-|Ne]; [now apply A1|]. rewrite B1 by lia. exact Hn. }
    assert (nth_error t2 n = Some (if Nat.eqb b n then bwd a (if Nat.eqb a n then fwd b t else t) else (if Nat.eqb a n then fwd b t else t))) as H2.
    { destruct (Nat.eqb_spec b n) as [<-|Ne]; [now apply A2|]. rewrite B2 by lia. exact H1. }
    rewrite (Q3 _ _ H2). f_equal. unfold fwd_of, bwd_of. cbn [find fst snd]. destruct (Nat.eqb_spec a n) as [->|Na].
    + rewrite (find_none_fst ps n N1). destruct (Nat.eqb_spec b n) as [->|Nb]; [|reflexivity]. rewrite (find_none_snd ps n N2). reflexivity.
    + destruct (Nat.eqb_spec b n) as [->|Nb]; [|reflexivity]. rewrite (find_none_snd ps n N2). destruct (find (fun ab => Nat.eqb (fst ab) n) ps); [apply Com|reflexivity].
Qed.

(** 5. The tiles by number. *)
Lemma NoDup_map_inj {A B} (f : A -> B) l : NoDup l -> (forall a b, In a l -> In b l -> f a = f b -> a = b) -> NoDup (map f l).
Proof.
  induction 1 as [|a l H N IH]; intros I; cbn; constructor.
  - intros X. apply in_map_iff in X. destruct X as (b & E & Hb). apply H. rewrite (I a b); [exact Hb|now left|now right|congruence].
  - apply IH. intros x y Hx Hy. apply I; now right.
Qed.
Lemma NoDup_of_map {A B} (f : A -> B) l : NoDup (map f l) -> NoDup l.
Proof. apply NoDup_map_inv. Qed.
Definition spot (t : gtile) := (gx t, gy t, glayer t).
Definition points_from (s : nat) (k : nat) (ts : list gtile) : list (point * nat) :=
  flat_map (fun it => if Nat.eqb (glayer (snd it)) k then [((gx (snd it), gy (snd it)), fst it)] else []) (combine (seq s (length ts)) ts).
Lemma points_ext k : forall ts ts' s, map spot ts = map spot ts' -> points_from s k ts = points_from s k ts'.
Proof.
  induction ts as [|t ts IH]; intros [|t' ts'] s E; try discriminate; [reflexivity|]. cbn [map] in E. assert (spot t = spot t' /\ map spot ts = map spot ts') as [E1 E2] by (split; [congruence|congruence]).
  unfold points_from. cbn [length seq combine flat_map fst snd]. unfold points_from in IH. rewrite (IH ts' (S s) E2). unfold spot in E1. injection E1 as -> -> ->. reflexivity.
Qed.
Lemma points_in k ts : forall s p n, In (p, n) (points_from s k ts) <-> exists t, (s <= n)%nat /\ nth_error ts (n - s) = Some t /\ glayer t = k /\ p = (gx t, gy t).
Proof.
  induction ts as [|t ts IH]; intros s p n.
  - split; [intros []|]. intros (t & _ & H & _). destruct (n - s)%nat; discriminate.
  - change (points_from s k (t :: ts)) with ((if Nat.eqb (glayer t) k then [((gx t, gy t), s)] else []) ++ points_from (S s) k ts). rewrite in_app_iff, IH. split.
    + intros [H|(t' & H1 & H2 & H3)].
      * destruct (Nat.eqb_spec (glayer t) k) as [E|]; [|destruct H]. destruct H as [[= <- <-]|[]]. exists t. rewrite Nat.sub_diag. auto.
      * exists t'. split; [lia|]. split; [|exact H3]. replace (n - s)%nat with (S (n - S s)) by lia. exact H2.
    + intros (t' & H1 & H2 & H3 & ->). destruct (Nat.eq_dec n s) as [->|Ne].
      * left. rewrite Nat.sub_diag in H2. injection H2 as <-. rewrite H3, Nat.eqb_refl. now left.
      * right. exists t'. split; [lia|]. split; [|auto]. replace (n - s)%nat with (S (n - S s)) in H2 by lia. exact H2.
Qed.
Lemma points_nodup k ts : forall s, NoDup (map snd (points_from s k ts)).
Proof.
  induction ts as [|t ts IH]; intros s; [constructor|]. change (points_from s k (t :: ts)) with ((if Nat.eqb (glayer t) k then [((gx t, gy t), s)] else []) ++ points_from (S s) k ts).
  destruct (Nat.eqb (glayer t) k); cbn; [|apply IH]. constructor; [|apply IH]. intros H. apply in_map_iff in H. destruct H as ([p n] & E & H). cbn in E. subst n. apply points_in in H. destruct H as (t' & H & _). lia.
Qed.
Lemma pm_ext lt k ts ts' : map spot ts = map spot ts' -> pm lt k ts = pm lt k ts'.
Proof. intros E. unfold pm. change (layer_points k ts) with (points_from 0 k ts). rewrite (points_ext k ts ts' 0 E). reflexivity. Qed.

Lemma NoDup_combine_fst {A B} (l : list A) : forall l' : list B, NoDup l -> NoDup (map fst (combine l l')).
Proof.
  induction l as [|a l IH]; intros [|b l'] N; cbn; try constructor; apply NoDup_cons_iff in N; destruct N as [N1 N2]; [|now apply IH].
  intros H. apply in_map_iff in H. destruct H as ([x y] & E & H). cbn in E. subst x. apply N1. eapply in_combine_l, H.
Qed.
Lemma NoDup_combine_snd {A B} (l : list A) : forall l' : list B, NoDup l' -> NoDup (map snd (combine l l')).
Proof.
  induction l as [|a l IH]; intros [|b l'] N; cbn; try constructor; apply NoDup_cons_iff in N; destruct N as [N1 N2]; [|now apply IH].
  intros H. apply in_map_iff in H. destruct H as ([x y] & E & H). cbn in E. subst y. apply N1. eapply in_combine_r, H.
Qed.
Lemma neighbours_in same m a b : In (a, b) (neighbours same m) <-> exists p q, In ((p, a), (q, b)) (combine m (tl m)) /\ same p q = true.
Proof.
  unfold neighbours. rewrite in_flat_map. split.
  - intros ([[p a'] [q b']] & H1 & H2). cbn in H2. destruct (same p q) eqn:E; [|destruct H2]. destruct H2 as [[= -> ->]|[]]. eauto.
  - intros (p & q & H & E). exists ((p, a), (q, b)). split; [exact H|]. cbn. rewrite E. now left.
Qed.
Lemma neighbours_nodup same m : NoDup (map snd m) -> NoDup (map fst (neighbours same m)) /\ NoDup (map snd (neighbours same m)).
Proof.
  intros N. assert (forall l : list ((point * nat) * (point * nat)), NoDup (map snd (map fst l)) -> NoDup (map fst (flat_map (fun ab => if same (fst (fst ab)) (fst (snd ab)) then [(snd (fst ab), snd (snd ab))] else []) l))) as Q1.
  { induction l as [|[[p a] [q b]] l IH]; intros H; cbn in *; [constructor|]. apply NoDup_cons_iff in H. destruct H as [H1 H2]. destruct (same p q); cbn; [|now apply IH]. constructor; [|now apply IH].
    intros X. apply H1. apply in_map_iff in X. destruct X as ([a' b'] & E & X). cbn in E. subst a'. apply in_flat_map in X. destruct X as ([[p' a'] [q' b'']] & X1 & X2). cbn in X2. destruct (same p' q'); [|destruct X2]. destruct X2 as [[= -> ->]|[]].
    apply in_map_iff. exists (p', a). split; [reflexivity|]. apply in_map_iff. eexists. split; [|exact X1]. reflexivity. }
  assert (forall l : list ((point * nat) * (point * nat)), NoDup (map snd (map snd l)) -> NoDup (map snd (flat_map (fun ab => if same (fst (fst ab)) (fst (snd ab)) then [(snd (fst ab), snd (snd ab))] else []) l))) as Q2.
  { induction l as [|[[p a] [q b]] l IH]; intros H; cbn in *; [constructor|]. apply NoDup_cons_iff in H. destruct H as [H1 H2]. destruct (same p q); cbn; [|now apply IH]. constructor; [|now apply IH].
    intros X. apply H1. apply in_map_iff in X. destruct X as ([a' b'] & E & X). cbn in E. subst b'. apply in_flat_map in X. destruct X as ([[p' a''] [q' b'']] & X1 & X2). cbn in X2. destruct (same p' q'); [|destruct X2]. destruct X2 as [[= -> ->]|[]].
    apply in_map_iff. exists (q', b). split; [reflexivity|]. apply in_map_iff. eexists. split; [|exact X1]. reflexivity. }
  split; [apply Q1|apply Q2].
  - assert (forall (l l' : list (point * nat)), NoDup (map snd l) -> NoDup (map snd (map fst (combine l l')))) as X; [|now apply X].
    induction l as [|a l IH]; intros [|b l'] H; cbn; try constructor; cbn in H; apply NoDup_cons_iff in H; destruct H as [H1 H2]; [|now apply IH].
    intros Y. apply H1. apply in_map_iff in Y. destruct Y as (e & E & Y). apply in_map_iff in Y. destruct Y as ([u v] & E' & Y). cbn in E'. subst u. apply in_map_iff. exists e. split; [exact E|]. eapply in_combine_l, Y.
  - assert (forall (l l' : list (point * nat)), NoDup (map snd l') -> NoDup (map snd (map snd (combine l l')))) as X.
    { induction l as [|a l IH]; intros [|b l'] H; cbn; try constructor; cbn in H; apply NoDup_cons_iff in H; destruct H as [H1 H2]; [|now apply IH].
      intros Y. apply H1. apply in_map_iff in Y. destruct Y as (e & E & Y). apply in_map_iff in Y. destruct Y as ([u v] & E' & Y). cbn in E'. subst v. apply in_map_iff. exists e. split; [exact E|]. eapply in_combine_r, Y. }
    apply X. destruct m as [|e m]; [constructor|]. cbn in *. now apply NoDup_cons_iff in N.
Qed.
Lemma sorted_nodup lt m : (forall p, lt p p = false) -> StronglySorted (before lt) m -> NoDup m.
Proof.
  intros Ir. induction 1 as [|a l S IH F]; constructor; [|exact IH]. intros H. rewrite Forall_forall in F. pose proof (F a H) as X. unfold before in X. rewrite Ir in X. discriminate.
Qed.

Lemma digits n a b c d : (b < n)%nat -> (d < n)%nat -> (a * n + b = c * n + d)%nat -> a = c /\ b = d.
Proof.
  intros H1 H2 E. destruct (Nat.lt_trichotomy a c) as [L|[->|L]]; [|lia|].
  - assert (S a * n <= c * n)%nat by (apply Nat.mul_le_mono_r; lia). cbn in H. lia.
  - assert (S c * n <= a * n)%nat by (apply Nat.mul_le_mono_r; lia). cbn in H. lia.
Qed.
Section Grid.
Variable s : setup.
Hypothesis V : valid s.
Let ux := x_unit s. Let uy := y_unit s. Let nx := columns s. Let ny := rows s.
Lemma ux_pos : 0 < x_unit s.
Proof. destruct V. unfold x_unit. destruct (vertical (drc s) (lmetal s)); apply Z.mul_pos_pos; auto. Qed.
Lemma uy_pos : 0 < y_unit s.
Proof. destruct V. unfold y_unit. destruct (vertical (drc s) (lmetal s)); apply Z.mul_pos_pos; auto. Qed.
Lemma columns_lt i : (i < columns s)%nat <-> left_of s i < urx s.
Proof. apply (number_lt (llx s) (urx s) (x_unit s) i ux_pos). Qed.
Lemma rows_lt j : (j < rows s)%nat <-> bottom_of s j < ury s.
Proof. apply (number_lt (lly s) (ury s) (y_unit s) j uy_pos). Qed.
Lemma layers_eq : layerNo s = layers s.
Proof.
  unfold layerNo, layers. destruct V as [_ _ _ Hp]. f_equal. set (a := hmetal s - lmetal s + 1). replace (hmetal s - lmetal s + per_layer s) with (a + per_layer s - 1) by lia.
  pose proof (Z.div_mod (a + per_layer s - 1) (per_layer s) ltac:(lia)). pose proof (Z.mod_pos_bound (a + per_layer s - 1) (per_layer s) Hp). set (q := (a + per_layer s - 1) / per_layer s) in *.
  assert (- a / per_layer s = - q); [|lia]. symmetry. apply (Z.div_unique_pos _ _ _ (- a + per_layer s * q)); [|lia]. nia.
Qed.
Lemma layers_lt k : (k < layers s)%nat <-> lmetal s + Z.of_nat k * per_layer s <= hmetal s.
Proof.
  unfold layers. destruct V as [_ _ _ Hp]. pose proof (Z.div_mod (hmetal s - lmetal s + per_layer s) (per_layer s) ltac:(lia)). pose proof (Z.mod_pos_bound (hmetal s - lmetal s + per_layer s) (per_layer s) Hp).
  set (q := (hmetal s - lmetal s + per_layer s) / per_layer s) in *. split; intros; nia.
Qed.
Lemma cell_lt k i j : in_grid s k i j -> (cell s k i j < layers s * columns s * rows s)%nat.
Proof. unfold in_grid, cell. intros (A & B & C). assert (k * columns s + i < layers s * columns s)%nat by nia. nia. Qed.
Lemma cell_inj k i j k' i' j' : in_grid s k i j -> in_grid s k' i' j' -> cell s k i j = cell s k' i' j' -> k = k' /\ i = i' /\ j = j'.
Proof.
  unfold in_grid, cell. intros (A & B & C) (A' & B' & C') E. destruct (digits _ _ _ _ _ C C' E) as [E1 E2]. destruct (digits _ _ _ _ _ B B' E1) as [E3 E4]. tauto.
Qed.
Lemma cell_surj n : (n < layers s * columns s * rows s)%nat -> exists k i j, in_grid s k i j /\ n = cell s k i j.
Proof.
  intros H. assert (rows s <> 0 /\ columns s <> 0)%nat as [R C] by (split; intros X; rewrite X in H; nia).
  exists (n / rows s / columns s)%nat, ((n / rows s) mod columns s)%nat, (n mod rows s)%nat. unfold in_grid, cell.
  pose proof (Nat.div_mod n (rows s) R). pose proof (Nat.mod_upper_bound n (rows s) R). pose proof (Nat.div_mod (n / rows s) (columns s) C). pose proof (Nat.mod_upper_bound (n / rows s) (columns s) C).
  assert (n / rows s < layers s * columns s)%nat by (apply Nat.div_lt_upper_bound; lia). assert (n / rows s / columns s < layers s)%nat by (apply Nat.div_lt_upper_bound; lia).
  repeat split; try assumption. rewrite (Nat.mul_comm (n / rows s / columns s)), <- H2, (Nat.mul_comm (n / rows s)). exact H0.
Qed.
Lemma new_length : length (new_tiles s) = (layers s * columns s * rows s)%nat.
Proof.
  unfold new_tiles. rewrite (len_flat _ (columns s * rows s)); [rewrite seq_length, layers_eq; lia|]. intros k _. rewrite (len_flat _ (rows s)); [now rewrite starts_length by apply ux_pos|].
  intros X _. rewrite map_length. now rewrite starts_length by apply uy_pos.
Qed.
Lemma new_nth k i j : in_grid s k i j -> nth_error (new_tiles s) (cell s k i j) = Some (new_tile s k (left_of s i) (bottom_of s j)).
Proof.
  intros (A & B & C). unfold new_tiles, cell. replace ((k * columns s + i) * rows s + j)%nat with (k * (columns s * rows s) + (i * rows s + j))%nat by lia.
  rewrite nth_flat; [| |nia].
  - rewrite (nth_error_nth' _ 0%nat) by (rewrite seq_length, layers_eq; exact A). rewrite seq_nth by (rewrite layers_eq; exact A). cbn [plus].
    rewrite nth_flat; [| |exact C].
    + rewrite starts_nth by apply ux_pos. pose proof (proj1 (columns_lt i) B) as HB. unfold left_of in HB. replace (llx s + Z.of_nat i * x_unit s <? urx s) with true by lia.
      rewrite nth_error_map, starts_nth by apply uy_pos. pose proof (proj1 (rows_lt j) C) as HC. unfold bottom_of in HC. replace (lly s + Z.of_nat j * y_unit s <? ury s) with true by lia. reflexivity.
    + intros X _. rewrite map_length. now rewrite starts_length by apply uy_pos.
  - intros x _. rewrite (len_flat _ (rows s)); [now rewrite starts_length by apply ux_pos|]. intros X _. rewrite map_length. now rewrite starts_length by apply uy_pos.
Qed.
Definition cx (i : nat) : Z := center_at (x_unit s) (urx s) (left_of s i).
Definition cy (j : nat) : Z := center_at (y_unit s) (ury s) (bottom_of s j).
Lemma left_mono i i' : (i <= i')%nat -> left_of s i <= left_of s i'.
Proof. intros H. unfold left_of. pose proof ux_pos. apply Z.add_le_mono_l, Z.mul_le_mono_nonneg_r; lia. Qed.
Lemma cx_bounds i : (i < columns s)%nat -> left_of s i <= cx i < left_of s (S i) /\ cx i < urx s.
Proof. intros H. apply columns_lt in H. pose proof (center_bounds (x_unit s) (urx s) (left_of s i) ux_pos H) as [X _]. unfold cx. unfold left_of in *. lia. Qed.
Lemma bottom_mono i i' : (i <= i')%nat -> bottom_of s i <= bottom_of s i'.
Proof. intros H. unfold bottom_of. pose proof uy_pos. apply Z.add_le_mono_l, Z.mul_le_mono_nonneg_r; lia. Qed.
Lemma cy_bounds j : (j < rows s)%nat -> bottom_of s j <= cy j < bottom_of s (S j) /\ cy j < ury s.
Proof. intros H. apply rows_lt in H. pose proof (center_bounds (y_unit s) (ury s) (bottom_of s j) uy_pos H) as [X _]. unfold cy. unfold bottom_of in *. lia. Qed.
Lemma cx_lt i i' : (i < columns s)%nat -> (i' < columns s)%nat -> (cx i < cx i' <-> (i < i')%nat).
Proof.
  intros H H'. apply cx_bounds in H, H'. split; intros L.
  - destruct (Nat.lt_trichotomy i i') as [|[->|X]]; [assumption|lia|]. pose proof (left_mono (S i') i X). lia.
  - pose proof (left_mono (S i) i' L). lia.
Qed.
Lemma cy_lt i i' : (i < rows s)%nat -> (i' < rows s)%nat -> (cy i < cy i' <-> (i < i')%nat).
Proof.
  intros H H'. apply cy_bounds in H, H'. split; intros L.
  - destruct (Nat.lt_trichotomy i i') as [|[->|X]]; [assumption|lia|]. pose proof (bottom_mono (S i') i X). lia.
  - pose proof (bottom_mono (S i) i' L). lia.
Qed.
Lemma cx_eq i i' : (i < columns s)%nat -> (i' < columns s)%nat -> cx i = cx i' -> i = i'.
Proof. intros H H' E. pose proof (cx_lt i i' H H'). pose proof (cx_lt i' i H' H). lia. Qed.
Lemma cy_eq i i' : (i < rows s)%nat -> (i' < rows s)%nat -> cy i = cy i' -> i = i'.
Proof. intros H H' E. pose proof (cy_lt i i' H H'). pose proof (cy_lt i' i H' H). lia. Qed.
Lemma points_new k p n : In (p, n) (points_from 0 k (new_tiles s)) <-> exists i j, in_grid s k i j /\ n = cell s k i j /\ p = (cx i, cy j).
Proof.
  rewrite points_in. split.
  - intros (t & _ & H & K & ->). rewrite Nat.sub_0_r in H. pose proof (nth_lt' _ _ _ H) as L. rewrite new_length in L. destruct (cell_surj n L) as (k' & i & j & I & ->). rewrite (new_nth k' i j I) in H. injection H as <-. cbn in K. subst k'.
    exists i, j. auto.
  - intros (i & j & I & -> & ->). eexists. split; [lia|]. rewrite Nat.sub_0_r, (new_nth k i j I). split; [reflexivity|]. split; reflexivity.
Qed.
Section Maps.
Variable lt : point -> point -> bool.
Hypothesis irr : forall p, lt p p = false.
Hypothesis tra : forall p q r, lt p q = true -> lt q r = true -> lt p r = true.
Hypothesis tot : forall p q, p <> q -> lt p q = true \/ lt q p = true.
Lemma pm_ok k : let m := pm lt k (new_tiles s) in StronglySorted (before lt) m /\ NoDup (map snd m) /\
  forall p n, In (p, n) m <-> exists i j, in_grid s k i j /\ n = cell s k i j /\ p = (cx i, cy j).
Proof.
  cbn. unfold pm. change (layer_points k (new_tiles s)) with (points_from 0 k (new_tiles s)).
  assert (NoDup (map fst (points_from 0 k (new_tiles s)))) as N.
  { apply NoDup_map_inj; [eapply NoDup_of_map, points_nodup|]. intros [p n] [q m] H1 H2 E. cbn in E. subst q. apply points_new in H1, H2. destruct H1 as (i & j & I & -> & ->), H2 as (i' & j' & I' & -> & E). destruct I as (A & B & C), I' as (A' & B' & C').
    assert (i = i') as <- by (apply cx_eq; auto; congruence). assert (j = j') as <- by (apply cy_eq; auto; congruence). reflexivity. }
  destruct (fold_sorted lt tra tot _ N) as [F1 F2]. split; [exact F1|]. split.
  - apply NoDup_map_inj; [eapply sorted_nodup; [exact irr|exact F1]|]. intros [p n] [q m] H1 H2 E. cbn in E. subst m. apply F2 in H1, H2. apply points_new in H1, H2. destruct H1 as (i & j & I & -> & ->), H2 as (i' & j' & I' & E & ->).
    destruct (cell_inj _ _ _ _ _ _ I I' E) as (_ & -> & ->). reflexivity.
  - intros p n. rewrite F2. apply points_new.
Qed.
End Maps.
Lemma neighbours_xy k : let ps := neighbours (fun p q => fst p =? fst q) (pm xy_lt k (new_tiles s)) in NoDup (map fst ps) /\ NoDup (map snd ps) /\
  forall a b, In (a, b) ps <-> exists i j, in_grid s k i (S j) /\ a = cell s k i j /\ b = cell s k i (S j).
Proof.
  cbn. destruct (pm_ok xy_lt xy_irr xy_tra xy_tot k) as (S & N & I). destruct (neighbours_nodup (fun p q => fst p =? fst q) _ N) as [N1 N2]. split; [exact N1|]. split; [exact N2|].
  intros a b. rewrite neighbours_in. split.
  - intros (p & q & H & E). apply (consecutive xy_lt xy_irr xy_tra) in H; [|exact S]. destruct H as (Ha & Hb & L & Q). apply I in Ha, Hb. destruct Ha as (i & j & Ga & -> & ->), Hb as (i' & j' & Gb & -> & ->). cbn in E.
    destruct Ga as (A1 & A2 & A3), Gb as (B1 & B2 & B3). assert (i = i') as <- by (apply cx_eq; auto; lia). unfold before, xy_lt in L. cbn in L. rewrite Z.eqb_refl in L. assert (j < j')%nat by (apply cy_lt; auto; lia).
    assert (j' = Datatypes.S j) as ->.
    { destruct (Nat.eq_dec j' (Datatypes.S j)) as [|Ne]; [assumption|]. exfalso. assert (Datatypes.S j < rows s)%nat as Hj by lia. apply (Q ((cx i, cy (Datatypes.S j)), cell s k i (Datatypes.S j))).
      - apply I. exists i, (Datatypes.S j). repeat split; auto.
      - unfold before, xy_lt. cbn [fst snd]. rewrite Z.eqb_refl. apply Z.ltb_lt. apply cy_lt; auto; lia.
      - unfold before, xy_lt. cbn [fst snd]. rewrite Z.eqb_refl. apply Z.ltb_lt. apply cy_lt; auto; lia. }
    exists i, j. repeat split; auto.
  - intros (i & j & (A & B & C) & -> & ->). assert (j < rows s)%nat as Hj by lia. exists (cx i, cy j), (cx i, cy (Datatypes.S j)). split; [|cbn; lia]. apply (consecutive xy_lt xy_irr xy_tra); [exact S|].
    split; [apply I; exists i, j; repeat split; auto|]. split; [apply I; exists i, (Datatypes.S j); repeat split; auto|]. unfold before, xy_lt. cbn [fst snd]. rewrite Z.eqb_refl. split; [apply Z.ltb_lt, cy_lt; auto; lia|].
    intros [c n] Hc H1 H2. apply I in Hc. destruct Hc as (i' & j' & (G1 & G2 & G3) & -> & ->). cbn [fst snd] in H1, H2.
    pose proof (cx_lt i i' B G2). pose proof (cx_lt i' i G2 B). destruct (Z.eqb_spec (cx i) (cx i')) as [E|E].
    + rewrite E, Z.eqb_refl in H2. apply Z.ltb_lt in H1, H2. apply cy_lt in H1, H2; auto. lia.
    + destruct (Z.eqb_spec (cx i') (cx i)); [lia|]. lia.
Qed.
Lemma neighbours_yx k : let ps := neighbours (fun p q => snd p =? snd q) (pm yx_lt k (new_tiles s)) in NoDup (map fst ps) /\ NoDup (map snd ps) /\
  forall a b, In (a, b) ps <-> exists i j, in_grid s k (S i) j /\ a = cell s k i j /\ b = cell s k (S i) j.
Proof.
  cbn. destruct (pm_ok yx_lt yx_irr yx_tra yx_tot k) as (S & N & I). destruct (neighbours_nodup (fun p q => snd p =? snd q) _ N) as [N1 N2]. split; [exact N1|]. split; [exact N2|].
  intros a b. rewrite neighbours_in. split.
  - intros (p & q & H & E). apply (consecutive yx_lt yx_irr yx_tra) in H; [|exact S]. destruct H as (Ha & Hb & L & Q). apply I in Ha, Hb. destruct Ha as (i & j & Ga & -> & ->), Hb as (i' & j' & Gb & -> & ->). cbn in E.
    destruct Ga as (A1 & A2 & A3), Gb as (B1 & B2 & B3). assert (j = j') as <- by (apply cy_eq; auto; lia). unfold before, yx_lt in L. cbn in L. rewrite Z.eqb_refl in L. assert (i < i')%nat by (apply cx_lt; auto; lia).
    assert (i' = Datatypes.S i) as ->.
    { destruct (Nat.eq_dec i' (Datatypes.S i)) as [|Ne]; [assumption|]. exfalso. assert (Datatypes.S i < columns s)%nat as Hj by lia. apply (Q ((cx (Datatypes.S i), cy j), cell s k (Datatypes.S i) j)).
      - apply I. exists (Datatypes.S i), j. repeat split; auto.
      - unfold before, yx_lt. cbn [fst snd]. rewrite Z.eqb_refl. apply Z.ltb_lt. apply cx_lt; auto; lia.
      - unfold before, yx_lt. cbn [fst snd]. rewrite Z.eqb_refl. apply Z.ltb_lt. apply cx_lt; auto; lia. }
    exists i, j. repeat split; auto.
  - intros (i & j & (A & B & C) & -> & ->). assert (i < columns s)%nat as Hj by lia. exists (cx i, cy j), (cx (Datatypes.S i), cy j). split; [|cbn; lia]. apply (consecutive yx_lt yx_irr yx_tra); [exact S|].
    split; [apply I; exists i, j; repeat split; auto|]. split; [apply I; exists (Datatypes.S i), j; repeat split; auto|]. unfold before, yx_lt. cbn [fst snd]. rewrite Z.eqb_refl. split; [apply Z.ltb_lt, cx_lt; auto; lia|].
    intros [c n] Hc H1 H2. apply I in Hc. destruct Hc as (i' & j' & (G1 & G2 & G3) & -> & ->). cbn [fst snd] in H1, H2.
    pose proof (cy_lt j j' C G3). pose proof (cy_lt j' j G3 C). destruct (Z.eqb_spec (cy j) (cy j')) as [E|E].
    + rewrite E, Z.eqb_refl in H2. apply Z.ltb_lt in H1, H2. apply cx_lt in H1, H2; auto. lia.
    + destruct (Z.eqb_spec (cy j') (cy j)); [lia|]. lia.
Qed.
End Grid.
