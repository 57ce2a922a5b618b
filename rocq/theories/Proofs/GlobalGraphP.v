(** The Steiner trees of the global router. *)
From Coq Require Import ZArith ZifyBool.
From Verif Require Import Base.Prelude Model.GlobalGraph Spec.GlobalGraphSpec Proofs.DijkstraP.
Local Open Scope Z_scope.

Lemma nth_ext_opt {A} (l l' : list A) : (forall i, nth_error l i = nth_error l' i) -> l = l'.
Proof.
  revert l'. induction l as [|a l IH]; intros [|b l'] H; [reflexivity|specialize (H 0%nat); discriminate|specialize (H 0%nat); discriminate|].
  f_equal; [specialize (H 0%nat); now injection H|]. apply IH. intros i. apply (H (Datatypes.S i)).
Qed.
Lemma alter_ok {A} (f : A -> A) i : forall l, (i < length l)%nat ->
  exists l', alter f i l = Some l' /\ length l' = length l /\ (forall a, nth_error l i = Some a -> nth_error l' i = Some (f a)) /\ forall j, j <> i -> nth_error l' j = nth_error l j.
Proof.
  induction i as [|i IH]; intros [|x l] H; cbn in H; try lia.
  - exists (f x :: l). split; [reflexivity|]. split; [reflexivity|]. split; [intros a [= ->]; reflexivity|]. intros [|j] N; [contradiction|reflexivity].
  - destruct (IH l) as (l' & E & L & A1 & A2); [lia|]. exists (x :: l'). cbn. rewrite E. split; [reflexivity|]. split; [cbn; lia|]. split; [exact A1|].
    intros [|j] N; [reflexivity|]. apply A2. lia.
Qed.
Lemma nth_lt {A} (l : list A) i : (i < length l)%nat -> exists a, nth_error l i = Some a.
Proof. intros H. destruct (nth_error l i) eqn:E; [eauto|]. apply nth_error_None in E. lia. Qed.
Lemma nth_lt' {A} (l : list A) i a : nth_error l i = Some a -> (i < length l)%nat.
Proof. intros H. apply nth_error_Some. congruence. Qed.

Definition times (j : nat) (l : list nat) : nat := count_occ Nat.eq_dec l j.
Definition with_list (n : node) (l : list edge) : node := Node (n_src n) l.
Lemma push_ok i e ns : (i < length ns)%nat -> exists ns', push i e ns = Some ns' /\ length ns' = length ns /\
  (forall n, nth_error ns i = Some n -> nth_error ns' i = Some (with_list n (n_list n ++ [e]))) /\ forall j, j <> i -> nth_error ns' j = nth_error ns j.
Proof. intros H. destruct (alter_ok (fun n => Node (n_src n) (n_list n ++ [e])) i ns H) as (ns' & E & R). exists ns'. split; [exact E|exact R]. Qed.
Lemma link_fold s : forall src ns, (s < length ns)%nat -> (forall v, In v src -> (v < length ns)%nat /\ v <> s) ->
  exists ns', fold_opt (link s) src ns = Some ns' /\ length ns' = length ns /\
    forall j n, nth_error ns j = Some n -> nth_error ns' j = Some (with_list n (n_list n ++ if Nat.eqb j s then map (fun t => Edge t 0) src else repeat (Edge s 0) (times j src))).
Proof.
  induction src as [|v src IH]; intros ns Hs Hv; cbn [fold_opt].
  - exists ns. split; [reflexivity|]. split; [reflexivity|]. intros j [sr li] H. rewrite H. unfold with_list. cbn. destruct (j =? s)%nat; now rewrite app_nil_r.
  - destruct (Hv v (or_introl eq_refl)) as [Hv1 Hv2]. unfold link at 1. destruct (push_ok s (Edge v 0) ns Hs) as (n1 & -> & L1 & A1 & B1).
    destruct (push_ok v (Edge s 0) n1) as (n2 & -> & L2 & A2 & B2); [lia|]. destruct (IH n2) as (n3 & E3 & L3 & Q); [lia|intros x Hx; rewrite L2, L1; apply Hv; now right|].
    exists n3. split; [exact E3|]. split; [lia|]. intros j n Hj. destruct (Nat.eq_dec j s) as [->|Ns].
    + pose proof (A1 n Hj) as X. rewrite <- (B2 s) in X by congruence. rewrite (Q s _ X). rewrite Nat.eqb_refl. unfold with_list. cbn. now rewrite <- app_assoc.
    + rewrite <- (B1 j Ns) in Hj. replace (Nat.eqb j s) with false in * by lia. unfold times. cbn [count_occ]. destruct (Nat.eq_dec v j) as [->|Nv].
      * pose proof (A2 n Hj) as X. rewrite (Q j _ X). replace (Nat.eqb j s) with false by lia. unfold with_list. cbn. now rewrite <- app_assoc.
      * rewrite <- (B2 j) in Hj by congruence. rewrite (Q j n Hj). replace (Nat.eqb j s) with false by lia. reflexivity.
Qed.
Lemma pop_fold : forall is ns, (forall j, In j is -> (j < length ns)%nat) -> (forall j n, nth_error ns j = Some n -> (times j is <= length (n_list n))%nat) ->
  exists ns', fold_opt pop is ns = Some ns' /\ length ns' = length ns /\
    forall j n, nth_error ns j = Some n -> nth_error ns' j = Some (with_list n (firstn (length (n_list n) - times j is) (n_list n))).
Proof.
  induction is as [|i is IH]; intros ns Hi Hc; cbn [fold_opt].
  - exists ns. split; [reflexivity|]. split; [reflexivity|]. intros j [sr li] H. rewrite H. unfold with_list, times. cbn. now rewrite Nat.sub_0_r, firstn_all.
  - destruct (nth_lt ns i) as [[sr li] Ei]; [apply Hi; now left|]. pose proof (Hc i _ Ei) as Ci. unfold times in Ci. cbn in Ci. destruct (Nat.eq_dec i i) as [_|]; [|congruence].
    unfold pop at 1. rewrite Ei. destruct li as [|e0 li]; [cbn in Ci; lia|].
    destruct (alter_ok (fun n => Node (n_src n) (removelast (n_list n))) i ns) as (n1 & E1 & L1 & A1 & B1); [apply Hi; now left|]. rewrite E1.
    set (li0 := e0 :: li) in *.
    assert (length (removelast li0) = (length li0 - 1)%nat) as Lr. { rewrite removelast_firstn_len, firstn_length. unfold li0. cbn. lia. }
    destruct (IH n1) as (n2 & E2 & L2 & Q).
    { intros j Hj. rewrite L1. apply Hi. now right. }
    { intros j n Hj. destruct (Nat.eq_dec j i) as [->|N].
      - rewrite (A1 _ Ei) in Hj. injection Hj as <-. change (times i is <= length (removelast li0))%nat. rewrite Lr. change (n_list (Node sr li0)) with li0 in Ci. unfold times. lia.
      - rewrite (B1 j N) in Hj. specialize (Hc j n Hj). unfold times in *. cbn in Hc. destruct (Nat.eq_dec i j); [congruence|exact Hc]. }
    exists n2. split; [exact E2|]. split; [lia|]. intros j n Hj. unfold times. cbn [count_occ]. destruct (Nat.eq_dec i j) as [<-|N].
    + pose proof (A1 _ Ei) as X. rewrite (Q i _ X). rewrite Ei in Hj. injection Hj as <-. unfold with_list. cbn [n_src n_list]. f_equal. f_equal. rewrite Lr, removelast_firstn_len, firstn_firstn.
      f_equal. unfold times, li0. cbn [length pred]. lia.
    + rewrite <- (B1 j) in Hj by congruence. apply (Q j n Hj).
Qed.

Lemma trail_has g1 l w : trail g1 l w -> In (g_source g1) l.
Proof. induction 1; [now left|now right]. Qed.
Lemma trail_inv g1 v p w : trail g1 (v :: p) w -> (v = g_source g1 /\ p = [] /\ w = 0) \/
  exists u l w1 w2, p = u :: l /\ w = w1 + w2 /\ trail g1 (u :: l) w1 /\ edge_of (nodes g1) u v w2.
Proof. intros T. inversion T; subst; [auto|right]. eauto 10. Qed.

Section Ends.
Variables (m : nat) (g : graph) (src dst : list nat).
Hypothesis P : proper m g.
Hypothesis Hsrc : forall v, In v src -> (v < m)%nat.
Hypothesis Hdst : forall v, In v dst -> (v < m)%nat.

Lemma times_0 j l : ~ In j l -> times j l = 0%nat.
Proof. apply count_occ_not_In. Qed.
Lemma set_ok : exists g1, SetSrcDest src dst g = Some g1 /\ g_source g1 = m /\ g_dest g1 = S m /\ length (nodes g1) = S (S m) /\
  (forall j n, nth_error (nodes g) j = Some n -> nth_error (nodes g1) j = Some (with_list n (
     if Nat.eqb j m then map (fun t => Edge t 0) src else if Nat.eqb j (S m) then map (fun t => Edge t 0) dst
     else n_list n ++ repeat (Edge m 0) (times j src) ++ repeat (Edge (S m) 0) (times j dst)))).
Proof.
  destruct P as [Ps Pd Pn Pe Pw]. unfold SetSrcDest. rewrite Ps, Pd.
  destruct (link_fold m src (nodes g)) as (n1 & -> & L1 & Q1); [lia|intros v Hv; specialize (Hsrc v Hv); lia|].
  destruct (link_fold (S m) dst n1) as (n2 & -> & L2 & Q2); [lia|intros v Hv; specialize (Hdst v Hv); lia|]. cbn [on_nodes].
  exists (Graph n2 (g_source g) (g_dest g)). split; [reflexivity|]. split; [exact Ps|]. split; [exact Pd|]. split; [cbn; lia|].
  intros j n Hj. cbn [nodes]. rewrite (Q2 j _ (Q1 j n Hj)). unfold with_list. cbn [n_src n_list]. f_equal. f_equal. destruct (Nat.eqb_spec j m) as [->|N].
  - replace (Nat.eqb m (S m)) with false by lia. rewrite (Pe m n) by (auto; lia). rewrite (times_0 m dst) by (intros X; specialize (Hdst m X); lia). cbn. now rewrite app_nil_r.
  - destruct (Nat.eqb_spec j (S m)) as [->|N2].
    + rewrite (Pe (S m) n) by (auto; lia). rewrite (times_0 (S m) src) by (intros X; specialize (Hsrc _ X); lia). reflexivity.
    + now rewrite <- app_assoc.
Qed.
Lemma rm_ok g1 : SetSrcDest src dst g = Some g1 -> RMSrcDest src dst g1 = Some g.
Proof.
  intros E. destruct set_ok as (g1' & E' & S1 & D1 & L1 & Q1). rewrite E in E'. injection E' as <-. destruct P as [Ps Pd Pn Pe Pw].
  unfold RMSrcDest. rewrite S1, D1. unfold clear. destruct (alter_ok (fun n => Node (n_src n) []) m (nodes g1)) as (n1 & -> & La & A1 & B1); [lia|].
  destruct (alter_ok (fun n => Node (n_src n) []) (S m) n1) as (n2 & -> & Lb & A2 & B2); [lia|].
  assert (forall j n, nth_error (nodes g) j = Some n -> nth_error n2 j = Some (with_list n (if (m <=? j)%nat then [] else n_list n ++ repeat (Edge m 0) (times j src) ++ repeat (Edge (S m) 0) (times j dst)))) as Q2.
  { intros j n Hj. pose proof (Q1 j n Hj) as X. pose proof (nth_lt' _ _ _ Hj) as Hl. destruct (Nat.eq_dec j m) as [->|N1].
    - replace (m <=? m)%nat with true by lia. rewrite Nat.eqb_refl in X. rewrite (B2 m) by lia. now rewrite (A1 _ X).
    - rewrite <- (B1 j N1) in X. destruct (Nat.eq_dec j (S m)) as [->|N2].
      + replace (m <=? S m)%nat with true by lia. now rewrite (A2 _ X).
      + rewrite <- (B2 j N2) in X. replace (j =? m)%nat with false in X by lia. replace (j =? S m)%nat with false in X by lia. replace (m <=? j)%nat with false by lia. exact X. }
  assert (forall j n, nth_error n2 j = Some n -> exists n0, nth_error (nodes g) j = Some n0) as Back.
  { intros j n Hj. apply nth_lt. apply nth_lt' in Hj. lia. }
  destruct (pop_fold src n2) as (n3 & -> & Lc & Q3).
  { intros j Hj. specialize (Hsrc j Hj). lia. }
  { intros j n Hj. destruct (Back j n Hj) as [n0 Hn0]. rewrite (Q2 j n0 Hn0) in Hj. injection Hj as <-. cbn [n_list with_list]. destruct (m <=? j)%nat eqn:C.
    - rewrite times_0; [cbn; lia|]. intros X. specialize (Hsrc j X). lia.
    - rewrite !app_length, !repeat_length. lia. }
  destruct (pop_fold dst n3) as (n4 & E4 & Ld & Q4).
  { intros j Hj. specialize (Hdst j Hj). lia. }
  { intros j n Hj. destruct (nth_lt n2 j) as [n0' Hn0']; [apply nth_lt' in Hj; lia|]. destruct (Back j n0' Hn0') as [n0 Hn0]. rewrite (Q3 j _ (Q2 j n0 Hn0)) in Hj. injection Hj as <-. cbn [n_list with_list]. destruct (m <=? j)%nat eqn:C.
    - rewrite (times_0 j dst); [lia|]. intros X. specialize (Hdst j X). lia.
    - rewrite firstn_length, !app_length, !repeat_length. lia. }
  rewrite E4. cbn [on_nodes]. f_equal. destruct g as [ns a b]. cbn in *. subst a b. f_equal; auto. apply nth_ext_opt. intros j. destruct (nth_error ns j) as [n|] eqn:Hj.
  - rewrite (Q4 j _ (Q3 j _ (Q2 j n Hj))). unfold with_list. cbn [n_src n_list]. f_equal. destruct n as [sr li]. cbn [n_src n_list]. f_equal. destruct (m <=? j)%nat eqn:C.
    + specialize (Pe j _ ltac:(lia) Hj). cbn in Pe. subst. cbn. now rewrite ?firstn_nil.
    + rewrite firstn_firstn, firstn_length, !app_length, !repeat_length, app_assoc.
      replace (Nat.min _ _) with (length li) by lia. rewrite <- app_assoc. rewrite firstn_app, Nat.sub_diag, firstn_all. cbn. apply app_nil_r.
  - apply nth_error_None. apply nth_error_None in Hj. lia.
Qed.
Lemma set_edges g1 : SetSrcDest src dst g = Some g1 -> forall a b w, edge_of (nodes g1) a b w <->
  edge_of (nodes g) a b w \/ (w = 0 /\ ((a = m /\ In b src) \/ (b = m /\ In a src) \/ (a = S m /\ In b dst) \/ (b = S m /\ In a dst))).
Proof.
  intros E. destruct set_ok as (g1' & E' & S1 & D1 & L1 & Q1). rewrite E in E'. injection E' as <-. destruct P as [Ps Pd Pn Pe Pw].
  assert (forall (x c : edge) k, In x (repeat c k) -> x = c /\ (0 < k)%nat) as Rep.
  { intros x c k. induction k as [|k IH]; [intros []|]. intros [<-|H]; [split; [reflexivity|lia]|]. destruct (IH H). split; [assumption|lia]. }
  assert (forall j l, (0 < times j l)%nat -> In j l) as Tin by (intros j l H; apply (count_occ_In Nat.eq_dec) in H; exact H).
  intros a b w. unfold edge_of. split.
  - intros (n1 & H1 & H2). destruct (nth_lt (nodes g) a) as [n Hn]; [apply nth_lt' in H1; lia|]. rewrite (Q1 a n Hn) in H1. injection H1 as <-. cbn [n_list with_list] in H2.
    destruct (Nat.eqb_spec a m) as [->|N1].
    { apply in_map_iff in H2. destruct H2 as (t & [= <- <-] & Ht). right. split; [reflexivity|]. left. auto. }
    destruct (Nat.eqb_spec a (S m)) as [->|N2].
    { apply in_map_iff in H2. destruct H2 as (t & [= <- <-] & Ht). right. split; [reflexivity|]. right; right; left. auto. }
    apply in_app_or in H2. destruct H2 as [H2|H2]; [left; exists n; auto|]. apply in_app_or in H2. destruct H2 as [H2|H2]; apply Rep in H2; destruct H2 as [[= -> ->] H2]; apply Tin in H2; right; (split; [reflexivity|auto]); auto 6.
  - intros [(n & H1 & H2)|[-> [[-> H]|[[-> H]|[[-> H]|[-> H]]]]]].
    + pose proof (Q1 a n H1) as X. eexists. split; [exact X|]. cbn [n_list with_list]. destruct (Nat.eqb_spec a m) as [->|N1]; [rewrite (Pe m n) in H2 by (auto; lia); destruct H2|].
      destruct (Nat.eqb_spec a (S m)) as [->|N2]; [rewrite (Pe (S m) n) in H2 by (auto; lia); destruct H2|]. apply in_or_app. now left.
    + destruct (nth_lt (nodes g) m) as [n Hn]; [lia|]. eexists. split; [exact (Q1 m n Hn)|]. rewrite Nat.eqb_refl. cbn. apply in_map_iff. eauto.
    + pose proof (Hsrc a H). destruct (nth_lt (nodes g) a) as [n Hn]; [lia|]. eexists. split; [exact (Q1 a n Hn)|]. replace (a =? m)%nat with false by lia. replace (a =? S m)%nat with false by lia. cbn.
      apply in_or_app. right. apply in_or_app. left. apply (count_occ_In Nat.eq_dec) in H. fold (times a src) in H. destruct (times a src); [lia|]. now left.
    + destruct (nth_lt (nodes g) (S m)) as [n Hn]; [lia|]. eexists. split; [exact (Q1 _ n Hn)|]. replace (S m =? m)%nat with false by lia. rewrite Nat.eqb_refl. cbn. apply in_map_iff. eauto.
    + pose proof (Hdst a H). destruct (nth_lt (nodes g) a) as [n Hn]; [lia|]. eexists. split; [exact (Q1 a n Hn)|]. replace (a =? m)%nat with false by lia. replace (a =? S m)%nat with false by lia. cbn.
      apply in_or_app. right. apply in_or_app. right. apply (count_occ_In Nat.eq_dec) in H. fold (times a dst) in H. destruct (times a dst); [lia|]. now left.
Qed.

Lemma walk_snoc ns a b p w c w' : walk ns a b p w -> edge_of ns b c w' -> walk ns a c (p ++ [c]) (w + w').
Proof.
  induction 1 as [x|x y z p w1 w2 E H IH]; intros Hc; cbn [app].
  - replace (0 + w') with (w' + 0) by lia. econstructor; [exact Hc|constructor].
  - replace (w1 + w2 + w') with (w1 + (w2 + w')) by lia. econstructor; [exact E|auto].
Qed.
Theorem shortest_path g1 : SetSrcDest src dst g = Some g1 ->
  ((dijkstra g1 = None \/ dijkstra g1 = Some []) /\ ~ reachable (nodes g) src dst) \/
  exists p, dijkstra g1 = Some p /\ p <> [] /\ shortest (nodes g) src dst p.
Proof.
  intros E. pose proof (set_edges g1 E) as Q. destruct set_ok as (g1' & E' & S1 & D1 & L1 & _). rewrite E in E'. injection E' as <-.
  destruct P as [Ps Pd Pn Pe Pw].
  assert (forall a b w, edge_of (nodes g) a b w -> (a < m)%nat) as Pa.
  { intros a b w (n & H1 & H2). destruct (Nat.lt_ge_cases a m) as [|H]; [assumption|]. rewrite (Pe a n H H1) in H2. destruct H2. }
  assert (forall a b w, edge_of (nodes g1) a b w -> (b < length (nodes g1))%nat /\ 0 <= w) as He.
  { intros a b w H. apply Q in H. rewrite L1. destruct H as [H|[-> [[-> H]|[[-> H]|[[-> H]|[-> H]]]]]]; [destruct (Pw _ _ _ H); lia| | | |]; try (specialize (Hsrc _ H)); try (specialize (Hdst _ H)); lia. }
  assert (forall a b p w, walk (nodes g) a b p w -> forall w0, rwalk g1 a w0 -> rwalk g1 b (w0 + w)) as Ext.
  { induction 1 as [x|x y z p w1 w2 Hxy H IH]; intros w0 R; [now rewrite Z.add_0_r|]. replace (w0 + (w1 + w2)) with (w0 + w1 + w2) by lia. apply IH. econstructor; [exact R|]. apply Q. now left. }
  assert (forall a b p w, In a src -> In b dst -> walk (nodes g) a b p w -> rwalk g1 (S m) w) as Rw.
  { intros a b p w Ha Hb W. replace w with (0 + 0 + w + 0) by lia. eapply rw_step with (a := b); [|apply Q; right; auto 6]. eapply Ext; [exact W|].
    eapply rw_step; [apply rw_one|]. rewrite S1. apply Q. right. auto. }
  destruct (dijkstra_ok g1) as [[H1 H2]|(p & w & T & N & Ed & Min)]; rewrite ?S1, ?D1; try lia; [exact He| |].
  - left. split; [exact H1|]. intros (a & b & p & w & Ha & Hb & W). apply H2. exists w. rewrite D1. eauto.
  - right. rewrite D1 in *.
    assert (forall l w, trail g1 l w -> forall v q, l = v :: q -> NoDup l -> ~ In (S m) l -> v <> m ->
              (v < m)%nat /\ exists a, In a src /\ walk (nodes g) a v (rev (filter (keep g1) l)) w) as Tr.
    { clear w T Min N Ed. induction 1 as [|v u l w w' T IH Hu]; intros x q [= <- <-] N Nd Nm; [rewrite S1 in Nm; contradiction|].
      apply NoDup_cons_iff in N. destruct N as [N1 N2]. apply Q in Hu. assert (keep g1 v = true) as Kv. { unfold keep. rewrite S1, D1. cbn in Nd. replace (v =? m)%nat with false by lia. replace (v =? S m)%nat with false; [reflexivity|]. symmetry. apply Nat.eqb_neq. intuition. }
      destruct (Nat.eq_dec u m) as [->|Nu].
      - assert (l = [] /\ w = 0) as [-> ->].
        { destruct (trail_inv _ _ _ _ T) as [(_ & A & B)|(u' & l' & w1 & w2 & -> & _ & T' & _)]; [auto|]. exfalso.
          apply trail_has in T'. rewrite S1 in T'. apply NoDup_cons_iff in N2. now apply N2. }
        destruct Hu as [Hu|[-> [[_ H]|[[-> _]|[[H _]|[H _]]]]]]; [apply Pa in Hu; lia| |contradiction|lia|exfalso; apply Nd; left; congruence].
        split; [now apply Hsrc|]. exists v. split; [exact H|]. cbn [filter]. rewrite Kv. unfold keep. rewrite S1, Nat.eqb_refl. cbn. constructor.
      - destruct (IH u l eq_refl N2) as (Hum & a & Ha & W); [intros X; apply Nd; now right|exact Nu|].
        destruct Hu as [Hu|[-> [[X _]|[[X _]|[[X _]|[X _]]]]]]; [|contradiction|contradiction|lia|exfalso; apply Nd; left; congruence].
        split; [now apply Pw in Hu|]. exists a. split; [exact Ha|]. change (filter (keep g1) (v :: u :: l)) with (if keep g1 v then v :: filter (keep g1) (u :: l) else filter (keep g1) (u :: l)).
        rewrite Kv. cbn [rev]. eapply walk_snoc; eauto. }
    destruct (trail_inv _ _ _ _ T) as [(X1 & _)|(u & l & w1 & w2 & -> & -> & T' & Hu)]; [rewrite S1 in X1; lia|]. apply NoDup_cons_iff in N. destruct N as [N1 N2]. apply Q in Hu.
    assert (In u dst /\ w2 = 0) as [Hud ->].
    { destruct Hu as [Hu|[-> [[X Y]|[[X _]|[[X Y]|[X Y]]]]]]; [apply Pw in Hu; lia|specialize (Hsrc _ Y); lia|lia|specialize (Hdst _ Y); lia|auto]. }
    destruct (Tr _ _ T' u l eq_refl N2 N1) as (Hum & a & Ha & W); [specialize (Hdst u Hud); lia|].
    exists (rev (filter (keep g1) (u :: l))). split.
    { rewrite Ed. f_equal. f_equal. cbn [filter]. replace (keep g1 (S m)) with false; [reflexivity|]. unfold keep. rewrite D1, Nat.eqb_refl, orb_true_r. reflexivity. }
    split. { intros X. rewrite X in W. inversion W. }
    exists a, u, w1. split; [exact Ha|]. split; [exact Hud|]. split; [exact W|]. intros a' b' p' w' Ha' Hb' W'. pose proof (Min w' (Rw _ _ _ _ Ha' Hb' W')). lia.
Qed.
End Ends.
