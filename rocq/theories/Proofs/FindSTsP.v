(** [FindSTs] and the construction of the graph. *)
From Coq Require Import ZArith ZifyBool.
From Verif Require Import Base.Prelude Model.GlobalGraph Spec.GlobalGraphSpec Proofs.DijkstraP Proofs.GlobalGraphP Proofs.SteinerP.
Local Open Scope Z_scope.

Definition singles (cs : list nat) : list (list nat) := map (fun c => [c]) cs.
Lemma linked_singles pins cs es a b : linked (pins ++ singles cs) es a b -> linked pins es a b \/ a = b.
Proof.
  induction 1 as [p a b H Ha Hb|a b H|a b H IH|a b c H1 IH1 H2 IH2].
  - apply in_app_or in H. destruct H as [H|H]; [left; eapply l_pin; eauto|]. apply in_map_iff in H. destruct H as (c & <- & _). destruct Ha as [<-|[]], Hb as [<-|[]]. now right.
  - left. now apply l_edge.
  - destruct IH as [IH|IH]; [left; now apply l_sym|now right].
  - destruct IH1 as [IH1| ->], IH2 as [IH2| <-]; auto. left. eapply l_trans; eauto.
Qed.
Lemma connects_singles ns pins cs es : connects ns (pins ++ singles cs) es -> connects ns pins es.
Proof.
  intros [C1 C2]. split; [|exact C2]. intros p q a b Hp Hq Ha Hb. destruct (linked_singles pins cs es a b) as [H| ->]; [|exact H|].
  - apply (C1 p q); auto; apply in_or_app; now left.
  - apply (l_pin pins es q b b); auto.
Qed.
Lemma routable_less ns pins pins' : incl (concat pins) (concat pins') -> routable ns pins' -> routable ns pins.
Proof. intros I R a b Ha Hb. apply R; auto. Qed.
Lemma in_singles v cs : In v (concat (singles cs)) <-> In v cs.
Proof. unfold singles. induction cs as [|c cs IH]; cbn; [reflexivity|]. rewrite IH. intuition. Qed.

Section Cands.
Variables (m : nat) (g : graph).
Hypothesis P : proper m g.

Definition low (pins : list (list nat)) : Prop := forall p v, In p pins -> In v p -> (v < m)%nat.
Lemma low_singles pins cs : low pins -> (forall c, In c cs -> (c < m)%nat) -> low (pins ++ singles cs).
Proof. intros L C p v Hp Hv. apply in_app_or in Hp. destruct Hp as [Hp|Hp]; [eapply L; eauto|]. apply in_map_iff in Hp. destruct Hp as (c & <- & Hc). destruct Hv as [<-|[]]; auto. Qed.

Lemma wire_ok pins : low pins -> forall cands i wl best idx, (forall c, In c cands -> (c < m)%nat) ->
  forall g' wl' idx', GetWireLength pins i cands g wl best idx = Some (g', wl', idx') -> g' = g /\ (idx' = idx \/ exists k, idx' = Some (i + k)%nat /\ (k < length cands)%nat).
Proof.
  intros L. induction cands as [|c cands IH]; intros i wl best idx Hc g' wl' idx'; cbn [GetWireLength]; [intros [= <- <- <-]; auto|].
  destruct (MST (pins ++ [[c]]) g) as [[[g1 wl1] es]|] eqn:E; [|discriminate]. destruct (mst_ok m g (pins ++ singles [c]) P (low_singles pins [c] L ltac:(intros x [<-|[]]; apply Hc; now left)) _ _ _ E) as (-> & _).
  destruct (wl1 <? best); intros H; apply IH in H; try (intros x Hx; apply Hc; now right); destruct H as [-> H]; (split; [reflexivity|]); destruct H as [->|(k & -> & Hk)].
  - right. exists 0%nat. cbn. split; [f_equal; lia|lia].
  - right. exists (S k). cbn. split; [f_equal; lia|lia].
  - auto.
  - right. exists (S k). cbn. split; [f_equal; lia|lia].
Qed.
Lemma wire_some pins : low pins -> hd [] pins <> [] -> forall cands i wl best idx, (forall c, In c cands -> (c < m)%nat) -> routable (nodes g) (pins ++ singles cands) ->
  exists wl' idx', GetWireLength pins i cands g wl best idx = Some (g, wl', idx').
Proof.
  intros L Hh. induction cands as [|c cands IH]; intros i wl best idx Hc R; cbn [GetWireLength]; [eauto|].
  destruct (mst_some m g (pins ++ singles [c]) P) as (wl1 & es & E).
  - apply low_singles; [exact L|]. intros x [<-|[]]. apply Hc. now left.
  - destruct pins; [now cbn in Hh|exact Hh].
  - eapply routable_less; [|exact R]. intros v Hv. rewrite concat_app in *. apply in_app_or in Hv. apply in_or_app. destruct Hv as [Hv|Hv]; [now left|right]. rewrite in_singles in *. destruct Hv as [<-|[]]. now left.
  - cbn [singles map] in E. rewrite E. destruct (wl1 <? best); apply IH; try (intros x Hx; apply Hc; now right);
    (eapply routable_less; [|exact R]; intros v Hv; rewrite concat_app in *; apply in_app_or in Hv; apply in_or_app; destruct Hv as [Hv|Hv]; [now left|right]; rewrite in_singles in *; now right).
Qed.
Lemma add_ok pins cands idx pins' cands' : AddStinerNode pins cands idx = (pins', cands') -> exists ex, pins' = pins ++ singles ex /\ incl ex cands /\ incl cands' cands.
Proof.
  unfold AddStinerNode. destruct idx as [i|]; intros [= <- <-].
  - assert (incl (firstn i cands ++ skipn (S i) cands) cands) as Q.
    { intros x Hx. apply in_app_or in Hx. destruct Hx as [Hx|Hx]; [rewrite <- (firstn_skipn i cands); apply in_or_app; now left|rewrite <- (firstn_skipn (S i) cands); apply in_or_app; now right]. }
    destruct (nth_error cands i) as [c|] eqn:E.
    + exists [c]. split; [reflexivity|]. split; [intros x [<-|[]]; eapply nth_error_In, E|exact Q].
    + exists []. split; [reflexivity|]. split; [intros x []|exact Q].
  - exists []. split; [now rewrite app_nil_r|]. split; [intros x []|apply incl_refl].
Qed.
Lemma singles_app a b : singles (a ++ b) = singles a ++ singles b.
Proof. apply map_app. Qed.
Lemma steiner_ok : forall fuel pins cands lwl wl, low pins -> (forall c, In c cands -> (c < m)%nat) ->
  (forall g' pins' cands', steiner_loop fuel pins cands g lwl wl = Some (g', pins', cands') -> g' = g /\ exists ex, pins' = pins ++ singles ex /\ incl ex cands /\ incl cands' cands) /\
  (hd [] pins <> [] -> routable (nodes g) (pins ++ singles cands) -> steiner_loop fuel pins cands g lwl wl <> None).
Proof.
  induction fuel as [|fuel IH]; intros pins cands lwl wl L C; cbn [steiner_loop].
  - split; [|discriminate]. intros g' p' c' [= <- <- <-]. split; [reflexivity|]. exists []. split; [now rewrite app_nil_r|]. split; [intros x []|apply incl_refl].
  - split.
    + intros g' p' c'. destruct (GetWireLength pins 0 cands g wl INT_MAX None) as [[[g1 wl1] idx]|] eqn:E; [|discriminate]. destruct (wire_ok pins L cands _ _ _ _ C _ _ _ E) as [-> _].
      destruct (0 <? lwl - wl1).
      * destruct (AddStinerNode pins cands idx) as [p1 c1] eqn:Ea. destruct (add_ok _ _ _ _ _ Ea) as (ex & -> & I1 & I2). intros H. apply IH in H; [|now apply low_singles; auto|auto].
        destruct H as [-> (ex' & -> & I3 & I4)]. split; [reflexivity|]. exists (ex ++ ex'). rewrite singles_app, app_assoc. split; [reflexivity|].
        split; [apply incl_app; [exact I1|eapply incl_tran; eauto]|eapply incl_tran; eauto].
      * intros [= <- <- <-]. split; [reflexivity|]. exists []. split; [now rewrite app_nil_r|]. split; [intros x []|apply incl_refl].
    + intros Hh R. destruct (wire_some pins L Hh cands 0%nat wl INT_MAX None C R) as (wl1 & idx & ->). destruct (0 <? lwl - wl1); [|discriminate].
      destruct (AddStinerNode pins cands idx) as [p1 c1] eqn:Ea. destruct (add_ok _ _ _ _ _ Ea) as (ex & -> & I1 & I2).
      apply IH; [now apply low_singles; auto|auto|destruct pins; [now cbn in Hh|exact Hh]|]. eapply routable_less; [|exact R]. intros v Hv. rewrite !concat_app in *. rewrite !in_app_iff, !in_singles in *. intuition.
Qed.
End Cands.

(** Weights that change. *)
Definition same_edge (e e' : edge) : Prop := e_dest e' = e_dest e /\ (0 <= e_weight e -> 0 <= e_weight e').
Definition same_node (n n' : node) : Prop := n_src n' = n_src n /\ Forall2 same_edge (n_list n) (n_list n').
Definition same_graph (g g' : graph) : Prop := g_source g' = g_source g /\ g_dest g' = g_dest g /\ Forall2 same_node (nodes g) (nodes g').
Lemma F2_refl {A} (R : A -> A -> Prop) l : (forall a, R a a) -> Forall2 R l l.
Proof. intros H. induction l; auto. Qed.
Lemma F2_trans {A} (R : A -> A -> Prop) l1 l2 l3 : (forall a b c, R a b -> R b c -> R a c) -> Forall2 R l1 l2 -> Forall2 R l2 l3 -> Forall2 R l1 l3.
Proof. intros T H. revert l3. induction H as [|a b l1 l2 H1 H2 IH]; intros l3 H3; inversion H3; subst; constructor; eauto. Qed.
Lemma F2_nth {A B} (R : A -> B -> Prop) l l' : Forall2 R l l' -> forall i, match nth_error l i, nth_error l' i with Some a, Some b => R a b | None, None => True | _, _ => False end.
Proof. induction 1 as [|a b l l' H1 H2 IH]; intros [|i]; cbn; auto. apply IH. Qed.
Lemma F2_len {A B} (R : A -> B -> Prop) l l' : Forall2 R l l' -> length l = length l'.
Proof. induction 1; cbn; auto. Qed.
Lemma F2_in {A B} (R : A -> B -> Prop) l l' : Forall2 R l l' -> forall b, In b l' -> exists a, In a l /\ R a b.
Proof. induction 1 as [|a b l l' H1 H2 IH]; intros x Hx; [destruct Hx|]. destruct Hx as [<-|Hx]; [exists a; split; [now left|exact H1]|]. destruct (IH x Hx) as (y & Y1 & Y2). exists y. split; [now right|exact Y2]. Qed.
Lemma F2_in' {A B} (R : A -> B -> Prop) l l' : Forall2 R l l' -> forall a, In a l -> exists b, In b l' /\ R a b.
Proof. induction 1 as [|a b l l' H1 H2 IH]; intros x Hx; [destruct Hx|]. destruct Hx as [<-|Hx]; [exists b; split; [now left|exact H1]|]. destruct (IH x Hx) as (y & Y1 & Y2). exists y. split; [now right|exact Y2]. Qed.
Lemma same_node_refl n : same_node n n.
Proof. split; [reflexivity|]. apply F2_refl. intros e. split; auto. Qed.
Lemma same_node_trans a b c : same_node a b -> same_node b c -> same_node a c.
Proof. intros [A1 A2] [B1 B2]. split; [congruence|]. eapply F2_trans; [|exact A2|exact B2]. intros x y z [X1 X2] [Y1 Y2]. split; [congruence|auto]. Qed.
Lemma same_refl g : same_graph g g.
Proof. split; [reflexivity|]. split; [reflexivity|]. apply F2_refl, same_node_refl. Qed.
Lemma same_trans a b c : same_graph a b -> same_graph b c -> same_graph a c.
Proof. intros (A1 & A2 & A3) (B1 & B2 & B3). split; [congruence|]. split; [congruence|]. eapply F2_trans; [exact same_node_trans|exact A3|exact B3]. Qed.
Lemma same_edge_of g g' : same_graph g g' -> forall a b, (exists w, edge_of (nodes g) a b w) <-> exists w, edge_of (nodes g') a b w.
Proof.
  intros (_ & _ & F) a b. pose proof (F2_nth _ _ _ F a) as H. split; intros (w & n & H1 & H2); rewrite H1 in H.
  - destruct (nth_error (nodes g') a) as [n'|] eqn:E; [|destruct H]. destruct H as [_ H]. destruct (F2_in' _ _ _ H _ H2) as ([b' w'] & X & [Y _]). cbn in Y. subst b'. exists w', n'. auto.
  - destruct (nth_error (nodes g) a) as [n'|] eqn:E; [|destruct H]. destruct H as [_ H]. destruct (F2_in _ _ _ H _ H2) as ([b' w'] & X & [Y _]). cbn in Y. subst b'. exists w', n'. auto.
Qed.
Lemma same_proper m g g' : same_graph g g' -> proper m g -> proper m g'.
Proof.
  intros S P. pose proof S as (S1 & S2 & F). destruct P as [Ps Pd Pn Pe Pw]. constructor; [congruence|congruence|rewrite <- (F2_len _ _ _ F); exact Pn| |].
  - intros i n' Hi Hn. pose proof (F2_nth _ _ _ F i) as H. rewrite Hn in H. destruct (nth_error (nodes g) i) as [n|] eqn:E; [|destruct H]. destruct H as [_ H]. rewrite (Pe i n Hi E) in H. now inversion H.
  - intros a b w' (n' & H1 & H2). pose proof (F2_nth _ _ _ F a) as H. rewrite H1 in H. destruct (nth_error (nodes g) a) as [n|] eqn:E; [|destruct H]. destruct H as [_ H].
    destruct (F2_in _ _ _ H _ H2) as ([b0 w] & X & [Y Z]). cbn in Y, Z. subst b0. destruct (Pw a b w) as [Q1 Q2]; [exists n; auto|]. auto.
Qed.
Lemma same_walk g g' : same_graph g g' -> forall a b p w, walk (nodes g) a b p w -> exists w', walk (nodes g') a b p w'.
Proof.
  intros S. induction 1 as [a|a b c p w w' E W [w1 IH]]; [exists 0; constructor|]. destruct (proj1 (same_edge_of g g' S a b)) as [w2 E2]; [eauto|]. exists (w2 + w1). econstructor; eauto.
Qed.
Lemma same_routable g g' pins : same_graph g g' -> routable (nodes g) pins -> routable (nodes g') pins.
Proof. intros S R a b Ha Hb. destruct (R a b Ha Hb) as (p & w & W). destruct (same_walk _ _ S _ _ _ _ W). eauto. Qed.
Lemma same_connects g g' pins es : same_graph g g' -> connects (nodes g') pins es -> connects (nodes g) pins es.
Proof. intros S [C1 C2]. split; [exact C1|]. intros a b H. destruct (C2 a b H) as [|H']; [auto|]. right. now apply (same_edge_of g g' S). Qed.

Lemma double_same b n : same_node n (double_to b n).
Proof. split; [reflexivity|]. cbn. induction (n_list n) as [|e l IH]; cbn; constructor; [|exact IH]. destruct (e_dest e =? b)%nat; split; cbn; auto; lia. Qed.
Lemma alter_same (f : node -> node) i : (forall n, same_node n (f n)) -> forall ns, (i < length ns)%nat -> exists ns', alter f i ns = Some ns' /\ Forall2 same_node ns ns'.
Proof.
  intros Hf. induction i as [|i IH]; intros [|n ns] H; cbn in H; try lia; cbn.
  - eexists. split; [reflexivity|]. constructor; [apply Hf|]. apply F2_refl, same_node_refl.
  - destruct (IH ns) as (ns' & -> & F); [lia|]. eexists. split; [reflexivity|]. constructor; [apply same_node_refl|exact F].
Qed.
Lemma update_ok es g : (forall a b, In (a, b) es -> (a < length (nodes g) /\ b < length (nodes g))%nat) -> exists g', UpdateEdgeWeight es g = Some g' /\ same_graph g g'.
Proof.
  intros H. unfold UpdateEdgeWeight.
  assert (forall ns, length ns = length (nodes g) -> exists ns', fold_opt (fun ab ns => match alter (double_to (snd ab)) (fst ab) ns with
                                     | Some ns' => alter (double_to (fst ab)) (snd ab) ns' | None => None end) es ns = Some ns' /\ Forall2 same_node ns ns') as Q.
  { induction es as [|[a b] es IH]; intros ns L; cbn [fold_opt]; [exists ns; split; [reflexivity|apply F2_refl, same_node_refl]|]. cbn [fst snd]. destruct (H a b (or_introl eq_refl)) as [Ha Hb].
    destruct (alter_same (double_to b) a (double_same b) ns) as (n1 & -> & F1); [lia|]. destruct (alter_same (double_to a) b (double_same a) n1) as (n2 & -> & F2); [rewrite <- (F2_len _ _ _ F1); lia|].
    destruct (IH (fun x y X => H x y (or_intror X)) n2) as (n3 & -> & F3); [rewrite <- (F2_len _ _ _ F2), <- (F2_len _ _ _ F1); exact L|]. exists n3. split; [reflexivity|].
    eapply F2_trans; [exact same_node_trans|exact F1|]. eapply F2_trans; [exact same_node_trans|exact F2|exact F3]. }
  destruct (Q (nodes g) eq_refl) as (ns' & -> & F). cbn. eexists. split; [reflexivity|]. split; [reflexivity|]. split; [reflexivity|exact F].
Qed.

Lemma find_ok m : forall k pins cands g, proper m g -> low m pins -> (forall c, In c cands -> (c < m)%nat) ->
  (forall g' cands' trees, find_loop k pins cands g = Some (g', cands', trees) -> same_graph g g' /\ length trees = k /\ forall es, In es trees -> connects (nodes g) pins es) /\
  (hd [] pins <> [] -> routable (nodes g) (pins ++ singles cands) -> find_loop k pins cands g <> None).
Proof.
  induction k as [|k IH]; intros pins cands g P L C; cbn [find_loop].
  - split; [|discriminate]. intros g' c' t [= <- <- <-]. split; [apply same_refl|]. split; [reflexivity|]. intros es [].
  - unfold Iterated_Steiner. destruct (steiner_ok m g P (length pins - 2) pins cands INT_MAX INT_MAX L C) as [S1 S2].
    destruct (steiner_loop (length pins - 2) pins cands g INT_MAX INT_MAX) as [[[g1 p1] c1]|] eqn:E.
    2:{ split; [discriminate|]. intros Hh R. exfalso. now apply (S2 Hh R). }
    destruct (S1 _ _ _ eq_refl) as [-> (ex & -> & I1 & I2)]. assert (low m (pins ++ singles ex)) as L1 by (apply low_singles; auto).
    destruct (MST (pins ++ singles ex) g) as [[[g2 wl] es]|] eqn:Em.
    2:{ split; [discriminate|]. intros Hh R. exfalso. destruct (mst_some m g (pins ++ singles ex) P L1) as (wl & es & X); [destruct pins; [now cbn in Hh|exact Hh]| |congruence].
        eapply routable_less; [|exact R]. intros v Hv. rewrite !concat_app in *. rewrite !in_app_iff, !in_singles in *. intuition. }
    destruct (mst_ok m g _ P L1 _ _ _ Em) as (-> & Cn & Rg). destruct (update_ok es g) as (g3 & -> & S3). { intros a b H. destruct (Rg a b H). rewrite (p_size m g P). lia. }
    destruct (IH pins c1 g3 (same_proper m g g3 S3 P) L (fun c Hc => C c (I2 c Hc))) as [F1 F2].
    destruct (find_loop k pins c1 g3) as [[[g4 c4] trees]|] eqn:Ef.
    + split; [|discriminate]. intros g' c' t [= <- <- <-]. destruct (F1 _ _ _ eq_refl) as (A1 & A2 & A3). split; [eapply same_trans; eauto|]. split; [cbn; lia|].
      intros x [<-|Hx]; [eapply connects_singles, Cn|]. eapply same_connects; [exact S3|]. now apply A3.
    + split; [discriminate|]. intros Hh R. exfalso. apply (F2 Hh); [|reflexivity]. eapply same_routable; [exact S3|]. eapply routable_less; [|exact R].
      intros v Hv. rewrite !concat_app in *. rewrite !in_app_iff, !in_singles in *. intuition.
Qed.

(** Refreshing the weights. *)
Definition weighed (ts : list tile) (m : nat) (g : graph) : Prop := forall k n e, (k < m)%nat -> nth_error (nodes g) k = Some n -> In e (n_list n) ->
  exists t u, nth_error ts (n_src n) = Some t /\ nth_error ts (e_dest e) = Some u /\ e_weight e = manhattan t u.
Lemma F2_firstn {A B} (R : A -> B -> Prop) l l' : Forall2 R l l' -> forall k, Forall2 R (firstn k l) (firstn k l') /\ Forall2 R (skipn k l) (skipn k l').
Proof. induction 1 as [|a b l l' H1 H2 IH]; intros [|k]; cbn; auto. destruct (IH k). auto. Qed.
Lemma refresh_ok ts m g g' : proper m g -> weighed ts m g -> same_graph g g' -> refreshWeight ts g' = Some g.
Proof.
  intros P W SG. pose proof SG as (S1 & S2 & F). unfold refreshWeight. rewrite <- (F2_len _ _ _ F). rewrite (p_size m g P). replace (S (S m) - 2)%nat with m by lia.
  destruct (F2_firstn _ _ _ F m) as [Fa Fb].
  assert (skipn m (nodes g') = skipn m (nodes g)) as ->.
  { assert (forall n, In n (skipn m (nodes g)) -> n_list n = []) as Q.
    { intros n Hn. apply In_nth_error in Hn. destruct Hn as [i Hi]. apply (p_ends m g P (m + i)); [lia|]. rewrite <- Hi. symmetry. revert Hi. clear.
      generalize (nodes g). induction m as [|m IH]; intros [|x l]; cbn; auto. destruct i; discriminate. }
    revert Q. generalize dependent (skipn m (nodes g)). generalize (skipn m (nodes g')). clear. intros l' l F Q. induction F as [|[a x] [b y] l l' [H1 H2] F IH]; [reflexivity|].
    cbn in H1. subst b. pose proof (Q _ (or_introl eq_refl)) as X. cbn in X, H2. subst x. inversion H2; subst. f_equal. apply IH. intros n Hn. apply Q. now right. }
  assert (forall n, In n (firstn m (nodes g)) -> forall e, In e (n_list n) -> exists t u, nth_error ts (n_src n) = Some t /\ nth_error ts (e_dest e) = Some u /\ e_weight e = manhattan t u) as Q.
  { intros n Hn e He. apply In_nth_error in Hn. destruct Hn as [i Hi]. assert (i < m)%nat. { apply nth_lt' in Hi. rewrite firstn_length in Hi. lia. }
    apply (W i n e); auto. rewrite <- Hi. clear - H. revert i H. generalize (nodes g). induction m as [|m IH]; intros l i H; [lia|]. destruct l, i; cbn; auto. apply IH. lia. }
  assert (concat_opt (fun n => match concat_opt (fresh_edge ts (n_src n)) (n_list n) with Some es => Some [Node (n_src n) es] | None => None end) (firstn m (nodes g')) = Some (firstn m (nodes g))) as ->.
  { revert Q. generalize dependent (firstn m (nodes g)). generalize (firstn m (nodes g')). clear. intros l' l F Q. induction F as [|[a x] [b y] l l' [H1 H2] F IH]; [reflexivity|]. cbn [concat_opt n_src n_list]. cbn in H1, H2. subst b.
    assert (concat_opt (fresh_edge ts a) y = Some x) as ->.
    { pose proof (Q _ (or_introl eq_refl)) as Qx. cbn in Qx. clear - Qx H2. induction H2 as [|[b w] [b' w'] x y [E1 _] H IH]; [reflexivity|]. cbn in E1. subst b'. cbn [concat_opt]. unfold fresh_edge at 1. cbn [e_dest].
      destruct (Qx _ (or_introl eq_refl)) as (t & u & Et & Eu & E). cbn in E, Et, Eu. subst w. rewrite Et, Eu. rewrite IH; [reflexivity|]. intros e He. apply Qx. now right. }
    rewrite IH; [reflexivity|]. intros n Hn. apply Q. now right. }
  rewrite firstn_skipn, S1, S2. destruct g; reflexivity.
Qed.

(** The graph of the tiles. *)
Lemma concat_opt_flat {A B} (f : A -> option (list B)) h l : (forall a, In a l -> f a = Some (h a)) -> concat_opt f l = Some (flat_map h l).
Proof. intros H. induction l as [|a l IH]; [reflexivity|]. cbn. rewrite (H a) by now left. rewrite IH; [reflexivity|]. intros x Hx. apply H. now right. Qed.
Section Build.
Variables (ts : list tile) (ok : tile -> bool).
Hypothesis wf : forall t e k, In t ts -> In e (t_next t) -> te_next e = Some k -> (k < length ts)%nat.
Hypothesis prefix : forall i j t u, (i <= j)%nat -> nth_error ts i = Some t -> nth_error ts j = Some u -> ok u = true -> ok t = true.
Let m := length (filter ok ts).
Definition h (t : tile) (e : tedge) : list edge :=
  match te_next e with
  | Some k => match nth_error ts k with Some u => if ok u && (0 <? te_cap e) then [Edge k (manhattan t u)] else [] | None => [] end
  | None => []
  end.
Lemma filter_prefix : forall l : list tile, (forall i j t u, (i <= j)%nat -> nth_error l i = Some t -> nth_error l j = Some u -> ok u = true -> ok t = true) ->
  forall s, flat_map (fun it => if negb (ok (snd it)) then [] else [Node (fst it) (flat_map (h (snd it)) (t_next (snd it)))]) (combine (seq s (length l)) l) =
            map (fun it => Node (fst it) (flat_map (h (snd it)) (t_next (snd it)))) (combine (seq s (length (filter ok l))) l) /\
            (length (filter ok l) <= length l)%nat /\ forall k t, nth_error l k = Some t -> (ok t = true <-> (k < length (filter ok l))%nat).
Proof.
  induction l as [|t l IH]; intros Hp s; [repeat split; cbn; try lia; destruct k; discriminate|].
  assert (forall i j t u, (i <= j)%nat -> nth_error l i = Some t -> nth_error l j = Some u -> ok u = true -> ok t = true) as Hp' by (intros i j x y H; apply (Hp (S i) (S j)); lia).
  destruct (IH Hp' (S s)) as (E & L & Q). cbn [filter]. destruct (ok t) eqn:Ot.
  - cbn [length seq combine flat_map map fst snd]. rewrite Ot. cbn [negb app]. rewrite E. split; [reflexivity|]. split; [lia|]. intros [|k] x Hx; [injection Hx as <-; split; [lia|auto]|]. cbn in Hx. rewrite (Q k x Hx). lia.
  - assert (forall k x, nth_error l k = Some x -> ok x = false) as No. { intros k x Hx. destruct (ok x) eqn:Ox; [|reflexivity]. assert (ok t = true) by (apply (Hp 0%nat (S k) t x); auto; lia). congruence. }
    assert (filter ok l = []) as F0. { clear - No. induction l as [|x l IH]; [reflexivity|]. cbn. rewrite (No 0%nat x eq_refl). apply IH. intros k y Hy. apply (No (S k) y Hy). }
    rewrite F0 in *. cbn [length seq combine flat_map map fst snd] in *. rewrite Ot. cbn [negb app]. rewrite E. split; [reflexivity|]. split; [lia|]. intros [|k] x Hx; [injection Hx as <-; rewrite Ot; split; [discriminate|lia]|]. cbn in Hx. rewrite (No k x Hx). split; [discriminate|lia].
Qed.
Lemma nth_combine_seq {A} (l : list A) s n k : (k < n)%nat -> nth_error (combine (seq s n) l) k = match nth_error l k with Some a => Some (s + k, a)%nat | None => None end.
Proof.
  revert l s n. induction k as [|k IH]; intros [|a l] s [|n] H; cbn; try lia; auto; [now rewrite Nat.add_0_r|]. rewrite IH by lia. destruct (nth_error l k); [|reflexivity]. f_equal. f_equal. lia.
Qed.
Lemma describes_ok ns : ns = map (fun it => Node (fst it) (flat_map (h (snd it)) (t_next (snd it)))) (combine (seq 0 m) ts) -> describes ts ok m (with_ends ns) /\ weighed ts m (with_ends ns).
Proof.
  intros Ens. destruct (filter_prefix ts prefix 0%nat) as (_ & L & Q). fold m in L, Q.
  assert (length ns = m) as Ln by (rewrite Ens, map_length, combine_length, seq_length; lia).
  assert (forall k, (k < m)%nat -> exists t, nth_error ts k = Some t /\ ok t = true /\ nth_error (nodes (with_ends ns)) k = Some (Node k (flat_map (h t) (t_next t)))) as Nd.
  { intros k Hk. destruct (nth_lt ts k) as [t Ht]; [lia|]. exists t. split; [exact Ht|]. split; [apply (Q k t Ht), Hk|]. cbn. rewrite nth_error_app1 by lia. rewrite Ens.
    rewrite nth_error_map, nth_combine_seq by exact Hk. rewrite Ht. reflexivity. }
  assert (forall k n, (m <= k)%nat -> nth_error (nodes (with_ends ns)) k = Some n -> n_list n = []) as Ends.
  { intros k n Hk H. cbn in H. rewrite nth_error_app2 in H by lia. destruct (k - length ns)%nat as [|[|i]]; cbn in H; [injection H as <-|injection H as <-|destruct i; discriminate]; reflexivity. }
  assert (forall t e k w, In e (t_next t) -> In (Edge k w) (h t e) -> exists u c, nth_error ts k = Some u /\ ok u = true /\ e = TEdge (Some k) c /\ 0 < c /\ w = manhattan t u) as Hh.
  { intros t [nx c] k w _ H. unfold h in H. cbn in H. destruct nx as [k'|]; [|destruct H]. destruct (nth_error ts k') as [u|] eqn:Eu; [|destruct H]. destruct (ok u) eqn:Ou; [|destruct H]. destruct (0 <? c) eqn:Ec; [|destruct H]. destruct H as [[= -> <-]|[]].
    exists u, c. repeat split; auto. lia. }
  assert (forall a b w, edge_of (nodes (with_ends ns)) a b w <-> exists t u c, nth_error ts a = Some t /\ nth_error ts b = Some u /\ ok t = true /\ ok u = true /\
      In (TEdge (Some b) c) (t_next t) /\ 0 < c /\ w = Z.abs (t_x t - t_x u) + Z.abs (t_y t - t_y u)) as Ed.
  { intros a b w. split.
    - intros (n & H1 & H2). destruct (Nat.lt_ge_cases a m) as [Ha|Ha]; [|rewrite (Ends a n Ha H1) in H2; destruct H2]. destruct (Nd a Ha) as (t & T1 & T2 & T3). rewrite T3 in H1. injection H1 as <-. cbn in H2.
      apply in_flat_map in H2. destruct H2 as (e & E1 & E2). destruct (Hh t e b w E1 E2) as (u & c & U1 & U2 & -> & U3 & ->). exists t, u, c. repeat split; auto. unfold manhattan. lia.
    - intros (t & u & c & T1 & U1 & T2 & U2 & H & Hc & ->). assert (a < m)%nat as Ha by (apply (Q a t T1), T2). destruct (Nd a Ha) as (t' & T1' & _ & T3). rewrite T1 in T1'. injection T1' as <-.
      eexists. split; [exact T3|]. cbn. apply in_flat_map. eexists. split; [exact H|]. unfold h. cbn. rewrite U1, U2. replace (0 <? c) with true by lia. left. unfold manhattan. f_equal. lia. }
  split; [split|].
  - constructor; cbn; [lia|lia|rewrite app_length; cbn; lia|exact Ends|]. intros a b w H. apply Ed in H. destruct H as (t & u & c & _ & U1 & _ & U2 & _ & _ & ->). split; [apply (Q b u U1), U2|lia].
  - split; [|split; [|exact Ed]].
    + intros k n Hk H. destruct (Nd k Hk) as (t & _ & _ & T3). rewrite T3 in H. now injection H as <-.
    + intros a t Ha Ht. apply (Q a t Ha), Ht.
  - intros k n [b w] Hk H1 H2. destruct (Nd k Hk) as (t & T1 & T2 & T3). rewrite T3 in H1. injection H1 as <-. cbn in H2. apply in_flat_map in H2. destruct H2 as (e & E1 & E2). destruct (Hh t e b w E1 E2) as (u & c & U1 & U2 & -> & U3 & ->).
    exists t, u. auto.
Qed.
Lemma build_ok (E : tile -> tedge -> option (list edge)) : (forall t e, In t ts -> ok t = true -> In e (t_next t) -> E t e = Some (h t e)) ->
  concat_opt (fun it => if negb (ok (snd it)) then Some [] else match concat_opt (E (snd it)) (t_next (snd it)) with Some es => Some [Node (fst it) es] | None => None end) (combine (seq 0 (length ts)) ts) =
  Some (map (fun it => Node (fst it) (flat_map (h (snd it)) (t_next (snd it)))) (combine (seq 0 m) ts)).
Proof.
  intros HE. destruct (filter_prefix ts prefix 0%nat) as (X & _). fold m in X. rewrite <- X. apply concat_opt_flat. intros [k t] Hin. cbn [fst snd]. destruct (ok t) eqn:O; [|reflexivity]. cbn [negb].
  apply in_combine_r in Hin. rewrite (concat_opt_flat (E t) (h t)); [reflexivity|]. intros e He. now apply HE.
Qed.
End Build.

Lemma create_ok ts : (forall t e k, In t ts -> In e (t_next t) -> te_next e = Some k -> (k < length ts)%nat) ->
  exists g, CreateAdjacentList ts = Some g /\ describes ts (fun _ => true) (length ts) g /\ weighed ts (length ts) g.
Proof.
  intros wf. assert (forall i j t u, (i <= j)%nat -> nth_error ts i = Some t -> nth_error ts j = Some u -> true = true -> true = true) as Pf by auto.
  assert (filter (fun _ : tile => true) ts = ts) as Fl by (induction ts as [|a l IH]; [reflexivity|]; clear; induction (a :: l) as [|x y IH]; [reflexivity|]; cbn; now rewrite IH).
  pose proof (build_ok ts (fun _ => true) wf Pf (to_edge ts)) as B. cbn [negb] in B. unfold CreateAdjacentList. rewrite B.
  - eexists. split; [reflexivity|]. pose proof (describes_ok ts (fun _ => true) wf Pf _ eq_refl) as Q. rewrite Fl in *. exact Q.
  - intros t e Ht _ He. unfold to_edge, h. destruct (te_next e) as [k|] eqn:En; [|reflexivity]. destruct (nth_lt ts k) as [u ->]; [eapply wf; eauto|]. cbn [andb].
    destruct (te_cap e <=? 0) eqn:X, (0 <? te_cap e) eqn:Y; try reflexivity; lia.
Qed.
Lemma create_new_ok ts l hi : (forall t e k, In t ts -> In e (t_next t) -> te_next e = Some k -> (k < length ts)%nat) ->
  (forall i j t u, (i <= j)%nat -> nth_error ts i = Some t -> nth_error ts j = Some u -> in_layers l hi u = true -> in_layers l hi t = true) ->
  exists g, CreateAdjacentList_New ts l hi = Some g /\ describes ts (in_layers l hi) (length (filter (in_layers l hi) ts)) g /\ weighed ts (length (filter (in_layers l hi) ts)) g.
Proof.
  intros wf Pf. unfold CreateAdjacentList_New. rewrite (build_ok ts (in_layers l hi) wf Pf (to_edge_new ts l hi)).
  - eexists. split; [reflexivity|]. apply (describes_ok ts (in_layers l hi) wf Pf _ eq_refl).
  - intros t e Ht _ He. unfold to_edge_new, to_edge, h. destruct (te_next e) as [k|] eqn:En; [|reflexivity]. destruct (nth_lt ts k) as [u ->]; [eapply wf; eauto|]. destruct (in_layers l hi u); [|reflexivity]. cbn [negb andb].
    destruct (te_cap e <=? 0) eqn:X, (0 <? te_cap e) eqn:Y; try reflexivity; lia.
Qed.
