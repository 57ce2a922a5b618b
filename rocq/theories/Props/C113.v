(** The layers written for the detailed router: connections and levels. *)
From Coq Require Import String ZArith ZifyBool.
From Verif Require Import Base.Prelude Model.AdrLayers.

(** A via joins itself with the two layers of its stack. *)
Definition joins (ls : layers) (a b : lname) : Prop :=
  exists ml mh, (In (a, LVia ml mh) ls /\ (b = ml \/ b = mh)) \/ (In (b, LVia ml mh) ls /\ (a = ml \/ a = mh)).
Definition wf (ls : layers) : Prop := NoDup (map fst ls) /\ validate_via ls = true.

Lemma get_in (ls : layers) n y : NoDup (map fst ls) -> (get_layer ls n = Some y <-> In (n, y) ls).
Proof.
  unfold get_layer. induction ls as [|[m z] ls IH]; cbn; intros N; [split; [discriminate|intros []]|]. inversion N as [|? ? Hn N']; subst.
  destruct (lname_dec m n) as [->|Hne]; cbn.
  - split; [intros [= ->]; auto|]. intros [[= ->]|H]; [reflexivity|]. exfalso. apply Hn. apply in_map_iff. exists (n, y). auto.
  - rewrite (IH N'). split; [auto|]. intros [[= -> _]|H]; [contradiction|exact H].
Qed.
Lemma unique (ls : layers) n y z : NoDup (map fst ls) -> In (n, y) ls -> In (n, z) ls -> y = z.
Proof. intros N H1 H2. apply (get_in _ _ _ N) in H1, H2. congruence. Qed.
Lemma wf_stack ls n ml mh : wf ls -> In (n, LVia ml mh) ls -> exists a, In (ml, Metal a) ls /\ In (mh, Metal (negb a)) ls.
Proof.
  intros [N V] H. unfold validate_via in V. rewrite forallb_forall in V. specialize (V _ H). cbn in V.
  destruct (get_layer ls ml) as [[a|]|] eqn:E1; try discriminate. destruct (get_layer ls mh) as [[b|]|] eqn:E2; try discriminate.
  apply (get_in _ _ _ N) in E1, E2. exists a. split; [exact E1|]. destruct a, b; try discriminate; exact E2.
Qed.

(** The check accepts exactly the layers whose vias join two metal layers of different directions. *)
Theorem C113_valid : forall ls, NoDup (map fst ls) ->
  (validate_via ls = true <-> forall n ml mh, In (n, LVia ml mh) ls -> exists a, In (ml, Metal a) ls /\ In (mh, Metal (negb a)) ls).
Proof.
  intros ls N. split; [intros V n ml mh H; exact (wf_stack _ _ _ _ (conj N V) H)|]. intros H. unfold validate_via. apply forallb_forall. intros [n y] Hn. cbn [snd].
  destruct y as [v|ml mh]; [reflexivity|]. destruct (H _ _ _ Hn) as (a & A & B). apply (get_in _ _ _ N) in A, B. rewrite A, B. destruct a; reflexivity.
Qed.

Definition got (c : conn) (k : lname) : list lname := match c k with Some l => l | None => [] end.
Lemma fold_metal l : forall c k x, (forall ml mh, ~ In (k, LVia ml mh) l) ->
  (In x (got (fold_left conn_step l c) k) <-> In x (got c k) \/ exists ml mh, In (x, LVia ml mh) l /\ (k = ml \/ k = mh)).
Proof.
  induction l as [|[n y] l IH]; intros c k x H; cbn [fold_left].
  - split; [auto|]. intros [H1|(ml & mh & [] & _)]. exact H1.
  - rewrite IH by (intros ml mh Hi; apply (H ml mh); right; exact Hi). destruct y as [v|ml mh]; cbn.
    + split; (intros [H1|(a & b & H1 & H2)]; [left; exact H1|right; exists a, b]); [auto|]. destruct H1 as [[=]|H1]; auto.
    + assert (Hk : k <> n) by (intros ->; apply (H ml mh); left; reflexivity).
      assert (G : In x (got (conn_step c (n, LVia ml mh)) k) <-> In x (got c k) \/ (x = n /\ (k = ml \/ k = mh))).
      { unfold conn_step, push, upd, got. cbn [fst snd].
        destruct (lname_dec k mh) as [E1|E1]; destruct (lname_dec k ml) as [E2|E2]; destruct (lname_dec mh ml) as [E3|E3]; destruct (lname_dec ml n) as [E4|E4]; destruct (lname_dec mh n) as [E5|E5];
          destruct (lname_dec k n) as [E6|E6]; subst; try congruence; rewrite ?in_app_iff; cbn; intuition congruence. }
      unfold conn_step in G. cbn [fst snd] in G. split.
      * intros [H1|(a & b & H1 & H2)]; [|right; exists a, b; auto]. apply G in H1. destruct H1 as [H1|[-> H1]]; [auto|]. right. exists ml, mh. auto.
      * intros [H1|(a & b & [[= <- <- <-]|H1] & H2)]; [left; apply G; auto|left; apply G; auto|right; exists a, b; auto].
Qed.
Lemma fold_other l : forall c k, (forall n ml mh, In (n, LVia ml mh) l -> k <> n /\ k <> ml /\ k <> mh) -> fold_left conn_step l c k = c k.
Proof.
  induction l as [|[n y] l IH]; intros c k H; cbn [fold_left]; [reflexivity|]. rewrite IH by (intros; eapply H; right; eassumption).
  destruct y as [v|ml mh]; [reflexivity|]. destruct (H n ml mh (or_introl eq_refl)) as (A & B & C). unfold conn_step, push, upd. cbn [fst snd].
  destruct (lname_dec k mh); [contradiction|]. destruct (lname_dec k ml); [contradiction|]. destruct (lname_dec k n); [contradiction|]. reflexivity.
Qed.
Lemma connected_via ls n ml mh : wf ls -> In (n, LVia ml mh) ls -> connected ls n = Some [ml; mh].
Proof.
  intros W H. pose proof W as [N _]. assert (Hs : forall m a b, In (m, LVia a b) ls -> n <> a /\ n <> b).
  { intros m a b Hm. destruct (wf_stack _ _ _ _ W Hm) as (v & A & B). split; intros <-; [pose proof (unique _ _ _ _ N H A)|pose proof (unique _ _ _ _ N H B)]; discriminate. }
  unfold connected. destruct (in_split _ _ H) as (l1 & l2 & E). rewrite E, fold_left_app. cbn [fold_left]. rewrite fold_other.
  - destruct (Hs _ _ _ H) as [A B]. unfold conn_step, push, upd. cbn [fst snd]. destruct (lname_dec n mh); [contradiction|]. destruct (lname_dec n ml); [contradiction|]. destruct (lname_dec n n); [reflexivity|contradiction].
  - intros m a b Hm. assert (Hin : In (m, LVia a b) ls) by (rewrite E; apply in_or_app; right; right; exact Hm). split; [|exact (Hs _ _ _ Hin)].
    intros <-. rewrite E, map_app in N. cbn in N. apply NoDup_remove_2 in N. apply N, in_or_app. right. apply in_map_iff. exists (n, LVia a b). auto.
Qed.

(** The connections written for a layer are the layers joined with it by a via. *)
Lemma connected_joins ls a y x : wf ls -> In (a, y) ls -> (In x (got (connected ls) a) <-> joins ls a x).
Proof.
  intros W Ha. pose proof W as [N _]. destruct y as [v|ml mh].
  - unfold connected. rewrite fold_metal.
    + unfold got at 1, joins. cbn. split.
      * intros [[]|(ml & mh & H1 & H2)]. exists ml, mh. auto.
      * intros (ml & mh & [[H1 H2]|H1]); [pose proof (unique _ _ _ _ N Ha H1); discriminate|]. right. exists ml, mh. exact H1.
    + intros ml mh H. pose proof (unique _ _ _ _ N Ha H). discriminate.
  - unfold got. rewrite (connected_via _ _ _ _ W Ha). unfold joins. cbn. split.
    + intros H. exists ml, mh. left. intuition.
    + intros (m & m' & [[H1 H2]|[H1 H2]]).
      * pose proof (unique _ _ _ _ N Ha H1) as E. injection E as <- <-. intuition.
      * destruct (wf_stack _ _ _ _ W H1) as (v & A & B). destruct H2 as [<-|<-]; [pose proof (unique _ _ _ _ N Ha A)|pose proof (unique _ _ _ _ N Ha B)]; discriminate.
Qed.

Lemma write_one_ok ls n level q : write_one ls n level = Some q ->
  (get_layer ls n = None /\ q = []) \/ (exists y l, get_layer ls n = Some y /\ connected ls n = Some l /\ q = [(n, level, l)]).
Proof.
  unfold write_one. destruct (get_layer ls n) as [y|]; [|intros [= <-]; auto]. intros H. right. exists y.
  destruct n, y; try discriminate; destruct (connected ls _) as [l|]; try discriminate; injection H as <-; eauto.
Qed.
Lemma write_all_ok ls ns : forall level r, write_all ls ns level = Some r ->
  map (fun e => snd (fst e)) r = seq level (length r) /\
  map (fun e => fst (fst e)) r = filter (fun n => match get_layer ls n with Some _ => true | None => false end) ns /\
  forall e, In e r -> connected ls (fst (fst e)) = Some (snd e).
Proof.
  induction ns as [|n ns IH]; intros level r; cbn [write_all].
  { intros [= <-]. split; [reflexivity|]. split; [reflexivity|]. intros e []. }
  destruct (write_one ls n level) as [q|] eqn:Q; [|discriminate]. destruct (write_one_ok _ _ _ _ Q) as [[G ->]|(y & l & G & C & ->)]; cbn [length app].
  - rewrite Nat.add_0_r. destruct (write_all ls ns level) as [t|] eqn:E; [|discriminate]. intros [= <-]. cbn [filter]. rewrite G. apply IH, E.
  - destruct (write_all ls ns (level + 1)) as [t|] eqn:E; [|discriminate]. intros [= <-]. destruct (IH _ _ E) as (A & B & D). cbn [map fst snd length seq filter]. rewrite A, B, G. replace (level + 1) with (Datatypes.S level) by lia.
    split; [reflexivity|]. split; [reflexivity|]. intros e [<-|He]; [exact C|apply D, He].
Qed.
Lemma names_in n : In n (flat_map (fun i => [NM i; NV i]) (seq 0 99)) <-> exists i, i < 99 /\ (n = NM i \/ n = NV i).
Proof.
  rewrite in_flat_map. split; intros (i & H & K); exists i.
  - apply in_seq in H. cbn in K. split; [lia|]. intuition.
  - split; [apply in_seq; lia|]. cbn. intuition.
Qed.

(** The levels count up from 2; the layers written are those named M0, V0, M1, V1, ... to 98, in this order; the connections written are those by vias. *)
Theorem C113_written : forall ls r, wf ls -> adr_layers ls = Some r ->
  map (fun e => snd (fst e)) r = seq 2 (length r) /\
  (exists p, p = map (fun e => fst (fst e)) r /\ (forall n, In n p <-> In n (map fst ls) /\ exists i, i < 99 /\ (n = NM i \/ n = NV i))) /\
  (forall n lv l, In (n, lv, l) r -> forall x, In x l <-> joins ls n x).
Proof.
  intros ls r W E. pose proof W as [N _]. destruct (write_all_ok _ _ _ _ E) as (A & B & C). split; [exact A|].
  assert (Hn : forall n, In n (map (fun e : lname * nat * list lname => fst (fst e)) r) <-> In n (map fst ls) /\ exists i, i < 99 /\ (n = NM i \/ n = NV i)).
  { intros n. rewrite B, filter_In, names_in. split.
    - intros [H1 H2]. split; [|exact H1]. destruct (get_layer ls n) as [y|] eqn:G; [|discriminate]. apply (get_in _ _ _ N) in G. apply in_map_iff. exists (n, y). auto.
    - intros [H1 H2]. split; [exact H2|]. apply in_map_iff in H1. destruct H1 as ([m y] & <- & H1). apply (get_in _ _ _ N) in H1. cbn. rewrite H1. reflexivity. }
  split; [eexists; split; [reflexivity|exact Hn]|].
  intros n lv l H x. assert (Hi : In n (map fst ls)) by (apply Hn; apply in_map_iff; exists (n, lv, l); auto).
  apply in_map_iff in Hi. destruct Hi as ([m y] & <- & Hi). cbn [fst] in *. rewrite <- (connected_joins _ _ _ x W Hi). unfold got. specialize (C _ H). cbn in C. rewrite C. reflexivity.
Qed.

(** Connections of written layers are symmetric. *)
Theorem C113_symmetric : forall ls r a la va b lb vb, wf ls -> adr_layers ls = Some r -> In (a, va, la) r -> In (b, vb, lb) r -> (In b la <-> In a lb).
Proof.
  intros ls r a la va b lb vb W E Ha Hb. destruct (C113_written _ _ W E) as (_ & _ & H). rewrite (H _ _ _ Ha b), (H _ _ _ Hb a). unfold joins. split; intros (ml & mh & K); exists ml, mh; tauto.
Qed.

(** The order M0, V0, M1, V1, ... *)
Definition rank (n : lname) : nat := match n with NM i => 2 * i | NV i => 2 * i + 1 | NO _ => 0 end.
Lemma names_sorted k : forall s, StronglySorted (fun a b => rank a < rank b) (flat_map (fun i => [NM i; NV i]) (seq s k)).
Proof.
  induction k as [|k IH]; intros s; cbn [seq flat_map app]; [constructor|].
  assert (F : forall x, In x (flat_map (fun i => [NM i; NV i]) (seq (Datatypes.S s) k)) -> 2 * s + 1 < rank x).
  { intros x Hx. apply in_flat_map in Hx. destruct Hx as (m & Hm & Hx). apply in_seq in Hm. cbn [In] in Hx. destruct Hx as [<-|[<-|[]]]; cbn [rank]; lia. }
  constructor; [constructor; [apply IH|]|].
  - apply Forall_forall. intros x Hx. apply F in Hx. cbn [rank]. exact Hx.
  - apply Forall_forall. intros x [<-|Hx]; [cbn [rank]; lia|]. apply F in Hx. cbn [rank]. lia.
Qed.
(** Levels follow the order of the names. *)
Theorem C113_order : forall ls r i j a b, adr_layers ls = Some r -> nth_error r i = Some a -> nth_error r j = Some b ->
  (rank (fst (fst a)) < rank (fst (fst b)) <-> snd (fst a) < snd (fst b)).
Proof.
  intros ls r i j a b E Ha Hb. destruct (write_all_ok _ _ _ _ E) as (A & B & _).
  assert (S : StronglySorted (fun a b => rank a < rank b) (map (fun e : lname * nat * list lname => fst (fst e)) r)).
  { rewrite B. clear. assert (S : StronglySorted (fun a b => rank a < rank b) (flat_map (fun i => [NM i; NV i]) (seq 0 99))).
    { apply names_sorted. }
    induction S as [|x l S IH F]; cbn; [constructor|]. destruct (get_layer ls x); [|exact IH]. constructor; [exact IH|].
    rewrite Forall_forall in *. intros y Hy. apply filter_In in Hy. apply F, Hy. }
  assert (L : forall k e, nth_error r k = Some e -> snd (fst e) = 2 + k).
  { intros k e Hk. pose proof (map_nth_error (fun e => snd (fst e)) _ _ Hk) as M. rewrite A in M.
    assert (Hl : k < length r) by (apply nth_error_Some; congruence). rewrite (nth_error_nth' _ 0) in M by (rewrite seq_length; exact Hl). rewrite seq_nth in M by exact Hl. congruence. }
  assert (M : forall p q x y, p < q -> nth_error (map (fun e : lname * nat * list lname => fst (fst e)) r) p = Some x -> nth_error (map (fun e : lname * nat * list lname => fst (fst e)) r) q = Some y -> rank x < rank y).
  { clear -S. induction S as [|z l S IH F]; intros p q x y Hpq Hp Hq; [destruct p; discriminate|]. destruct q as [|q]; [lia|]. destruct p as [|p]; cbn in Hp, Hq.
    - injection Hp as <-. rewrite Forall_forall in F. apply F. eapply nth_error_In, Hq.
    - apply (IH p q); [lia|assumption|assumption]. }
  rewrite (L _ _ Ha), (L _ _ Hb). pose proof (map_nth_error (fun e => fst (fst e)) _ _ Ha) as Ma. pose proof (map_nth_error (fun e => fst (fst e)) _ _ Hb) as Mb.
  destruct (Nat.lt_trichotomy i j) as [H|[->|H]].
  - specialize (M _ _ _ _ H Ma Mb). lia.
  - rewrite Ha in Hb. injection Hb as <-. lia.
  - specialize (M _ _ _ _ H Mb Ma). lia.
Qed.

Lemma push_nonempty c k x : (forall a, c a <> Some []) -> forall a, push c k x a <> Some [].
Proof. intros H a. unfold push, upd. destruct (lname_dec a k); [|apply H]. intros [= E]. apply app_eq_nil in E. destruct E. discriminate. Qed.
Lemma fold_nonempty l : forall c, (forall k, c k <> Some []) -> forall k, fold_left conn_step l c k <> Some [].
Proof.
  induction l as [|[n y] l IH]; intros c H k; cbn [fold_left]; [apply H|]. apply IH. unfold conn_step. destruct y as [v|ml mh]; cbn [fst snd]; [exact H|].
  apply push_nonempty, push_nonempty. intros a. unfold upd. destruct (lname_dec a n); [discriminate|apply H].
Qed.
Lemma write_all_none ls ns : forall level, write_all ls ns level = None <-> exists n, In n ns /\ write_one ls n 0 = None.
Proof.
  assert (Z : forall n level, write_one ls n level = None <-> write_one ls n 0 = None).
  { intros n level. unfold write_one. destruct (get_layer ls n) as [y|]; [|split; discriminate]. destruct n, y; try tauto; destruct (connected ls _); split; intros; try discriminate; reflexivity. }
  induction ns as [|n ns IH]; intros level; cbn [write_all]; [split; [discriminate|intros (n & [] & _)]|].
  destruct (write_one ls n level) as [e|] eqn:E.
  - specialize (IH (level + length e)). assert (Hn : write_one ls n 0 <> None) by (rewrite <- (Z n level), E; discriminate).
    destruct (write_all ls ns (level + length e)) as [r|].
    + split; [discriminate|]. intros (m & [<-|Hm] & K); [contradiction|]. enough (Some r = None) by discriminate. apply IH. eauto.
    + split; [|reflexivity]. intros _. destruct (proj1 IH eq_refl) as (m & Hm & K). exists m. split; [right; exact Hm|exact K].
  - split; [|reflexivity]. intros _. exists n. split; [left; reflexivity|]. apply (Z n level), E.
Qed.
(** The writing fails exactly if a layer of these names is joined with nothing, or a via is named as a metal. *)
Theorem C113_defined : forall ls, wf ls -> (adr_layers ls = None <->
  exists n y i, i < 99 /\ (n = NM i \/ n = NV i) /\ In (n, y) ls /\ ((n = NM i /\ exists ml mh, y = LVia ml mh) \/ forall x, ~ joins ls n x)).
Proof.
  intros ls W. pose proof W as [N _]. unfold adr_layers. rewrite write_all_none.
  assert (NE : forall k, connected ls k <> Some []) by (apply fold_nonempty; discriminate).
  assert (J : forall n y, In (n, y) ls -> (connected ls n = None <-> forall x, ~ joins ls n x)).
  { intros n y Hn. pose proof (connected_joins ls n y) as K. unfold got in K. specialize (NE n). destruct (connected ls n) as [[|z l]|].
    - contradiction.
    - split; [discriminate|]. intros H. exfalso. apply (H z), (K z W Hn). left. reflexivity.
    - split; [|reflexivity]. intros _ x Hx. apply (K x W Hn) in Hx. destruct Hx. }
  split.
  - intros (n & Hn & H). apply names_in in Hn. destruct Hn as (i & Hi & Hn). unfold write_one in H. destruct (get_layer ls n) as [y|] eqn:G; [|discriminate].
    apply (get_in _ _ _ N) in G. exists n, y, i. split; [exact Hi|]. split; [exact Hn|]. split; [exact G|]. specialize (J _ _ G).
    destruct y as [v|ml mh].
    + right. apply J. destruct Hn as [->| ->]; destruct (connected ls _); congruence.
    + destruct Hn as [->| ->]; [left; eauto|]. right. apply J. destruct (connected ls _); congruence.
  - intros (n & y & i & Hi & Hn & G & H). exists n. split; [apply names_in; eauto|]. specialize (J _ _ G). apply (get_in _ _ _ N) in G. unfold write_one. rewrite G.
    destruct H as [(-> & ml & mh & ->)|H]; [reflexivity|]. apply J in H. rewrite H. destruct n, y; reflexivity.
Qed.

(** A metal layer without via stops the writing. *)
Theorem C113_alone_refuted : exists ls, wf ls /\ adr_layers ls = None.
Proof. exists [(NM 1, Metal true)]. split; [split; [repeat constructor; intros []|reflexivity]|reflexivity]. Qed.
(** A via of another name is said to be connected but is not written. *)
Theorem C113_name_refuted : exists ls r n lv l v, wf ls /\ adr_layers ls = Some r /\ In (n, lv, l) r /\ In v l /\ ~ In v (map (fun e => fst (fst e)) r).
Proof.
  exists [(NM 1, Metal true); (NM 2, Metal false); (NO "VIA1", LVia (NM 1) (NM 2))]. eexists. exists (NM 1), 2, [NO "VIA1"], (NO "VIA1").
  split; [split; [repeat constructor; cbn; intuition discriminate|reflexivity]|]. split; [vm_compute; reflexivity|]. split; [left; reflexivity|]. split; [left; reflexivity|]. cbn. intuition discriminate.
Qed.
(** The level of a via need not lie between those of its layers. *)
Theorem C113_between_refuted : exists ls r ll lm lh cl cm ch, wf ls /\ adr_layers ls = Some r /\ In (NV 3, lm, cm) r /\ In (NM 1, ll, cl) r /\ In (NM 2, lh, ch) r /\
  In (NV 3, LVia (NM 1) (NM 2)) ls /\ ll < lm /\ lh < lm.
Proof.
  exists [(NM 1, Metal true); (NM 2, Metal false); (NV 3, LVia (NM 1) (NM 2))]. eexists. exists 2, 4, 3, [NV 3], [NM 1; NM 2], [NV 3].
  split; [split; [repeat constructor; cbn; intuition discriminate|reflexivity]|]. split; [vm_compute; reflexivity|]. cbn. intuition lia.
Qed.

Print Assumptions C113_valid.
Print Assumptions C113_written.
Print Assumptions C113_symmetric.
Print Assumptions C113_order.
Print Assumptions C113_defined.
Print Assumptions C113_alone_refuted.
Print Assumptions C113_name_refuted.
Print Assumptions C113_between_refuted.

(** Three metals and two vias. *)
Example C113_nonvacuous : let ls := [(NM 1, Metal true); (NM 2, Metal false); (NM 3, Metal true); (NV 1, LVia (NM 1) (NM 2)); (NV 2, LVia (NM 2) (NM 3))] in
  wf ls /\ adr_layers ls = Some [(NM 1, 2, [NV 1]); (NV 1, 3, [NM 1; NM 2]); (NM 2, 4, [NV 1; NV 2]); (NV 2, 5, [NM 2; NM 3]); (NM 3, 6, [NV 2])].
Proof. cbn zeta. split; [split; [repeat constructor; cbn; intuition discriminate|reflexivity]|vm_compute; reflexivity]. Qed.
