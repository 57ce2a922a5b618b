(** Routing bottom up: one node for each placement of a cell that is used. *)
From Coq Require Import String Ascii.
From Verif Require Import Base.Prelude Base.PyDict Base.PyStr Model.PnrGeom Model.UpdateConst Proofs.RouteNamesP Model.RouteHier Model.RouteUp Spec.Unfold Spec.Sharing Proofs.SymNetP Proofs.RouteHierP.
Local Open Scope list_scope.

Lemma in_nats_ok x l : in_nats x l = true <-> In x l.
Proof. unfold in_nats. rewrite existsb_exists. split; [intros (y & H & E); apply Nat.eqb_eq in E; now subst|intros H; exists x; split; [exact H|apply Nat.eqb_refl]]. Qed.
Lemma pair_eqb_ok a b : pair_eqb a b = true <-> a = b.
Proof. unfold pair_eqb. destruct a as (a & a'), b as (b & b'). cbn. rewrite andb_true_iff, !Nat.eqb_eq. split; [intros (-> & ->); reflexivity|intros [= -> ->]; auto]. Qed.

(** * Depth-first search *)
Section Dfs.
  Variables (K : nat -> list nat).
  Inductive leads : nat -> nat -> Prop :=
  | le_one i c : In c (K i) -> leads i c
  | le_more i c k : In c (K i) -> leads c k -> leads i k.
  Lemma leads_last i k c : leads i k -> In c (K k) -> leads i c.
  Proof. induction 1; intros Hc; [eapply le_more; [eassumption|now apply le_one]|eapply le_more; eauto]. Qed.
  (** Every path from [i] ends within [d] steps *)
  Fixpoint deep (d i : nat) : Prop := match d with O => False | Datatypes.S d => forall c, In c (K i) -> deep d c end.
  Lemma deep_leads d i k : deep d i -> leads i k -> exists d', (d' < d)%nat /\ deep d' k.
  Proof.
    intros D H. revert d D. induction H as [i c Hc|i c k Hc H IH]; intros [|d] D; try destruct D; cbn in D.
    - exists d. split; [lia|auto].
    - destruct (IH d (D c Hc)) as (d' & Hd & D'). exists d'. split; [lia|exact D'].
  Qed.
  Lemma deep_acyclic d i : deep d i -> ~ leads i i.
  Proof. revert i. induction d as [d IH] using (well_founded_induction lt_wf). intros i D H. destruct (deep_leads d i i D H) as (d' & Hd & D'). exact (IH d' Hd i D' H). Qed.
  (** The order: all children before *)
  Definition ordered (q : list nat) : Prop := forall l1 m l2, q = l1 ++ m :: l2 -> forall c, In c (K m) -> In c l1.
  Lemma ordered_snoc q m : ordered q -> (forall c, In c (K m) -> In c q) -> ordered (q ++ [m]).
  Proof.
    intros O H l1 x l2 E c Hc. destruct l2 as [|y l2] using rev_ind.
    - apply app_inj_tail in E as (-> & ->). now apply H.
    - clear IHl2. rewrite app_comm_cons, app_assoc in E. apply app_inj_tail in E as (E & _). eapply O; eassumption.
  Qed.
  Variables (db : hdb).
  Hypothesis Hdb : forall i n, nth_error db i = Some n -> kid_list n = K i.
  Hypothesis Hex : forall i n c, nth_error db i = Some n -> In c (K i) -> exists m, nth_error db c = Some m.
  Definition dinv (S Q : list nat) : Prop := NoDup Q /\ ordered Q /\ (forall x, In x Q -> In x S).
  Definition dpost (S Q S' Q' : list nat) (P : nat -> Prop) : Prop :=
    dinv S' Q' /\ exists new, Q' = Q ++ new /\ (forall x, In x S' <-> In x S \/ In x new) /\ (forall x, In x new -> ~ In x S) /\ (forall x, In x new -> P x).
  Lemma dfs_ok fuel : forall S Q i n, nth_error db i = Some n -> deep fuel i -> ~ In i S -> dinv S Q -> (forall x, In x S -> In x Q \/ leads x i) ->
    exists S' Q', dfs fuel db (S, Q) i = Some (S', Q') /\ dpost S Q S' Q' (fun x => x = i \/ leads i x) /\ exists Q0, Q' = Q0 ++ [i].
  Proof.
    induction fuel as [|fuel IH]; intros S Q i n Hn D Hi I G; [destruct D|]. cbn [deep] in D. cbn [dfs]. rewrite Hn. rewrite (Hdb _ _ Hn). cbn [fst snd].
    assert (B : forall cs S1 Q1, (forall c, In c cs -> In c (K i)) -> dinv S1 Q1 -> In i S1 -> ~ In i Q1 -> (forall x, In x S1 -> In x Q1 \/ x = i \/ leads x i) ->
      exists S' Q', foldO (fun st c => if in_nats c (fst st) then Some st else dfs fuel db st c) cs (S1, Q1) = Some (S', Q') /\ dpost S1 Q1 S' Q' (fun x => leads i x) /\ (forall c, In c cs -> In c Q')).
    { induction cs as [|c cs IHc]; intros S1 Q1 Hc I1 Hi1 Hi2 G1.
      - exists S1, Q1. split; [reflexivity|]. split; [|intros ? []]. split; [exact I1|]. exists []. rewrite app_nil_r. split; [reflexivity|]. split; [intros x; split; [auto|intros [?|[]]; auto]|]. split; intros ? [].
      - cbn [foldO fst]. destruct (in_nats c S1) eqn:E.
        + apply in_nats_ok in E. destruct (IHc S1 Q1) as (S' & Q' & E' & P & H); [intros; apply Hc; now right|assumption..|]. exists S', Q'. split; [exact E'|]. split; [exact P|]. intros c' [<-|Hc']; [|auto].
          destruct P as (_ & new & -> & _). apply in_or_app. left. destruct (G1 c E) as [H1|H1]; [exact H1|exfalso]. assert (L : leads c c).
          { assert (In c (K i)) by (apply Hc; now left). destruct H1 as [->|H1]; [now apply le_one|now apply leads_last with (k := i)]. }
          exact (deep_acyclic _ _ (D c (Hc c (or_introl eq_refl))) L).
        + assert (Nc : ~ In c S1) by (intros H; apply in_nats_ok in H; congruence). assert (Kc : In c (K i)) by (apply Hc; now left). destruct (Hex i n c Hn Kc) as (m & Hm).
          destruct (IH S1 Q1 c m Hm (D c Kc) Nc I1) as (S2 & Q2 & E2 & (I2 & new & -> & HS & Hf & Hr) & (Q0 & EQ)).
          { intros x Hx. destruct (G1 x Hx) as [H|[->|H]]; [auto|right; now apply le_one|right; now apply leads_last with (k := i)]. }
          rewrite E2. assert (Ni : ~ In i new) by (intros H; exact (Hf i H Hi1)).
          destruct (IHc S2 (Q1 ++ new)) as (S' & Q' & E' & (I' & new' & -> & HS' & Hf' & Hr') & H); [intros; apply Hc; now right|exact I2|apply HS; auto|intros H; apply in_app_or in H as [H|H]; [exact (Hi2 H)|exact (Ni H)]| |].
          { intros x Hx. apply HS in Hx as [Hx|Hx]; [|left; apply in_or_app; auto]. destruct (G1 x Hx) as [H|H]; [left; apply in_or_app; auto|auto]. }
          exists S', ((Q1 ++ new) ++ new'). split; [exact E'|]. split.
          * split; [exact I'|]. exists (new ++ new'). split; [now rewrite app_assoc|]. split; [intros x; rewrite HS', HS, in_app_iff; tauto|]. split.
            -- intros x Hx. apply in_app_or in Hx as [Hx|Hx]; [auto|]. intros H'. apply (Hf' x Hx). apply HS. auto.
            -- intros x Hx. apply in_app_or in Hx as [Hx|Hx]; [|auto]. destruct (Hr x Hx) as [->|L]; [now apply le_one|eapply le_more; eassumption].
          * intros c' [<-|Hc']; [|auto]. apply in_or_app. left. rewrite EQ. apply in_or_app. right. now left. }
    destruct I as (Nq & Oq & Sq). assert (Hiq : ~ In i Q) by (intros H; exact (Hi (Sq i H))).
    destruct (B (K i) (i :: S) Q) as (S' & Q' & E & ((Nq' & Oq' & Sq') & new & -> & HS & Hf & Hr) & H); [auto|split; [exact Nq|split; [exact Oq|intros; right; auto]]|now left|exact Hiq|intros x [<-|Hx]; [auto|]; destruct (G x Hx); auto|].
    rewrite E. exists S', ((Q ++ new) ++ [i]). split; [reflexivity|]. assert (Ni : ~ In i new) by (intros H'; apply (Hf i H'); now left). split.
    - split.
      + split; [|split].
        * apply SymConstP.nodup_app'; [exact Nq'|constructor; [intros []|constructor]|]. intros x Hx [<-|[]]. apply in_app_or in Hx as [Hx|Hx]; auto.
        * apply ordered_snoc; auto.
        * intros x Hx. apply in_app_or in Hx as [Hx|[<-|[]]]; [auto|]. apply HS. left. now left.
      + exists (new ++ [i]). split; [now rewrite app_assoc|]. split; [intros x; rewrite HS, in_app_iff; cbn; tauto|]. split; intros x Hx; apply in_app_or in Hx as [Hx|[<-|[]]]; auto. intros H'. apply (Hf x Hx). now right.
    - exists (Q ++ new). reflexivity.
  Qed.
  Lemma traverse_ok fuel i n : nth_error db i = Some n -> deep fuel i -> exists S Q0, dfs fuel db ([], []) i = Some (S, Q0 ++ [i]) /\ NoDup (Q0 ++ [i]) /\ ordered (Q0 ++ [i]) /\ (forall x, In x (Q0 ++ [i]) <-> x = i \/ leads i x).
  Proof.
    intros Hn D. destruct (dfs_ok fuel [] [] i n Hn D) as (S & Q & E & ((Nq & Oq & _) & new & EQ & _ & _ & Hr) & Q0 & ->); [intros []|split; [constructor|split; [intros [|] ? ? E; discriminate E|intros ? []]]|intros ? []|].
    exists S, Q0. split; [exact E|]. split; [exact Nq|]. split; [exact Oq|]. cbn in EQ. subst new. intros x. split; [apply Hr|]. intros [->|L]; [apply in_or_app; right; now left|].
    assert (Cl : forall m c, In m (Q0 ++ [i]) -> In c (K m) -> In c (Q0 ++ [i])). { intros m c Hm Hc. apply in_split in Hm as (l1 & l2 & E'). rewrite E'. apply in_or_app. left. exact (Oq l1 m l2 E' c Hc). }
    assert (Hi : In i (Q0 ++ [i])) by (apply in_or_app; right; now left). clear -L Cl Hi. remember (Q0 ++ [i]) as Q eqn:EQ. clear EQ. induction L as [i' c Hc|i' c k Hc L IH]; [exact (Cl _ _ Hi Hc)|]. apply IH. exact (Cl _ _ Hi Hc).
  Qed.
End Dfs.

(** * The placements that are needed *)
Lemma used_head db i j n bs x : nth_error db i = Some n -> placement n j = Some bs ->
  (used db i [j] x <-> x = (i, j) \/ exists b c, In b bs /\ b_child b = Some c /\ used db c [b_sel b] x).
Proof.
  intros Hn Hp. split.
  - intros H. induction H as [l Hl|i' j' n' bs' b c H IH Hn' Hp' Hb Hc]; [left; destruct Hl as [->|[]]; reflexivity|right]. destruct IH as [E|(b0 & c0 & Hb0 & Hc0 & Hu)].
    + injection E as -> ->. rewrite Hn in Hn'. injection Hn' as <-. rewrite Hp in Hp'. injection Hp' as <-. exists b, c. split; [exact Hb|]. split; [exact Hc|]. apply used_top. now left.
    + exists b0, c0. split; [exact Hb0|]. split; [exact Hc0|]. eapply used_in; eassumption.
  - intros [->|(b & c & Hb & Hc & Hu)]; [apply used_top; now left|]. induction Hu as [l Hl|i' j' n' bs' b' c' H IH Hn' Hp' Hb' Hc'].
    + destruct Hl as [<-|[]]. eapply used_in; [apply used_top; now left|eassumption..].
    + eapply used_in; [exact IH|eassumption..].
Qed.
Lemma used_runs db i runs x : used db i runs x <-> exists l, In l runs /\ used db i [l] x.
Proof.
  split.
  - induction 1 as [l Hl|i' j' n' bs' b c H IH Hn' Hp' Hb Hc]; [exists l; split; [exact Hl|apply used_top; now left]|]. destruct IH as (l & Hl & U). exists l. split; [exact Hl|]. eapply used_in; eassumption.
  - intros (l & Hl & U). induction U as [l' Hl'|i' j' n' bs' b c H IH Hn' Hp' Hb Hc]; [destruct Hl' as [<-|[]]; now apply used_top|]. eapply used_in; eauto.
Qed.
Lemma add_pair_in l x y : In y (add_pair l x) <-> In y l \/ y = x.
Proof.
  unfold add_pair. destruct (existsb (pair_eqb x) l) eqn:E; [|rewrite in_app_iff; cbn; intuition congruence]. apply existsb_exists in E as (z & Hz & E). apply pair_eqb_ok in E. subst z. split; [auto|intros [H| ->]; auto].
Qed.
Lemma add_pair_nodup l x : NoDup l -> NoDup (add_pair l x).
Proof.
  intros N. unfold add_pair. destruct (existsb (pair_eqb x) l) eqn:E; [exact N|]. apply SymConstP.nodup_app'; [exact N|constructor; [intros []|constructor]|]. intros y Hy [<-|[]]. apply Bool.not_true_iff_false in E. apply E. apply existsb_exists. exists x. split; [exact Hy|now apply pair_eqb_ok].
Qed.
Section Need.
  Variables (db0 : hdb) (W : wf db0) (U : uniform db0).
  Let L := length db0.
  Definition K0 (i : nat) : list nat := match nth_error db0 i with Some n => kid_list n | None => [] end.
  Definition nok (db : hdb) : Prop := length db = L /\ same L db0 db /\ forall i n, nth_error db i = Some n -> kid_list n = K0 i.
  Lemma kid_list_eq bs bs' : map b_child bs = map b_child bs' -> children bs = children bs'.
  Proof. revert bs'. induction bs as [|b bs IH]; intros [|b' bs'] E; try discriminate E; [reflexivity|]. injection E as E1 E2. cbn. rewrite E1. f_equal. now apply IH. Qed.
  Lemma same_at db i n0 : same L db0 db -> nth_error db0 i = Some n0 -> exists n, nth_error db i = Some n /\ frozen n = frozen n0.
  Proof. intros S Hn. assert (H : (i < L)%nat) by (apply nth_error_Some; congruence). specialize (S i H). rewrite Hn in S. destruct (nth_error db i) as [n|]; [|discriminate]. exists n. split; [reflexivity|]. cbn in S. congruence. Qed.
  Lemma checkout_ok db i sel db1 n1 : same L db0 db -> (length db >= L)%nat -> (i < L)%nat -> checkout db i sel = Some (db1, n1) ->
    exists n n0 bs, nth_error db i = Some n /\ nth_error db0 i = Some n0 /\ placement n0 sel = Some bs /\ n1 = set_blocks n bs /\ frozen n = frozen n0 /\ db1 = hupd db i (fun n => set_blocks n bs) /\ same L db0 db1.
  Proof.
    intros S Hl Hi E. unfold checkout in E. destruct (nth_error db i) as [n|] eqn:En; [|discriminate]. destruct (placement n sel) as [bs|] eqn:Ep; [|discriminate]. injection E as <- <-.
    destruct (nth_error db0 i) as [n0|] eqn:E0; [|apply nth_error_None in E0; unfold L in Hi; lia]. destruct (same_at db i n0 S E0) as (n' & En' & F). rewrite En in En'. injection En' as <-.
    exists n, n0, bs. rewrite <- (frozen_placement _ _ sel F). repeat split; auto. eapply same_trans; [exact S|]. apply same_hupd. intros m Hm. rewrite En in Hm. injection Hm as <-. now apply frozen_set with (sel := sel).
  Qed.
  Lemma nok_checkout db i sel db1 n1 : nok db -> (i < L)%nat -> checkout db i sel = Some (db1, n1) -> exists n0 bs, nth_error db0 i = Some n0 /\ placement n0 sel = Some bs /\ h_blocks n1 = bs /\ nok db1 /\ children bs = K0 i.
  Proof.
    intros (Hl & S & K) Hi E. destruct (checkout_ok db i sel db1 n1 S ltac:(lia) Hi E) as (n & n0 & bs & Hn & Hn0 & Hp & -> & F & -> & S'). exists n0, bs. assert (Ek : children bs = K0 i).
    { unfold K0. rewrite Hn0. apply kid_list_eq. exact (U i n0 sel bs Hn0 Hp). }
    repeat split; auto; [now rewrite hupd_length|]. intros j m Hm. rewrite hupd_nth in Hm. destruct (Nat.eqb_spec i j) as [->|Hne]; [|now apply K]. rewrite Hn in Hm. injection Hm as <-. exact Ek.
  Qed.
  Lemma in_children bs b c : In b bs -> b_child b = Some c -> In c (children bs).
  Proof. intros Hb Hc. apply in_flat_map. exists b. rewrite Hc. split; [exact Hb|now left]. Qed.
  Lemma kid_ex i c : In c (K0 i) -> (c < L)%nat.
  Proof.
    unfold K0. destruct (nth_error db0 i) as [n|] eqn:E; [|intros []]. intros H.
    destruct (h_as n) as [|[[w h] bs] l] eqn:Ea.
    - destruct (W i n 0%nat (h_blocks n) E ltac:(unfold placement; now rewrite Ea) c H) as (m & Hm & _). apply nth_error_Some. congruence.
    - assert (Hp : placement n 0 = Some bs) by (unfold placement; now rewrite Ea). unfold kid_list in H. fold (children (h_blocks n)) in H. rewrite <- (kid_list_eq bs _ (U i n 0%nat bs E Hp)) in H. destruct (W i n 0%nat bs E Hp c H) as (m & Hm & _). apply nth_error_Some. congruence.
  Qed.
  Lemma need_ok fuel : forall db acc idx sel db' acc', nok db -> (idx < L)%nat -> need fuel (db, acc) idx sel = Some (db', acc') ->
    nok db' /\ (NoDup acc -> NoDup acc') /\ (forall x, In x acc' <-> In x acc \/ used db0 idx [sel] x) /\ deep K0 fuel idx.
  Proof.
    induction fuel as [|fuel IH]; intros db acc idx sel db' acc' N Hi E; [discriminate|]. cbn [need fst snd] in E. destruct (checkout db idx sel) as [(db1 & n1)|] eqn:Ec; [|discriminate].
    destruct (nok_checkout _ _ _ _ _ N Hi Ec) as (n0 & bs & Hn0 & Hp & Eb1 & N1 & Ek). rewrite Eb1 in E.
    assert (B : forall bs1 db1 acc1 db' acc', (forall b, In b bs1 -> In b bs) -> nok db1 -> foldO (fun s b => match b_child b with None => Some s | Some c => need fuel s c (b_sel b) end) bs1 (db1, acc1) = Some (db', acc') ->
      nok db' /\ (NoDup acc1 -> NoDup acc') /\ (forall x, In x acc' <-> In x acc1 \/ exists b c, In b bs1 /\ b_child b = Some c /\ used db0 c [b_sel b] x) /\ forall b c, In b bs1 -> b_child b = Some c -> deep K0 fuel c).
    { clear - IH Ek W U. induction bs1 as [|b bs1 IHb]; intros db1 acc1 db' acc' Hs N1 E.
      - injection E as <- <-. split; [exact N1|]. split; [auto|]. split; [|intros ? ? []]. intros x. split; [auto|intros [H|(b & c & [] & _)]; exact H].
      - cbn [foldO] in E. destruct (b_child b) as [c|] eqn:Eb.
        + destruct (need fuel (db1, acc1) c (b_sel b)) as [(db2 & acc2)|] eqn:En; [|discriminate].
          assert (Hc : (c < L)%nat) by (apply (kid_ex idx); rewrite <- Ek; apply in_children with (b := b); [apply Hs; now left|exact Eb]).
          destruct (IH _ _ _ _ _ _ N1 Hc En) as (N2 & D2 & X2 & P2). destruct (IHb _ _ _ _ (fun b H => Hs b (or_intror H)) N2 E) as (N3 & D3 & X3 & P3).
          split; [exact N3|]. split; [auto|]. split.
          * intros x. rewrite X3, X2. split; [intros [[H|H]|(b' & c' & Hb & G)]; [now left|right; exists b, c; cbn; auto|right; exists b', c'; cbn; tauto]|]. intros [H|(b' & c' & [<-|Hb] & Hc' & Hu)]; [auto| |right; exists b', c'; auto]. rewrite Eb in Hc'. injection Hc' as <-. auto.
          * intros b' c' [<-|Hb] Hc'; [rewrite Eb in Hc'; injection Hc' as <-; exact P2|now apply (P3 b')].
        + destruct (IHb _ _ _ _ (fun b H => Hs b (or_intror H)) N1 E) as (N3 & D3 & X3 & P3). split; [exact N3|]. split; [auto|]. split.
          * intros x. rewrite X3. split; [intros [H|(b' & c' & Hb & G)]; [now left|right; exists b', c'; cbn; tauto]|]. intros [H|(b' & c' & [<-|Hb] & Hc' & Hu)]; [auto|congruence|right; exists b', c'; auto].
          * intros b' c' [<-|Hb] Hc'; [congruence|now apply (P3 b')]. }
    destruct (B _ _ _ _ _ (fun b H => H) N1 E) as (N' & D & X & P). split; [exact N'|]. split; [intros H; apply D; now apply add_pair_nodup|]. split.
    - intros x. rewrite X, add_pair_in, (used_head db0 idx sel n0 bs x Hn0 Hp). tauto.
    - cbn [deep]. intros c Hc. rewrite <- Ek in Hc. apply in_flat_map in Hc as (b & Hb & Hc). destruct (b_child b) as [c'|] eqn:Ebc; [|destruct Hc]. destruct Hc as [->|[]]. exact (P b c Hb Ebc).
  Qed.
  Lemma need_total fuel : forall db acc idx sel t, nok db -> design fuel db0 idx sel t -> need fuel (db, acc) idx sel <> None.
  Proof.
    induction fuel as [|fuel IH]; intros db acc idx sel t N D; [destruct D|]. destruct D as (n0 & bs & Hn0 & Hp & _ & F). cbn [need fst snd].
    assert (Hi : (idx < L)%nat) by (apply nth_error_Some; congruence). destruct N as (Nl & Ns & Nk). destruct (same_at db idx n0 Ns Hn0) as (n & Hn & Fz). unfold checkout at 1. rewrite Hn, (frozen_placement _ _ sel Fz), Hp.
    assert (Ec : checkout db idx sel = Some (hupd db idx (fun n => set_blocks n bs), set_blocks n bs)) by (unfold checkout; now rewrite Hn, (frozen_placement _ _ sel Fz), Hp).
    destruct (nok_checkout _ _ _ _ _ (conj Nl (conj Ns Nk)) Hi Ec) as (n0' & bs' & Hn0' & Hp' & Eb' & N1 & Ek). cbn [h_blocks set_blocks] in *. subst bs'.
    assert (B : forall bs1 ks db1 acc1, (forall b, In b bs1 -> In b bs) -> nok db1 -> Forall2 (fun b k => fst k = info b /\ match b_child b, snd k with None, None => True | Some c, Some t' => design fuel db0 c (b_sel b) t' | _, _ => False end) bs1 ks ->
       foldO (fun s b => match b_child b with None => Some s | Some c => need fuel s c (b_sel b) end) bs1 (db1, acc1) <> None).
    { clear - IH Ek W U. induction bs1 as [|b bs1 IHb]; intros ks db1 acc1 Hs N1 F; [discriminate|]. inversion F as [|? k ? ks' (_ & Hk) F' E1 E2]. subst. cbn [foldO]. destruct (b_child b) as [c|] eqn:Eb; [|apply (IHb ks'); auto; intros; apply Hs; now right].
      destruct (snd k) as [t'|]; [|destruct Hk]. destruct (need fuel (db1, acc1) c (b_sel b)) as [(db2 & acc2)|] eqn:En; [|exact (fun _ => IH _ _ _ _ _ N1 Hk En)].
      assert (Hc : (c < L)%nat) by (apply (kid_ex idx); rewrite <- Ek; apply in_children with (b := b); [apply Hs; now left|exact Eb]).
      apply (IHb ks'); [intros; apply Hs; now right|apply (need_ok _ _ _ _ _ _ _ N1 Hc En)|exact F']. }
    apply (B bs _ _ _ (fun b H => H) N1 F).
  Qed.
  Lemma needs_ok fuel idx runs : (idx < L)%nat -> forall db acc db' acc', nok db -> foldO (fun s l => need fuel s idx l) runs (db, acc) = Some (db', acc') ->
    nok db' /\ (NoDup acc -> NoDup acc') /\ (forall x, In x acc' <-> In x acc \/ used db0 idx runs x) /\ (runs <> [] -> deep K0 fuel idx).
  Proof.
    intros Hi. induction runs as [|l runs IH]; intros db acc db' acc' N E.
    - injection E as <- <-. split; [exact N|]. split; [auto|]. split; [|congruence]. intros x. split; [auto|]. intros [H|H]; [exact H|]. apply used_runs in H as (l & [] & _).
    - cbn [foldO] in E. destruct (need fuel (db, acc) idx l) as [(db1 & acc1)|] eqn:En; [|discriminate]. destruct (need_ok _ _ _ _ _ _ _ N Hi En) as (N1 & D1 & X1 & P1). destruct (IH _ _ _ _ N1 E) as (N2 & D2 & X2 & _).
      split; [exact N2|]. split; [auto|]. split; [|auto]. intros x. rewrite X2, X1, (used_runs db0 idx runs), (used_runs db0 idx (l :: runs)). split.
      + intros [[H|H]|(l' & Hl & H)]; [now left|right; exists l; cbn; auto|right; exists l'; cbn; auto].
      + intros [H|(l' & [<-|Hl] & H)]; [auto|auto|right; exists l'; auto].
  Qed.
  Lemma needs_total fuel idx runs : (idx < L)%nat -> (forall l, In l runs -> exists t, design fuel db0 idx l t) -> forall db acc, nok db -> foldO (fun s l => need fuel s idx l) runs (db, acc) <> None.
  Proof.
    intros Hi. induction runs as [|l runs IH]; intros D db acc N; [discriminate|]. cbn [foldO]. destruct (D l (or_introl eq_refl)) as (t & Dt). destruct (need fuel (db, acc) idx l) as [(db1 & acc1)|] eqn:En; [|exact (fun _ => need_total _ _ _ _ _ _ N Dt En)].
    apply IH; [intros l' Hl; apply D; now right|]. apply (need_ok _ _ _ _ _ _ _ N Hi En).
  Qed.
End Need.

(** * The walk itself *)
Lemma adopt_all_length k db bs : length (adopt_all k db bs) = length db.
Proof. unfold adopt_all. revert db. induction bs as [|b bs IH]; intros db; [reflexivity|]. cbn [fold_left]. rewrite IH. destruct (b_child b); [apply hupd_length|reflexivity]. Qed.
Lemma add_parent_twice k n : add_parent k (add_parent k n) = add_parent k n.
Proof.
  unfold add_parent at 2. destruct (in_nats k (h_parent n)) eqn:E; [reflexivity|]. unfold add_parent. cbn [h_parent set_parent]. rewrite E. replace (in_nats k (h_parent n ++ [k])) with true; [reflexivity|]. symmetry. apply in_nats_ok. apply in_or_app. right. now left.
Qed.
Lemma adopt_all_nth k db bs j : nth_error (adopt_all k db bs) j = option_map (fun n => if in_nats j (children bs) then add_parent k n else n) (nth_error db j).
Proof.
  unfold adopt_all. revert db. induction bs as [|b bs IH]; intros db; cbn [fold_left children flat_map].
  - cbn. now destruct (nth_error db j).
  - fold (children bs). rewrite IH. destruct (b_child b) as [c|]; [|reflexivity]. cbn [app in_nats existsb]. fold (in_nats j (children bs)). rewrite hupd_nth, (Nat.eqb_sym j c). destruct (Nat.eqb_spec c j) as [->|]; [|reflexivity]. cbn [orb]. destruct (nth_error db j) as [n|]; [|reflexivity]. cbn. f_equal. destruct (in_nats j (children bs)); [apply add_parent_twice|reflexivity].
Qed.
Lemma add_parent_other k n : h_name (add_parent k n) = h_name n /\ h_top (add_parent k n) = h_top n /\ h_blocks (add_parent k n) = h_blocks n /\ h_box (add_parent k n) = h_box n /\ h_ort (add_parent k n) = h_ort n.
Proof. unfold add_parent. destruct (in_nats k (h_parent n)); cbn; auto. Qed.
Lemma add_parent_in k n q : In q (h_parent (add_parent k n)) <-> In q (h_parent n) \/ q = k.
Proof. unfold add_parent. destruct (in_nats k (h_parent n)) eqn:E; [apply in_nats_ok in E|]; cbn; [split; [auto|intros [H| ->]; auto]|rewrite in_app_iff; cbn; intuition congruence]. Qed.
Lemma add_parent_nodup k n : NoDup (h_parent n) -> NoDup (h_parent (add_parent k n)).
Proof.
  intros N. unfold add_parent. destruct (in_nats k (h_parent n)) eqn:E; [exact N|]. cbn. apply SymConstP.nodup_app'; [exact N|constructor; [intros []|constructor]|]. intros x Hx [<-|[]]. apply in_nats_ok in Hx. congruence.
Qed.
Lemma relinks_ok tbl bs bs' : relinks tbl bs = Some bs' ->
  Forall2 (fun b b' => info b' = info b /\ b_sel b' = b_sel b /\ match b_child b, b_child b' with None, None => True | Some c, Some k => dget pair_eqb tbl (c, b_sel b) = Some k | _, _ => False end) bs bs'.
Proof.
  revert bs'. induction bs as [|b bs IH]; intros bs' E; cbn [relinks] in E; [injection E as <-; constructor|]. destruct (relink tbl b) as [b'|] eqn:Eb; [|discriminate]. destruct (relinks tbl bs) as [bs1|] eqn:Es; [|discriminate]. injection E as <-. constructor; [|auto].
  unfold relink in Eb. destruct (b_child b) as [c|] eqn:Ec; [|injection Eb as <-; rewrite Ec; auto]. destruct (dget pair_eqb tbl (c, b_sel b)) as [k|] eqn:Ed; [|discriminate]. injection Eb as <-. cbn. auto.
Qed.
Lemma combine_seq_in {A} (P : list A) a x k : In (x, k) (combine P (seq a (length P))) <-> exists n, nth_error P n = Some x /\ k = (a + n)%nat.
Proof.
  revert a. induction P as [|y P IH]; intros a; cbn; [split; [intros []|intros ([|n] & H & _); discriminate H]|]. rewrite IH. split.
  - intros [[= -> ->]|(n & Hn & ->)]; [exists 0%nat; split; [reflexivity|lia]|exists (Datatypes.S n); split; [exact Hn|lia]].
  - intros ([|n] & Hn & ->); cbn in Hn; [left; injection Hn as ->; f_equal; lia|right; exists n; split; [exact Hn|lia]].
Qed.
Lemma combine_app_l {A B} (l1 l2 : list A) (m1 m2 : list B) : length l1 = length m1 -> combine (l1 ++ l2) (m1 ++ m2) = combine l1 m1 ++ combine l2 m2.
Proof. revert m1. induction l1 as [|a l1 IH]; intros [|b m1] E; try discriminate E; [reflexivity|]. cbn. f_equal. apply IH. cbn in E. lia. Qed.
Lemma combine_seq_snoc {A} (P : list A) a x : combine (P ++ [x]) (seq a (length (P ++ [x]))) = combine P (seq a (length P)) ++ [(x, (a + length P)%nat)].
Proof. rewrite app_length. cbn [length]. rewrite seq_app, combine_app_l by now rewrite seq_length. reflexivity. Qed.
Lemma map_fst_combine_seq {A} (P : list A) a : map fst (combine P (seq a (length P))) = P.
Proof. revert a. induction P as [|x P IH]; intros a; cbn; [reflexivity|]. now rewrite IH. Qed.
Lemma dset_fresh {A V} (eqb : A -> A -> bool) (ok : forall a b, eqb a b = true <-> a = b) d k (v : V) : ~ In k (map fst d) -> dset eqb d k v = d ++ [(k, v)].
Proof.
  unfold dset. induction d as [|(a & w) d IH]; cbn; intros H; [reflexivity|]. destruct (eqb k a) eqn:E; [apply ok in E; subst; tauto|]. f_equal. apply IH. tauto.
Qed.
Lemma up_name_inj n m i j : up_name n i = up_name m j -> h_name n = h_name m /\ i = j.
Proof. unfold up_name. intros E. apply us_inj in E as (E1 & E2); [|apply num_digits..]. split; [exact E1|]. now apply num_inj. Qed.
Section Main.
  Variables (db0 : hdb) (W : wf db0) (U : uniform db0) (Names : NoDup (map h_name db0)).
  Let L := length db0.
  Definition entry (x : (nat * nat) * nat) : chars * (list chars * nat) :=
    match nth_error db0 (fst (fst x)) with Some n => (up_name n (snd (fst x)), (start_path n (snd (fst x)), snd x)) | None => ([], ([], snd x)) end.
  Definition earlier (P : list (nat * nat)) (n : nat) (x : nat * nat) (k : nat) : Prop := exists n', (n' < n)%nat /\ nth_error P n' = Some x /\ k = (L + n')%nat.
  Definition parents_ok (db : hdb) (k : nat) (m : hnode) : Prop := NoDup (h_parent m) /\ forall q, In q (h_parent m) <-> exists mq b, (L <= q)%nat /\ nth_error db q = Some mq /\ In b (h_blocks mq) /\ b_child b = Some k.
  Definition upinv (P : list (nat * nat)) (s : upst) : Prop :=
    same L db0 (u_db s) /\ length (u_db s) = (L + length P)%nat /\ u_tbl s = combine P (seq L (length P)) /\ u_res s = map entry (combine P (seq L (length P))) /\
    (forall n x, nth_error P n = Some x -> exists n0 m, nth_error db0 (fst x) = Some n0 /\ nth_error (u_db s) (L + n) = Some m /\ copied n0 (snd x) (earlier P n) m) /\
    (forall n m, (n < length P)%nat -> nth_error (u_db s) (L + n) = Some m -> parents_ok (u_db s) (L + n) m).
  Lemma copied_impl n j (A B : nat * nat -> nat -> Prop) m : (forall x k, A x k -> B x k) -> copied n j A m -> copied n j B m.
  Proof.
    intros H (C1 & C2 & C3 & C4 & C5 & bs & C6 & C7). split; [exact C1|]. split; [exact C2|]. split; [exact C3|]. split; [exact C4|]. split; [exact C5|]. exists bs. split; [exact C6|]. eapply F2_impl; [|exact C7]. intros b b' _ _ (G1 & G2 & G3). split; [exact G1|]. split; [exact G2|]. destruct (b_child b), (b_child b'); auto.
  Qed.
  Lemma copied_same n j A m m' : h_name m' = h_name m -> h_top m' = h_top m -> h_blocks m' = h_blocks m -> h_box m' = h_box m -> h_ort m' = h_ort m -> copied n j A m -> copied n j A m'.
  Proof. intros E1 E2 E3 E4 E5. unfold copied. now rewrite E1, E2, E3, E4, E5. Qed.
  Lemma copied_kid n j A m b c : copied n j A m -> In b (h_blocks m) -> b_child b = Some c -> exists x, A x c.
  Proof.
    intros (_ & _ & _ & _ & _ & bs & _ & F) Hb Hc. revert Hb. generalize dependent (h_blocks m). clear - Hc. intros bs' F. induction F as [|b0 b0' bs bs' (_ & _ & G) F IH]; intros H; [destruct H|]. destruct H as [->|H]; [|auto]. rewrite Hc in G. destruct (b_child b0); [eauto|destruct G].
  Qed.
  Lemma names_at i i' n n' : nth_error db0 i = Some n -> nth_error db0 i' = Some n' -> h_name n = h_name n' -> i = i'.
  Proof.
    intros H H' E. assert (A : nth_error (map h_name db0) i = nth_error (map h_name db0) i') by (rewrite !nth_error_map, H, H'; cbn; congruence). apply (proj1 (NoDup_nth_error _) Names); [|exact A]. rewrite map_length. apply nth_error_Some. congruence.
  Qed.
  Lemma step_ok P s i j s' : upinv P s -> (i < L)%nat -> ~ In (i, j) P -> up_one s (i, j) = Some s' -> upinv (P ++ [(i, j)]) s'.
  Proof.
    intros (I1 & I2 & I3 & I4 & I5 & I6) Hi Hx E. unfold up_one in E. destruct (checkout (u_db s) i j) as [(db1 & n1)|] eqn:Ec; [|discriminate]. destruct (checkout_ok db0 (u_db s) i j db1 n1 I1 ltac:(fold L; lia) Hi Ec) as (n & n0 & bs & Hn & Hn0 & Hp & -> & Fz & -> & S1).
    destruct (negb (upright (set_blocks n bs))); [discriminate|]. cbn [h_blocks set_blocks] in E. destruct (relinks (u_tbl s) bs) as [bs'|] eqn:Er; [|discriminate]. rewrite !hupd_length, I2 in E.
    set (k := (L + length P)%nat) in *. set (cur := set_blocks _ bs') in E. set (db2 := hupd (hupd (u_db s) i (fun n => set_blocks n bs)) i bump) in *.
    assert (Enm : h_name n = h_name n0 /\ h_top n = h_top n0 /\ h_box n = h_box n0 /\ h_as n = h_as n0) by (unfold frozen in Fz; injection Fz as -> -> _ _ -> -> _; auto). destruct Enm as (En1 & En2 & En3 & En4).
    assert (D2 : forall q, (L <= q)%nat -> nth_error db2 q = nth_error (u_db s) q) by (intros q Hq; unfold db2; rewrite !hupd_nth; destruct (Nat.eqb_spec i q); [lia|reflexivity]).
    assert (L2 : length db2 = k) by (unfold db2; now rewrite !hupd_length).
    assert (Hold : forall n m, nth_error (u_db s) (L + n) = Some m -> (n < length P)%nat) by (intros n' m Hm; assert (L + n' < length (u_db s))%nat by (apply nth_error_Some; congruence); lia).
    apply relinks_ok in Er. assert (F : Forall2 (fun b b' => info b' = info b /\ b_sel b' = b_sel b /\ match b_child b, b_child b' with None, None => True | Some c, Some k => earlier (P ++ [(i, j)]) (length P) (c, b_sel b) k | _, _ => False end) bs bs').
    { eapply F2_impl; [|exact Er]. intros b b' _ _ (G1 & G2 & G3). split; [exact G1|]. split; [exact G2|]. destruct (b_child b) as [c|], (b_child b') as [k'|]; auto. rewrite I3 in G3. apply (dget_in _ pair_eqb_ok) in G3. apply combine_seq_in in G3 as (n' & Hn' & ->). exists n'. assert (n' < length P)%nat by (apply nth_error_Some; congruence). split; [assumption|]. rewrite nth_error_app1 by assumption. auto. }
    assert (Hck : copied n0 j (earlier (P ++ [(i, j)]) (length P)) cur).
    { unfold cur. split; [exact En1|]. split; [exact En2|]. split; [reflexivity|]. split; [reflexivity|]. split; [|exists bs; split; [exact Hp|exact F]]. cbn. intros w h bs0 Hw. unfold size_at. cbn. rewrite En4. destruct (h_as n0) as [|a l]; [destruct j; discriminate Hw|]. now rewrite Hw. }
    assert (Ck : forall c, In c (children bs') -> (L <= c < k)%nat).
    { intros c Hc. apply in_flat_map in Hc as (b & Hb & Hc). destruct (b_child b) as [c'|] eqn:Eb; [|destruct Hc]. destruct Hc as [->|[]]. destruct (copied_kid _ _ _ _ b c Hck Hb Eb) as (x & n' & H1 & _ & ->). unfold k. lia. }
    assert (Nk : nth_error (db2 ++ [cur]) k = Some cur) by (rewrite nth_error_app2, L2, Nat.sub_diag by lia; reflexivity).
    assert (Nq : forall q, (L <= q < k)%nat -> nth_error (db2 ++ [cur]) q = nth_error (u_db s) q) by (intros q Hq; rewrite nth_error_app1 by lia; apply D2; lia).
    assert (At : forall q m, (L <= q)%nat -> nth_error (adopt_all k (db2 ++ [cur]) bs') q = Some m -> exists m0, nth_error (db2 ++ [cur]) q = Some m0 /\ m = (if in_nats q (children bs') then add_parent k m0 else m0)).
    { intros q m _ Hm. rewrite adopt_all_nth in Hm. destruct (nth_error (db2 ++ [cur]) q) as [m0|]; [|discriminate]. injection Hm as <-. eauto. }
    assert (Bl : forall q m, nth_error (adopt_all k (db2 ++ [cur]) bs') q = Some m -> exists m0, nth_error (db2 ++ [cur]) q = Some m0 /\ h_blocks m = h_blocks m0).
    { intros q m Hm. rewrite adopt_all_nth in Hm. destruct (nth_error (db2 ++ [cur]) q) as [m0|]; [|discriminate]. injection Hm as <-. exists m0. split; [reflexivity|]. destruct (in_nats q (children bs')); [apply add_parent_other|reflexivity]. }
    assert (Bl' : forall q m0, nth_error (db2 ++ [cur]) q = Some m0 -> exists m, nth_error (adopt_all k (db2 ++ [cur]) bs') q = Some m /\ h_blocks m = h_blocks m0).
    { intros q m0 Hm. rewrite adopt_all_nth, Hm. cbn. eexists. split; [reflexivity|]. destruct (in_nats q (children bs')); [apply add_parent_other|reflexivity]. }
    injection E as <-. unfold upinv. cbn [u_db u_res u_tbl]. split; [|split; [|split; [|split; [|split]]]].
    - intros q Hq. rewrite adopt_all_nth. assert (Ef : in_nats q (children bs') = false) by (apply Bool.not_true_iff_false; intros H; apply in_nats_ok in H; apply Ck in H; lia). rewrite Ef.
      rewrite nth_error_app1 by lia. replace (option_map (fun n => n) (nth_error db2 q)) with (nth_error db2 q) by (now destruct (nth_error db2 q)). unfold db2. rewrite <- (S1 q Hq). apply (same_hupd L _ i bump); [reflexivity|exact Hq].
    - rewrite adopt_all_length, !app_length, L2. unfold k. cbn. lia.
    - rewrite I3, combine_seq_snoc. apply (dset_fresh _ pair_eqb_ok). now rewrite map_fst_combine_seq.
    - rewrite I4, combine_seq_snoc, map_app. cbn [map]. fold k. assert (Ee : entry (i, j, k) = (up_name n0 j, (start_path n0 j, k))) by (unfold entry; cbn [fst snd]; now rewrite Hn0). rewrite Ee.
      replace (up_name (set_blocks n bs) j) with (up_name n0 j) by (unfold up_name; cbn; now rewrite En1). replace (start_path (set_blocks n bs) j) with (start_path n0 j) by (unfold start_path; cbn; now rewrite En1). apply (dset_fresh _ chars_eqb_ok).
      rewrite map_map. intros H. apply in_map_iff in H as (((i' & j') & k') & He & Hin). apply combine_seq_in in Hin as (n' & Hn' & ->). destruct (I5 _ _ Hn') as (n0' & m' & H0' & _ & _). cbn [fst] in H0'. unfold entry in He. cbn [fst snd] in He. rewrite H0' in He. cbn in He. apply up_name_inj in He as (He & ->).
      rewrite (names_at _ _ _ _ H0' Hn0 He) in Hn'. apply Hx. now apply nth_error_In in Hn'.
    - intros n' x Hn'. destruct (Nat.lt_ge_cases n' (length P)) as [Hlt|Hge].
      + rewrite nth_error_app1 in Hn' by exact Hlt. destruct (I5 _ _ Hn') as (n0' & m' & H0' & Hm' & Hc'). assert (Hm2 : nth_error (db2 ++ [cur]) (L + n') = Some m') by (rewrite Nq by (unfold k; lia); exact Hm').
        exists n0', (if in_nats (L + n') (children bs') then add_parent k m' else m'). split; [exact H0'|]. split; [now rewrite adopt_all_nth, Hm2|].
        assert (Hc2 : copied n0' (snd x) (earlier (P ++ [(i, j)]) n') m'). { eapply copied_impl; [|exact Hc']. intros y k' (n'' & A & B & C). exists n''. split; [exact A|]. split; [now rewrite nth_error_app1 by lia|exact C]. }
        destruct (in_nats (L + n') (children bs')); [|exact Hc2]. eapply copied_same; [..|exact Hc2]; apply add_parent_other.
      + assert (n' = length P) as -> by (assert (n' < length (P ++ [(i, j)]))%nat by (apply nth_error_Some; congruence); rewrite app_length in *; cbn in *; lia). rewrite nth_error_app2, Nat.sub_diag in Hn' by lia. injection Hn' as <-. cbn [fst snd].
        exists n0, cur. split; [exact Hn0|]. fold k. split; [|exact Hck]. rewrite adopt_all_nth, Nk. cbn. replace (in_nats k (children bs')) with false; [reflexivity|]. symmetry. apply Bool.not_true_iff_false. intros H. apply in_nats_ok in H. apply Ck in H. lia.
    - assert (Kid : forall q m b c, (L <= q < k)%nat -> nth_error (u_db s) q = Some m -> In b (h_blocks m) -> b_child b = Some c -> (L <= c < q)%nat).
      { intros q m b c Hq Hm Hb Hc. assert (Hn' : exists x, nth_error P (q - L) = Some x) by (destruct (nth_error P (q - L)) eqn:EP; [eauto|apply nth_error_None in EP; unfold k in Hq; lia]). destruct Hn' as (x & Hn'). destruct (I5 _ _ Hn') as (n0' & m' & _ & Hm' & Hc'). replace (L + (q - L))%nat with q in Hm' by lia. rewrite Hm in Hm'. injection Hm' as <-. destruct (copied_kid _ _ _ _ b c Hc' Hb Hc) as (y & n'' & H1 & _ & ->). lia. }
      intros n' m Hlt Hm. rewrite app_length in Hlt. cbn in Hlt. destruct (At (L + n')%nat m ltac:(lia) Hm) as (m0 & Hm0 & ->). destruct (Nat.eq_dec n' (length P)) as [->|Hne].
      + fold k in Hm0 |- *. rewrite Nk in Hm0. injection Hm0 as <-. replace (in_nats k (children bs')) with false by (symmetry; apply Bool.not_true_iff_false; intros H; apply in_nats_ok in H; apply Ck in H; lia). split; [constructor|]. intros q. cbn. split; [intros []|]. intros (mq & b & Hq & Hmq & Hb & Hc).
        destruct (Bl q mq Hmq) as (mq0 & Hmq0 & Eb). rewrite Eb in Hb. assert (q < length (db2 ++ [cur]))%nat by (apply nth_error_Some; congruence). rewrite app_length, L2 in *. cbn in *. destruct (Nat.eq_dec q k) as [->|].
        * rewrite Nk in Hmq0. injection Hmq0 as <-. assert (In k (children bs')) as H' by (apply in_children with (b := b); [exact Hb|exact Hc]). apply Ck in H'. lia.
        * rewrite Nq in Hmq0 by lia. destruct (Kid q mq0 b k ltac:(lia) Hmq0 Hb Hc). lia.
      + assert (Hlt' : (n' < length P)%nat) by lia. rewrite Nq in Hm0 by (unfold k; lia). destruct (I6 n' m0 Hlt' Hm0) as (N0 & G0).
        assert (Gq : forall q, (exists mq b, (L <= q)%nat /\ nth_error (adopt_all k (db2 ++ [cur]) bs') q = Some mq /\ In b (h_blocks mq) /\ b_child b = Some (L + n')%nat) <-> In q (h_parent m0) \/ (q = k /\ In (L + n')%nat (children bs'))).
        { intros q. rewrite G0. split.
          - intros (mq & b & Hq & Hmq & Hb & Hc). destruct (Bl q mq Hmq) as (mq0 & Hmq0 & Eb). rewrite Eb in Hb. assert (q < length (db2 ++ [cur]))%nat by (apply nth_error_Some; congruence). rewrite app_length, L2 in *. cbn in *. destruct (Nat.eq_dec q k) as [->|].
            + rewrite Nk in Hmq0. injection Hmq0 as <-. right. split; [reflexivity|]. apply in_children with (b := b); [exact Hb|exact Hc].
            + left. rewrite Nq in Hmq0 by lia. eauto 6.
          - intros [(mq & b & Hq & Hmq & Hb & Hc)|(-> & Hin)].
            + assert (q < k)%nat by (assert (q < length (u_db s))%nat by (apply nth_error_Some; congruence); lia). destruct (Bl' q mq) as (mq' & Hmq' & Eb); [rewrite Nq by lia; exact Hmq|]. exists mq', b. rewrite Eb. auto.
            + destruct (Bl' k cur Nk) as (mq' & Hmq' & Eb). apply in_flat_map in Hin as (b & Hb & Hc). exists mq', b. split; [unfold k; lia|]. split; [exact Hmq'|]. rewrite Eb. split; [exact Hb|]. destruct (b_child b) as [c|]; [destruct Hc as [->|[]]; reflexivity|destruct Hc]. }
        split; [destruct (in_nats (L + n') (children bs')); [now apply add_parent_nodup|exact N0]|]. intros q. rewrite Gq. destruct (in_nats (L + n') (children bs')) eqn:Ein.
        * apply in_nats_ok in Ein. rewrite add_parent_in. tauto.
        * split; [auto|]. intros [H|(_ & H)]; [exact H|]. apply in_nats_ok in H. congruence.
  Qed.
  Definition placed_at_origin (n : hnode) : Prop := fst (h_box n) = (0, 0)%Z /\ h_ort n = oN.
  Lemma relinks_total tbl bs : (forall b c, In b bs -> b_child b = Some c -> In (c, b_sel b) (map fst tbl)) -> relinks tbl bs <> None.
  Proof.
    induction bs as [|b bs IH]; intros H; cbn [relinks]; [discriminate|]. assert (A : relink tbl b <> None).
    { unfold relink. destruct (b_child b) as [c|] eqn:E; [|discriminate]. destruct (dget_some_in _ pair_eqb_ok tbl (c, b_sel b) (H b c (or_introl eq_refl) E)) as (v & ->). discriminate. }
    destruct (relink tbl b); [|contradiction]. destruct (relinks tbl bs); [discriminate|]. exfalso. apply IH; [|reflexivity]. intros; eapply H; [right|]; eassumption.
  Qed.
  Lemma step_total P s i j n0 bs : upinv P s -> nth_error db0 i = Some n0 -> placement n0 j = Some bs -> placed_at_origin n0 -> (forall b c, In b bs -> b_child b = Some c -> In (c, b_sel b) P) -> up_one s (i, j) <> None.
  Proof.
    intros (I1 & I2 & I3 & _) Hn0 Hp (O1 & O2) Hk. destruct (same_at db0 (u_db s) i n0 I1 Hn0) as (n & Hn & Fz). unfold up_one, checkout. rewrite Hn, (frozen_placement _ _ j Fz), Hp.
    assert (Hu : upright (set_blocks n bs) = true). { unfold frozen in Fz. injection Fz as _ _ _ _ _ E1 E2. unfold upright. cbn. rewrite E1, E2, O1, O2. reflexivity. }
    rewrite Hu. cbn [negb h_blocks set_blocks]. destruct (relinks (u_tbl s) bs) eqn:Er; [discriminate|]. exfalso. revert Er. apply relinks_total. intros b c Hb Hc. rewrite I3, map_fst_combine_seq. eauto.
  Qed.
  Lemma inner_ok i js : forall P s s', upinv P s -> (i < L)%nat -> NoDup js -> (forall j, In j js -> ~ In (i, j) P) -> foldO (fun s j => up_one s (i, j)) js s = Some s' -> upinv (P ++ map (pair i) js) s'.
  Proof.
    induction js as [|j js IH]; intros P s s' I Hi N D E; cbn [foldO map] in *; [injection E as <-; now rewrite app_nil_r|]. destruct (up_one s (i, j)) as [s1|] eqn:E1; [|discriminate]. inversion_clear N as [|? ? N1 N2].
    change ((i, j) :: map (pair i) js) with ([(i, j)] ++ map (pair i) js). rewrite app_assoc. apply (IH _ s1); auto.
    - apply step_ok with (s := s); auto. apply D. now left.
    - intros j' Hj' H. apply in_app_or in H as [H|[[= <-]|[]]]; [exact (D j' (or_intror Hj') H)|contradiction].
  Qed.
  Variables (ord : list nat -> list nat) (Ord : forall l, Permutation (ord l) l).
  Definition cells_of (sub : list (nat * nat)) (q : list nat) : list (nat * nat) := flat_map (fun i => map (pair i) (ord (sels sub i))) q.
  Lemma sels_in sub i j : In j (ord (sels sub i)) <-> In (i, j) sub.
  Proof.
    assert (A : In j (ord (sels sub i)) <-> In j (sels sub i)) by (split; apply Permutation_in; [apply Ord|apply Permutation_sym, Ord]). rewrite A. unfold sels. rewrite in_map_iff. split.
    - intros ((i' & j') & <- & H). apply filter_In in H as (H & E). apply Nat.eqb_eq in E. cbn in E. now subst.
    - intros H. exists (i, j). split; [reflexivity|]. apply filter_In. split; [exact H|apply Nat.eqb_refl].
  Qed.
  Lemma sels_nodup sub i : NoDup sub -> NoDup (ord (sels sub i)).
  Proof.
    intros N. apply (Permutation_NoDup (Permutation_sym (Ord _))). unfold sels. induction N as [|(a & b) sub H N IH]; cbn; [constructor|]. destruct (Nat.eqb_spec a i) as [->|]; [|exact IH]. cbn. constructor; [|exact IH]. intros Hin. apply in_map_iff in Hin as ((i' & j') & <- & Hin). apply filter_In in Hin as (Hin & E). apply Nat.eqb_eq in E. cbn in *. subst. contradiction.
  Qed.
  Lemma cells_in sub q i j : In (i, j) (cells_of sub q) <-> In i q /\ In (i, j) sub.
  Proof.
    unfold cells_of. rewrite in_flat_map. split.
    - intros (i' & Hi & H). apply in_map_iff in H as (j' & [= -> ->] & H). split; [exact Hi|]. now apply sels_in.
    - intros (Hi & H). exists i. split; [exact Hi|]. apply in_map. now apply sels_in.
  Qed.
  Lemma nodup_map_pair (i : nat) (js : list nat) : NoDup js -> NoDup (map (pair i) js).
  Proof. induction 1 as [|j js H N IH]; cbn; constructor; [|exact IH]. intros Hin. apply in_map_iff in Hin as (j' & [= ->] & Hin). contradiction. Qed.
  Lemma cells_nodup sub q : NoDup sub -> NoDup q -> NoDup (cells_of sub q).
  Proof.
    intros Ns. induction 1 as [|i q H N IH]; cbn; [constructor|]. apply SymConstP.nodup_app'; [apply nodup_map_pair; now apply sels_nodup|exact IH|]. intros (a & b) Hx Hy. apply in_map_iff in Hx as (j & [= <- <-] & _). apply cells_in in Hy as (Hy & _). contradiction.
  Qed.
  Lemma outer_ok sub q : NoDup sub -> NoDup q -> (forall i, In i q -> (i < L)%nat) -> forall P s s', upinv P s -> (forall i j, In i q -> ~ In (i, j) P) -> foldO (fun s i => foldO (fun s j => up_one s (i, j)) (ord (sels sub i)) s) q s = Some s' -> upinv (P ++ cells_of sub q) s'.
  Proof.
    intros Ns Nq. induction Nq as [|i q H N IH]; intros B P s s' I D E; cbn [foldO cells_of flat_map] in *; [injection E as <-; now rewrite app_nil_r|]. destruct (foldO (fun s j => up_one s (i, j)) (ord (sels sub i)) s) as [s1|] eqn:E1; [|discriminate].
    rewrite app_assoc. apply (IH (fun i H => B i (or_intror H)) _ s1); [|intros i' j' Hi' Hin|exact E].
    - apply (inner_ok i (ord (sels sub i)) P s); [exact I|apply B; now left|now apply sels_nodup|intros j _; apply D; now left|exact E1].
    - apply in_app_or in Hin as [Hin|Hin]; [exact (D i' j' (or_intror Hi') Hin)|]. apply in_map_iff in Hin as (j & [= <- <-] & _). contradiction.
  Qed.
  Lemma used_leads idx runs x : used db0 idx runs x -> fst x = idx \/ leads (K0 db0) idx (fst x).
  Proof.
    induction 1 as [l Hl|i j n bs b c Hu IH Hn Hp Hb Hc]; [now left|right]. cbn [fst] in *. assert (Hk : In c (K0 db0 i)).
    { unfold K0. rewrite Hn. change (In c (children (h_blocks n))). rewrite <- (kid_list_eq bs _ (U i n j bs Hn Hp)). now apply in_children with (b := b). }
    destruct IH as [->|IH]; [now apply le_one|]. eapply leads_last; eassumption.
  Qed.
  Lemma start_inv db : nok db0 db -> upinv [] (mkUp db [] []).
  Proof. intros (N1 & N2 & _). split; [exact N2|]. split; [cbn; unfold L; lia|]. split; [reflexivity|]. split; [reflexivity|]. split; [intros [|n] x H; discriminate H|intros n m H; cbn in H; lia]. Qed.
  Lemma nok_start : nok db0 db0.
  Proof. split; [reflexivity|]. split; [intros i _; reflexivity|]. intros i n Hn. unfold K0. now rewrite Hn. Qed.
  Lemma leads_bound i k : leads (K0 db0) i k -> (k < L)%nat.
  Proof. induction 1 as [i c Hc|i c k Hc _ IH]; [now apply (kid_ex db0 W U i)|exact IH]. Qed.
  Theorem bottom_up_ok fuel topidx idx runs db' res : (idx < L)%nat -> runs <> [] -> route_bottom_up ord fuel db0 topidx idx runs = Some (db', res) ->
    idx = topidx /\ exists cells tbl, NoDup cells /\ (forall x, In x cells <-> used db0 idx runs x) /\ upinv cells (mkUp db' res tbl).
  Proof.
    intros Hi Hr E. unfold route_bottom_up in E. destruct (foldO (fun s l => need fuel s idx l) runs (db0, [])) as [(db1 & sub)|] eqn:E1; [|discriminate].
    destruct (needs_ok db0 W U fuel idx runs Hi _ _ _ _ nok_start E1) as (N1 & D1 & X1 & P1). specialize (D1 (NoDup_nil _)). specialize (P1 Hr).
    destruct (dfs fuel db1 ([], []) topidx) as [(S & q)|] eqn:E2; [|discriminate]. destruct (negb _) eqn:E3; [discriminate|]. apply Bool.negb_false_iff in E3.
    assert (Eq : idx = topidx). { destruct fuel as [|fuel]; [discriminate|]. cbn [dfs] in E2. destruct (nth_error db1 topidx); [|discriminate]. destruct (foldO _ (kid_list h) _) as [st|]; [|discriminate]. injection E2 as <- <-. rewrite rev_app_distr in E3. cbn in E3. apply Nat.eqb_eq in E3. now symmetry. }
    split; [exact Eq|]. subst topidx. pose proof N1 as (Nl & Ns & Nk).
    destruct (nth_error db1 idx) as [nt|] eqn:Et; [|apply nth_error_None in Et; unfold L in Hi; lia].
    destruct (traverse_ok (K0 db0) db1 Nk) with (fuel := fuel) (i := idx) (n := nt) as (S' & Q0 & E2' & Nq & Oq & Xq); [|exact Et|exact P1|].
    { intros i n c Hn Hc. apply (kid_ex db0 W U i) in Hc. destruct (nth_error db1 c) eqn:Em; [eauto|apply nth_error_None in Em; lia]. }
    rewrite E2 in E2'. injection E2' as <- ->. destruct (foldO _ (Q0 ++ [idx]) _) as [s'|] eqn:E4; [|discriminate]. injection E as <- <-.
    exists (cells_of sub (Q0 ++ [idx])), (u_tbl s'). split; [now apply cells_nodup|]. split.
    - intros (i & j). rewrite cells_in, X1, Xq. cbn. split; [intros (_ & [[]|H]); exact H|]. intros H. split; [|auto]. apply used_leads in H as [H|H]; auto.
    - replace (mkUp (u_db s') (u_res s') (u_tbl s')) with s' by (now destruct s'). apply (outer_ok sub (Q0 ++ [idx]) D1 Nq) with (P := []) (s := mkUp db1 [] []); [|now apply start_inv|intros ? ? _ []|exact E4].
      intros i Hq. apply Xq in Hq as [->|H]; [exact Hi|]. now apply leads_bound in H.
  Qed.
  Lemma used_design fuel idx runs x : (forall l, In l runs -> exists t, design fuel db0 idx l t) -> used db0 idx runs x -> exists d t, design d db0 (fst x) (snd x) t.
  Proof.
    intros D. induction 1 as [l Hl|i j n bs b c Hu IH Hn Hp Hb Hc]; [destruct (D l Hl) as (t & Dt); cbn; eauto|]. destruct IH as ([|d] & t & Dt); [destruct Dt|]. destruct Dt as (n' & bs' & Hn' & Hp' & _ & F). cbn [fst snd] in *. rewrite Hn in Hn'. injection Hn' as <-. rewrite Hp in Hp'. injection Hp' as <-.
    exists d. clear - F Hb Hc. induction F as [|b0 k bs ks (_ & G) F IH]; [destruct Hb|]. destruct Hb as [->|Hb]; [|auto]. rewrite Hc in G. destruct (snd k) as [t'|]; [eauto|destruct G].
  Qed.
  Theorem bottom_up_total fuel idx runs : (idx < L)%nat -> runs <> [] -> (forall l, In l runs -> exists t, design fuel db0 idx l t) -> (forall i j n, used db0 idx runs (i, j) -> nth_error db0 i = Some n -> placed_at_origin n) ->
    route_bottom_up ord fuel db0 idx idx runs <> None.
  Proof.
    intros Hi Hr D O. unfold route_bottom_up. destruct (foldO (fun s l => need fuel s idx l) runs (db0, [])) as [(db1 & sub)|] eqn:E1; [|exact (fun _ => needs_total db0 W U fuel idx runs Hi D db0 [] nok_start E1)].
    destruct (needs_ok db0 W U fuel idx runs Hi _ _ _ _ nok_start E1) as (N1 & D1 & X1 & P1). specialize (D1 (NoDup_nil _)). specialize (P1 Hr). pose proof N1 as (Nl & Ns & Nk).
    destruct (nth_error db1 idx) as [nt|] eqn:Et; [|apply nth_error_None in Et; unfold L in Hi; lia].
    destruct (traverse_ok (K0 db0) db1 Nk) with (fuel := fuel) (i := idx) (n := nt) as (S' & Q0 & E2 & Nq & Oq & Xq); [|exact Et|exact P1|].
    { intros i n c Hn Hc. apply (kid_ex db0 W U i) in Hc. destruct (nth_error db1 c) eqn:Em; [eauto|apply nth_error_None in Em; lia]. }
    rewrite E2, rev_app_distr. cbn [rev app]. rewrite Nat.eqb_refl. cbn [negb].
    assert (B : forall i, In i (Q0 ++ [idx]) -> (i < L)%nat) by (intros i Hq; apply Xq in Hq as [->|H]; [exact Hi|now apply leads_bound in H]).
    assert (G : forall l2 l1 s, Q0 ++ [idx] = l1 ++ l2 -> upinv (cells_of sub l1) s -> foldO (fun s i => foldO (fun s j => up_one s (i, j)) (ord (sels sub i)) s) l2 s <> None).
    { induction l2 as [|i l2 IH]; intros l1 s Eq I; [discriminate|]. cbn [foldO].
      assert (Hiq : In i (Q0 ++ [idx])) by (rewrite Eq; apply in_or_app; right; now left).
      assert (Hnl : ~ In i l1) by (rewrite Eq in Nq; apply NoDup_remove_2 in Nq; intros H; apply Nq; apply in_or_app; auto).
      assert (Gi : forall js P s, (forall j, In j js -> In (i, j) sub) -> NoDup js -> (forall j, In j js -> ~ In (i, j) P) -> (forall x, In x (cells_of sub l1) -> In x P) -> upinv P s -> foldO (fun s j => up_one s (i, j)) js s <> None).
      { induction js as [|j js IHj]; intros P s0 Hjs Nj Fj Pj I0; [discriminate|]. cbn [foldO]. inversion_clear Nj as [|? ? N1' N2']. assert (Hu : used db0 idx runs (i, j)) by (destruct (proj1 (X1 (i, j)) (Hjs j (or_introl eq_refl))) as [[]|Hu]; exact Hu).
        destruct (used_design fuel idx runs (i, j) D Hu) as ([|d] & t & Dt); [destruct Dt|]. destruct Dt as (n0 & bs & Hn0 & Hp & _ & _). cbn [fst snd] in *.
        destruct (up_one s0 (i, j)) as [s1|] eqn:Eu.
        - apply (IHj (P ++ [(i, j)])); [intros; apply Hjs; now right|exact N2'| |intros x Hx; apply in_or_app; auto|apply step_ok with (s := s0); auto; apply Fj; now left].
          intros j' Hj' H. apply in_app_or in H as [H|[[= <-]|[]]]; [exact (Fj j' (or_intror Hj') H)|contradiction].
        - intros _. revert Eu. apply (step_total P s0 i j n0 bs I0 Hn0 Hp (O i j n0 Hu Hn0)). intros b c Hb Hc. apply Pj. apply cells_in. split.
          + apply (Oq l1 i l2 Eq). unfold K0. rewrite Hn0. change (In c (children (h_blocks n0))). rewrite <- (kid_list_eq bs _ (U i n0 j bs Hn0 Hp)). now apply in_children with (b := b).
          + apply X1. right. eapply used_in; eassumption. }
      destruct (foldO (fun s j => up_one s (i, j)) (ord (sels sub i)) s) as [s1|] eqn:E4.
      - apply (IH (l1 ++ [i])); [now rewrite <- app_assoc|]. unfold cells_of. rewrite flat_map_app. cbn [flat_map]. rewrite app_nil_r. fold (cells_of sub l1). apply (inner_ok i (ord (sels sub i)) _ s); [exact I|now apply B|now apply sels_nodup|intros j _ H; apply cells_in in H as (H & _); contradiction|exact E4].
      - intros _. revert E4. apply (Gi _ (cells_of sub l1)); [intros j Hj; now apply sels_in|now apply sels_nodup|intros j _ H; apply cells_in in H as (H & _); contradiction|auto|exact I]. }
    destruct (foldO _ (Q0 ++ [idx]) _) as [s'|] eqn:E4; [discriminate|]. intros _. revert E4. apply (G _ []); [reflexivity|]. now apply start_inv.
  Qed.
End Main.
