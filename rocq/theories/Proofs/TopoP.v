From Coq Require Import String.
From Verif Require Import Base.Prelude Base.PyDict Model.RemoveDuplicates Model.Topo Spec.TopoSpec.
Local Open Scope nat_scope.

Lemma smem_ok x l : smem x l = true <-> In x l.
Proof.
  unfold smem. rewrite existsb_exists. split.
  - intros (y & Hy & E). apply String.eqb_eq in E. now subst.
  - intros H. exists x. split; [assumption|]. apply String.eqb_refl.
Qed.

Definition found (s : topo) (x : string) : Prop := In x (t_mods s) \/ In x (t_leaves s).
Definition unvisited (ch : list (string * list string)) (s : topo) : nat :=
  List.length (filter (fun k => negb (smem k (t_mods s))) (map fst ch)).

Lemma reach_trans ch a b c : reach ch a b -> reach ch b c -> reach ch a c.
Proof. induction 1; intros; [assumption|]. econstructor; eauto. Qed.

Lemma filter_length_le {A} (P Q : A -> bool) l : (forall x, In x l -> P x = true -> Q x = true) -> List.length (filter P l) <= List.length (filter Q l).
Proof.
  induction l as [|a l IH]; simpl; intros H; [lia|]. specialize (IH (fun x Hx => H x (or_intror Hx))).
  destruct (P a) eqn:E; [rewrite (H a (or_introl eq_refl) E); simpl; lia|]. destruct (Q a); simpl; lia.
Qed.

Lemma filter_length_lt {A} (P Q : A -> bool) l a : (forall x, In x l -> P x = true -> Q x = true) -> In a l -> P a = false -> Q a = true ->
  List.length (filter P l) < List.length (filter Q l).
Proof.
  induction l as [|b l IH]; simpl; intros H Hin Ha Qa; [destruct Hin|].
  destruct Hin as [->|Hin].
  - rewrite Ha, Qa. simpl. apply Nat.lt_succ_r, filter_length_le. auto.
  - assert (L := IH (fun x Hx => H x (or_intror Hx)) Hin Ha Qa).
    destruct (P b) eqn:E; [rewrite (H b (or_introl eq_refl) E); simpl; lia|]. destruct (Q b); simpl; lia.
Qed.

Section Dfs.
  Variable ch : list (string * list string).
  Hypothesis Hnd : NoDup (map fst ch).

  (** What a call (or a loop over calls) adds. *)
  Record added (s s' : topo) (new : list string) : Prop := {
    ad_order : t_order s' = t_order s ++ new;
    ad_nodup : NoDup new;
    ad_fresh : forall x, In x new -> ~ found s x;
    ad_mods : forall x, In x (t_mods s') <-> In x (t_mods s) \/ (In x new /\ In x (map fst ch));
    ad_leaves : forall x, In x (t_leaves s') <-> In x (t_leaves s) \/ (In x new /\ ~ In x (map fst ch));
    ad_closed : forall m c, In m new -> child ch m c -> found s' c }.

  Lemma added_found s s' new : added s s' new -> forall x, found s' x <-> found s x \/ In x new.
  Proof.
    intros A x. unfold found. rewrite (ad_mods _ _ _ A), (ad_leaves _ _ _ A).
    destruct (in_dec string_dec x (map fst ch)); tauto.
  Qed.

  Lemma added_unvisited s s' new : added s s' new -> unvisited ch s' <= unvisited ch s.
  Proof.
    intros A. unfold unvisited. apply filter_length_le. intros x _ Hx. apply negb_true_iff in Hx. apply negb_true_iff.
    destruct (smem x (t_mods s)) eqn:E; [|reflexivity]. apply smem_ok in E.
    assert (In x (t_mods s')) as E' by (apply (ad_mods _ _ _ A); auto). apply smem_ok in E'. congruence.
  Qed.

  Lemma added_refl s : added s s [].
  Proof. split; simpl; try tauto; [now rewrite app_nil_r|constructor]. Qed.

  Lemma nodup_app' {A} (l1 l2 : list A) : NoDup l1 -> NoDup l2 -> (forall x, In x l1 -> ~ In x l2) -> NoDup (l1 ++ l2).
  Proof.
    induction 1 as [|a l1 Ha _ IH]; simpl; intros H2 Hd; [assumption|]. constructor.
    - intros Hin. apply in_app_or in Hin as [Hin|Hin]; [contradiction|]. exact (Hd a (or_introl eq_refl) Hin).
    - apply IH; auto.
  Qed.

  Lemma added_trans s s1 s2 n1 n2 : added s s1 n1 -> added s1 s2 n2 -> added s s2 (n1 ++ n2).
  Proof.
    intros A B. pose proof (added_found _ _ _ A) as FA. pose proof (added_found _ _ _ B) as FB. split.
    - rewrite (ad_order _ _ _ B), (ad_order _ _ _ A). now rewrite app_assoc.
    - apply nodup_app'; [apply A|apply B|]. intros x H1 H2. apply (ad_fresh _ _ _ B x H2). apply FA. auto.
    - intros x Hx Hf. apply in_app_or in Hx as [Hx|Hx]; [exact (ad_fresh _ _ _ A x Hx Hf)|].
      apply (ad_fresh _ _ _ B x Hx). apply FA. auto.
    - intros x. rewrite (ad_mods _ _ _ B), (ad_mods _ _ _ A), in_app_iff. tauto.
    - intros x. rewrite (ad_leaves _ _ _ B), (ad_leaves _ _ _ A), in_app_iff. tauto.
    - intros m c Hm Hc. apply in_app_or in Hm as [Hm|Hm]; [|exact (ad_closed _ _ _ B m c Hm Hc)].
      apply FB. left. exact (ad_closed _ _ _ A m c Hm Hc).
  Qed.

  (** Children-first inside [new], given what is in the order already. *)
  Definition first_in (old new : list string) : Prop :=
    forall l1 m l2, new = l1 ++ m :: l2 -> forall c, child ch m c -> In c (old ++ l1).

  Lemma first_in_app old n1 n2 : first_in old n1 -> first_in (old ++ n1) n2 -> first_in old (n1 ++ n2).
  Proof.
    intros F1 F2 l1 m l2 E c Hc.
    assert (G : (exists r, n1 = l1 ++ m :: r) \/ (exists r, l1 = n1 ++ r /\ n2 = r ++ m :: l2)).
    { revert l1 E. clear. induction n1 as [|a n1 IH]; simpl; intros l1 E; [right; exists l1; auto|].
      destruct l1 as [|b l1]; simpl in E; injection E as -> E.
      - left. exists n1. reflexivity.
      - destruct (IH l1 E) as [(r & ->)|(r & -> & Hr)]; [left; exists r; reflexivity|right; exists r; auto]. }
    destruct G as [(r & E1)|(r & -> & E2)].
    - exact (F1 _ _ _ E1 c Hc).
    - specialize (F2 _ _ _ E2 c Hc). now rewrite app_assoc.
  Qed.

  Variable rank : string -> nat.

  Definition grey_above (s : topo) (k : nat) : Prop := forall g, found s g -> In g (t_order s) \/ k < rank g.

  Definition call_ok (cn : string) (s s' : topo) (new : list string) : Prop :=
    added s s' new /\ In cn new /\ (forall x, In x new -> reach ch cn x) /\
    ((forall m c, child ch m c -> rank c < rank m) -> grey_above s (rank cn) -> first_in (t_order s) new).

  Lemma loop_ok fuel :
    (forall cn s, ~ found s cn -> unvisited ch s < fuel -> exists s' new, topo_aux fuel ch cn s = Some s' /\ call_ok cn s s' new) ->
    forall cs s, unvisited ch s < fuel ->
    exists s' new, foldM (fun s c => if smem c (t_mods s) || smem c (t_leaves s) then Some s else topo_aux fuel ch c s) cs s = Some s' /\
      added s s' new /\ (forall c, In c cs -> found s' c) /\ (forall x, In x new -> exists c, In c cs /\ reach ch c x) /\
      ((forall m c, child ch m c -> rank c < rank m) -> forall k, (forall c, In c cs -> rank c < k) -> grey_above s (k - 1) -> first_in (t_order s) new).
  Proof.
    intros IH. induction cs as [|c cs IHcs]; intros s Hu.
    - exists s, []. split; [reflexivity|]. split; [apply added_refl|]. repeat split; simpl; try tauto.
      intros _ k _ _ l1 m l2 E. destruct l1; discriminate.
    - cbn [foldM]. destruct (smem c (t_mods s) || smem c (t_leaves s)) eqn:Ec.
      + destruct (IHcs s Hu) as (s' & new & E & A & Hc & Hr & HF). exists s', new. split; [exact E|]. split; [exact A|]. split; [|split].
        * intros c' [<-|Hc']; [|auto]. apply (added_found _ _ _ A). left. apply orb_true_iff in Ec. unfold found. rewrite <- !smem_ok. exact Ec.
        * intros x Hx. destruct (Hr x Hx) as (c' & Hc' & R). eauto using in_cons.
        * intros HA k Hk. apply HF; auto. intros; apply Hk; now right.
      + assert (Hnf : ~ found s c) by (unfold found; rewrite <- !smem_ok; apply orb_false_iff in Ec as (-> & ->); intuition discriminate).
        destruct (IH c s Hnf Hu) as (s1 & n1 & E1 & A1 & Hin1 & Hr1 & HF1). rewrite E1.
        assert (Hu1 : unvisited ch s1 < fuel) by (pose proof (added_unvisited _ _ _ A1); lia).
        destruct (IHcs s1 Hu1) as (s' & new & E & A & Hc & Hr & HF). exists s', (n1 ++ new).
        split; [exact E|]. split; [eapply added_trans; eassumption|]. split; [|split].
        * intros c' [<-|Hc']; [|auto]. apply (added_found _ _ _ A). left. apply (added_found _ _ _ A1). auto.
        * intros x Hx. apply in_app_or in Hx as [Hx|Hx]; [exists c; split; [now left|auto]|].
          destruct (Hr x Hx) as (c' & Hc' & R). eauto using in_cons.
        * intros HA k Hk Hg. apply first_in_app.
          -- apply HF1; [assumption|]. intros g Hg'. specialize (Hk c (or_introl eq_refl)). destruct (Hg g Hg'); [auto|right; lia].
          -- rewrite <- (ad_order _ _ _ A1). apply (HF HA k); [intros; apply Hk; now right|].
             intros g Hg'. rewrite (ad_order _ _ _ A1), in_app_iff. apply (added_found _ _ _ A1) in Hg' as [Hg'|Hg']; [|auto].
             destruct (Hg g Hg'); auto.
  Qed.

  Lemma call_main fuel : forall cn s, ~ found s cn -> unvisited ch s < fuel ->
    exists s' new, topo_aux fuel ch cn s = Some s' /\ call_ok cn s s' new.
  Proof.
    induction fuel as [|fuel IH]; intros cn s Hnf Hu; [lia|]. cbn [topo_aux].
    destruct (dget String.eqb ch cn) as [cs|] eqn:Ed.
    - pose proof (dget_in _ String.eqb_eq _ _ _ Ed) as Hin.
      assert (Hkey : In cn (map fst ch)) by (apply in_map_iff; exists (cn, cs); auto).
      set (s0 := mkTopo (t_order s) (cn :: t_mods s) (t_leaves s)).
      assert (Hu0 : unvisited ch s0 < fuel).
      { enough (unvisited ch s0 < unvisited ch s) by lia. unfold unvisited. apply (filter_length_lt _ _ _ cn); [|exact Hkey| |].
        - intros x _ Hx. apply negb_true_iff in Hx. apply negb_true_iff. simpl in Hx. apply orb_false_iff in Hx. tauto.
        - simpl. rewrite String.eqb_refl. reflexivity.
        - apply negb_true_iff. destruct (smem cn (t_mods s)) eqn:E; [|reflexivity]. apply smem_ok in E. exfalso. apply Hnf. now left. }
      destruct (loop_ok fuel IH cs s0 Hu0) as (s1 & n1 & E1 & A1 & Hc1 & Hr1 & HF1). fold s0. rewrite E1.
      exists (mkTopo (t_order s1 ++ [cn]) (t_mods s1) (t_leaves s1)), (n1 ++ [cn]). split; [reflexivity|].
      assert (F0 : forall x, found s0 x <-> found s x \/ x = cn) by (intros x; unfold found; simpl; split; [intros [[H|H]|H]|intros [[H|H]|H]]; auto).
      assert (Hcn1 : ~ In cn n1) by (intros H; apply (ad_fresh _ _ _ A1 cn H), F0; auto).
      split; [|split; [|split]].
      + split; simpl.
        * rewrite (ad_order _ _ _ A1). simpl. now rewrite app_assoc.
        * apply nodup_app'; [apply A1|repeat constructor; simpl; tauto|]. intros x Hx [<-|[]]. contradiction.
        * intros x Hx. apply in_app_or in Hx as [Hx|[<-|[]]]; [|assumption].
          intros Hf. apply (ad_fresh _ _ _ A1 x Hx), F0. auto.
        * intros x. rewrite (ad_mods _ _ _ A1), in_app_iff. simpl. split; [intros [[<-|H]|H]; tauto|intros [H|([H|[<-|[]]] & H')]; tauto].
        * intros x. rewrite (ad_leaves _ _ _ A1), in_app_iff. simpl. split; [tauto|]. intros [H|([H|[<-|[]]] & H')]; tauto.
        * intros m c Hm Hc. apply in_app_or in Hm as [Hm|[<-|[]]]; [exact (ad_closed _ _ _ A1 m c Hm Hc)|].
          apply Hc1. destruct Hc as (cs' & H1 & H2). apply (in_dget _ String.eqb_eq) in H1; [|assumption]. congruence.
      + apply in_or_app. right. now left.
      + intros x Hx. apply in_app_or in Hx as [Hx|[<-|[]]]; [|constructor].
        destruct (Hr1 x Hx) as (c & Hc & R). apply reach_step with c; [exists cs; auto|assumption].
      + intros HA Hg.
        assert (Hlt : forall c, In c cs -> rank c < rank cn) by (intros c Hc; apply HA; exists cs; auto).
        apply first_in_app.
        * destruct cs as [|c0 cs'].
          { simpl in E1. injection E1 as <-. assert (Hnil : n1 = []).
            { pose proof (ad_order _ _ _ A1) as Eo. simpl in Eo. rewrite <- (app_nil_r (t_order s)) in Eo at 1. now apply app_inv_head in Eo. }
            subst n1. intros l1 m l2 E. destruct l1; discriminate. }
          assert (0 < rank cn) by (specialize (Hlt c0 (or_introl eq_refl)); lia).
          apply (HF1 HA (rank cn) Hlt). intros g Hg'. apply F0 in Hg' as [Hg'| ->]; [|right; lia].
          destruct (Hg g Hg'); [auto|right; lia].
        * intros l1 m l2 E c Hc. assert (l1 = [] /\ m = cn) as (-> & ->).
          { destruct l1 as [|a [|b l1]]; simpl in E; [injection E as <-; auto|discriminate|discriminate]. }
          rewrite app_nil_r. assert (Hcin : In c cs).
          { destruct Hc as (cs' & H1 & H2). apply (in_dget _ String.eqb_eq) in H1; [|assumption]. congruence. }
          assert (Hf : found s1 c) by (apply Hc1; assumption). apply (added_found _ _ _ A1) in Hf as [Hf|Hf]; [|apply in_or_app; auto].
          apply F0 in Hf as [Hf| ->]; [|specialize (Hlt cn Hcin); lia].
          destruct (Hg c Hf); [apply in_or_app; auto|]. specialize (Hlt c Hcin). lia.
    - assert (Hkey : ~ In cn (map fst ch)) by (now apply (dget_none _ String.eqb_eq)).
      eexists _, [cn]. split; [reflexivity|].
      assert (Hnc : forall c, ~ child ch cn c) by (intros c (cs & H & _); apply Hkey, in_map_iff; exists (cn, cs); auto).
      split; [|split; [|split]].
      + split; simpl.
        * reflexivity.
        * repeat constructor; simpl; tauto.
        * intros x [<-|[]]. assumption.
        * intros x. split; [tauto|]. intros [H|([<-|[]] & H)]; [assumption|contradiction].
        * intros x. split; [intros [<-|H]; tauto|]. intros [H|([<-|[]] & H)]; auto.
        * intros m c [<-|[]] Hc. exfalso. exact (Hnc c Hc).
      + now left.
      + intros x [<-|[]]. constructor.
      + intros _ _ l1 m l2 E c Hc. assert (m = cn) as -> by (destruct l1 as [|a [|b l1]]; simpl in E; [injection E as <-; auto|discriminate|discriminate]).
        exfalso. exact (Hnc c Hc).
  Qed.
End Dfs.

Lemma topo_total ch cn : NoDup (map fst ch) -> forall fuel, List.length ch < fuel ->
  exists s, compute_topoorder fuel ch cn = Some s /\ NoDup (t_order s) /\ (forall x, In x (t_order s) <-> reach ch cn x) /\
    (forall x, In x (t_mods s) <-> reach ch cn x /\ In x (map fst ch)) /\ (forall x, In x (t_leaves s) <-> reach ch cn x /\ ~ In x (map fst ch)) /\
    (forall rank : string -> nat, (forall m c, child ch m c -> rank c < rank m) ->
       forall l1 m l2, t_order s = l1 ++ m :: l2 -> forall c, child ch m c -> In c l1) /\
    exists l, t_order s = l ++ [cn].
Proof.
  intros Hnd fuel Hf. unfold compute_topoorder.
  assert (U : unvisited ch (mkTopo [] [] []) < fuel).
  { unfold unvisited. simpl. rewrite <- (map_length fst) in Hf. eapply Nat.le_lt_trans; [|exact Hf].
    generalize (map fst ch). intros l. induction l; simpl; lia. }
  assert (Nf : ~ found (mkTopo [] [] []) cn) by (unfold found; simpl; tauto).
  destruct (call_main ch Hnd (fun _ => 0) fuel cn _ Nf U) as (s & new & E & A & Hin & Hr & _).
  exists s. split; [exact E|]. assert (Eo := ad_order _ _ _ _ A). simpl in Eo.
  assert (HR : forall x, In x new <-> reach ch cn x).
  { intros x. split; [apply Hr|]. intros R.
    assert (Fcl : forall a b, reach ch a b -> In a new -> In b new).
    { clear -A. induction 1 as [|a b c Hc R IH]; [auto|]. intros Ha. apply IH.
      assert (Hfb := ad_closed _ _ _ _ A _ _ Ha Hc). apply (added_found _ _ _ _ A) in Hfb as [[[]|[]]|H]. exact H. }
    exact (Fcl _ _ R Hin). }
  rewrite Eo. split; [apply A|]. split; [exact HR|]. split; [|split; [|split]].
  - intros x. rewrite (ad_mods _ _ _ _ A), HR. simpl. tauto.
  - intros x. rewrite (ad_leaves _ _ _ _ A), HR. simpl. tauto.
  - intros rank HA. destruct (call_main ch Hnd rank fuel cn _ Nf U) as (s' & new' & E' & A' & _ & _ & HF).
    assert (s' = s) by congruence. subst s'. assert (new' = new) by (pose proof (ad_order _ _ _ _ A'); simpl in *; congruence). subst new'.
    intros l1 m l2 El c Hc. assert (FI : first_in ch [] new) by (apply (HF HA); intros g [[]|[]]). exact (FI _ _ _ El c Hc).
  - (* the start is appended last *)
    clear -E Eo. destruct fuel as [|fuel]; [discriminate E|]. cbn [topo_aux] in E.
    destruct (dget String.eqb ch cn).
    + match type of E with (match ?X with _ => _ end = _) => destruct X as [s1|] end; [|discriminate].
      injection E as <-. simpl in *. exists (t_order s1). symmetry. exact Eo.
    + injection E as <-. simpl in Eo. exists []. symmetry. exact Eo.
Qed.
