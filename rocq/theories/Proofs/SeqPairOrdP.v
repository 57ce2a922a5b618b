From Coq Require Import String QArith Qround Lqa.
From Verif Require Import Base.Prelude Base.PyDict Model.Transformation Model.RemoveDuplicates Model.Hpwl Model.PlaceGrid Model.SeqPair
  Spec.Geometry Spec.PlaceGridSpec Spec.SeqPairSpec Proofs.HpwlP Proofs.PlaceGridP Proofs.SeqPairP.
Local Open Scope nat_scope.

Lemma pairwise_listed {A} (R : A -> A -> Prop) (xs : list A) : (forall a b c, R a b -> R b c -> R a c) ->
  (forall p, In p (pairwise xs) -> R (fst p) (snd p)) -> forall a b, (exists l1 l2 l3, xs = (l1 ++ a :: l2 ++ b :: l3)%list) -> R a b.
Proof.
  intros Ht. induction xs as [|x xs IH]; intros Hp a b (l1 & l2 & l3 & E); [destruct l1; discriminate|].
  destruct xs as [|y xs].
  { destruct l1 as [|? l1]; injection E as _ E; [destruct l2; discriminate|destruct l1; discriminate]. }
  assert (Hp' : forall p, In p (pairwise (y :: xs)) -> R (fst p) (snd p)) by (intros p Hi; apply Hp; now right).
  destruct l1 as [|z l1]; injection E as -> E.
  - assert (Hay : R a y) by (apply (Hp (a, y)); now left).
    destruct l2 as [|w l2]; injection E as -> E; [exact Hay|]. apply Ht with w; [exact Hay|]. apply IH; auto. subst xs. now exists [], l2, l3.
  - apply IH; auto. exists l1, l2, l3. exact E.
Qed.

Lemma pairwise_in {A} (xs : list A) p : In p (pairwise xs) -> In (fst p) xs /\ In (snd p) xs.
Proof.
  induction xs as [|x [|y xs] IH]; [intros []|intros []|]. intros [<-|H]; [simpl; auto|]. destruct (IH H) as (A1 & A2). split; right; auto.
Qed.

Definition seq_rel (sp : list nat * list nat) (d : odir) (i j : nat) : Prop :=
  match d with
  | OLR => before (fst sp) i j /\ before (snd sp) i j
  | ORL => before (fst sp) j i /\ before (snd sp) j i
  | OBT => before (fst sp) j i /\ before (snd sp) i j
  | OTB => before (fst sp) i j /\ before (snd sp) j i
  | _ => True
  end.

Lemma seq_rel_trans sp d i j k : seq_rel sp d i j -> seq_rel sp d j k -> seq_rel sp d i k.
Proof. destruct d; simpl; intuition; eapply before_trans; eauto. Qed.

Definition directed (d : odir) : Prop := match d with OLR | ORL | OBT | OTB => True | _ => False end.

Section Ord.
  Variables (cs : list ucon) (im : imap) (max : nat) (sps : list (list nat * list nat)) (sp : list nat * list nat).
  Hypothesis Him : imap_ok im.
  Hypothesis Henum : enumerate_sequence_pairs cs im max = Some sps.
  Hypothesis Hin : In sp sps.

  Lemma enum_parts : exists pe ne, graph_edges im cs = Some (pe, ne) /\
    In (fst sp) (tsorts (length im) pe (seq 0 (length im))) /\ In (snd sp) (tsorts (length im) ne (seq 0 (length im))).
  Proof.
    unfold enumerate_sequence_pairs in Henum. destruct (graph_edges im cs) as [(pe, ne)|]; [|discriminate].
    injection Henum as <-. exists pe, ne. split; auto.
    assert (Hi : forall A (l : list A) n x, In x (firstn n l) -> In x l).
    { intros A l. induction l as [|y l IH]; intros n x; destruct n; simpl; try tauto. intros [->|H]; [now left|right; eauto]. }
    apply Hi in Hin. destruct sp as (p, m). apply in_prod_iff in Hin. exact Hin.
  Qed.

  Lemma enum_sp_ok : sp_ok im sp.
  Proof.
    destruct enum_parts as (pe & ne & _ & A & B). split; [apply tsorts_sound in A as (A & _)|apply tsorts_sound in B as (B & _)]; auto; apply seq_NoDup.
  Qed.

  Lemma edges_in d ab xs p : In (UOrder d ab xs) cs -> In p (pairwise xs) -> directed d ->
    exists pe ne i j, graph_edges im cs = Some (pe, ne) /\ dget String.eqb im (fst p) = Some i /\ dget String.eqb im (snd p) = Some j /\
      incl (fst (order_edges d i j)) pe /\ incl (snd (order_edges d i j)) ne.
  Proof.
    intros Hc Hp Hd. destruct enum_parts as (pe & ne & Eg & _). exists pe, ne. unfold graph_edges in Eg.
    destruct (mapM (con_edges im) cs) as [ess|] eqn:Em; [|discriminate]. injection Eg as <- <-.
    destruct (mapM_fwd _ _ _ _ Em Hc) as (es & Ees & Hes). simpl in Ees.
    destruct (mapM_fwd _ _ _ _ Ees Hp) as (e & Ee & He). unfold pair_edges in Ee.
    assert (Ee' : match dget String.eqb im (fst p), dget String.eqb im (snd p) with Some a, Some b => Some (order_edges d a b) | _, _ => None end = Some e)
      by (destruct d; try contradiction; exact Ee).
    destruct (dget String.eqb im (fst p)) as [i|]; [|discriminate]. destruct (dget String.eqb im (snd p)) as [j|]; [|discriminate].
    injection Ee' as <-. exists i, j. unfold graph_edges. rewrite Em. repeat split; auto.
    - intros z Hz. apply in_flat_map. exists (order_edges d i j). split; auto. apply in_concat. eauto.
    - intros z Hz. apply in_flat_map. exists (order_edges d i j). split; auto. apply in_concat. eauto.
  Qed.

  Lemma im_lt n i : dget String.eqb im n = Some i -> i < length im.
  Proof. intros H. apply (dget_in _ String.eqb_eq) in H. eapply im_index; eauto. Qed.

  Definition named_rel (d : odir) (a b : string) : Prop :=
    exists i j, dget String.eqb im a = Some i /\ dget String.eqb im b = Some j /\ seq_rel sp d i j.

  Lemma listed_rel d ab xs a b : In (UOrder d ab xs) cs -> directed d -> listed xs a b -> named_rel d a b.
  Proof.
    intros Hc Hd. apply pairwise_listed.
    - intros x y z (i & j & Ei & Ej & R1) (j' & k & Ej' & Ek & R2). exists i, k. replace j' with j in * by congruence. repeat split; auto.
      eapply seq_rel_trans; eauto.
    - intros p Hp. destruct (edges_in d ab xs p Hc Hp Hd) as (pe & ne & i & j & Eg & Ei & Ej & I1 & I2). exists i, j. repeat split; auto.
      destruct enum_parts as (pe' & ne' & Eg' & A & B). assert (pe' = pe /\ ne' = ne) as (-> & ->) by (rewrite Eg in Eg'; injection Eg' as <- <-; auto).
      apply tsorts_sound in A as (_ & A); [|apply seq_NoDup]. apply tsorts_sound in B as (_ & B); [|apply seq_NoDup].
      assert (Hi : In i (seq 0 (length im))) by (apply in_seq; apply im_lt in Ei; lia).
      assert (Hj : In j (seq 0 (length im))) by (apply in_seq; apply im_lt in Ej; lia).
      destruct d; try contradiction; simpl in I1, I2; simpl; (split; [apply A|apply B]); auto; (apply I1 || apply I2); now left.
  Qed.

  Lemma listed_in_order size ws pg scale k s d ab xs a b :
    posted cs im size sp ws pg scale = Some k -> feasible k s ->
    In (UOrder d ab xs) cs -> listed xs a b -> in_order d (v_box s a) (v_box s b).
  Proof.
    intros Hp Hf Hc Hl. assert (D : directed d \/ ~ directed d) by (destruct d; simpl; tauto).
    destruct D as [D|D]; [|destruct d; simpl in *; tauto].
    destruct (listed_rel d ab xs a b Hc D Hl) as (i & j & Ei & Ej & R).
    apply (dget_in _ String.eqb_eq) in Ei, Ej.
    assert (Hne : a <> b).
    { intros ->. assert (i = j). { apply (in_dget _ String.eqb_eq) in Ei, Ej; try apply Him. congruence. } subst j.
      destruct d; try contradiction; destruct R as (R & _); now apply before_irrefl in R. }
    pose proof (forced cs im size sp ws pg scale k s Hp Hf a i b j Ei Ej Hne) as (F1 & F2).
    pose proof (forced cs im size sp ws pg scale k s Hp Hf b j a i Ej Ei (not_eq_sym Hne)) as (F3 & F4).
    destruct d; try contradiction; simpl in R |- *; tauto.
  Qed.
End Ord.

(** Every pair of permutations that respects all orders is enumerated when the limit allows. *)
Definition respects (cs : list ucon) (im : imap) (sp : list nat * list nat) : Prop :=
  forall d ab xs a b i j, In (UOrder d ab xs) cs -> In (a, b) (pairwise xs) -> In (a, i) im -> In (b, j) im -> seq_rel sp d i j.

Lemma con_edges_in im cs pe ne i j : graph_edges im cs = Some (pe, ne) ->
  (In (i, j) pe -> exists d ab xs p e, In (UOrder d ab xs) cs /\ In p (pairwise xs) /\ pair_edges im d p = Some e /\ In (i, j) (fst e)) /\
  (In (i, j) ne -> exists d ab xs p e, In (UOrder d ab xs) cs /\ In p (pairwise xs) /\ pair_edges im d p = Some e /\ In (i, j) (snd e)).
Proof.
  unfold graph_edges. destruct (mapM (con_edges im) cs) as [ess|] eqn:Em; [|discriminate]. intros [= <- <-].
  assert (G : forall e, In e (concat ess) -> exists d ab xs p, In (UOrder d ab xs) cs /\ In p (pairwise xs) /\ pair_edges im d p = Some e).
  { intros e He. apply in_concat in He as (es & Hes & He). apply mapM_forall2 in Em.
    clear - Em Hes He. induction Em as [|c es' cs' ess' E Em IH]; [destruct Hes|]. destruct Hes as [->|Hes].
    - destruct c; simpl in E; try (injection E as <-; destruct He). apply mapM_forall2 in E.
      assert (exists p, In p (pairwise xs) /\ pair_edges im d p = Some e) as (p & Hp & Ep).
      { clear - E He. induction E as [|p e' ps es E1 E2 IH]; [destruct He|]. destruct He as [->|He]; [exists p; simpl; auto|].
        destruct (IH He) as (p' & ? & ?). exists p'; simpl; auto. }
      exists d, abut, xs, p. simpl; auto.
    - destruct (IH Hes) as (d & ab & xs & p & ? & ? & ?). exists d, ab, xs, p. simpl; auto. }
  split; intros H; apply in_flat_map in H as (e & He & H); destruct (G e He) as (d & ab & xs & p & ? & ? & ?); exists d, ab, xs, p, e; auto.
Qed.

Lemma enum_complete cs im sp : imap_ok im -> sp_ok im sp -> respects cs im sp ->
  (forall d ab xs x, In (UOrder d ab xs) cs -> In x xs -> In x (map fst im)) ->
  exists M, forall max, M <= max -> exists sps, enumerate_sequence_pairs cs im max = Some sps /\ In sp sps.
Proof.
  intros Him (P1 & P2) Hr Hk.
  assert (Hg : exists pe ne, graph_edges im cs = Some (pe, ne)).
  { unfold graph_edges. destruct (mapM_ok (con_edges im) cs) as (ess & -> & _); [|eauto].
    intros c Hc. destruct c; simpl; eauto. destruct (mapM_ok (pair_edges im d) (pairwise xs)) as (es & -> & _); [|eauto].
    intros p Hp. apply pairwise_in in Hp as (H1 & H2). apply (Hk _ _ _ _ Hc), (dget_some_in _ String.eqb_eq) in H1 as (i & Ei).
    apply (Hk _ _ _ _ Hc), (dget_some_in _ String.eqb_eq) in H2 as (j & Ej). unfold pair_edges. rewrite Ei, Ej. destruct d; eauto. }
  destruct Hg as (pe & ne & Eg). unfold enumerate_sequence_pairs. rewrite Eg.
  set (L := list_prod (tsorts (length im) pe (seq 0 (length im))) (tsorts (length im) ne (seq 0 (length im)))).
  exists (length L). intros max Hmax. eexists. split; [reflexivity|]. rewrite firstn_all2 by lia.
  assert (Hl : length (fst sp) = length im /\ length (snd sp) = length im).
  { apply Permutation_length in P1, P2. rewrite seq_length in P1, P2. auto. }
  assert (N1 : NoDup (fst sp)) by (eapply Permutation_NoDup; [symmetry; eassumption|apply seq_NoDup]).
  assert (N2 : NoDup (snd sp)) by (eapply Permutation_NoDup; [symmetry; eassumption|apply seq_NoDup]).
  destruct sp as (p, m). simpl in *. destruct Hl as (L1 & L2). unfold L. apply in_prod_iff.
  pose proof (con_edges_in im cs pe ne) as CE.
  split; [rewrite <- L1 at 1|rewrite <- L2 at 1]; apply tsorts_complete; auto; intros a b He Ha Hb.
  - destruct (CE a b Eg) as (CE1 & _). destruct (CE1 He) as (d & ab & xs & q & e & Hc & Hq & Ee & Hi). unfold pair_edges in Ee.
    destruct (dget String.eqb im (fst q)) as [i|] eqn:Ei; [|destruct d; try discriminate; injection Ee as <-; destruct Hi].
    destruct (dget String.eqb im (snd q)) as [j|] eqn:Ej; [|destruct d; try discriminate; injection Ee as <-; destruct Hi].
    apply (dget_in _ String.eqb_eq) in Ei, Ej. destruct q as (x, y).
    pose proof (Hr d ab xs x y i j Hc Hq Ei Ej) as R.
    destruct d; injection Ee as <-; simpl in Hi; try contradiction; destruct Hi as [E|[]]; injection E as <- <-; apply R.
  - destruct (CE a b Eg) as (_ & CE1). destruct (CE1 He) as (d & ab & xs & q & e & Hc & Hq & Ee & Hi). unfold pair_edges in Ee.
    destruct (dget String.eqb im (fst q)) as [i|] eqn:Ei; [|destruct d; try discriminate; injection Ee as <-; destruct Hi].
    destruct (dget String.eqb im (snd q)) as [j|] eqn:Ej; [|destruct d; try discriminate; injection Ee as <-; destruct Hi].
    apply (dget_in _ String.eqb_eq) in Ei, Ej. destruct q as (x, y).
    pose proof (Hr d ab xs x y i j Hc Hq Ei Ej) as R.
    destruct d; injection Ee as <-; simpl in Hi; try contradiction; destruct Hi as [E|[]]; injection E as <- <-; apply R.
Qed.

(** * SameTemplate groups *)
Lemma str_mem_ok x l : str_mem x l = true <-> In x l.
Proof.
  unfold str_mem. rewrite existsb_exists. split; [intros (y & Hy & E)|intros H; exists x; split; auto; apply String.eqb_refl].
  apply String.eqb_eq in E. now subst.
Qed.
Lemma meets_ok a b : meets a b = true <-> exists x, In x a /\ In x b.
Proof. unfold meets. rewrite existsb_exists. split; intros (x & Hx & H); exists x; split; auto; now apply str_mem_ok. Qed.
Lemma str_union_in a b x : In x (str_union a b) <-> In x a \/ In x b.
Proof.
  unfold str_union. rewrite in_app_iff, filter_In. split; [tauto|]. intros [H|H]; [auto|].
  destruct (str_mem x a) eqn:E; [left; now apply str_mem_ok|right]. auto.
Qed.

Lemma tied_trans sets a b c : tied sets a b -> tied sets b c -> tied sets a c.
Proof. induction 1 as [|a b' d S HS Ha Hb _ IH]; auto. intros Ht. eapply tied_step; eauto. Qed.
Lemma tied_sym sets a b : tied sets a b -> tied sets b a.
Proof.
  induction 1 as [|a b c S HS Ha Hb _ IH]; [constructor|]. eapply tied_trans; [exact IH|]. exact (tied_step sets b a a S HS Hb Ha (tied_refl sets a)).
Qed.
Lemma tied_mono sets sets' a b : incl sets sets' -> tied sets a b -> tied sets' a b.
Proof. intros Hi. induction 1; [constructor|]. eapply tied_step; eauto. Qed.

Definition disj (gs : list (list string)) : Prop := forall i j gi gj x,
  nth_error gs i = Some gi -> nth_error gs j = Some gj -> In x gi -> In x gj -> i = j.

Record ginv (done gs : list (list string)) : Prop := {
  gi_cover : forall S, In S done -> exists g, In g gs /\ incl S g;
  gi_tied : forall g x y, In g gs -> In x g -> In y g -> tied done x y;
  gi_from : forall g x, In g gs -> In x g -> exists S, In S done /\ In x S;
  gi_disj : disj gs }.

Lemma ginv_closed done gs x y g : ginv done gs -> In g gs -> In x g -> tied done x y -> In y g.
Proof.
  intros HI Hg Hx Ht. induction Ht as [|a b c S HS Ha Hb _ IH]; auto. apply IH.
  destruct (gi_cover _ _ HI S HS) as (g' & Hg' & Hi). apply In_nth_error in Hg as (i & Ei). apply In_nth_error in Hg' as (j & Ej).
  assert (i = j) by (eapply (gi_disj _ _ HI); eauto). subst j. assert (g' = g) by congruence. subst g'. now apply Hi.
Qed.

Lemma add_group_split s gs :
  (exists g1 g g2, gs = (g1 ++ g :: g2)%list /\ meets s g = true /\ (forall h, In h g1 -> meets s h = false) /\ add_group s gs = (g1 ++ str_union s g :: g2)%list) \/
  ((forall h, In h gs -> meets s h = false) /\ add_group s gs = (gs ++ [s])%list).
Proof.
  induction gs as [|g gs IH]; simpl.
  - right. split; [intros ? []|reflexivity].
  - destruct (meets s g) eqn:E.
    + left. exists [], g, gs. repeat split; auto. intros ? [].
    + destruct IH as [(g1 & g' & g2 & -> & Em & H1 & H2)|(H1 & H2)].
      * left. exists (g :: g1), g', g2. repeat split; auto; [intros h [<-|Hh]; auto|]. simpl. now rewrite H2.
      * right. split; [intros h [<-|Hh]; auto|]. simpl. now rewrite H2.
Qed.

Lemma ginv_step done gs s : ginv done gs ->
  (forall S1 S2 x y, In S1 done -> In S2 done -> In x S1 -> In x s -> In y S2 -> In y s -> tied done x y) ->
  ginv (done ++ [s]) (add_group s gs).
Proof.
  intros HI Hc. assert (Hinc : incl done (done ++ [s])) by (intros z Hz; apply in_or_app; now left).
  assert (Hs : In s (done ++ [s])) by (apply in_or_app; right; now left).
  assert (Hmeet : forall g g' x y, In g gs -> In g' gs -> In x g -> In x s -> In y g' -> In y s -> In y g).
  { intros g g' x y Hg Hg' Hx Hxs Hy Hys. destruct (gi_from _ _ HI g x Hg Hx) as (S1 & HS1 & Hx1).
    destruct (gi_from _ _ HI g' y Hg' Hy) as (S2 & HS2 & Hy2). eapply ginv_closed; eauto. }
  destruct (add_group_split s gs) as [(g1 & g & g2 & -> & Em & Hg1 & Ea)|(Hn & Ea)]; rewrite Ea; clear Ea.
  - apply meets_ok in Em as (x0 & Hx0s & Hx0g).
    assert (Hgin : In g (g1 ++ g :: g2)) by apply in_elt.
    constructor.
    + intros S HS. apply in_app_iff in HS as [HS|[<-|[]]].
      * destruct (gi_cover _ _ HI S HS) as (g' & Hg' & Hi). apply in_app_iff in Hg' as [Hg'|[<-|Hg']].
        -- exists g'. split; auto. apply in_or_app; now left.
        -- exists (str_union s g). split; [apply in_elt|]. intros z Hz. apply str_union_in. right. auto.
        -- exists g'. split; auto. apply in_or_app; right; now right.
      * exists (str_union s g). split; [apply in_elt|]. intros z Hz. apply str_union_in. now left.
    + intros h x y Hh Hx Hy. apply in_app_iff in Hh as [Hh|[<-|Hh]].
      * apply (tied_mono done); auto. apply (gi_tied _ _ HI h); auto. apply in_or_app; now left.
      * assert (T : forall z, In z (str_union s g) -> tied (done ++ [s]) z x0).
        { intros z Hz. apply str_union_in in Hz as [Hz|Hz]; [exact (tied_step (done ++ [s]) z x0 x0 s Hs Hz Hx0s (tied_refl _ x0))|].
          apply (tied_mono done); auto. apply (gi_tied _ _ HI g); auto. }
        eapply tied_trans; [apply T; exact Hx|apply tied_sym, T; exact Hy].
      * apply (tied_mono done); auto. apply (gi_tied _ _ HI h); auto. apply in_or_app; right; now right.
    + intros h x Hh Hx. apply in_app_iff in Hh as [Hh|[<-|Hh]].
      * destruct (gi_from _ _ HI h x) as (S & HS & ?); auto; [apply in_or_app; now left|]. exists S; auto.
      * apply str_union_in in Hx as [Hx|Hx]; [exists s; auto|]. destruct (gi_from _ _ HI g x) as (S & HS & ?); auto. exists S; auto.
      * destruct (gi_from _ _ HI h x) as (S & HS & ?); auto; [apply in_or_app; right; now right|]. exists S; auto.
    + pose proof (gi_disj _ _ HI) as HD.
      assert (Hnth : forall i h, nth_error (g1 ++ str_union s g :: g2) i = Some h -> 
         (i = length g1 /\ h = str_union s g) \/ (i <> length g1 /\ nth_error (g1 ++ g :: g2) i = Some h)).
      { intros i h E. destruct (Nat.lt_trichotomy i (length g1)) as [Hl|[->|Hl]].
        - right. split; [lia|]. rewrite nth_error_app1 in E |- * by assumption. exact E.
        - left. rewrite nth_error_app2, Nat.sub_diag in E by lia. injection E as <-. auto.
        - right. split; [lia|]. rewrite nth_error_app2 in E |- * by lia. destruct (i - length g1) eqn:Ei; [lia|]. exact E. }
      assert (Hg : nth_error (g1 ++ g :: g2) (length g1) = Some g) by (rewrite nth_error_app2, Nat.sub_diag by lia; reflexivity).
      assert (HX : forall i h x, i <> length g1 -> nth_error (g1 ++ g :: g2) i = Some h -> In x h -> In x (str_union s g) -> False).
      { intros i h x Hi Eh Hxh Hx. assert (Hxg : In x g).
        { apply str_union_in in Hx as [Hx|Hx]; auto. apply (Hmeet g h x0 x); auto. eapply nth_error_In; eauto. }
        apply Hi. eapply HD; eauto. }
      intros i j gi gj x Ei Ej Hxi Hxj. apply Hnth in Ei as [(-> & ->)|(Ni & Ei)]; apply Hnth in Ej as [(-> & ->)|(Nj & Ej)]; auto.
      * exfalso. exact (HX j gj x Nj Ej Hxj Hxi).
      * exfalso. exact (HX i gi x Ni Ei Hxi Hxj).
      * eapply HD; eauto.
  - assert (Hno : forall g x, In g gs -> In x g -> In x s -> False).
    { intros g x Hg Hx Hxs. specialize (Hn g Hg). assert (meets s g = true) by (apply meets_ok; eauto). congruence. }
    constructor.
    + intros S HS. apply in_app_iff in HS as [HS|[<-|[]]].
      * destruct (gi_cover _ _ HI S HS) as (g' & Hg' & Hi). exists g'. split; auto. apply in_or_app; now left.
      * exists s. split; [apply in_or_app; right; now left|apply incl_refl].
    + intros h x y Hh Hx Hy. apply in_app_iff in Hh as [Hh|[<-|[]]].
      * apply (tied_mono done); auto. apply (gi_tied _ _ HI h); auto.
      * exact (tied_step (done ++ [s]) x y y s Hs Hx Hy (tied_refl _ y)).
    + intros h x Hh Hx. apply in_app_iff in Hh as [Hh|[<-|[]]]; [|eauto].
      destruct (gi_from _ _ HI h x) as (S & HS & ?); auto. exists S; auto.
    + assert (Hnth : forall i h, nth_error (gs ++ [s]) i = Some h -> (i = length gs /\ h = s) \/ (i < length gs /\ nth_error gs i = Some h)).
      { intros i h E. destruct (Nat.lt_ge_cases i (length gs)).
        - right. split; auto. now rewrite nth_error_app1 in E by assumption.
        - left. rewrite nth_error_app2 in E by lia. destruct (i - length gs) eqn:Ei; simpl in E; [injection E as <-; split; [lia|auto]|destruct n; discriminate]. }
      intros i j gi gj x Ei Ej Hxi Hxj. apply Hnth in Ei as [(-> & ->)|(Ni & Ei)]; apply Hnth in Ej as [(-> & ->)|(Nj & Ej)]; auto.
      * exfalso. exact (Hno gj x (nth_error_In _ _ Ej) Hxj Hxi).
      * exfalso. exact (Hno gi x (nth_error_In _ _ Ei) Hxi Hxj).
      * eapply (gi_disj _ _ HI); eauto.
Qed.

Lemma ginv_fold todo : forall done gs, ginv done gs -> chained done todo -> ginv (done ++ todo) (fold_left (fun gs s => add_group s gs) todo gs).
Proof.
  induction todo as [|s todo IH]; intros done gs HI Hc; simpl; [now rewrite app_nil_r|].
  destruct Hc as (H1 & H2). replace (done ++ s :: todo)%list with ((done ++ [s]) ++ todo)%list by now rewrite <- app_assoc.
  apply IH; auto. now apply ginv_step.
Qed.

Lemma groups_inv cs : chained [] (same_sets cs) -> ginv (same_sets cs) (same_groups cs).
Proof.
  intros H. apply (ginv_fold (same_sets cs) [] []); auto. constructor.
  - intros ? [].
  - intros ? ? ? [].
  - intros ? ? [].
  - intros i j gi gj x E. destruct i; discriminate.
Qed.

Lemma disj_app_single gs (l : list string) : disj gs -> NoDup l -> (forall g x, In g gs -> In x g -> ~ In x l) -> disj (gs ++ map (fun i => [i]) l).
Proof.
  intros HD Hnd Hout i j gi gj x Ei Ej Hi Hj.
  assert (Hnth : forall i h, nth_error (gs ++ map (fun i => [i]) l) i = Some h ->
     (i < length gs /\ nth_error gs i = Some h) \/ (length gs <= i /\ exists y, h = [y] /\ nth_error l (i - length gs) = Some y)).
  { intros n h E. destruct (Nat.lt_ge_cases n (length gs)).
    - left. split; auto. now rewrite nth_error_app1 in E.
    - right. split; auto. rewrite nth_error_app2 in E by assumption. rewrite nth_error_map in E.
      destruct (nth_error l (n - length gs)); [|discriminate]. injection E as <-. eauto. }
  apply Hnth in Ei as [(Li & Ei)|(Li & y & -> & Ei)]; apply Hnth in Ej as [(Lj & Ej)|(Lj & z & -> & Ej)].
  - eapply HD; eauto.
  - destruct Hj as [->|[]]. exfalso. eapply Hout; [eapply nth_error_In; exact Ei|exact Hi|eapply nth_error_In; eauto].
  - destruct Hi as [->|[]]. exfalso. eapply Hout; [eapply nth_error_In; exact Ej|exact Hj|eapply nth_error_In; eauto].
  - destruct Hi as [->|[]]. destruct Hj as [->|[]]. assert (i - length gs = j - length gs); [|lia].
    apply (proj1 (NoDup_nth_error l) Hnd); [apply nth_error_Some; congruence|congruence].
Qed.

Lemma all_groups_disj cs im : NoDup (map fst im) -> chained [] (same_sets cs) -> disj (all_groups cs im).
Proof.
  intros Hnd Hc. pose proof (groups_inv cs Hc) as HI. unfold all_groups. apply disj_app_single; [apply HI|now apply NoDup_filter|].
  intros g x Hg Hx Hf. apply filter_In in Hf as (_ & Hf). destruct (gi_from _ _ HI g x Hg Hx) as (S & HS & HxS).
  assert (str_mem x (concat (same_sets cs)) = true) by (apply str_mem_ok, in_concat; eauto). rewrite H in Hf. discriminate.
Qed.

Lemma set_nth_ok {A} (l : list A) k v l' : set_nth l k v = Some l' -> forall i, nth_error l' i = if i =? k then Some v else nth_error l i.
Proof.
  revert k l'. induction l as [|x l IH]; intros k l' E i; simpl in E; [discriminate|]. destruct k as [|k].
  - injection E as <-. destruct i; reflexivity.
  - destruct (set_nth l k v) as [m|] eqn:Em; [|discriminate]. injection E as <-. destruct i as [|i]; [reflexivity|]. simpl. now apply IH.
Qed.

Lemma assign_get im sel g v sel' : NoDup (map snd im) -> assign im sel (g, v) = Some sel' ->
  (forall x i, In x g -> dget String.eqb im x = Some i -> nth_error sel' i = Some v) /\
  (forall i, (forall x, In x g -> dget String.eqb im x <> Some i) -> nth_error sel' i = nth_error sel i).
Proof.
  intros Hnd. unfold assign. simpl. revert sel. induction g as [|x g IH]; intros sel E; simpl in E.
  - injection E as <-. split; [intros ? ? []|auto].
  - destruct (dget String.eqb im x) as [k|] eqn:Ek; [|discriminate]. destruct (set_nth sel k v) as [sel1|] eqn:E1; [|discriminate].
    destruct (IH _ E) as (A & B). pose proof (set_nth_ok _ _ _ _ E1) as Hs. split.
    + intros y i [<-|Hy] Ei; [|eapply A; eauto]. assert (i = k) by congruence. subst i.
      assert (D : (exists z, In z g /\ dget String.eqb im z = Some k) \/ (forall z, In z g -> dget String.eqb im z <> Some k)).
      { clear. induction g as [|z g IH]; [right; intros ? []|]. destruct (dget String.eqb im z) as [n|] eqn:E; [destruct (Nat.eq_dec n k) as [->|Hne]|].
        - left. exists z. simpl; auto.
        - destruct IH as [(w & ? & ?)|IH]; [left; exists w; simpl; auto|right; intros w [<-|Hw]; [congruence|auto]].
        - destruct IH as [(w & ? & ?)|IH]; [left; exists w; simpl; auto|right; intros w [<-|Hw]; [congruence|auto]]. }
      destruct D as [(z & Hz & Ez)|D]; [eapply A; eauto|]. rewrite (B k D), Hs, Nat.eqb_refl. reflexivity.
    + intros i Hi. rewrite B by (intros z Hz; apply Hi; now right). rewrite Hs. destruct (Nat.eqb_spec i k) as [->|]; [|reflexivity].
      exfalso. apply (Hi x); [now left|assumption].
Qed.

Lemma selection_get im gs variant sel : NoDup (map snd im) -> disj gs -> selection im gs variant = Some sel ->
  length variant = length gs ->
  forall n g v x i, nth_error gs n = Some g -> nth_error variant n = Some v -> In x g -> dget String.eqb im x = Some i -> nth_error sel i = Some v.
Proof.
  intros Hnd. unfold selection. generalize (repeat 0 (length im)). revert variant. 
  induction gs as [|g gs IH]; intros variant sel0 HD E Hl n g' v x i En; [destruct n; discriminate|].
  destruct variant as [|v0 variant]; [discriminate|]. cbn [combine foldM] in E.
  destruct (assign im sel0 (g, v0)) as [sel1|] eqn:E1; [|discriminate].
  assert (HD' : disj gs). { intros a b ga gb y Ea Eb Ha Hb. assert (Datatypes.S a = Datatypes.S b); [|lia]. eapply HD; eauto. }
  destruct n as [|n]; simpl; intros Ev Hx Ei.
  - injection En as <-. injection Ev as <-. destruct (assign_get _ _ _ _ _ Hnd E1) as (A & _). specialize (A x i Hx Ei).
    assert (Hfr : forall gs' variant' s s', foldM (assign im) (combine gs' variant') s = Some s' ->
      (forall h y, In h gs' -> In y h -> dget String.eqb im y <> Some i) -> nth_error s' i = nth_error s i).
    { clear - Hnd. induction gs' as [|h gs' IH]; intros [|w variant'] s s' E Ho; try (injection E as <-; reflexivity). cbn [combine foldM] in E.
      destruct (assign im s (h, w)) as [s1|] eqn:E1; [|discriminate]. destruct (assign_get _ _ _ _ _ Hnd E1) as (_ & B).
      rewrite (IH _ _ _ E) by (intros; eapply Ho; [right|]; eauto). apply B. intros y Hy. eapply Ho; [now left|exact Hy]. }
    rewrite (Hfr _ _ _ _ E); [exact A|]. intros h y Hh Hy Ey.
    assert (y = x).
    { apply (dget_in _ String.eqb_eq) in Ei, Ey. clear - Hnd Ei Ey. induction im as [|(a, b) l IH]; [destruct Ei|]. simpl in Hnd. apply NoDup_cons_iff in Hnd as (Hn & Hnd).
      destruct Ei as [E1|Ei], Ey as [E2|Ey]; [congruence| | |auto].
      - injection E1 as -> ->. exfalso. apply Hn. apply in_map_iff. exists (y, i). auto.
      - injection E2 as -> ->. exfalso. apply Hn. apply in_map_iff. exists (x, i). auto. }
    subst y. apply In_nth_error in Hh as (m & Em). pose proof (HD 0 (Datatypes.S m) g h x eq_refl Em Hx Hy). discriminate.
  - eapply (IH variant sel1); eauto.
Qed.

Lemma product_length {A} (ls : list (list A)) x : In x (product ls) -> length x = length ls.
Proof.
  revert x. induction ls as [|l ls IH]; intros x Hx; simpl in *.
  - destruct Hx as [<-|[]]. reflexivity.
  - apply in_flat_map in Hx as (y & _ & Hx). apply in_map_iff in Hx as (z & <- & Hz). simpl. f_equal. auto.
Qed.

Lemma same_variant cs im vc max vs sel a b i j : imap_ok im -> chained [] (same_sets cs) ->
  enumerate_block_variants cs im vc max = Some vs -> In sel vs ->
  tied (same_sets cs) a b -> dget String.eqb im a = Some i -> dget String.eqb im b = Some j ->
  nth_error sel i = nth_error sel j.
Proof.
  intros Him Hc E Hsel Ht Ei Ej. unfold enumerate_block_variants in E.
  destruct (group_variants vc (all_groups cs im)) as [gv|] eqn:Egv; [|discriminate].
  assert (exists variant, In variant (product gv) /\ selection im (all_groups cs im) variant = Some sel) as (variant & Hv & Es).
  { apply mapM_forall2 in E.
    assert (G : exists variant, In variant (if 1 <=? max then product gv else firstn 1 (product gv)) /\ selection im (all_groups cs im) variant = Some sel).
    { revert Hsel. induction E as [|v s vs' ss E1 E2 IH]; [intros []|]. intros [->|Hs]; [exists v; simpl; auto|]. destruct (IH Hs) as (v' & ? & ?). exists v'; simpl; auto. }
    destruct G as (variant & Hv & Es). exists variant. split; auto. destruct (1 <=? max); auto.
    destruct (product gv); [destruct Hv|]. destruct Hv as [<-|[]]. now left. }
  assert (Hlen : length variant = length (all_groups cs im)).
  { rewrite (product_length _ _ Hv). unfold group_variants in Egv. apply mapM_forall2 in Egv. symmetry. clear - Egv. induction Egv; simpl; auto. }
  pose proof (groups_inv cs Hc) as HI. pose proof (all_groups_disj cs im (proj1 Him) Hc) as HD.
  assert (T : a = b \/ exists S, In S (same_sets cs) /\ In a S). { destruct Ht; [left; reflexivity|right; eauto]. }
  destruct T as [->|(S & HS & HaS)]; [congruence|].
  destruct (gi_cover _ _ HI S HS) as (g & Hg & Hi). assert (Hag := Hi _ HaS). assert (Hbg := ginv_closed _ _ _ _ _ HI Hg Hag Ht).
  assert (Hg' : In g (all_groups cs im)) by (apply in_or_app; now left). apply In_nth_error in Hg' as (n & En).
  assert (exists v, nth_error variant n = Some v) as (v & Ev).
  { destruct (nth_error variant n) eqn:E'; [eauto|]. apply nth_error_None in E'. assert (n < length (all_groups cs im)) by (apply nth_error_Some; congruence). lia. }
  pose proof (im_nodup im Him) as Hnd.
  rewrite (selection_get _ _ _ _ Hnd HD Es Hlen n g v a i En Ev Hag Ei). now rewrite (selection_get _ _ _ _ Hnd HD Es Hlen n g v b j En Ev Hbg Ej).
Qed.
