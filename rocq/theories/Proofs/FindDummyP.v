(** Lemmas on find_dummy_hier. *)
From Coq Require Import String.
From Verif Require Import Base.Prelude Base.PyDict Model.RemoveDuplicates Model.Canvas Model.Netlist Model.Hier Spec.HierSpec Proofs.HierP.

Scheme visit_mut := Minimality for visit Sort Prop with visits_mut := Minimality for visits Sort Prop.
Combined Scheme visit_visits from visit_mut, visits_mut.

Lemma single_iff c : single c = true <-> length (sb_elems c) = 1%nat. Proof. apply Nat.eqb_eq. Qed.
Lemma is_sub_iff L n : is_sub L n = true <-> exists s, lfind L n = Some (Sub s).
Proof. unfold is_sub. destruct (lfind L n) as [[|s]|]; split; try discriminate; try (intros (? & ?); discriminate); eauto. Qed.
Lemma find_name L n s : lfind L n = Some (Sub s) -> sb_name s = n. Proof. intros H. exact (proj2 (lfind_in _ _ _ H)). Qed.
Lemma below_step L c s t m : instantiates L c m -> lfind L m = Some (Sub s) -> reaches L s t -> below L c t.
Proof. intros H1 H2 [->|H3]; [exact (below_child L c s m H1 H2)|exact (below_trans L c s t m H1 H2 H3)]. Qed.
Lemma below_inv L c t : below L c t -> exists s m, instantiates L c m /\ lfind L m = Some (Sub s) /\ reaches L s t.
Proof. intros H. inversion H; subst; [exists t, m; unfold reaches; auto|exists s, m; unfold reaches; auto]. Qed.
Lemma below_find L c t : below L c t -> lfind L (sb_name t) = Some (Sub t).
Proof. intros H. induction H as [c s m Hi Hf|c s t m Hi Hf Hb IH]; [rewrite (find_name _ _ _ Hf); assumption|assumption]. Qed.

(** What is added. *)
Lemma visit_sound_all L :
  (forall c d d', visit L c d d' -> exists new, d' = d ++ new /\ forall n, In n new -> exists s, sb_name s = n /\ reaches L c s /\ length (sb_elems s) = 1%nat) /\
  (forall p d d', visits L p d d' -> exists new, d' = d ++ new /\ forall n, In n new -> exists m s t, In m p /\ lfind L m = Some (Sub s) /\ sb_name t = n /\ reaches L s t /\ length (sb_elems t) = 1%nat).
Proof.
  apply visit_visits.
  - intros c d p d1 Hp Hv (new & -> & IH).
    assert (K : forall n, In n new -> exists s, sb_name s = n /\ reaches L c s /\ length (sb_elems s) = 1%nat).
    { intros n Hn. destruct (IH n Hn) as (m & s & t & Hm & Hs & Ht & Hr & H1). exists t. split; [assumption|]. split; [|assumption]. right. apply (proj2 Hp) in Hm as ((e & He & Em & _) & _). apply (below_step L c s t m); [exists e; auto|assumption|assumption]. }
    destruct (single c) eqn:E.
    + exists (new ++ [sb_name c]). split; [now rewrite app_assoc|]. intros n Hn. apply in_app_iff in Hn as [Hn|[<-|[]]]; [auto|]. exists c. split; [reflexivity|]. split; [now left|]. now apply single_iff.
    + exists new. split; [reflexivity|assumption].
  - intros d. exists []. split; [now rewrite app_nil_r|intros n []].
  - intros m s ms d d1 d2 Hs Hv (n1 & -> & I1) Hvs (n2 & -> & I2). exists (n1 ++ n2). split; [now rewrite app_assoc|]. intros n Hn. apply in_app_iff in Hn as [Hn|Hn].
    + destruct (I1 n Hn) as (t & Ht & Hr & H1). exists m, s, t. split; [now left|auto].
    + destruct (I2 n Hn) as (m' & s' & t & Hm & R). exists m', s', t. split; [now right|assumption].
Qed.

(** Every listed hierarchy comes after the single-instance hierarchies below it. *)
Definition ordered (L : lib) (d : list string) : Prop := forall l1 m l2 s t, d = l1 ++ m :: l2 -> lfind L m = Some (Sub s) -> below L s t -> length (sb_elems t) = 1%nat -> In (sb_name t) l1.
Lemma ordered_closed L d m s t : ordered L d -> In m d -> lfind L m = Some (Sub s) -> reaches L s t -> length (sb_elems t) = 1%nat -> In (sb_name t) d.
Proof.
  intros Ho Hm Hs Hr H1. apply in_split in Hm as (l1 & l2 & ->). destruct Hr as [->|Hb].
  - rewrite (find_name _ _ _ Hs). apply in_elt.
  - apply in_app_iff. left. exact (Ho l1 m l2 s t eq_refl Hs Hb H1).
Qed.
Lemma ordered_snoc L d n : ordered L d -> (forall s t, lfind L n = Some (Sub s) -> below L s t -> length (sb_elems t) = 1%nat -> In (sb_name t) d) -> ordered L (d ++ [n]).
Proof.
  intros Ho H l1 m l2 s t E Hs Hb H1. destruct (list_eq_dec String.string_dec l2 []) as [->|Hne].
  - apply app_inj_tail in E as (<- & <-). exact (H s t Hs Hb H1).
  - destruct (exists_last Hne) as (l3 & x & ->). rewrite app_comm_cons, app_assoc in E. apply app_inj_tail in E as (-> & _). exact (Ho l1 m l3 s t eq_refl Hs Hb H1).
Qed.
Lemma visit_complete_all L : NoDup (map cell_name L) ->
  (forall c d d', visit L c d d' -> lfind L (sb_name c) = Some (Sub c) -> ordered L d -> ordered L d' /\ forall s, reaches L c s -> length (sb_elems s) = 1%nat -> In (sb_name s) d') /\
  (forall p d d', visits L p d d' -> ordered L d -> ordered L d' /\ forall m s t, In m p -> lfind L m = Some (Sub s) -> reaches L s t -> length (sb_elems t) = 1%nat -> In (sb_name t) d').
Proof.
  intros Hnd. apply visit_visits.
  - intros c d p d1 Hp Hv IH Hc Ho. destruct (IH Ho) as (O1 & C1).
    assert (B : forall t, below L c t -> length (sb_elems t) = 1%nat -> In (sb_name t) d1).
    { intros t Hb H1. apply below_inv in Hb as (s & m & (e & He & Em) & Hs & Hr). destruct (in_dec String.string_dec m d) as [Hd|Hd].
      - destruct (proj2 (visit_sound_all L) _ _ _ Hv) as (new & -> & _). apply in_app_iff. left. exact (ordered_closed L d m s t Ho Hd Hs Hr H1).
      - apply (C1 m s t); [|assumption|assumption|assumption]. apply (proj2 Hp). split; [|assumption]. exists e. split; [assumption|]. split; [assumption|]. apply is_sub_iff. eauto. }
    destruct (single c) eqn:E.
    + split.
      * apply ordered_snoc; [assumption|]. intros s t Hs Hb H1. rewrite Hc in Hs. injection Hs as <-. exact (B t Hb H1).
      * intros s [->|Hb] H1; apply in_app_iff; [right; now left|left; exact (B s Hb H1)].
    + split; [assumption|]. intros s [->|Hb] H1; [|exact (B s Hb H1)]. apply single_iff in H1. congruence.
  - intros d Ho. split; [assumption|intros m s t []].
  - intros m s ms d d1 d2 Hs Hv IHv Hvs IHs Ho. assert (Hn : lfind L (sb_name s) = Some (Sub s)) by (rewrite (find_name _ _ _ Hs); assumption).
    destruct (IHv Hn Ho) as (O1 & C1). destruct (IHs O1) as (O2 & C2). split; [assumption|]. intros m' s' t [<-|Hm] Hs' Hr H1; [|exact (C2 m' s' t Hm Hs' Hr H1)].
    rewrite Hs in Hs'. injection Hs' as <-. destruct (proj2 (visit_sound_all L) _ _ _ Hvs) as (new & -> & _). apply in_app_iff. left. exact (C1 t Hr H1).
Qed.

(** Nothing is listed twice. *)
Lemma rank_below L (rank : string -> nat) c t : (forall c s m, In (Sub c) L -> instantiates L c m -> lfind L m = Some (Sub s) -> (rank (sb_name s) < rank (sb_name c))%nat) -> In (Sub c) L -> below L c t -> (rank (sb_name t) < rank (sb_name c))%nat.
Proof.
  intros Hr Hc Hb. induction Hb as [c s m Hi Hf|c s t m Hi Hf Hb IH]; [exact (Hr c s m Hc Hi Hf)|]. specialize (IH (proj1 (lfind_in _ _ _ Hf))). pose proof (Hr c s m Hc Hi Hf). lia.
Qed.
Lemma visit_nodup_all L : acyclic L -> apart L ->
  (forall c d d', visit L c d d' -> lfind L (sb_name c) = Some (Sub c) -> NoDup d -> ~ In (sb_name c) d \/ length (sb_elems c) <> 1%nat -> NoDup d') /\
  (forall p d d', visits L p d d' -> NoDup d -> NoDup p -> (forall m, In m p -> exists s, lfind L m = Some (Sub s) /\ (~ In m d \/ length (sb_elems s) <> 1%nat)) ->
     (forall m1 m2 s1 s2, In m1 p -> In m2 p -> lfind L m1 = Some (Sub s1) -> lfind L m2 = Some (Sub s2) -> length (sb_elems s2) = 1%nat -> ~ below L s1 s2) -> NoDup d').
Proof.
  intros (rank & Hrank) Hap. apply visit_visits.
  - intros c d p d1 Hp Hv IH Hc Hd Hno. pose proof (proj1 (lfind_in _ _ _ Hc)) as HcL.
    assert (N : NoDup d1).
    { apply IH; [assumption|exact (proj1 Hp)| |].
      - intros m Hm. apply (proj2 Hp) in Hm as ((e & He & Em & Hs) & Hn). apply is_sub_iff in Hs as (s & Hs). exists s. auto.
      - intros m1 m2 s1 s2 H1 H2 F1 F2 L2. apply (proj2 Hp) in H1 as ((e1 & He1 & E1 & _) & _). apply (proj2 Hp) in H2 as ((e2 & He2 & E2 & _) & _). pose proof (find_name _ _ _ F1) as N1. pose proof (find_name _ _ _ F2) as N2.
        apply (Hap c s1 s2 HcL); [exists e1; split; congruence|exists e2; split; congruence|congruence|congruence|assumption]. }
    destruct (single c) eqn:E; [|assumption]. apply single_iff in E. apply Permutation_NoDup with (l := sb_name c :: d1); [apply Permutation_cons_append|]. constructor; [|assumption].
    destruct (proj2 (visit_sound_all L) _ _ _ Hv) as (new & -> & Hnew). intros Hin. apply in_app_iff in Hin as [Hin|Hin]; [destruct Hno as [Hno|Hno]; [exact (Hno Hin)|exact (Hno E)]|].
    destruct (Hnew _ Hin) as (m & s & t & Hm & Hs & Ht & Hr & _). apply (proj2 Hp) in Hm as ((e & He & Em & _) & _).
    assert (Hb : below L c t) by (apply (below_step L c s t m); [exists e; auto|assumption|assumption]). pose proof (rank_below L rank c t Hrank HcL Hb). rewrite Ht in *. lia.
  - auto.
  - intros m s ms d d1 d2 Hs Hv IHv Hvs IHs Hd Hp Hin Hap2. inversion Hp as [|? ? Hm Hms]; subst. pose proof (find_name _ _ _ Hs) as En. assert (Hf : lfind L (sb_name s) = Some (Sub s)) by congruence.
    destruct (Hin m (or_introl eq_refl)) as (s' & Hs' & Hno). rewrite Hs in Hs'. injection Hs' as <-. rewrite En in IHv. apply IHs; [apply IHv; assumption|assumption| |].
    + intros m' Hm'. destruct (Hin m' (or_intror Hm')) as (s' & Hs' & Hno'). exists s'. split; [assumption|]. destruct Hno' as [Hno'|Hno']; [|now right]. destruct (Nat.eq_dec (length (sb_elems s')) 1) as [E1|E1]; [left|now right].
      destruct (proj1 (visit_sound_all L) _ _ _ Hv) as (new & -> & Hnew). intros Hi. apply in_app_iff in Hi as [Hi|Hi]; [exact (Hno' Hi)|]. destruct (Hnew _ Hi) as (t & Ht & Hr & _).
      destruct Hr as [->|Hb]; [congruence|]. pose proof (below_find _ _ _ Hb) as Hft. rewrite Ht, Hs' in Hft. injection Hft as <-. exact (Hap2 m m' s s' (or_introl eq_refl) (or_intror Hm') Hs Hs' E1 Hb).
    + intros m1 m2 s1 s2 H1 H2. apply Hap2; now right.
Qed.

(** The traversal ends, in every order. *)
Definition children (L : lib) (c : sub) (d : list string) : list string := nodup String.string_dec (filter (fun m => is_sub L m && negb (in_strs m d)) (map e_model (sb_elems c))).
Lemma children_ok L c d : lists_children L c d (children L c d).
Proof.
  split; [apply NoDup_nodup|]. intros m. unfold children. rewrite nodup_In, filter_In, in_map_iff, Bool.andb_true_iff, Bool.negb_true_iff. split.
  - intros ((e & Em & He) & Hs & Hn). split; [exists e; auto|]. intros Hd. apply in_strs_iff in Hd. congruence.
  - intros ((e & He & Em & Hs) & Hn). split; [exists e; auto|]. split; [assumption|]. destruct (in_strs m d) eqn:E; [|reflexivity]. apply in_strs_iff in E. contradiction.
Qed.
Lemma lists_children_perm L c d p q : lists_children L c d p -> Permutation p q -> lists_children L c d q.
Proof. intros (H1 & H2) P. split; [exact (Permutation_NoDup P H1)|]. intros m. rewrite <- H2. split; apply Permutation_in; [now apply Permutation_sym|assumption]. Qed.
Lemma visits_total L p : (forall m, In m p -> exists s, lfind L m = Some (Sub s) /\ forall d, exists d', visit L s d d') -> forall d, exists d', visits L p d d'.
Proof.
  induction p as [|m p IH]; intros H d; [exists d; constructor|]. destruct (H m (or_introl eq_refl)) as (s & Hs & Hv). destruct (Hv d) as (d1 & V1). destruct (IH (fun m' Hm' => H m' (or_intror Hm')) d1) as (d2 & V2). exists d2. exact (visits_cons L m s p d d1 d2 Hs V1 V2).
Qed.
Lemma visit_total_any L : acyclic L -> forall c, In (Sub c) L -> forall d p, lists_children L c d p -> exists d1, visits L p d d1.
Proof.
  intros (rank & Hrank). enough (K : forall n c, (rank (sb_name c) < n)%nat -> In (Sub c) L -> forall d p, lists_children L c d p -> exists d1, visits L p d d1) by (intros c; apply (K (Datatypes.S (rank (sb_name c))) c); lia).
  induction n as [|n IH]; intros c Hn Hc d p Hp; [lia|]. apply visits_total. intros m Hm. apply (proj2 Hp) in Hm as ((e & He & Em & Hs) & _). apply is_sub_iff in Hs as (s & Hs). exists s. split; [assumption|]. intros d0.
  assert (Hr : (rank (sb_name s) < rank (sb_name c))%nat) by (apply (Hrank c s m Hc); [exists e; auto|assumption]). destruct (IH s ltac:(lia) (proj1 (lfind_in _ _ _ Hs)) d0 _ (children_ok L s d0)) as (d1 & V). eexists. exact (visit_intro L s d0 _ d1 (children_ok L s d0) V).
Qed.
Lemma visit_exists L c d : acyclic L -> In (Sub c) L -> exists d', visit L c d d'.
Proof. intros A Hc. destruct (visit_total_any L A c Hc d _ (children_ok L c d)) as (d1 & V). eexists. exact (visit_intro L c d _ d1 (children_ok L c d) V). Qed.

(** A second removal fails. *)
Lemma drop_absent L n : lfind (drop_cell L n) n = None.
Proof. destruct (lfind _ n) as [c|] eqn:E; [|reflexivity]. apply lfind_in in E as (H & <-). unfold drop_cell in H. apply filter_In in H as (_ & H). rewrite String.eqb_refl in H. discriminate. Qed.
Lemma foldM_names L dh y cells : forall out yp out' yp', foldM (replace_cell L dh y) cells (out, yp) = Some (out', yp') -> map cell_name out' = map cell_name out ++ map cell_name cells.
Proof.
  induction cells as [|c cells IH]; intros out yp out' yp' H; cbn [foldM] in H; [injection H as <- <-; now rewrite app_nil_r|].
  destruct (replace_cell L dh y (out, yp) c) as [(o1, y1)|] eqn:E; [|discriminate]. rewrite (IH _ _ _ _ H). unfold replace_cell in E. destruct c as [l|o].
  - injection E as <- _. rewrite map_app, <- app_assoc. reflexivity.
  - destruct (String.eqb (sb_name o) dh); [injection E as <- _; rewrite map_app, <- app_assoc; reflexivity|]. destruct (replace_in _ _ _ _ _) as [r|]; [|discriminate]. cbn in E. injection E as <- _. rewrite map_app, <- app_assoc. reflexivity.
Qed.
Lemma lfind_none L n : lfind L n = None <-> ~ In n (map cell_name L).
Proof.
  unfold lfind. split.
  - intros H Hi. apply in_map_iff in Hi as (c & <- & Hc). pose proof (find_none _ _ H c Hc) as K. cbv beta in K. rewrite String.eqb_refl in K. discriminate.
  - intros H. destruct (find _ L) as [c|] eqn:E; [|reflexivity]. apply find_some in E as (Hc & E). apply String.eqb_eq in E. exfalso. apply H. apply in_map_iff. eauto.
Qed.
Lemma remove_dummy_absent L dh L' : remove_dummy L dh = Some L' -> lfind L' dh = None /\ forall n, lfind L n = None -> lfind L' n = None.
Proof.
  unfold remove_dummy. destruct (lfind L dh) as [[|ckt]|]; try discriminate. destruct (sb_elems ckt) as [|y ?]; [discriminate|]. destruct (foldM _ _ _) as [(out, yp)|] eqn:E; [|discriminate]. cbn [option_map fst]. intros H. injection H as <-.
  split; [apply drop_absent|]. intros n Hn. apply lfind_none. apply lfind_none in Hn. intros Hi. apply Hn. pose proof (foldM_names _ _ _ _ _ _ _ _ E) as Hm. cbn in Hm. rewrite <- Hm. unfold drop_cell in Hi. apply in_map_iff in Hi as (c & <- & Hc). apply filter_In in Hc as (Hc & _). now apply in_map.
Qed.
Lemma remove_missing l : forall L r top n, ~ In top l -> lfind L n = None -> In n l -> remove_dummies L (l ++ r) top = None.
Proof.
  induction l as [|dh l IH]; intros L r top n Ht Hn Hi; [destruct Hi|]. cbn [app remove_dummies]. destruct (String.eqb_spec dh top) as [->|_]; [exfalso; apply Ht; now left|].
  destruct (remove_dummy L dh) as [L1|] eqn:E; [|reflexivity]. destruct (remove_dummy_absent _ _ _ E) as (_ & K). destruct Hi as [->|Hi]; [unfold remove_dummy in E; rewrite Hn in E; discriminate|]. apply (IH L1 r top n); [intros H; apply Ht; now right|exact (K n Hn)|assumption].
Qed.
Lemma remove_twice l : forall L r top, ~ In top l -> ~ NoDup l -> remove_dummies L (l ++ r) top = None.
Proof.
  induction l as [|dh l IH]; intros L r top Ht Hd; [exfalso; apply Hd; constructor|]. cbn [app remove_dummies]. destruct (String.eqb_spec dh top) as [->|_]; [exfalso; apply Ht; now left|].
  destruct (remove_dummy L dh) as [L1|] eqn:E; [|reflexivity]. assert (Ht' : ~ In top l) by (intros H; apply Ht; now right). destruct (in_dec String.string_dec dh l) as [Hi|Hi].
  - exact (remove_missing l L1 r top dh Ht' (proj1 (remove_dummy_absent _ _ _ E)) Hi).
  - apply IH; [assumption|]. intros H. apply Hd. now constructor.
Qed.
