(** Proofs about the merging of symmetry constraints. *)
From Verif Require Import Base.Prelude Model.SeqEnum Spec.SeqEnumSpec Proofs.SeqEnumP Proofs.SeqSearchP Model.SymmGroup Spec.SymmGroupSpec.

Lemma nodup_disj A (a b : list A) : NoDup a -> NoDup b -> (forall x, In x a -> ~ In x b) -> NoDup (a ++ b).
Proof.
  induction a as [|x a IH]; cbn; intros Ha Hb H; auto. inversion Ha; subst. constructor.
  - rewrite in_app_iff. intros [H1|H1]; [auto|]. exact (H x (or_introl eq_refl) H1).
  - apply IH; auto.
Qed.
Lemma set_nth_len A k (x : A) l : length (set_nth k x l) = length l.
Proof. revert k. induction l as [|y l IH]; intros [|k]; cbn; auto. Qed.
Lemma set_nth_same A k (x : A) l : k < length l -> nth_error (set_nth k x l) k = Some x.
Proof. revert k. induction l as [|y l IH]; intros [|k]; cbn; intros H; auto; try lia. apply IH. lia. Qed.
Lemma set_nth_other A k j (x : A) l : j <> k -> nth_error (set_nth k x l) j = nth_error l j.
Proof. revert k j. induction l as [|y l IH]; intros [|k] [|j] H; cbn; auto; try lia. Qed.

Lemma number_in A (l : list A) k x : In (k, x) (number l) <-> nth_error l k = Some x.
Proof.
  unfold number. split.
  - intros H. apply in_combine_seq in H as [_ H]. now rewrite Nat.sub_0_r in H.
  - intros H. exact (combine_seq_in _ _ k x 0 H).
Qed.

Lemma matches_in A eqb (Heq : forall a b : A, eqb a b = true <-> a = b) get sbs new j i :
  In (j, i) (matches eqb get sbs new) <->
  exists g x, nth_error sbs j = Some g /\ In x (get g) /\ nth_error new i = Some x.
Proof.
  unfold matches. rewrite in_flat_map. split.
  - intros ([j' g] & Hj & H). cbn in H. apply in_flat_map in H as (x & Hx & H).
    apply in_flat_map in H as ([i' y] & Hi & H). cbn in H. destruct (eqb x y) eqn:E; [|destruct H].
    destruct H as [H|[]]. injection H as -> ->. apply Heq in E. subst y.
    apply number_in in Hj, Hi. eauto.
  - intros (g & x & Hj & Hx & Hi). exists (j, g). split; [now apply number_in|]. cbn.
    apply in_flat_map. exists x. split; auto. apply in_flat_map. exists (i, x). split; [now apply number_in|].
    cbn. rewrite (proj2 (Heq x x) eq_refl). now left.
Qed.

Lemma pair_eqb_eq a b : pair_eqb a b = true <-> a = b.
Proof.
  destruct a as [a1 a2], b as [b1 b2]. unfold pair_eqb. cbn. rewrite andb_true_iff, !Nat.eqb_eq.
  split; [intros [-> ->]; reflexivity|intros H; injection H; auto].
Qed.
Lemma self_eqb_eq a b : self_eqb a b = true <-> a = b.
Proof.
  destruct a as [a1 a2], b as [b1 b2]. unfold self_eqb. cbn. rewrite andb_true_iff, Nat.eqb_eq.
  split.
  - intros [-> H]. destruct a2, b2; try discriminate; reflexivity.
  - intros H. injection H as -> ->. destruct b2; auto.
Qed.

Lemma unmatched_in A ms (new : list A) x :
  In x (unmatched ms new) <-> exists i, nth_error new i = Some x /\ ~ In i (map snd ms).
Proof.
  unfold unmatched. rewrite in_map_iff. split.
  - intros ([i y] & E & H). cbn in E. subst y. apply filter_In in H as [H1 H2]. cbn in H2.
    exists i. split; [now apply number_in|]. intros Hi. apply has_iff in Hi. rewrite Hi in H2. discriminate.
  - intros (i & H1 & H2). exists (i, x). split; auto. apply filter_In. split; [now apply number_in|]. cbn.
    destruct (has i (map snd ms)) eqn:E; auto. apply has_iff in E. contradiction.
Qed.
Lemma unmatched_nodup A ms (new : list A) : NoDup new -> NoDup (unmatched ms new).
Proof.
  unfold unmatched, number. generalize 0 at 1. induction new as [|x new IH]; intros n H; [constructor|].
  cbn [length seq combine filter]. inversion H; subst.
  destruct (negb _); cbn [map snd]; auto. constructor; auto.
  intros Hi. apply in_map_iff in Hi as ([k y] & E & Hi). cbn in E. subst y. apply filter_In in Hi as [Hi _].
  apply in_combine_r in Hi. contradiction.
Qed.

(** * Elements *)

Definition el (sbs : list group) (k : nat) : list elt := match nth_error sbs k with Some g => elems g | None => [] end.
Definition flat (sbs : list group) : list elt := flat_map elems sbs.

Lemma flat_in sbs x : In x (flat sbs) <-> exists k, In x (el sbs k).
Proof.
  unfold flat, el. rewrite in_flat_map. split.
  - intros (g & Hg & Hx). apply In_nth_error in Hg as (k & Hk). exists k. now rewrite Hk.
  - intros (k & Hx). destruct (nth_error sbs k) as [g|] eqn:E; [|destruct Hx]. exists g. split; auto. now apply nth_error_In in E.
Qed.

Lemma elems_app ps qs ss ts a : Permutation (elems (Group (ps ++ qs) (ss ++ ts) a)) (elems (Group ps ss a) ++ elems (Group qs ts a)).
Proof.
  unfold elems. cbn. rewrite !map_app, <- !app_assoc. apply Permutation_app_head.
  rewrite !app_assoc. apply Permutation_app_tail. apply Permutation_app_comm.
Qed.
Lemma elems_axis g a : elems (Group (g_pairs g) (g_self g) a) = elems g.
Proof. reflexivity. Qed.

Lemma flat_set sbs k g g' r : nth_error sbs k = Some g -> Permutation (elems g') (elems g ++ r) ->
  Permutation (flat (set_nth k g' sbs)) (flat sbs ++ r).
Proof.
  revert k. induction sbs as [|x sbs IH]; intros [|k] Hk Hp; try discriminate; cbn in *.
  - injection Hk as ->. unfold flat. cbn. rewrite Hp, <- !app_assoc. apply Permutation_app_head, Permutation_app_comm.
  - rewrite <- app_assoc. apply Permutation_app_head. now apply IH.
Qed.
Lemma flat_clear sbs k g a : nth_error sbs k = Some g -> Permutation (flat (set_nth k (Group [] [] a) sbs) ++ elems g) (flat sbs).
Proof.
  revert k. induction sbs as [|x sbs IH]; intros [|k] Hk; try discriminate; cbn in *.
  - injection Hk as ->. apply Permutation_app_comm.
  - rewrite <- app_assoc. apply Permutation_app_head. now apply IH.
Qed.

Lemma el_set sbs k g j : el (set_nth k g sbs) j = if (j =? k) && (k <? length sbs) then elems g else el sbs j.
Proof.
  unfold el. destruct (j =? k) eqn:E; cbn [andb].
  - apply Nat.eqb_eq in E. subst j. destruct (k <? length sbs) eqn:E.
    + apply Nat.ltb_lt in E. now rewrite set_nth_same.
    + apply Nat.ltb_ge in E. rewrite (proj2 (nth_error_None _ _)) by (rewrite set_nth_len; exact E).
      now rewrite (proj2 (nth_error_None _ _)).
  - apply Nat.eqb_neq in E. now rewrite set_nth_other.
Qed.

Lemma absorb_len g sbs j : length (absorb g sbs j) = length sbs.
Proof.
  unfold absorb. destruct (j =? g); auto. destruct (nth_error sbs g); auto. destruct (nth_error sbs j); auto.
  now rewrite !set_nth_len.
Qed.
Lemma absorb_flat g sbs j : g < length sbs -> j < length sbs -> Permutation (flat (absorb g sbs j)) (flat sbs).
Proof.
  intros Hg Hj. unfold absorb. destruct (j =? g) eqn:E; auto. apply Nat.eqb_neq in E.
  destruct (nth_error sbs g) as [a|] eqn:Ea; auto. destruct (nth_error sbs j) as [b|] eqn:Eb; auto.
  set (sb1 := set_nth g _ sbs).
  assert (nth_error sb1 j = Some b) as E1 by (unfold sb1; rewrite set_nth_other; auto).
  apply (Permutation_app_inv_r (elems b)). rewrite (flat_clear sb1 j b (g_axis b) E1).
  unfold sb1. apply flat_set with (g := a); auto.
  rewrite elems_app. reflexivity.
Qed.
Lemma absorb_el g sbs j k : g < length sbs -> j < length sbs ->
  forall x, In x (el (absorb g sbs j) k) <->
    (if k =? g then In x (el sbs g) \/ In x (el sbs j) else if k =? j then False else In x (el sbs k)).
Proof.
  intros Hg Hj x. unfold absorb. destruct (j =? g) eqn:E.
  - apply Nat.eqb_eq in E. subst j. destruct (k =? g) eqn:E; [apply Nat.eqb_eq in E; subst; tauto|tauto].
  - apply Nat.eqb_neq in E.
    destruct (nth_error sbs g) as [a|] eqn:Ea; [|apply nth_error_None in Ea; lia].
    destruct (nth_error sbs j) as [b|] eqn:Eb; [|apply nth_error_None in Eb; lia].
    rewrite !el_set, !set_nth_len, (proj2 (Nat.ltb_lt _ _) Hg), (proj2 (Nat.ltb_lt _ _) Hj), !andb_true_r.
    destruct (k =? j) eqn:E1.
    + apply Nat.eqb_eq in E1. subst k. rewrite (proj2 (Nat.eqb_neq _ _) E). cbn. tauto.
    + destruct (k =? g) eqn:E2; [|tauto].
      unfold el. rewrite Ea, Eb.
      rewrite (Permutation_in' (eq_refl x) (elems_app _ _ _ _ _)), in_app_iff. reflexivity.
Qed.

Lemma absorbs g js sbs : g < length sbs -> Forall (fun j => j < length sbs) js ->
  length (fold_left (absorb g) js sbs) = length sbs /\
  Permutation (flat (fold_left (absorb g) js sbs)) (flat sbs) /\
  forall k x, In x (el (fold_left (absorb g) js sbs) k) <->
    (if k =? g then exists j, In j (g :: js) /\ In x (el sbs j) else if has k js then False else In x (el sbs k)).
Proof.
  revert sbs. induction js as [|j js IH]; intros sbs Hg Hjs; cbn [fold_left].
  - split; auto. split; auto. intros k x. destruct (k =? g) eqn:E; cbn; [|tauto].
    apply Nat.eqb_eq in E. subst. split; [eauto|]. intros (j & [<-|[]] & H). exact H.
  - inversion Hjs as [|? ? Hj Hjs']; subst.
    destruct (IH (absorb g sbs j)) as (A & B & C).
    + now rewrite absorb_len.
    + eapply Forall_impl; [|exact Hjs']. intros. now rewrite absorb_len.
    + split; [rewrite A; apply absorb_len|]. split; [rewrite B; now apply absorb_flat|].
      intros k x. rewrite C. destruct (k =? g) eqn:E.
      * split.
        -- intros (j' & Hj' & Hx). rewrite absorb_el in Hx by auto.
           destruct (j' =? g) eqn:E1.
           ++ destruct Hx as [Hx|Hx]; [exists g|exists j]; cbn; auto.
           ++ destruct (j' =? j) eqn:E2; [destruct Hx|]. exists j'. split; auto. destruct Hj' as [Hj'|Hj']; cbn; auto.
        -- intros (j' & Hj' & Hx).
           destruct (Nat.eq_dec j' g) as [->|N1].
           ++ exists g. split; [now left|]. rewrite absorb_el by auto. rewrite Nat.eqb_refl. auto.
           ++ destruct (Nat.eq_dec j' j) as [->|N2].
              ** exists g. split; [now left|]. rewrite absorb_el by auto. rewrite Nat.eqb_refl. auto.
              ** exists j'. split; [destruct Hj' as [H|[H|H]]; cbn; subst; try tauto|].
                 rewrite absorb_el by auto. apply Nat.eqb_neq in N1, N2. now rewrite N1, N2.
      * pose proof (absorb_el g sbs j k Hg Hj x) as Q. rewrite E in Q.
        change (has k (j :: js)) with ((k =? j) || has k js).
        destruct (k =? j); cbn [orb]; destruct (has k js); tauto.
Qed.

Lemma absorb_axis g sbs j k : k <> g -> option_map g_axis (nth_error (absorb g sbs j) k) = option_map g_axis (nth_error sbs k).
Proof.
  intros H. unfold absorb. destruct (j =? g) eqn:E; auto.
  destruct (nth_error sbs g) as [a|] eqn:Ea; auto. destruct (nth_error sbs j) as [b|] eqn:Eb; auto.
  destruct (Nat.eq_dec k j) as [->|N].
  - rewrite set_nth_same; [now rewrite Eb|]. rewrite set_nth_len. apply nth_error_Some. congruence.
  - rewrite set_nth_other by auto. now rewrite set_nth_other by auto.
Qed.
Lemma absorb_keep g sbs j k : k <> g -> k <> j -> nth_error (absorb g sbs j) k = nth_error sbs k.
Proof.
  intros H H'. unfold absorb. destruct (j =? g) eqn:E; auto.
  destruct (nth_error sbs g) as [a|] eqn:Ea; auto. destruct (nth_error sbs j) as [b|] eqn:Eb; auto.
  rewrite set_nth_other by auto. now rewrite set_nth_other by auto.
Qed.
Lemma absorbs_keep g js sbs k : k <> g -> ~ In k js -> nth_error (fold_left (absorb g) js sbs) k = nth_error sbs k.
Proof.
  revert sbs. induction js as [|j js IH]; intros sbs H H'; cbn [fold_left]; auto.
  rewrite IH; [|auto|intros X; apply H'; now right]. apply absorb_keep; auto. intros ->. apply H'. now left.
Qed.
Lemma absorbs_axis g js sbs gr : nth_error (fold_left (absorb g) js sbs) g = Some gr ->
  exists j g0, In j (g :: js) /\ nth_error sbs j = Some g0 /\ g_axis gr = g_axis g0.
Proof.
  revert sbs. induction js as [|j js IH]; intros sbs H; cbn [fold_left] in H.
  - exists g, gr. cbn. auto.
  - apply IH in H as (j' & g0 & H1 & H2 & H3).
    destruct (Nat.eq_dec j' g) as [->|N].
    + unfold absorb in H2. destruct (j =? g) eqn:E; [exists g, g0; split; [now left|]; split; [exact H2|exact H3]|]. apply Nat.eqb_neq in E.
      destruct (nth_error sbs g) as [a|] eqn:Ea; [|congruence].
      destruct (nth_error sbs j) as [b|] eqn:Eb; [|exists g, g0; split; [now left|]; split; [congruence|exact H3]].
      rewrite set_nth_other in H2 by auto. rewrite set_nth_same in H2 by (apply nth_error_Some; congruence).
      injection H2 as <-. exists j, b. split; [cbn; auto|]. split; [auto|exact H3].
    + assert (In j' js) as H1' by (destruct H1; congruence).
      pose proof (absorb_axis g sbs j j' N) as Q. rewrite H2 in Q. destruct (nth_error sbs j') as [g1|] eqn:E1; [|discriminate].
      cbn in Q. injection Q as Q. exists j', g1. cbn. split; [auto|]. split; [auto|congruence].
Qed.

(** One merge. *)
Lemma merge_spec sbs c :
  NoDup (elems c) ->
  exists g js,
    let sbs' := merge sbs c in
    (** the new elements *)
    (exists new, Permutation (flat sbs') (flat sbs ++ new) /\ NoDup new /\
       (forall x, In x new <-> In x (elems c) /\ ~ In x (flat sbs))) /\
    length sbs <= length sbs' /\
    (** the groups *)
    (forall j, In j js <-> exists x, In x (el sbs j) /\ In x (elems c)) /\
    (g < length sbs -> In g js) /\ (js <> [] -> g < length sbs) /\
    (forall k x, In x (el sbs' k) <->
       (if k =? g then In x (elems c) \/ exists j, In j js /\ In x (el sbs j)
        else if has k js then False else In x (el sbs k))) /\
    (forall k gr, nth_error sbs' k = Some gr -> elems gr <> [] ->
       (nth_error sbs k = Some gr /\ k <> g) \/
       (k = g /\ (g_axis gr = g_axis c \/ exists j g0, In j js /\ nth_error sbs j = Some g0 /\ g_axis gr = g_axis g0))).
Proof.
  intros Hn.
  assert (NoDup (g_pairs c) /\ NoDup (g_self c)) as [Hnp Hns].
  { unfold elems in Hn. split.
    - apply NoDup_map_inv with (f := EPair). revert Hn. generalize (map ESelf (g_self c)). intros l.
      induction (map EPair (g_pairs c)) as [|a t IH]; cbn; intros H; constructor; inversion H; subst; auto.
      rewrite in_app_iff in *. tauto.
    - apply NoDup_map_inv with (f := ESelf). revert Hn.
      induction (map EPair (g_pairs c)) as [|a t IH]; cbn; auto. intros H. inversion H; auto. }
  unfold merge.
  set (mp := matches pair_eqb g_pairs sbs (g_pairs c)). set (ms := matches self_eqb g_self sbs (g_self c)).
  assert (forall j, In j (map fst mp) <-> exists x, In (EPair x) (el sbs j) /\ In (EPair x) (elems c)) as Hmp.
  { intros j. rewrite in_map_iff. split.
    - intros ([j' i] & E & H). cbn in E. subst j'. apply (matches_in _ _ pair_eqb_eq) in H as (g & x & H1 & H2 & H3).
      exists x. unfold el, elems. rewrite H1. split; apply in_or_app; left; apply in_map; auto. now apply nth_error_In in H3.
    - intros (x & H1 & H2). unfold el in H1. destruct (nth_error sbs j) as [g|] eqn:E; [|destruct H1].
      assert (forall h, In (EPair x) (elems h) -> In x (g_pairs h)) as Hx.
      { intros h H. unfold elems in H. apply in_app_or in H as [H|H]; apply in_map_iff in H as (y & Ey & Hy); congruence. }
      pose proof (Hx _ H2) as H3. apply In_nth_error in H3 as (i & Hi). exists (j, i). split; auto.
      apply (matches_in _ _ pair_eqb_eq). exists g, x. auto. }
  assert (forall j, In j (map fst ms) <-> exists x, In (ESelf x) (el sbs j) /\ In (ESelf x) (elems c)) as Hms.
  { intros j. rewrite in_map_iff. split.
    - intros ([j' i] & E & H). cbn in E. subst j'. apply (matches_in _ _ self_eqb_eq) in H as (g & x & H1 & H2 & H3).
      exists x. unfold el, elems. rewrite H1. split; apply in_or_app; right; apply in_map; auto. now apply nth_error_In in H3.
    - intros (x & H1 & H2). unfold el in H1. destruct (nth_error sbs j) as [g|] eqn:E; [|destruct H1].
      assert (forall h, In (ESelf x) (elems h) -> In x (g_self h)) as Hx.
      { intros h H. unfold elems in H. apply in_app_or in H as [H|H]; apply in_map_iff in H as (y & Ey & Hy); congruence. }
      pose proof (Hx _ H2) as H3. apply In_nth_error in H3 as (i & Hi). exists (j, i). split; auto.
      apply (matches_in _ _ self_eqb_eq). exists g, x. auto. }
  assert (forall x, In x (unmatched mp (g_pairs c)) <-> In (EPair x) (elems c) /\ ~ In (EPair x) (flat sbs)) as Hup.
  { intros x. rewrite unmatched_in. split.
    - intros (i & H1 & H2). split; [apply in_or_app; left; apply in_map; now apply nth_error_In in H1|].
      intros H. apply flat_in in H as (j & H). unfold el in H. destruct (nth_error sbs j) as [g|] eqn:E; [|destruct H].
      apply H2. apply in_map_iff. exists (j, i). split; auto. apply (matches_in _ _ pair_eqb_eq). exists g, x. split; auto. split; auto.
      unfold elems in H. apply in_app_or in H as [H|H]; apply in_map_iff in H as (y & Ey & Hy); congruence.
    - intros (H1 & H2).
      assert (In x (g_pairs c)) as H3 by (apply in_app_or in H1 as [H|H]; apply in_map_iff in H as (y & Ey & Hy); congruence).
      apply In_nth_error in H3 as (i & Hi). exists i. split; auto. intros H. apply in_map_iff in H as ([j i'] & E & H). cbn in E. subst i'.
      apply (matches_in _ _ pair_eqb_eq) in H as (g & y & A & B & C). rewrite Hi in C. injection C as <-. apply H2.
      apply flat_in. exists j. unfold el. rewrite A. apply in_or_app. left. now apply in_map. }
  assert (forall x, In x (unmatched ms (g_self c)) <-> In (ESelf x) (elems c) /\ ~ In (ESelf x) (flat sbs)) as Hus.
  { intros x. rewrite unmatched_in. split.
    - intros (i & H1 & H2). split; [apply in_or_app; right; apply in_map; now apply nth_error_In in H1|].
      intros H. apply flat_in in H as (j & H). unfold el in H. destruct (nth_error sbs j) as [g|] eqn:E; [|destruct H].
      apply H2. apply in_map_iff. exists (j, i). split; auto. apply (matches_in _ _ self_eqb_eq). exists g, x. split; auto. split; auto.
      unfold elems in H. apply in_app_or in H as [H|H]; apply in_map_iff in H as (y & Ey & Hy); congruence.
    - intros (H1 & H2).
      assert (In x (g_self c)) as H3 by (apply in_app_or in H1 as [H|H]; apply in_map_iff in H as (y & Ey & Hy); congruence).
      apply In_nth_error in H3 as (i & Hi). exists i. split; auto. intros H. apply in_map_iff in H as ([j i'] & E & H). cbn in E. subst i'.
      apply (matches_in _ _ self_eqb_eq) in H as (g & y & A & B & C). rewrite Hi in C. injection C as <-. apply H2.
      apply flat_in. exists j. unfold el. rewrite A. apply in_or_app. right. now apply in_map. }
  assert (forall A (new : list A), unmatched [] new = new) as Hnil.
  { intros A new. unfold unmatched, number. generalize 0. induction new as [|x new IH]; intros n; [reflexivity|].
    cbn [length seq combine filter]. cbn. f_equal. apply IH. }
  assert (forall j, In j (map fst mp ++ map fst ms) -> j < length sbs) as Hlt.
  { intros j H. rewrite in_app_iff, Hmp, Hms in H. apply nth_error_Some. intros E. unfold el in H. rewrite E in H.
    destruct H as [(x & H & _)|(x & H & _)]; destruct H. }
  (* the common form *)
  assert (forall js g ax, (forall j, In j js <-> In j (map fst mp ++ map fst ms)) -> In g js -> (forall x, ax = Some x -> x = g_axis c) ->
    let sbs' := extend g (unmatched mp (g_pairs c)) (unmatched ms (g_self c)) ax (fold_left (absorb g) js sbs) in
    (exists new, Permutation (flat sbs') (flat sbs ++ new) /\ NoDup new /\
       (forall x, In x new <-> In x (elems c) /\ ~ In x (flat sbs))) /\
    length sbs <= length sbs' /\
    (forall j, In j js <-> exists x, In x (el sbs j) /\ In x (elems c)) /\
    (g < length sbs -> In g js) /\ (js <> [] -> g < length sbs) /\
    (forall k x, In x (el sbs' k) <->
       (if k =? g then In x (elems c) \/ exists j, In j js /\ In x (el sbs j)
        else if has k js then False else In x (el sbs k))) /\
    (forall k gr, nth_error sbs' k = Some gr -> elems gr <> [] ->
       (nth_error sbs k = Some gr /\ k <> g) \/
       (k = g /\ (g_axis gr = g_axis c \/ exists j g0, In j js /\ nth_error sbs j = Some g0 /\ g_axis gr = g_axis g0)))) as Hform.
  { intros js g ax Hjs Hg Hax sbs'.
    assert (g < length sbs) as Hgl by (apply Hlt, Hjs, Hg).
    assert (Forall (fun j => j < length sbs) js) as Hjl by (apply Forall_forall; intros j Hj; apply Hlt, Hjs, Hj).
    destruct (absorbs g js sbs Hgl Hjl) as (A & B & C).
    set (s1 := fold_left (absorb g) js sbs) in *.
    assert (forall j, In j js <-> exists x, In x (el sbs j) /\ In x (elems c)) as Hjs'.
    { intros j. rewrite Hjs, in_app_iff, Hmp, Hms. split.
      - intros [(x & H)|(x & H)]; eauto.
      - intros ([x|x] & H); eauto. }
    destruct (nth_error s1 g) as [a|] eqn:Ea; [|apply nth_error_None in Ea; lia].
    set (new := elems (Group (unmatched mp (g_pairs c)) (unmatched ms (g_self c)) DirH)).
    assert (forall x, In x new <-> In x (elems c) /\ ~ In x (flat sbs)) as Hnew.
    { intros x. unfold new, elems. cbn. rewrite in_app_iff, !in_map_iff. split.
      - intros [(y & <- & H)|(y & <- & H)]; [now apply Hup|now apply Hus].
      - intros H. destruct x as [y|y]; [left|right]; exists y; split; auto; [now apply Hup|now apply Hus]. }
    assert (exists x, nth_error sbs' g = Some x /\ Permutation (elems x) (elems a ++ new) /\ sbs' = set_nth g x s1) as (x' & Hx1 & Hx2 & Hx3).
    { unfold sbs', extend. rewrite Ea. eexists. split; [apply set_nth_same; lia|]. split; [|reflexivity].
      rewrite elems_app. reflexivity. }
    split; [|split; [|split; [exact Hjs'|split; [auto|split; [auto|split]]]]].
    - exists new. split; [|split; [|exact Hnew]].
      + rewrite Hx3. rewrite <- B. apply flat_set with (g := a); auto.
      + unfold new, elems. cbn. apply nodup_disj.
        * apply FinFun.Injective_map_NoDup; [intros u v E; congruence|]. now apply unmatched_nodup.
        * apply FinFun.Injective_map_NoDup; [intros u v E; congruence|]. now apply unmatched_nodup.
        * intros u H1 H2. apply in_map_iff in H1 as (? & <- & _). apply in_map_iff in H2 as (? & E & _). discriminate.
    - rewrite Hx3, set_nth_len. lia.
    - intros k x. rewrite Hx3, el_set. rewrite (proj2 (Nat.ltb_lt g (length s1))) by lia. rewrite andb_true_r.
      destruct (k =? g) eqn:Ek; [|rewrite C, Ek; reflexivity].
      rewrite (Permutation_in' (eq_refl x) Hx2), in_app_iff, Hnew.
      pose proof (C g x) as Cg. unfold el at 1 in Cg. rewrite Ea, Nat.eqb_refl in Cg. rewrite Cg. split.
      + intros [(j & Hj & Hx)|[H _]]; [|auto]. right. exists j. split; auto. destruct Hj as [<-|Hj]; auto.
      + intros [H|(j & Hj & Hx)]; [|left; exists j; split; cbn; auto].
        destruct (in_dec (fun a b : elt => ltac:(decide equality; decide equality; try apply Nat.eq_dec; decide equality)) x (flat sbs)) as [Hf|Hf]; [|auto].
        left. apply flat_in in Hf as (j & Hj). exists j. split; auto. right. apply Hjs'. eauto.
    - intros k gr Hk Hne. destruct (Nat.eq_dec k g) as [->|N].
      + right. split; auto. rewrite Hx1 in Hk. injection Hk as ->.
        assert (g_axis gr = g_axis c \/ g_axis gr = g_axis a) as [H|H]; [|auto|].
        { unfold sbs', extend in Hx1. rewrite Ea in Hx1. rewrite set_nth_same in Hx1 by lia. injection Hx1 as <-.
          cbn. destruct ax as [x|]; [|auto]. left. apply Hax. reflexivity. }
        right. destruct (absorbs_axis g js sbs a Ea) as (j & g0 & H1 & H2 & H3). exists j, g0.
        split; [destruct H1 as [<-|H1]; auto|]. split; [auto|congruence].
      + left. split; auto. rewrite Hx3, set_nth_other in Hk by auto.
        destruct (in_dec Nat.eq_dec k js) as [Hi|Hi]; [|rewrite <- Hk; symmetry; now apply absorbs_keep].
        destruct (elems gr) as [|x l] eqn:El; [congruence|]. pose proof (proj1 (C k x)) as Q.
        unfold el at 1 in Q. rewrite Hk, El, (proj2 (Nat.eqb_neq _ _) N), (proj2 (has_iff k js) Hi) in Q. destruct (Q (or_introl eq_refl)). }
  destruct mp as [|[j0 i0] mp'] eqn:Ep; destruct ms as [|[j1 i1] ms'] eqn:Es; cbn [fst].
  - exists (length sbs), []. cbn zeta.
    assert (forall x, In x (elems c) -> ~ In x (flat sbs)) as Hno.
    { intros x H1 H2. apply flat_in in H2 as (j & H2). destruct x as [x|x].
      - apply (Hmp j). eauto.
      - apply (Hms j). eauto. }
    split; [|split; [|split; [|split; [|split; [|split]]]]].
    + exists (elems c). unfold flat at 1. rewrite flat_map_app. cbn. rewrite app_nil_r. split; [reflexivity|]. split; auto.
      intros x. split; [|tauto]. auto.
    + rewrite app_length. lia.
    + intros j. split; [intros []|]. intros (x & H1 & H2). destruct (Hno x H2). apply flat_in. eauto.
    + lia.
    + congruence.
    + intros k x. unfold el. destruct (k =? length sbs) eqn:E.
      * apply Nat.eqb_eq in E. subst k. rewrite nth_error_app2 by lia. rewrite Nat.sub_diag. cbn.
        split; [auto|]. intros [H|(j & [] & _)]. exact H.
      * cbn [has]. apply Nat.eqb_neq in E. destruct (Nat.lt_ge_cases k (length sbs)) as [H|H].
        -- now rewrite nth_error_app1.
        -- rewrite (proj2 (nth_error_None (sbs ++ [c]) k)) by (rewrite app_length; cbn; lia).
           rewrite (proj2 (nth_error_None sbs k)) by lia. reflexivity.
    + intros k gr Hk Hne. destruct (Nat.lt_ge_cases k (length sbs)) as [H|H].
      * rewrite nth_error_app1 in Hk by auto. left. split; [auto|lia].
      * assert (k < length (sbs ++ [c])) as H' by (apply nth_error_Some; congruence). rewrite app_length in H'. cbn in H'.
        right. replace k with (length sbs) in * by lia. split; auto. rewrite nth_error_app2, Nat.sub_diag in Hk by lia. cbn in Hk. left. congruence.
  - specialize (Hform (map fst ((j1, i1) :: ms')) j1 (Some (g_axis c))). rewrite Hnil in Hform.
    exists j1, (map fst ((j1, i1) :: ms')). apply Hform; [intros j; reflexivity|now left|congruence].
  - specialize (Hform (map fst ((j0, i0) :: mp')) j0 None). rewrite Hnil in Hform.
    exists j0, (map fst ((j0, i0) :: mp')). apply Hform; [intros j; rewrite in_app_iff; cbn; tauto|now left|congruence].
  - specialize (Hform (map fst ((j1, i1) :: ms') ++ map fst ((j0, i0) :: mp')) j1 (Some (g_axis c))).
    rewrite fold_left_app in Hform.
    exists j1, (map fst ((j1, i1) :: ms') ++ map fst ((j0, i0) :: mp')). apply Hform; [intros j; rewrite !in_app_iff; tauto|now left|congruence].
Qed.

Lemma el_unique sbs k k' x : NoDup (flat sbs) -> In x (el sbs k) -> In x (el sbs k') -> k = k'.
Proof.
  unfold flat, el. revert k k'. induction sbs as [|g sbs IH]; intros [|k] [|k'] Hn H H'; cbn in *; try contradiction; auto.
  - exfalso. assert (In x (flat_map elems sbs)) as Q by (apply flat_in; exists k'; exact H').
    revert Hn Q. clear - H. induction (elems g) as [|y l IHl]; [destruct H|]. cbn. intros Hn Q. inversion Hn as [|? ? N1 N2]; subst.
    destruct H as [->|H]; [apply N1, in_or_app; auto|auto].
  - exfalso. assert (In x (flat_map elems sbs)) as Q by (apply flat_in; exists k; exact H).
    revert Hn Q. clear - H'. induction (elems g) as [|y l IHl]; [destruct H'|]. cbn. intros Hn Q. inversion Hn as [|? ? N1 N2]; subst.
    destruct H' as [->|H]; [apply N1, in_or_app; auto|auto].
  - f_equal. apply IH; auto. clear - Hn. induction (elems g) as [|y l IHl]; auto. cbn in Hn. inversion Hn; auto.
Qed.

Lemma linked_mono sps sps' x y : (forall c, In c sps -> In c sps') -> linked sps x y -> linked sps' x y.
Proof. intros H L. induction L as [c x y H1 H2 H3|x y z _ IH1 _ IH2]; [apply linked_one with c; auto|now apply linked_trans with y]. Qed.
Lemma linked_sym sps x y : linked sps x y -> linked sps y x.
Proof. intros L. induction L as [c x y H1 H2 H3|x y z _ IH1 _ IH2]; [apply linked_one with c; auto|now apply linked_trans with y]. Qed.

Definition inv (sps G : list group) : Prop :=
  NoDup (flat G) /\
  (forall x, In x (flat G) <-> exists c, In c sps /\ In x (elems c)) /\
  (forall c, In c sps -> elems c <> [] -> exists k, forall x, In x (elems c) -> In x (el G k)) /\
  (forall k x y, In x (el G k) -> In y (el G k) -> linked sps x y) /\
  (forall k g, nth_error G k = Some g -> elems g <> [] ->
     exists c x, In c sps /\ g_axis c = g_axis g /\ In x (elems c) /\ In x (elems g)).

Lemma merge_inv sps G c : inv sps G -> NoDup (elems c) -> inv (sps ++ [c]) (merge G c).
Proof.
  intros (I1 & I2 & I3 & I4 & I5) Hn. destruct (merge_spec G c Hn) as (g & js & (new & P1 & P2 & P3) & _ & J & J1 & _ & E & X).
  assert (forall s, In s sps -> In s (sps ++ [c])) as Hm by (intros; apply in_or_app; auto).
  split; [|split; [|split; [|split]]].
  - eapply Permutation_NoDup; [symmetry; exact P1|]. apply nodup_disj; auto. intros x H1 H2. apply P3 in H2. tauto.
  - intros x. rewrite (Permutation_in' (eq_refl x) P1), in_app_iff, P3, I2. split.
    + intros [(d & H1 & H2)|[H _]]; [exists d; split; auto|exists c; split; auto; apply in_or_app; cbn; auto].
    + intros (d & H1 & H2). apply in_app_or in H1 as [H1|[<-|[]]]; [left; eauto|].
      destruct (in_dec (fun a b : elt => ltac:(decide equality; decide equality; try apply Nat.eq_dec; decide equality)) x (flat G)) as [Hf|Hf].
      * left. now apply I2.
      * right. split; auto. now rewrite <- I2.
  - intros d Hd Hne. apply in_app_or in Hd as [Hd|[<-|[]]].
    + destruct (I3 d Hd Hne) as (k & Hk). destruct (in_dec Nat.eq_dec k js) as [Hi|Hi].
      * exists g. intros x Hx. apply E. rewrite Nat.eqb_refl. right. eauto.
      * exists k. intros x Hx. apply E. destruct (k =? g) eqn:Ek.
        -- right. apply Nat.eqb_eq in Ek. subst k. exists g. split; auto. apply J1. pose proof (Hk x Hx) as Q. unfold el in Q.
           apply nth_error_Some. intros Y. rewrite Y in Q. destruct Q.
        -- apply has_false in Hi. rewrite Hi. auto.
    + exists g. intros x Hx. apply E. rewrite Nat.eqb_refl. auto.
  - assert (forall x, In x (elems c) \/ (exists j, In j js /\ In x (el G j)) -> exists z, In z (elems c) /\ linked (sps ++ [c]) x z) as Hz.
    { intros x [H|(j & Hj & H)].
      - exists x. split; auto. apply linked_one with c; auto. apply in_or_app. cbn. auto.
      - apply J in Hj as (z & Hz1 & Hz2). exists z. split; auto. apply linked_mono with sps; auto. eauto. }
    intros k x y Hx Hy. apply E in Hx, Hy. destruct (k =? g).
    + apply Hz in Hx as (zx & Hx1 & Hx2). apply Hz in Hy as (zy & Hy1 & Hy2).
      apply linked_trans with zx; auto. apply linked_trans with zy; [|now apply linked_sym].
      apply linked_one with c; auto. apply in_or_app. cbn. auto.
    + destruct (has k js); [destruct Hx|]. apply linked_mono with sps; eauto.
  - intros k gr Hk Hne. destruct (X k gr Hk Hne) as [[H _]|[-> [H|(j & g0 & Hj & H0 & H)]]].
    + destruct (I5 k gr H Hne) as (d & x & H1 & H2 & H3 & H4). exists d, x. auto.
    + assert (elems c <> []) as Hc.
      { destruct (elems gr) as [|y l] eqn:El; [congruence|]. pose proof (proj1 (E g y)) as Q. unfold el at 1 in Q.
        rewrite Hk, El, Nat.eqb_refl in Q. destruct (Q (or_introl eq_refl)) as [Q1|(j & Hj & _)].
        - intros Z. rewrite Z in Q1. destruct Q1.
        - apply J in Hj as (z & _ & Hz). intros Z. rewrite Z in Hz. destruct Hz. }
      destruct (elems c) as [|x l] eqn:El; [congruence|]. exists c, x. split; [apply in_or_app; cbn; auto|].
      split; auto. rewrite El. split; [now left|]. assert (In x (el (merge G c) g)) as Q by (apply E; rewrite Nat.eqb_refl; left; now left).
      unfold el in Q. now rewrite Hk in Q.
    + assert (elems g0 <> []) as Hg0.
      { apply J in Hj as (z & Hz & _). unfold el in Hz. rewrite H0 in Hz. intros Z. rewrite Z in Hz. destruct Hz. }
      destruct (I5 j g0 H0 Hg0) as (d & x & H1 & H2 & H3 & H4). exists d, x. split; auto. split; [congruence|]. split; auto.
      assert (In x (el (merge G c) g)) as Q by (apply E; rewrite Nat.eqb_refl; right; exists j; split; auto; unfold el; now rewrite H0).
      unfold el in Q. now rewrite Hk in Q.
Qed.

Lemma construct_inv sps : no_repeats sps -> inv sps (construct sps).
Proof.
  unfold construct. intros H.
  assert (forall done rest G, (forall c, In c rest -> NoDup (elems c)) -> inv done G -> inv (done ++ rest) (fold_left merge rest G)) as Hf.
  { intros done rest. revert done. induction rest as [|c rest IH]; intros done G Hr Hi; cbn [fold_left].
    - now rewrite app_nil_r.
    - replace (done ++ c :: rest) with ((done ++ [c]) ++ rest) by now rewrite <- app_assoc.
      apply IH; [intros d Hd; apply Hr; now right|]. apply merge_inv; auto. apply Hr. now left. }
  apply (Hf [] sps []); auto.
  split; [constructor|]. split; [intros x; cbn; firstorder|]. split; [intros c []|]. split.
  - intros k x y Hx. unfold el in Hx. destruct k; destruct Hx.
  - intros [|k] g Hg; discriminate.
Qed.

Lemma construct_linked sps k x y : no_repeats sps -> In x (el (construct sps) k) -> (In y (el (construct sps) k) <-> linked sps x y).
Proof.
  intros H Hx. destruct (construct_inv sps H) as (I1 & I2 & I3 & I4 & _). split; [eauto|].
  intros L. induction L as [c x y H1 H2 H3|x y z _ IH1 _ IH2]; auto.
  destruct (I3 c H1) as (k' & Hk); [intros Z; rewrite Z in H2; destruct H2|].
  rewrite (el_unique _ _ _ _ I1 Hx (Hk x H2)). auto.
Qed.

(** Blocks. *)
Lemma construct_separate sps : no_repeats sps -> agreed sps ->
  NoDup (flat_map (fun g => flat_map elt_blocks (elems g)) (construct sps)).
Proof.
  intros H [A1 A2]. destruct (construct_inv sps H) as (I1 & I2 & _).
  replace (flat_map (fun g => flat_map elt_blocks (elems g)) (construct sps)) with (flat_map elt_blocks (flat (construct sps))).
  - apply nodup_flat; auto.
    + intros x Hx. apply I2 in Hx as (c & H1 & H2). eauto.
    + intros x y b Hx Hy Hb Hb'. apply I2 in Hx as (c & H1 & H2). apply I2 in Hy as (c' & H1' & H2'). eauto.
  - clear. unfold flat. induction (construct sps) as [|g G IH]; [reflexivity|]. cbn [flat_map]. rewrite flat_map_app. f_equal. exact IH.
Qed.
