(** Proofs about the first sequence pair and the moves of the annealing. *)
From Verif Require Import Base.Prelude Model.SeqEnum Spec.SeqEnumSpec Proofs.SeqEnumP Proofs.SeqSearchP Model.SymmGroup Spec.SymmGroupSpec Proofs.SymmGroupP.

(** * CompactSeq *)

Definition strip (l : list (option nat)) : list nat := flat_map (fun x => match x with Some a => [a] | None => [] end) l.

Lemma strip_blank a t : strip (map (fun y => match y with Some b => if a =? b then None else y | None => y end) t) = filter (fun b => negb (a =? b)) (strip t).
Proof.
  unfold strip. induction t as [|[b|] t IH]; cbn; auto. destruct (a =? b) eqn:E; cbn; auto. now f_equal.
Qed.
Lemma mark_spec f l : length l <= f -> NoDup (strip (mark f l)) /\ (forall x, In x (strip (mark f l)) <-> In x (strip l)).
Proof.
  revert l. induction f as [|f IH]; intros [|[a|] t] H; cbn in H; try lia; cbn [mark].
  - cbn. split; [constructor|tauto].
  - cbn. split; [constructor|tauto].
  - set (t' := map _ t).
    assert (strip t' = filter (fun b => negb (a =? b)) (strip t)) as E by apply strip_blank.
    destruct (IH t') as [I1 I2]; [unfold t'; rewrite map_length; lia|].
    change (strip (Some a :: mark f t')) with (a :: strip (mark f t')).
    change (strip (Some a :: t)) with (a :: strip t). split.
    + constructor; auto. rewrite I2, E, filter_In, Nat.eqb_refl. cbn. intros [_ X]. discriminate.
    + intros x. cbn. rewrite I2, E, filter_In. destruct (Nat.eq_dec a x) as [->|N]; [tauto|].
      rewrite (proj2 (Nat.eqb_neq _ _) N). cbn. tauto.
  - replace (map _ t) with t.
    + destruct (IH t) as [I1 I2]; [lia|]. split; auto.
    + symmetry. rewrite <- (map_id t) at 2. apply map_ext. intros [b|]; reflexivity.
Qed.
Lemma strip_some l : strip (map Some l) = l.
Proof. induction l; cbn; auto. now f_equal. Qed.
Lemma compact_nodup l : NoDup (compact l).
Proof. apply (mark_spec (length l) (map Some l)). now rewrite map_length. Qed.
Lemma compact_in l x : In x (compact l) <-> In x l.
Proof. destruct (mark_spec (length l) (map Some l)) as [_ H]; [now rewrite map_length|]. rewrite strip_some in H. apply H. Qed.
Lemma mark_id f l : length l <= f -> NoDup (strip l) -> strip (mark f l) = strip l.
Proof.
  revert l. induction f as [|f IH]; intros [|[a|] t] H Hn; cbn in H; try lia; cbn [mark]; auto.
  - set (t' := map _ t). cbn in Hn. inversion Hn; subst.
    assert (strip t' = strip t) as E.
    { unfold t'. rewrite strip_blank. clear - H2. fold (strip t) in H2. induction (strip t) as [|b l IH]; cbn; auto.
      destruct (Nat.eqb_spec a b) as [->|N]; [destruct H2; now left|]. cbn. f_equal. apply IH. intros X. apply H2. now right. }
    change (a :: strip (mark f t') = a :: strip t). f_equal. rewrite IH; auto; [unfold t'; rewrite map_length; lia|]. now rewrite E.
  - replace (map _ t) with t.
    + change (strip (mark f t) = strip t). apply IH; auto. lia.
    + symmetry. rewrite <- (map_id t) at 2. apply map_ext. intros [b|]; reflexivity.
Qed.
Lemma compact_id l : NoDup l -> compact l = l.
Proof. intros H. unfold compact. fold (strip (mark (length l) (map Some l))). rewrite mark_id; rewrite ?map_length, ?strip_some; auto. Qed.

(** * Marks of the blocks *)

Lemma find_rev_none A (f : A -> bool) l : find f (rev l) = None <-> forall x, In x l -> f x = false.
Proof.
  split.
  - intros H x Hx. apply (find_none _ _ H). now apply in_rev in Hx.
  - intros H. destruct (find f (rev l)) eqn:E; auto. apply find_some in E as [E1 E2]. apply in_rev in E1. rewrite (H _ E1) in E2. discriminate.
Qed.
Definition gblocks (g : group) : list nat := flat_map elt_blocks (elems g).
Lemma gblocks_eq g : gblocks g = flat_map (fun p => [fst p; snd p]) (g_pairs g) ++ selfs g.
Proof.
  unfold gblocks, elems. rewrite flat_map_app. f_equal.
  - induction (g_pairs g) as [|p l IH]; cbn; auto. now rewrite IH.
  - unfold selfs. induction (g_self g) as [|p l IH]; cbn; auto. now rewrite IH.
Qed.
Lemma infos_keys gs : map fst (infos gs) = flat_map gblocks gs.
Proof.
  unfold infos, number. generalize 0. induction gs as [|g gs IH]; intros n; [reflexivity|].
  cbn [length seq combine flat_map]. rewrite map_app, IH. f_equal. cbn [fst snd]. rewrite map_app, gblocks_eq. f_equal.
  - induction (g_pairs g) as [|p l IHl]; [reflexivity|]. cbn. do 2 f_equal. exact IHl.
  - unfold selfs. rewrite map_map. reflexivity.
Qed.
Lemma info_none d b : info d b = None <-> ~ In b (flat_map gblocks (pd_groups d)).
Proof.
  rewrite <- infos_keys. unfold info. destruct (find _ _) as [w|] eqn:E; cbn.
  - split; [discriminate|]. intros H. exfalso. apply H. apply find_some in E as [E1 E2]. apply in_rev in E1. apply Nat.eqb_eq in E2.
    apply in_map_iff. eauto.
  - split; auto. intros _ H. apply in_map_iff in H as (w & <- & Hw). pose proof (proj1 (find_rev_none _ _ _) E w Hw) as Q. cbn in Q. rewrite Nat.eqb_refl in Q. discriminate.
Qed.
Lemma nodup_keys A B (l : list (A * B)) k v v' : NoDup (map fst l) -> In (k, v) l -> In (k, v') l -> v = v'.
Proof.
  induction l as [|[a b] l IH]; cbn; intros Hn H H'; [destruct H|]. inversion Hn; subst.
  destruct H as [H|H], H' as [H'|H']; try congruence; auto.
  - injection H as -> ->. exfalso. apply H2. apply in_map_iff. exists (k, v'). auto.
  - injection H' as -> ->. exfalso. apply H2. apply in_map_iff. exists (k, v). auto.
Qed.
Lemma info_some d b w : separate d -> In (b, w) (infos (pd_groups d)) -> info d b = Some w.
Proof.
  unfold separate. change (fun g => flat_map elt_blocks (elems g)) with gblocks. rewrite <- infos_keys. intros Hn H.
  unfold info. destruct (find _ _) as [[k v]|] eqn:E; cbn.
  - apply find_some in E as [E1 E2]. apply in_rev in E1. cbn in E2. apply Nat.eqb_eq in E2. subst k. f_equal. eapply nodup_keys; eauto.
  - pose proof (proj1 (find_rev_none _ _ _) E _ H) as Q. cbn in Q. rewrite Nat.eqb_refl in Q. discriminate.
Qed.
Lemma infos_pair gs k g a b : nth_error gs k = Some g -> In (a, b) (g_pairs g) -> In (a, (k, b)) (infos gs) /\ In (b, (k, a)) (infos gs).
Proof.
  intros Hk H. unfold infos. rewrite !in_flat_map.
  split; exists (k, g); (split; [now apply number_in|]); apply in_or_app; left; apply in_flat_map; exists (a, b); cbn; auto.
Qed.
Lemma infos_self gs k g a m : nth_error gs k = Some g -> In (a, m) (g_self g) -> In (a, (k, a)) (infos gs).
Proof.
  intros Hk H. unfold infos. apply in_flat_map. exists (k, g). split; [now apply number_in|]. apply in_or_app. right.
  apply in_map_iff. exists (a, m). auto.
Qed.

(** * The first sequence pair *)

Lemma all_nodes_in d x : In x (all_nodes d) <-> x < blocks_no d \/ exists k, k < length (pd_groups d) /\ x = dnode d k.
Proof.
  unfold all_nodes, dnode. rewrite in_app_iff, in_seq, in_map_iff. split.
  - intros [H|(k & <- & H)]; [left; lia|right]. apply in_seq in H. exists k. split; [lia|lia].
  - intros [H|(k & H & ->)]; [left; lia|right]. exists k. split; auto. apply in_seq. lia.
Qed.
Lemma all_nodes_nodup d : NoDup (all_nodes d).
Proof.
  apply nodup_disj; [apply seq_NoDup| |].
  - apply FinFun.Injective_map_NoDup; [intros a b; lia|apply seq_NoDup].
  - intros x H H'. apply in_seq in H. apply in_map_iff in H' as (k & <- & _). lia.
Qed.
Lemma real_in d l x : In x (real d l) <-> In x l /\ x < blocks_no d.
Proof. unfold real. rewrite filter_In, Nat.ltb_lt. reflexivity. Qed.
Lemma gblocks_in g x : In x (gblocks g) <-> In x (firsts g) \/ In x (seconds g) \/ In x (selfs g).
Proof.
  rewrite gblocks_eq, in_app_iff, in_flat_map. unfold firsts, seconds. rewrite !in_map_iff. split.
  - intros [(p & H & [E|[E|[]]])|H]; eauto.
  - intros [(p & E & H)|[(p & E & H)|H]]; [left|left|auto]; exists p; cbn; auto.
Qed.
Lemma group_pos_in d k g x : In x (group_pos d (k, g)) <-> (In x (gblocks g) /\ x < blocks_no d) \/ x = dnode d k.
Proof.
  unfold group_pos. cbn [fst snd]. rewrite !in_app_iff, !real_in, gblocks_in, <- in_rev. cbn. intuition.
Qed.
Lemma group_neg_in d k g x : In x (group_neg d (k, g)) <-> (In x (gblocks g) /\ x < blocks_no d) \/ x = dnode d k.
Proof.
  unfold group_neg. cbn [fst snd]. destruct (g_axis g); rewrite !in_app_iff, !real_in, gblocks_in, <- !in_rev; cbn; intuition.
Qed.
Lemma initial_perm d f :
  (forall k g x, In x (f (k, g)) <-> (In x (gblocks g) /\ x < blocks_no d) \/ x = dnode d k) ->
  Permutation (all_nodes d)
    (compact (flat_map f (number (pd_groups d))) ++
     filter (fun b => match info d b with None => true | Some _ => false end) (seq 0 (blocks_no d))).
Proof.
  intros Hf.
  assert (forall x, In x (compact (flat_map f (number (pd_groups d)))) <->
    (In x (flat_map gblocks (pd_groups d)) /\ x < blocks_no d) \/ exists k, k < length (pd_groups d) /\ x = dnode d k) as Hc.
  { intros x. rewrite compact_in, !in_flat_map. split.
    - intros ([k g] & H & Hx). apply number_in in H. apply Hf in Hx as [[H1 H2]|H1].
      + left. split; auto. exists g. split; auto. now apply nth_error_In in H.
      + right. exists k. split; auto. apply nth_error_Some. congruence.
    - intros [[(g & H & Hx) Hlt]|(k & Hk & ->)].
      + apply In_nth_error in H as (k & Hk). exists (k, g). split; [now apply number_in|]. apply Hf. auto.
      + destruct (nth_error (pd_groups d) k) as [g|] eqn:E; [|apply nth_error_None in E; lia].
        exists (k, g). split; [now apply number_in|]. apply Hf. auto. }
  assert (forall x, In x (filter (fun b => match info d b with None => true | Some _ => false end) (seq 0 (blocks_no d))) <->
    x < blocks_no d /\ ~ In x (flat_map gblocks (pd_groups d))) as Hl.
  { intros x. rewrite filter_In, in_seq, <- info_none. destruct (info d x); intuition; try discriminate; lia. }
  apply NoDup_Permutation.
  - apply all_nodes_nodup.
  - apply nodup_disj; [apply compact_nodup|apply NoDup_filter, seq_NoDup|].
    intros x H H'. apply Hl in H' as [H1 H2]. apply Hc in H as [[H _]|(k & _ & ->)]; [auto|]. unfold dnode in H1. lia.
  - intros x. rewrite in_app_iff, Hc, Hl, all_nodes_in. split; [|tauto].
    intros [H|H]; [|tauto]. destruct (in_dec Nat.eq_dec x (flat_map gblocks (pd_groups d))); tauto.
Qed.

(** * Selections *)

Definition in_range (d : pdesign) (s : list nat) : Prop :=
  length s = length (pd_sizes d) /\ forall i, i < length (pd_sizes d) -> nth i s 0 < nth i (pd_sizes d) 0.

Lemma nth_set_nth k v (l : list nat) i : k < length l -> nth i (set_nth k v l) 0 = if i =? k then v else nth i l 0.
Proof.
  intros H. destruct (Nat.eqb_spec i k) as [->|N].
  - apply nth_error_nth. now apply set_nth_same.
  - pose proof (set_nth_other _ k i v l N) as E. revert E.
    destruct (nth_error l i) as [x|] eqn:E1; intros E.
    + rewrite (nth_error_nth _ _ 0 E). symmetry. now apply nth_error_nth.
    + apply nth_error_None in E, E1. rewrite !nth_overflow; auto.
Qed.
Lemma sets_len (id : nat) g s : length (fold_left (fun s i => set_nth i id s) g s) = length s.
Proof. revert s. induction g as [|i g IH]; intros s; cbn; auto. rewrite IH. apply set_nth_len. Qed.
Lemma sets_nth (id : nat) g s j : (forall i, In i g -> i < length s) ->
  nth j (fold_left (fun s i => set_nth i id s) g s) 0 = if has j g then id else nth j s 0.
Proof.
  revert s. induction g as [|i g IH]; intros s H; cbn [fold_left has]; auto.
  rewrite IH by (intros k Hk; rewrite set_nth_len; apply H; now right).
  rewrite nth_set_nth by (apply H; now left). destruct (j =? i), (has j g); auto.
Qed.
Lemma same_selected_ok d s : same_ok d -> in_range d s -> choice (pd_sizes d) (pd_same d) (same_selected d s).
Proof.
  intros (_ & G1 & G2 & G3) Hs. unfold same_selected.
  set (step := fun (s g : list nat) => let id := nth (hd 0 g) s 0 in fold_left (fun s i => set_nth i id s) g s).
  assert (forall (done rest : list (list nat)) (s : list nat), pd_same d = done ++ rest -> in_range d s ->
    (forall g a b, In g done -> In a g -> In b g -> nth a s 0 = nth b s 0) ->
    choice (pd_sizes d) (pd_same d) (fold_left step rest s)) as Hg.
  { clear Hs s. intros done rest. revert done. induction rest as [|g rest IH]; intros done s E Hr Hd; cbn [fold_left].
    - rewrite app_nil_r in E. destruct Hr as [H1 H2]. split; [auto|]. split; [auto|]. intros h a b Hh. rewrite E in Hh. eauto.
    - assert (In g (pd_same d)) as Hin by (rewrite E; apply in_elt).
      destruct (G1 g Hin) as [Hne Hlt].
      assert (In (hd 0 g) g) as Hh by (destruct g; [congruence|now left]).
      assert (forall j, nth j (step s g) 0 = if has j g then nth (hd 0 g) s 0 else nth j s 0) as Hn.
      { intros j. unfold step. apply sets_nth. intros i Hi. destruct Hr as [-> _]. auto. }
      apply (IH (done ++ [g])).
      + rewrite <- app_assoc. exact E.
      + destruct Hr as [H1 H2]. split; [unfold step; rewrite sets_len; auto|]. intros i Hi. rewrite Hn.
        destruct (has i g) eqn:Ei; [|auto]. apply has_iff in Ei. rewrite (G2 g i (hd 0 g) Hin Ei Hh). auto.
      + intros h a b Hin' Ha Hb. rewrite !Hn. apply in_app_or in Hin' as [Hin'|[<-|[]]].
        * assert (forall i, In i h -> has i g = false) as Hf.
          { intros i Hi. apply has_false. intros Hi'. apply In_nth_error in Hin' as (k & Hk).
            assert (k = length done) as X; [|subst k; rewrite (proj2 (nth_error_None done (length done))) in Hk; [discriminate|lia]].
            apply (G3 k (length done) h g i); auto.
            - rewrite E, nth_error_app1; auto. apply nth_error_Some. congruence.
            - rewrite E, nth_error_app2, Nat.sub_diag; auto. }
          rewrite (Hf a Ha), (Hf b Hb). eauto.
        * rewrite (proj2 (has_iff a g) Ha), (proj2 (has_iff b g) Hb). reflexivity. }
  apply (Hg [] (pd_same d) s); auto. intros g a b [].
Qed.

Theorem initial_ok d : same_ok d -> sp_ok d (initial d).
Proof.
  intros H. split; [|split].
  - apply initial_perm. intros. apply group_pos_in.
  - apply initial_perm. intros. apply group_neg_in.
  - apply same_selected_ok; auto. split; [apply map_length|]. intros i Hi.
    replace (nth i (map (fun _ : nat => 0) (pd_sizes d)) 0) with 0; [apply H; now apply nth_In|].
    clear. revert i. induction (pd_sizes d); intros [|i]; cbn; auto.
Qed.

(** * Moving one block *)

Lemma index_of_some v l i : index_of v l = Some i -> exists l1 l2, l = l1 ++ v :: l2 /\ length l1 = i /\ ~ In v l1.
Proof.
  revert i. induction l as [|x l IH]; cbn; intros i H; [discriminate|].
  destruct (Nat.eqb_spec x v) as [->|N].
  - injection H as <-. exists [], l. cbn. auto.
  - destruct (index_of v l) as [j|] eqn:E; [|discriminate]. cbn in H. injection H as <-.
    destruct (IH j eq_refl) as (l1 & l2 & -> & <- & Hn). exists (x :: l1), l2. cbn. repeat split; auto. intros [H|H]; auto.
Qed.
Lemma index_of_in v l : In v l -> exists i, index_of v l = Some i.
Proof.
  induction l as [|x l IH]; cbn; intros H; [destruct H|]. destruct (Nat.eqb_spec x v) as [->|N]; [eauto|].
  destruct H as [H|H]; [congruence|]. destruct (IH H) as (i & ->). cbn. eauto.
Qed.
Lemma nth_app_if i (x y : list nat) : nth i (x ++ y) 0 = if i <? length x then nth i x 0 else nth (i - length x) y 0.
Proof. destruct (Nat.ltb_spec i (length x)); [now apply app_nth1|now apply app_nth2]. Qed.
Lemma nth_cons_if i a (y : list nat) : nth i (a :: y) 0 = if i =? 0 then a else nth (i - 1) y 0.
Proof. destruct i; cbn; auto. now rewrite Nat.sub_0_r. Qed.

Lemma move_unit_moved l a new r : move_unit l a new = Some r -> moved l r a new.
Proof.
  unfold move_unit. destruct (index_of a l) as [old|] eqn:E; [|discriminate].
  destruct ((old =? new) || (length l <=? new)) eqn:E1; [discriminate|]. intros H. injection H as <-.
  apply orb_false_iff in E1 as [E1 E2]. apply Nat.eqb_neq in E1. apply Nat.leb_gt in E2.
  destruct (index_of_some _ _ _ E) as (l1 & l2 & -> & <- & _). rewrite app_length in E2. cbn [length] in E2.
  destruct (Nat.ltb_spec (length l1) new) as [H|H].
  - set (m1 := firstn (new - length l1) l2). set (m2 := skipn (new - length l1) l2).
    assert (l2 = m1 ++ m2) as El by (symmetry; apply firstn_skipn).
    assert (length m1 = new - length l1) as Hm by (unfold m1; apply firstn_length_le; lia).
    exists l1, l2, (l1 ++ m1), m2. split; auto. rewrite (app_length l1 m1). split; [|split; [rewrite <- app_assoc; now f_equal|split; lia]].
    rewrite El. clearbody m1 m2. subst l2.
    apply (nth_ext _ _ 0 0); [rewrite map_length, seq_length, !app_length; cbn [length]; rewrite !app_length; cbn [length]; lia|].
    intros i Hi. rewrite map_length, seq_length in Hi.
    rewrite nth_map_seq by auto.
    repeat (rewrite ?nth_app_if, ?nth_cons_if, ?app_length in * ).
    repeat match goal with |- context[?a <? ?b] => destruct (Nat.ltb_spec a b) | |- context[?a =? ?b] => destruct (Nat.eqb_spec a b) end;
      try lia; try reflexivity; try (f_equal; lia).
  - set (m1 := firstn new l1). set (m2 := skipn new l1).
    assert (l1 = m1 ++ m2) as El by (symmetry; apply firstn_skipn).
    assert (length m1 = new) as Hm by (unfold m1; apply firstn_length_le; lia).
    exists l1, l2, m1, (m2 ++ l2). split; auto. split; [|split; [now rewrite El, <- app_assoc|split; lia]].
    clearbody m1 m2. subst l1. rewrite app_length in *.
    apply (nth_ext _ _ 0 0); [rewrite map_length, seq_length, !app_length; cbn [length]; rewrite !app_length; cbn [length]; lia|].
    intros i Hi. rewrite map_length, seq_length in Hi.
    rewrite nth_map_seq by auto.
    repeat (rewrite ?nth_app_if, ?nth_cons_if, ?app_length in * ).
    repeat match goal with |- context[?a <? ?b] => destruct (Nat.ltb_spec a b) | |- context[?a <=? ?b] => destruct (Nat.leb_spec a b) | |- context[?a =? ?b] => destruct (Nat.eqb_spec a b) end;
      try lia; try reflexivity; try (f_equal; lia).
Qed.
Lemma moved_perm l r a new : moved l r a new -> Permutation l r.
Proof.
  intros (l1 & l2 & r1 & r2 & -> & -> & E & _). rewrite <- !Permutation_middle. now rewrite E.
Qed.
Lemma moved_filter l r a new f : moved l r a new -> f a = false -> filter f r = filter f l.
Proof.
  intros (l1 & l2 & r1 & r2 & -> & -> & E & _) H. rewrite !filter_app. cbn. rewrite H, <- !filter_app. now rewrite E.
Qed.

(** * Exchanging two blocks *)

Lemma nth_map_lt (f : nat -> nat) l i : i < length l -> nth i (map f l) 0 = f (nth i l 0).
Proof. revert i. induction l as [|x l IH]; cbn; intros [|i] H; auto; try lia. apply IH. lia. Qed.
Definition tr (a b x : nat) : nat := if x =? a then b else if x =? b then a else x.
Lemma nodup_nth_inj (l : list nat) i j : NoDup l -> i < length l -> j < length l -> nth i l 0 = nth j l 0 -> i = j.
Proof. intros H. apply NoDup_nth. exact H. Qed.
Lemma swap_in_some l a b r : NoDup l -> swap_in l a b = Some r -> exchanged l r a b.
Proof.
  intros Hn. unfold swap_in. destruct (index_of a l) as [i|] eqn:Ei; [|discriminate].
  destruct (index_of b l) as [j|] eqn:Ej; [|discriminate]. intros H. injection H as <-.
  assert (forall v k, index_of v l = Some k -> k < length l /\ nth k l 0 = v) as Hi.
  { intros v k E. destruct (index_of_some _ _ _ E) as (l1 & l2 & -> & <- & _). rewrite app_length. cbn. split; [lia|].
    rewrite app_nth2 by lia. now rewrite Nat.sub_diag. }
  destruct (Hi _ _ Ei) as [Hi1 Hi2]. destruct (Hi _ _ Ej) as [Hj1 Hj2]. clear Hi.
  split; [rewrite <- Hi2; now apply nth_In|]. split; [rewrite <- Hj2; now apply nth_In|].
  apply (nth_ext _ _ 0 0); [now rewrite map_length, !set_nth_len|]. intros x Hx. rewrite !set_nth_len in Hx.
  rewrite !nth_set_nth by (rewrite ?set_nth_len; auto).
  rewrite (nth_map_lt (tr a b)) by auto. unfold tr.
  destruct (Nat.eqb_spec x i) as [->|N1]; [rewrite Hi2, Nat.eqb_refl; reflexivity|].
  destruct (Nat.eqb_spec x j) as [->|N2].
  - rewrite Hj2, Nat.eqb_refl. destruct (Nat.eqb_spec b a); auto.
  - destruct (Nat.eqb_spec (nth x l 0) a) as [E|_]; [exfalso; apply N1; eapply nodup_nth_inj; eauto; congruence|].
    destruct (Nat.eqb_spec (nth x l 0) b) as [E|_]; [exfalso; apply N2; eapply nodup_nth_inj; eauto; congruence|]. reflexivity.
Qed.
Lemma tr_tr a b x : tr a b (tr a b x) = x.
Proof.
  unfold tr. destruct (Nat.eqb_spec x a) as [->|N].
  - rewrite Nat.eqb_refl. destruct (Nat.eqb_spec b a); auto.
  - destruct (Nat.eqb_spec x b) as [->|N']; [now rewrite Nat.eqb_refl|].
    rewrite (proj2 (Nat.eqb_neq _ _) N), (proj2 (Nat.eqb_neq _ _) N'). reflexivity.
Qed.
Lemma exchanged_perm l r a b : NoDup l -> exchanged l r a b -> Permutation l r.
Proof.
  intros Hn (Ha & Hb & ->). fold (tr a b). apply NoDup_Permutation; auto.
  - apply FinFun.Injective_map_NoDup; auto. intros x y E. rewrite <- (tr_tr a b x), E. apply tr_tr.
  - assert (forall x, In x l -> In (tr a b x) l) as H.
    { intros x Hx. unfold tr. destruct (x =? a); auto. destruct (x =? b); auto. }
    intros x. rewrite in_map_iff. split.
    + intros Hx. exists (tr a b x). split; [apply tr_tr|auto].
    + intros (y & <- & Hy). auto.
Qed.
Lemma filter_tr f a b l : f a = f b -> filter f (map (tr a b) l) = map (tr a b) (filter f l).
Proof.
  intros H. assert (forall x, f (tr a b x) = f x) as Hf.
  { intros x. unfold tr. destruct (Nat.eqb_spec x a) as [->|]; auto. destruct (Nat.eqb_spec x b) as [->|]; auto. }
  induction l as [|x l IH]; cbn; auto. rewrite Hf. destruct (f x); cbn; now rewrite IH.
Qed.
Lemma filter_tr_out f a b l : f a = false -> f b = false -> filter f (map (tr a b) l) = filter f l.
Proof.
  intros Ha Hb. rewrite filter_tr by congruence. rewrite <- (map_id (filter f l)) at 2. apply map_ext_in.
  intros x Hx. apply filter_In in Hx as [_ Hx]. unfold tr. destruct (Nat.eqb_spec x a) as [->|]; [congruence|].
  destruct (Nat.eqb_spec x b) as [->|]; [congruence|]. reflexivity.
Qed.
