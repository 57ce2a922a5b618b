(** Proofs about the tests of sequence pairs that are symmetric-feasible. *)
From Coq Require Import ZArith ZifyBool.
From Verif Require Import Base.Prelude Model.SeqEnum Model.SymmGroup Model.KeepOrder Model.SeqCheck
  Spec.SeqEnumSpec Spec.SymmGroupSpec Spec.SeqCheckSpec Proofs.SeqEnumP Proofs.SymmGroupP Proofs.SeqMovesP Proofs.SeqSwapP Proofs.SeqFeasP Proofs.KeepOrderP Proofs.KeepMainP Proofs.SeqCheckP.

(** A nested pair of a horizontal axis is thrown away. *)
Lemma nested_bad d pos neg g p q : NoDup pos -> NoDup neg -> In g (c_groups d) -> g_axis g = DirH ->
  two_of (g_pairs g) p q -> nested pos neg p q -> check_symm d pos neg = false.
Proof.
  intros N1 N2 Hg Ha Ht (a & b & c & e & Hp & Hq & H). unfold check_symm.
  assert (group_bad (at_ pos) (at_ neg) g = true) as B.
  { unfold group_bad. apply orb_true_iff. right. apply (some_two_true _ _ p q Ht). rewrite Ha.
    assert (forall u v, above pos neg u v -> abv (at_ pos) (at_ neg) u v = true) as T.
    { intros u v [U V]. apply precedes_at in U; auto. apply precedes_at in V; auto. unfold abv. lia. }
    unfold pair_pair_bad.
    destruct Hp as [->| ->], Hq as [->| ->], H as [[H1 H2]|[H1 H2]]; apply T in H1; apply T in H2; rewrite H1, H2; cbn [andb];
      rewrite ?orb_true_r; reflexivity. }
  replace (existsb (group_bad (at_ pos) (at_ neg)) (c_groups d)) with true; [now rewrite andb_false_r|].
  symmetry. apply existsb_exists. eauto.
Qed.

Lemma filter_filter_id {A} (f : A -> bool) l : filter f (filter f l) = filter f l.
Proof. induction l as [|x l IH]; [reflexivity|]. cbn [filter]. destruct (f x) eqn:E; [|exact IH]. cbn [filter]. rewrite E. now f_equal. Qed.

Section Feas.
Variable d : pdesign.
Hypothesis Hsep : separate d.
Hypothesis Hterm : no_terminals d.

Lemma mirror_order s k g a b a' b' : sp_ok d s -> feasible d s -> nth_error (pd_groups d) k = Some g ->
  mirror d k g a a' -> mirror d k g b b' -> at_ (p_pos s) a < at_ (p_pos s) b ->
  match g_axis g with DirV => at_ (p_neg s) b' < at_ (p_neg s) a' | DirH => at_ (p_neg s) a' < at_ (p_neg s) b' end.
Proof.
  intros (P1 & P2 & _) F Hk Ma Mb H. destruct (perm_nodup d s (conj P1 P2)) as [N1 N2].
  apply (proj1 (feas_iff d Hsep Hterm s)) in F. specialize (F k g Hk). unfold sub in F. set (f := fun x => has x (group_nodes d k g)) in *.
  assert (forall x y, mirror d k g x y -> f x = true /\ f y = true /\ y = sym d x /\ In x (all_nodes d)) as Q.
  { intros x y M. assert (In x (group_nodes d k g)) as I by (apply (belongs_in d Hterm k g x Hk); now exists y).
    pose proof (mirror_sym d Hsep Hterm k g x y Hk M) as E. split; [now apply has_iff|]. split; [apply has_iff; rewrite E; eapply sym_in; eauto|]. split; [exact E|].
    apply in_or_app. apply group_nodes_in in I as [[_ I]|I]; [left; apply in_seq; lia|right]. apply in_map_iff. exists k. split; [now rewrite I|].
    apply in_seq. split; [lia|]. apply nth_error_Some. congruence. }
  destruct (Q a a' Ma) as (A1 & A2 & A3 & A4). destruct (Q b b' Mb) as (B1 & B2 & B3 & B4).
  assert (In b (p_pos s)) as Ib by (eapply Permutation_in; eauto).
  apply at_precedes in H; auto. destruct H as (l1 & l2 & l3 & E). rewrite E in F. rewrite !filter_app in F. cbn [filter] in F.
  rewrite A1 in F. rewrite filter_app in F. cbn [filter] in F. rewrite B1 in F.
  rewrite !map_app in F. cbn [map] in F. rewrite map_app in F. cbn [map] in F. rewrite <- A3, <- B3 in F.
  destruct (g_axis g); cbn [tw] in F.
  - apply precedes_at; auto. apply (precedes_filter f (filter f (p_neg s))); auto; [now apply NoDup_filter| |].
    + symmetry. apply filter_filter_id.
    + rewrite F. do 3 eexists. reflexivity.
  - apply precedes_at; auto. apply (precedes_filter f (filter f (p_neg s))); auto; [now apply NoDup_filter| |].
    + symmetry. apply filter_filter_id.
    + apply (f_equal (@rev nat)) in F. rewrite rev_involutive in F. rewrite F. rewrite rev_app_distr. cbn [rev]. rewrite rev_app_distr. cbn [rev].
      rewrite <- !app_assoc. do 3 eexists. reflexivity.
Qed.

Lemma group_feas s k g : sp_ok d s -> feasible d s -> nth_error (pd_groups d) k = Some g ->
  g_axis g = DirV \/ length (g_pairs g) <= 1 -> group_bad (at_ (p_pos s)) (at_ (p_neg s)) g = false.
Proof.
  intros Hs F Hk Hc. pose proof (mirror_order s k g) as MO.
  assert (forall a b, In (a, b) (g_pairs g) -> mirror d k g a b /\ mirror d k g b a /\ (at_ (p_pos s) a = at_ (p_pos s) b -> at_ (p_neg s) a = at_ (p_neg s) b)) as Hp.
  { intros a b H. split; [now left|]. split; [now right; left|]. intros E. destruct Hs as (P1 & _).
    assert (a < blocks_no d /\ b < blocks_no d) as [La Lb].
    { assert (In (EPair (a, b)) (elems g)) as Q by (apply in_or_app; left; now apply in_map). apply nth_error_In in Hk.
      split; eapply Hterm; eauto; cbn; auto. }
    assert (forall x, x < blocks_no d -> In x (p_pos s)) as I by (intros x L; apply (Permutation_in _ P1); apply in_or_app; left; apply in_seq; lia).
    apply at_same in E; auto. }
  assert (forall a, In a (selfs g) -> mirror d k g a a) as Hf by (intros a H; right; right; auto).
  set (pp := at_ (p_pos s)) in *. set (nn := at_ (p_neg s)) in *.
  assert (forall a b a' b', mirror d k g a a' -> mirror d k g b b' -> pp a < pp b -> if g_axis g then nn a' < nn b' else nn b' < nn a') as M.
  { intros a b a' b' Ma Mb L. specialize (MO a b a' b' Hs F Hk Ma Mb L). destruct (g_axis g); exact MO. }
  clear MO. unfold group_bad. apply orb_false_iff. split; [apply orb_false_iff; split|].
  - apply some_two_false. intros a b H. apply two_of_in in H as [H1 H2]. apply Hf in H1, H2.
    pose proof (M a b a b H1 H2) as M1. pose proof (M b a b a H2 H1) as M2. unfold self_bad, lef, abv. destruct (g_axis g); lia.
  - apply existsb_false. intros (a, b) H. apply Hp in H as (H1 & H2 & H3).
    pose proof (M a b b a H1 H2) as M1. pose proof (M b a a b H2 H1) as M2. apply orb_false_iff. split.
    + unfold pair_bad, lef, abv. cbn [fst snd]. destruct (g_axis g); lia.
    + apply existsb_false. intros c H. apply Hf in H. pose proof (M a c b c H1 H) as M3. pose proof (M b c a c H2 H) as M4.
      pose proof (M c a c b H H1) as M5. pose proof (M c b c a H H2) as M6.
      unfold pair_self_bad, lef, abv. destruct (g_axis g); [lia|]. destruct (pp a <? pp b) eqn:E; lia.
  - destruct Hc as [Hv|Hl].
    + rewrite Hv in *. apply some_two_false. intros (a, b) (c, e) H. apply two_of_in in H as [H1 H2].
      apply Hp in H1 as (A1 & A2 & A3). apply Hp in H2 as (B1 & B2 & B3).
      pose proof (M a c b e A1 B1). pose proof (M a e b c A1 B2). pose proof (M b c a e A2 B1). pose proof (M b e a c A2 B2).
      pose proof (M c a e b B1 A1). pose proof (M e a c b B2 A1). pose proof (M c b e a B1 A2). pose proof (M e b c a B2 A2).
      unfold pair_pair_bad, lef, abv. repeat (apply orb_false_iff; split); lia.
    + destruct (g_pairs g) as [|p [|q r]]; [reflexivity|reflexivity|cbn in Hl; lia].
Qed.

Lemma initial_sub k g : nth_error (pd_groups d) k = Some g ->
  sub d k g (p_pos (initial d)) = group_pos d (k, g) /\ sub d k g (p_neg (initial d)) = group_neg d (k, g).
Proof.
  intros Hk.
  destruct (groups_flat d Hsep (group_pos d) (pos_nodup d Hsep Hterm) (group_pos_in d)) as [P1 P2].
  destruct (groups_flat d Hsep (group_neg d) (neg_nodup d Hsep Hterm) (group_neg_in d)) as [Q1 Q2].
  unfold initial. cbn [p_pos p_neg]. rewrite !compact_id by auto. unfold sub in *. rewrite !filter_app.
  set (loose := filter _ (seq 0 _)).
  replace (filter (fun x => has x (group_nodes d k g)) loose) with (@nil nat).
  - rewrite !app_nil_r, P2, Q2 by auto. auto.
  - assert (forall x, In x loose -> has x (group_nodes d k g) = false) as H.
    { intros x Hx. apply filter_In in Hx as [H1 H2]. apply in_seq in H1. apply has_out; auto; [destruct (info d x); congruence|lia]. }
    clearbody loose. induction loose as [|x l IH]; cbn; auto. rewrite (H x (or_introl eq_refl)). apply IH. intros y Hy. apply H. now right.
Qed.
Lemma prec_app l m a b : precedes l a b -> precedes (l ++ m) a b.
Proof. intros (l1 & l2 & l3 & ->). exists l1, l2, (l3 ++ m). now rewrite <- !app_assoc, <- app_comm_cons, <- app_assoc. Qed.
Lemma prec_app2 l m a b : precedes m a b -> precedes (l ++ m) a b.
Proof. intros (l1 & l2 & l3 & ->). exists (l ++ l1), l2, l3. now rewrite <- !app_assoc. Qed.
Lemma prec_rev l a b : precedes l a b -> precedes (rev l) b a.
Proof.
  intros (l1 & l2 & l3 & ->). exists (rev l3), (rev l2), (rev l1). rewrite rev_app_distr. cbn [rev]. rewrite rev_app_distr. cbn [rev].
  now rewrite <- !app_assoc.
Qed.
Lemma prec_map {A} (f : A -> nat) l p q : two_of l p q -> precedes (map f l) (f p) (f q).
Proof. intros (l1 & l2 & l3 & ->). exists (map f l1), (map f l2), (map f l3). rewrite !map_app. cbn. now rewrite map_app. Qed.

Lemma initial_nested k g p q : same_ok d -> nth_error (pd_groups d) k = Some g -> g_axis g = DirH -> two_of (g_pairs g) p q ->
  nested (p_pos (initial d)) (p_neg (initial d)) p q.
Proof.
  intros Hs Hk Ha Ht. destruct (initial_sub k g Hk) as [E1 E2]. destruct (initial_ok d Hs) as (P1 & P2 & _).
  destruct (perm_nodup d _ (conj P1 P2)) as [N1 N2]. pose proof (pos_nodup d Hsep Hterm k g Hk) as G1. pose proof (neg_nodup d Hsep Hterm k g Hk) as G2.
  destruct (group_reals d Hterm k g Hk) as (R1 & R2 & R3 & R4 & R5 & R6).
  destruct p as (a, b), q as (c, e). pose proof (two_of_in _ _ _ Ht) as [I1 I2].
  assert (forall x, In x (gblocks g) -> has x (group_nodes d k g) = true) as Hh.
  { intros x Hx. apply has_iff, group_nodes_in. left. split; [exact Hx|]. apply (gblocks_real d Hterm g); auto. now apply nth_error_In in Hk. }
  assert (forall x y, In (x, y) (g_pairs g) -> In x (gblocks g) /\ In y (gblocks g)) as Hg.
  { intros x y H. rewrite gblocks_eq. split; apply in_or_app; left; apply in_flat_map; exists (x, y); cbn; auto. }
  destruct (Hg a b I1) as [Ia Ib]. destruct (Hg c e I2) as [Ic Ie].
  assert (precedes (firsts g) a c) as F1 by (apply (prec_map fst _ _ _ Ht)).
  assert (precedes (seconds g) b e) as F2 by (apply (prec_map snd _ _ _ Ht)).
  assert (forall l m x y, NoDup l -> NoDup m -> sub d k g m = l -> In x (gblocks g) -> In y (gblocks g) -> precedes l x y -> precedes m x y) as T.
  { intros l m x y Nl Nm E Hx Hy. apply (precedes_filter (fun z => has z (group_nodes d k g))); auto. unfold sub in E. rewrite E. rewrite <- E. symmetry. apply filter_filter_id. }
  exists a, b, c, e. split; [auto|]. split; [auto|]. left. split; split.
  - apply (T _ _ _ _ G1 N1 E1 Ia Ic). unfold group_pos. cbn [fst snd]. rewrite R1. now apply prec_app.
  - apply (T _ _ _ _ G2 N2 E2 Ic Ia). unfold group_neg. cbn [fst snd]. rewrite Ha, R5. do 3 apply prec_app2. now apply prec_rev.
  - apply (T _ _ _ _ G1 N1 E1 Ie Ib). unfold group_pos. cbn [fst snd]. rewrite R3. do 3 apply prec_app2. now apply prec_rev.
  - apply (T _ _ _ _ G2 N2 E2 Ib Ie). unfold group_neg. cbn [fst snd]. rewrite Ha, R4. now apply prec_app.
Qed.
End Feas.
