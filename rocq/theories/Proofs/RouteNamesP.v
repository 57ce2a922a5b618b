(** Renaming for routing: proofs for C41. *)
From Coq Require Import String Ascii Decimal.
From Verif Require Import Base.Prelude Base.PyDict Base.PyStr Model.PySort Model.Lef Model.RouteNames Spec.RouteNamesSpec
  Proofs.PySortP Proofs.LefP Proofs.HpwlP.
Local Open Scope Z_scope.

Lemma variant_idx an k : variant an k = idx_name an k. Proof. reflexivity. Qed.

Lemma cmem_ok x l : cmem x l = true <-> In x l.
Proof.
  unfold cmem. rewrite existsb_exists. split.
  - intros (y & Hy & E). apply chars_eqb_ok in E. now subst.
  - intros H. exists x. split; [exact H|now apply chars_eqb_ok].
Qed.

Lemma print_nonneg z : 0 <= z -> forallb is_digit (print_Z z) = true /\ print_Z z <> [] /\ digits_val (print_Z z) = z.
Proof.
  intros Hz. destruct (print_Z_form z) as (neg & ds & E & Hne & Hd).
  assert (E' : print_Z z = uint_chars (match Z.to_int z with Pos u | Neg u => u end)).
  { unfold print_Z. destruct z; [reflexivity|reflexivity|lia]. }
  split; [rewrite E'; apply uint_digits|]. split.
  - destruct neg; rewrite E; [discriminate|exact Hne].
  - rewrite E', digits_val_uint. pose proof (DecimalZ.of_to z) as Ho. destruct z; [reflexivity|exact Ho|lia].
Qed.

Lemma digit_not_us c : is_digit c = true -> c <> "_"%char.
Proof. intros H ->. vm_compute in H. discriminate. Qed.

Lemma forallb_rev {A} (f : A -> bool) l : forallb f (rev l) = forallb f l.
Proof. induction l as [|x l IH]; simpl; [reflexivity|]. rewrite forallb_app, IH. simpl. rewrite andb_true_r. apply andb_comm. Qed.

Lemma split_ok cn st ds : split_cn cn = Some (st, ds) <-> cn = st ++ "_"%char :: ds /\ st <> [] /\ ds <> [] /\ forallb is_digit ds = true.
Proof.
  unfold split_cn. split.
  - destruct (span is_digit (rev cn)) as (a, b) eqn:E.
    assert (Ha : forallb is_digit a = true).
    { clear -E. revert a b E. induction (rev cn) as [|c l IH]; simpl; intros a b E; [now injection E as <- <-|].
      destruct (is_digit c) eqn:Ec; [|now injection E as <- <-]. destruct (span is_digit l) as (x, y). injection E as <- <-. simpl. rewrite Ec. simpl. now apply (IH x y). }
    apply span_app in E. destruct a as [|d a]; [discriminate|]. destruct b as [|c [|e b]]; try discriminate.
    destruct (Ascii.eqb_spec c "_"); [|discriminate]. subst c. intros H. cbv iota in H.
    assert (st = rev (e :: b) /\ ds = rev (d :: a)) as (-> & ->) by (split; congruence). clear H.
    split; [|split; [|split]].
    + rewrite <- (rev_involutive cn), E, rev_app_distr. change ("_"%char :: e :: b) with (["_"%char] ++ (e :: b)).
      rewrite rev_app_distr, <- app_assoc. reflexivity.
    + intros H. apply (f_equal (@rev ascii)) in H. rewrite rev_involutive in H. discriminate.
    + intros H. apply (f_equal (@rev ascii)) in H. rewrite rev_involutive in H. discriminate.
    + now rewrite forallb_rev.
  - intros (-> & Hs & Hd & Hf).
    assert (E : rev (st ++ "_"%char :: ds) = rev ds ++ "_"%char :: rev st).
    { rewrite rev_app_distr. simpl. now rewrite <- app_assoc. }
    rewrite E, (span_exact is_digit (rev ds) ("_"%char :: rev st)); [|now rewrite forallb_rev|reflexivity].
    destruct (rev ds) as [|d a] eqn:E1.
    { exfalso. apply Hd. rewrite <- (rev_involutive ds), E1. reflexivity. }
    destruct (rev st) as [|e b] eqn:E2.
    { exfalso. apply Hs. rewrite <- (rev_involutive st), E2. reflexivity. }
    rewrite Ascii.eqb_refl. f_equal. f_equal; [rewrite <- E2|rewrite <- E1]; apply rev_involutive.
Qed.

Lemma idx_name_inj an an' k k' : 0 <= k -> 0 <= k' -> idx_name an k = idx_name an' k' -> an = an' /\ k = k'.
Proof.
  intros Hk Hk' E. destruct (print_nonneg k Hk) as (H1 & H2 & H3), (print_nonneg k' Hk') as (H1' & H2' & H3').
  assert (N : forall a b c d : chars, forallb is_digit b = true -> forallb is_digit d = true -> a ++ "_"%char :: b = c ++ "_"%char :: d -> a = c /\ b = d).
  { clear. intros a. induction a as [|x a IH]; intros b [|y c] d Hb Hd E; simpl in E.
    - now injection E.
    - injection E as _ E. exfalso. subst b. rewrite forallb_app in Hb. apply andb_true_iff in Hb as (_ & Hb). discriminate.
    - injection E as _ E. exfalso. subst d. rewrite forallb_app in Hd. apply andb_true_iff in Hd as (_ & Hd). discriminate.
    - injection E as -> E. destruct (IH b c d Hb Hd E) as (-> & ->). now split. }
  destruct (N _ _ _ _ H1 H1' E) as (-> & E2). split; [reflexivity|]. now apply print_Z_inj.
Qed.

Lemma digits_val_nonneg ds : forallb is_digit ds = true -> 0 <= digits_val ds.
Proof.
  unfold digits_val. assert (H : forall acc, 0 <= acc -> forallb is_digit ds = true -> 0 <= fold_left (fun acc c => acc * 10 + digit_val c) ds acc).
  { induction ds as [|c ds IH]; simpl; intros acc Ha Hd; [exact Ha|]. apply andb_true_iff in Hd as (Hc & Hd). apply IH; [|exact Hd].
    unfold is_digit in Hc. apply andb_true_iff in Hc as (Hc & _). apply N.leb_le in Hc. unfold digit_val. lia. }
  apply H. lia.
Qed.

Lemma entry_ok m an k : cn_entry m = Some (an, k) -> an = rm_an m /\ an <> [] /\ 0 <= k.
Proof.
  unfold cn_entry. destruct (split_cn (rm_cn m)) as [(st, ds)|] eqn:E; [|discriminate].
  destruct (chars_eqb st (rm_an m)) eqn:Es; [|discriminate]. intros [= <- <-]. apply chars_eqb_ok in Es. subst st.
  apply split_ok in E as (_ & H & _ & Hd). repeat split; [exact H|now apply digits_val_nonneg].
Qed.

Lemma entry_of m k : rm_an m <> [] -> 0 <= k -> rm_cn m = idx_name (rm_an m) k -> cn_entry m = Some (rm_an m, k).
Proof.
  intros Ha Hk E. destruct (print_nonneg k Hk) as (H1 & H2 & H3). unfold cn_entry.
  assert (split_cn (rm_cn m) = Some (rm_an m, print_Z k)) as -> by (apply split_ok; now repeat split).
  assert (chars_eqb (rm_an m) (rm_an m) = true) as -> by now apply chars_eqb_ok. now rewrite H3.
Qed.

Lemma entries_ok ms es : cn_entries ms = Some es <-> Forall2 (fun m e => cn_entry m = Some e) ms es.
Proof.
  revert es. induction ms as [|m ms IH]; intros es; simpl.
  - split; [intros [= <-]; constructor|]. now inversion 1.
  - split.
    + destruct (cn_entry m) as [e|] eqn:E, (cn_entries ms) as [es'|]; try discriminate. intros [= <-]. constructor; [exact E|now apply IH].
    + inversion 1 as [|m' e ms' es' E F]; subst. rewrite E. apply IH in F. now rewrite F.
Qed.

(** * The table *)
Lemma pairs_in es o n : In (o, n) (tr_pairs es) <->
  exists an k i, In (k, i) (enumerate (sort_by (fun z => z) (map snd (filter (fun e => chars_eqb (fst e) an) es)))) /\ o = idx_name an i /\ n = idx_name an k.
Proof.
  unfold tr_pairs. rewrite in_flat_map. split.
  - intros ((an, b) & Hg & H). apply in_map_iff in H as ((k, i) & E & H). simpl in *. injection E as <- <-.
    apply (group_by_in chars_eqb fst chars_eqb_ok) in Hg as (-> & _). now exists an, k, i.
  - intros (an & k & i & H & -> & ->). exists (an, filter (fun e => chars_eqb (fst e) an) es). split.
    + apply (group_by_in chars_eqb fst chars_eqb_ok). split; [reflexivity|]. intros E. rewrite E in H. destruct H.
    + apply in_map_iff. now exists (k, i).
Qed.

Lemma enum_facts (l : list Z) k i : In (k, i) (enumerate (sort_by (fun z => z) l)) -> In i l /\ 0 <= k < Z.of_nat (List.length l).
Proof.
  intros H. apply enumerate_in in H as (Hk & H). pose proof H as H'. apply nth_error_In in H. apply sort_by_in in H. split; [exact H|].
  split; [exact Hk|]. assert (nth_error (sort_by (fun z => z) l) (Z.to_nat k) <> None) as Hn by congruence.
  apply nth_error_Some in Hn. rewrite sort_by_length in Hn. lia.
Qed.

Lemma enum_of_val (l : list Z) i : In i l -> exists k, In (k, i) (enumerate (sort_by (fun z => z) l)).
Proof.
  intros H. apply (sort_by_in (fun z => z)) in H. apply In_nth_error in H as (n & H). exists (Z.of_nat n). apply enumerate_in. split; [lia|]. now rewrite Nat2Z.id.
Qed.

Lemma enum_of_pos (l : list Z) k : 0 <= k < Z.of_nat (List.length l) -> exists i, In (k, i) (enumerate (sort_by (fun z => z) l)).
Proof.
  intros Hk. destruct (nth_error (sort_by (fun z => z) l) (Z.to_nat k)) as [i|] eqn:E.
  - exists i. apply enumerate_in. split; [lia|exact E].
  - apply nth_error_None in E. rewrite sort_by_length in E. lia.
Qed.

Lemma sorted_nth (l : list Z) a b x y : StronglySorted (fun p q => p <= q) l -> (a < b)%nat -> nth_error l a = Some x -> nth_error l b = Some y -> x <= y.
Proof.
  intros H. revert a b. induction H as [|z l Hs IH Hz]; intros a b Hab; [destruct a; discriminate|].
  destruct a as [|a], b as [|b]; simpl; try lia.
  - intros [= ->] Hb. apply nth_error_In in Hb. rewrite Forall_forall in Hz. now apply Hz.
  - apply IH. lia.
Qed.

Lemma enum_order (l : list Z) k1 k2 i1 i2 : NoDup l ->
  In (k1, i1) (enumerate (sort_by (fun z => z) l)) -> In (k2, i2) (enumerate (sort_by (fun z => z) l)) -> (k1 < k2 <-> i1 < i2).
Proof.
  intros Hn H1 H2. apply enumerate_in in H1 as (A1 & H1), H2 as (A2 & H2).
  assert (Hs : StronglySorted (fun p q => p <= q) (sort_by (fun z => z) l)) by apply sort_by_sorted.
  assert (Hn' : NoDup (sort_by (fun z => z) l)) by (apply (Permutation_NoDup (sort_by_perm (fun z => z) l) Hn)).
  assert (I : forall k k' i, nth_error (sort_by (fun z => z) l) (Z.to_nat k) = Some i -> nth_error (sort_by (fun z => z) l) (Z.to_nat k') = Some i -> 0 <= k -> 0 <= k' -> k = k').
  { intros k k' i E E' B B'. assert (Z.to_nat k = Z.to_nat k'); [|lia]. rewrite NoDup_nth_error in Hn'. apply Hn'; [|congruence]. apply nth_error_Some. congruence. }
  split; intros Hlt.
  - assert (i1 <= i2) by (apply (sorted_nth _ (Z.to_nat k1) (Z.to_nat k2) i1 i2 Hs); auto; lia).
    destruct (Z.eq_dec i1 i2) as [->|]; [|lia]. specialize (I k1 k2 i2 H1 H2 A1 A2). lia.
  - destruct (Z_lt_dec k1 k2) as [|Hge]; [assumption|]. exfalso. destruct (Z.eq_dec k1 k2) as [->|]; [assert (i1 = i2) by congruence; lia|].
    assert (i2 <= i1) by (apply (sorted_nth _ (Z.to_nat k2) (Z.to_nat k1) i2 i1 Hs); auto; lia). lia.
Qed.

Lemma enum_fun (l : list Z) k i i' : In (k, i) (enumerate (sort_by (fun z => z) l)) -> In (k, i') (enumerate (sort_by (fun z => z) l)) -> i = i'.
Proof. intros H1 H2. apply enumerate_in in H1 as (_ & H1), H2 as (_ & H2). congruence. Qed.

Lemma fold_dset_get {V} (l : list (chars * V)) k :
  (forall v, dget chars_eqb (fold_left (fun d p => dset chars_eqb d (fst p) (snd p)) l []) k = Some v -> In (k, v) l) /\
  (In k (map fst l) -> dget chars_eqb (fold_left (fun d p => dset chars_eqb d (fst p) (snd p)) l []) k <> None).
Proof.
  induction l as [|(k', v') l (IH1 & IH2)] using rev_ind; [now split|]. rewrite fold_left_app. simpl. split.
  - intros v. unfold dset. destruct (list_eq_dec ascii_dec k k') as [<-|N].
    + rewrite (dget_dupd_same _ chars_eqb_ok). intros [= <-]. apply in_or_app. right. now left.
    + rewrite (dget_dupd_other _ chars_eqb_ok) by congruence. intros H. apply in_or_app. left. now apply IH1.
  - rewrite map_app. intros H. unfold dset. destruct (list_eq_dec ascii_dec k k') as [<-|N].
    + rewrite (dget_dupd_same _ chars_eqb_ok). discriminate.
    + rewrite (dget_dupd_other _ chars_eqb_ok) by congruence. apply IH2. apply in_app_or in H as [H|[H|[]]]; [exact H|]. simpl in H. congruence.
Qed.

Definition idxs (es : list (chars * Z)) (an : chars) : list Z := map snd (filter (fun e => chars_eqb (fst e) an) es).

Lemma idxs_in es an i : In i (idxs es an) <-> In (an, i) es.
Proof.
  unfold idxs. rewrite in_map_iff. split.
  - intros ((a, j) & <- & H). apply filter_In in H as (H & E). simpl in *. apply chars_eqb_ok in E. now subst.
  - intros H. exists (an, i). split; [reflexivity|]. apply filter_In. split; [exact H|now apply chars_eqb_ok].
Qed.

Lemma forall2_in_l {A B} (R : A -> B -> Prop) l l' a : Forall2 R l l' -> In a l -> exists b, In (a, b) (combine l l') /\ R a b.
Proof. intros F. induction F as [|x y l l' H F IH]; simpl; [easy|]. intros [->|Hi]; [exists y; tauto|]. destruct (IH Hi) as (b & Hb & Hr). exists b. tauto. Qed.
Lemma forall2_in_r {A B} (R : A -> B -> Prop) l l' b : Forall2 R l l' -> In b l' -> exists a, In (a, b) (combine l l') /\ R a b.
Proof. intros F. induction F as [|x y l l' H F IH]; simpl; [easy|]. intros [->|Hi]; [exists x; tauto|]. destruct (IH Hi) as (a & Hb & Hr). exists a. tauto. Qed.
Lemma forall2_comb {A B} (R : A -> B -> Prop) l l' a b : Forall2 R l l' -> In (a, b) (combine l l') -> R a b.
Proof. intros F. induction F as [|x y l l' H F IH]; simpl; [easy|]. intros [[= -> ->]|Hi]; auto. Qed.

Lemma ren_insts_ok tr lc l l' : ren_insts tr lc l = Some l' <-> Forall2 (fun i i' => ren_inst tr lc i = Some i') l l'.
Proof.
  revert l'. induction l as [|m ms IH]; intros es; simpl.
  - split; [intros [= <-]; constructor|]. now inversion 1.
  - split.
    + destruct (ren_inst tr lc m) as [e|] eqn:E, (ren_insts tr lc ms) as [es'|]; try discriminate. intros [= <-]. constructor; [exact E|now apply IH].
    + inversion 1 as [|m' e ms' es' E F]; subst. rewrite E. apply IH in F. now rewrite F.
Qed.
Lemma ren_mods_ok tr lc l l' : ren_mods tr lc l = Some l' <-> Forall2 (fun i i' => ren_mod tr lc i = Some i') l l'.
Proof.
  revert l'. induction l as [|m ms IH]; intros es; simpl.
  - split; [intros [= <-]; constructor|]. now inversion 1.
  - split.
    + destruct (ren_mod tr lc m) as [e|] eqn:E, (ren_mods tr lc ms) as [es'|]; try discriminate. intros [= <-]. constructor; [exact E|now apply IH].
    + inversion 1 as [|m' e ms' es' E F]; subst. rewrite E. apply IH in F. now rewrite F.
Qed.

Section Run.
  Variables (ms : list rmod) (es : list (chars * Z)).
  Hypothesis HE : Forall2 (fun m e => cn_entry m = Some e) ms es.

  Lemma es_ok an i : In (an, i) es -> an <> [] /\ 0 <= i.
  Proof. intros H. destruct (forall2_in_r _ _ _ _ HE H) as (m & _ & E). apply entry_ok in E as (-> & H1 & H2). now split. Qed.

  Lemma tr_key o n : dget chars_eqb (tr_tbl es) o = Some n ->
    exists an i k, In (an, i) es /\ o = idx_name an i /\ n = idx_name an k /\ In (k, i) (enumerate (sort_by (fun z => z) (idxs es an))).
  Proof.
    intros H. apply fold_dset_get in H. apply pairs_in in H as (an & k & i & H & -> & ->). exists an, i, k. repeat split; auto.
    apply enum_facts in H as (H & _). now apply idxs_in.
  Qed.

  Lemma tr_has an i : In (an, i) es -> exists n, dget chars_eqb (tr_tbl es) (idx_name an i) = Some n.
  Proof.
    intros H. apply idxs_in in H. destruct (enum_of_val _ _ H) as (k & Hk).
    assert (In (idx_name an i, idx_name an k) (tr_pairs es)) as Hp by (apply pairs_in; now exists an, k, i).
    apply (in_map fst) in Hp. apply fold_dset_get in Hp. unfold tr_tbl. destruct (dget _ _ _) as [n|]; [now exists n|easy].
  Qed.

  Lemma mod_key m c : In m ms -> dget chars_eqb (tr_tbl es) (rm_cn m) = Some c ->
    exists i k, rm_an m <> [] /\ 0 <= i /\ cn_entry m = Some (rm_an m, i) /\ rm_cn m = idx_name (rm_an m) i /\ c = idx_name (rm_an m) k /\
      In (k, i) (enumerate (sort_by (fun z => z) (idxs es (rm_an m)))).
  Proof.
    intros Hm H. apply tr_key in H as (an & i & k & Hin & Eo & -> & Hk).
    destruct (es_ok an i Hin) as (Ha & Hi). destruct (print_nonneg i Hi) as (H1 & H2 & H3).
    destruct (forall2_in_l _ _ _ _ HE Hm) as ((an', i') & _ & E). pose proof E as E0. apply entry_ok in E as (-> & Hne & Hi').
    assert (an = rm_an m) as ->.
    { unfold cn_entry in E0. assert (split_cn (rm_cn m) = Some (an, print_Z i)) as Es by (rewrite Eo; apply split_ok; now repeat split).
      rewrite Es in E0. destruct (chars_eqb an (rm_an m)) eqn:Ec; [|discriminate]. now apply chars_eqb_ok in Ec. }
    exists i, k. repeat split; auto. now apply entry_of.
  Qed.
End Run.

Lemma filter_forall2_len {A B} (R : A -> B -> Prop) f g l l' : Forall2 R l l' -> (forall a b, R a b -> f a = g b) ->
  List.length (filter f l) = List.length (filter g l').
Proof. intros F H. induction F as [|a b l l' Hab F IH]; simpl; [reflexivity|]. rewrite (H a b Hab). destruct (g b); simpl; congruence. Qed.

Lemma nodup_map_in {A B} (f : A -> B) l : (forall x y, In x l -> In y l -> f x = f y -> x = y) -> NoDup l -> NoDup (map f l).
Proof.
  intros Hf Hn. induction l as [|x l IH]; simpl; [constructor|]. apply NoDup_cons_iff in Hn as (Hx & Hn). constructor.
  - intros H. apply in_map_iff in H as (y & E & Hy). apply Hx. rewrite <- (Hf y x); simpl; auto.
  - apply IH; [|exact Hn]. intros; apply Hf; simpl; auto.
Qed.

Theorem change_ok p p' tr : change_names p = Some (p', tr) -> NoDup (map rm_cn (rp_mods p)) -> renumbered p p'.
Proof.
  unfold change_names. intros H Hnd. destruct (cn_entries (rp_mods p)) as [es|] eqn:Ees; [|discriminate]. apply entries_ok in Ees.
  destruct (ren_mods _ _ _) as [ms'|] eqn:Em; [|discriminate]. injection H as <- <-. apply ren_mods_ok in Em.
  set (lc := map rl_cn (rp_leaves p)) in *.
  assert (L : forall m m', In m (rp_mods p) -> ren_mod (tr_tbl es) lc m = Some m' ->
     rm_an m' = rm_an m /\ dget chars_eqb (tr_tbl es) (rm_cn m) = Some (rm_cn m')).
  { intros m m' _. unfold ren_mod. destruct (dget _ _ _) as [c|]; [|discriminate]. destruct (ren_insts _ _ _); [|discriminate]. now intros [= <-]. }
  assert (K : forall m m', In (m, m') (combine (rp_mods p) ms') -> rm_an m' = rm_an m /\
     exists i k, rm_an m <> [] /\ 0 <= i /\ cn_entry m = Some (rm_an m, i) /\ rm_cn m = idx_name (rm_an m) i /\ rm_cn m' = idx_name (rm_an m) k /\
      In (k, i) (enumerate (sort_by (fun z => z) (idxs es (rm_an m))))).
  { intros m m' Hp. pose proof (forall2_comb _ _ _ _ _ Em Hp) as Hr. apply in_combine_l in Hp.
    destruct (L m m' Hp Hr) as (Ha & Hd). split; [exact Ha|]. exact (mod_key _ _ Ees m _ Hp Hd). }
  assert (Hes : NoDup es).
  { apply (NoDup_map_inv (fun e => idx_name (fst e) (snd e))).
    assert (map rm_cn (rp_mods p) = map (fun e => idx_name (fst e) (snd e)) es) as <-; [|exact Hnd].
    assert (G : forall m e, In (m, e) (combine (rp_mods p) es) -> rm_cn m = idx_name (fst e) (snd e)).
    { intros m e Hp. pose proof (forall2_comb _ _ _ _ _ Ees Hp) as He. apply in_combine_l in Hp.
      destruct (forall2_in_l _ _ _ _ Em Hp) as (m' & Hp' & _). destruct (K m m' Hp') as (_ & i & k & _ & _ & E & E' & _).
      rewrite He in E. injection E as ->. exact E'. }
    clear - Ees G. induction Ees as [|m e l l' H F IH]; simpl; [reflexivity|]. f_equal; [apply G; now left|apply IH; intros; apply G; now right]. }
  assert (Hix : forall an, NoDup (idxs es an)).
  { intros an. unfold idxs. apply nodup_map_in; [|now apply NoDup_filter].
    intros (a, x) (b, y) Hx Hy E. apply filter_In in Hx as (_ & Hx), Hy as (_ & Hy). simpl in *. apply chars_eqb_ok in Hx, Hy. congruence. }
  assert (Hvar : forall an, variants_of an ms' = List.length (idxs es an)).
  { intros an. unfold idxs. rewrite map_length. unfold variants_of.
    transitivity (List.length (filter (fun m => chars_eqb (rm_an m) an) (rp_mods p))).
    - symmetry. apply (filter_forall2_len (fun m m' => rm_an m' = rm_an m)).
      + clear - Em. induction Em as [|m m' l l' H F IH]; constructor; [|exact IH]. unfold ren_mod in H. destruct (dget _ _ _); [|discriminate]. destruct (ren_insts _ _ _); [|discriminate]. now injection H as <-.
      + intros a b E. rewrite E. reflexivity.
    - apply (filter_forall2_len _ _ _ _ _ Ees). intros m (a, i) E. apply entry_ok in E as (-> & _). reflexivity. }
  split; cbn [rp_mods].
  - clear - Em. induction Em; simpl; congruence.
  - intros m m' Hp. now apply K.
  - assert (map rm_cn ms' = map (fun c => match dget chars_eqb (tr_tbl es) c with Some n => n | None => [] end) (map rm_cn (rp_mods p))) as ->.
    { rewrite map_map. clear - Em. induction Em as [|m m' l l' H F IH]; simpl; [reflexivity|]. f_equal; [|exact IH].
      unfold ren_mod in H. destruct (dget _ _ _); [|discriminate]. destruct (ren_insts _ _ _); [|discriminate]. now injection H as <-. }
    apply nodup_map_in; [|exact Hnd]. intros x y Hx Hy E. apply in_map_iff in Hx as (m1 & <- & H1), Hy as (m2 & <- & H2).
    destruct (forall2_in_l _ _ _ _ Em H1) as (m1' & Hp1 & R1), (forall2_in_l _ _ _ _ Em H2) as (m2' & Hp2 & R2).
    destruct (L _ _ H1 R1) as (_ & D1), (L _ _ H2 R2) as (_ & D2). rewrite D1, D2 in E.
    destruct (K _ _ Hp1) as (_ & i1 & k1 & _ & _ & _ & C1 & N1 & Q1), (K _ _ Hp2) as (_ & i2 & k2 & _ & _ & _ & C2 & N2 & Q2).
    rewrite N1, N2 in E. apply idx_name_inj in E as (Ea & ->); [|now apply enum_facts in Q1|now apply enum_facts in Q2].
    rewrite C1, C2, Ea in *. f_equal. exact (enum_fun _ _ _ _ Q1 Q2).
  - intros m' Hm'. destruct (forall2_in_r _ _ _ _ Em Hm') as (m & Hp & _). destruct (K _ _ Hp) as (Ha & i & k & _ & _ & _ & _ & N & Q).
    exists k. rewrite Hvar, Ha. apply enum_facts in Q as (_ & Q). now split.
  - intros an k. rewrite Hvar. intros Hk. destruct (enum_of_pos _ _ Hk) as (i & Q).
    pose proof (enum_facts _ _ _ Q) as (Hi & _). apply idxs_in in Hi. destruct (forall2_in_r _ _ _ _ Ees Hi) as (m & Hp & Em0).
    apply in_combine_l in Hp. destruct (forall2_in_l _ _ _ _ Em Hp) as (m' & Hp' & _). destruct (K _ _ Hp') as (Ha & i' & k' & _ & _ & E & _ & N & Q').
    rewrite Em0 in E. injection E as -> ->. exists m'. split; [now apply in_combine_r in Hp'|]. split; [exact Ha|]. rewrite N.
    assert (k' = k) as ->; [|reflexivity]. pose proof (enum_order _ _ _ _ _ (Hix _) Q Q'). pose proof (enum_order _ _ _ _ _ (Hix _) Q' Q). lia.
  - intros m1 m1' m2 m2' i1 i2 k1 k2 P1 P2 Ea C1 C2 N1 N2 I1 I2 J1 J2 Hlt.
    destruct (K _ _ P1) as (_ & i1' & k1' & _ & I1' & _ & C1' & N1' & Q1), (K _ _ P2) as (_ & i2' & k2' & _ & I2' & _ & C2' & N2' & Q2).
    rewrite C1 in C1'. rewrite C2 in C2'. rewrite N1 in N1'. rewrite N2 in N2'. rewrite variant_idx in *.
    apply idx_name_inj in C1' as (_ & <-), C2' as (_ & <-), N1' as (_ & <-), N2' as (_ & <-); auto;
      try (now apply enum_facts in Q1); try (now apply enum_facts in Q2).
    rewrite <- Ea in Q2. now apply (enum_order _ _ _ _ _ (Hix _) Q1 Q2).
Qed.

Theorem change_refs p p' tr : change_names p = Some (p', tr) -> refs_follow p p'.
Proof.
  unfold change_names. intros H. destruct (cn_entries (rp_mods p)) as [es|] eqn:Ees; [|discriminate]. apply entries_ok in Ees.
  destruct (ren_mods _ _ _) as [ms'|] eqn:Em; [|discriminate]. injection H as <- <-. apply ren_mods_ok in Em.
  split; cbn [rp_leaves rp_mods].
  - rewrite map_map. split; [reflexivity|]. intros l Hl. apply in_map_iff in Hl as (x & <- & _). reflexivity.
  - intros m m' Hp. unfold paired in Hp. cbn [rp_mods] in Hp. pose proof (forall2_comb _ _ _ _ _ Em Hp) as Hr. unfold ren_mod in Hr.
    destruct (dget _ _ (rm_cn m)) as [c|]; [|discriminate]. destruct (ren_insts _ _ _) as [l|] eqn:El; [|discriminate]. injection Hr as <-. cbn [rm_insts].
    apply ren_insts_ok in El. revert El. clear Hp. induction 1 as [|i i' li li' Hi F IH]; constructor; [|exact IH].
    unfold ren_inst in Hi. destruct (cmem (ri_ctn i) (map rl_cn (rp_leaves p))) eqn:Ec.
    + destruct (dmem _ _ _); [discriminate|]. injection Hi as <-. split; [reflexivity|]. left. apply cmem_ok in Ec. now repeat split.
    + destruct (dget chars_eqb (tr_tbl es) (ri_ctn i)) as [n|] eqn:Ed; [|discriminate]. injection Hi as <-. split; [reflexivity|]. right.
      split; [intros Hin; apply cmem_ok in Hin; congruence|]. split; [reflexivity|].
      pose proof (tr_key _ _ _ Ed) as (an & j & k & Hin & Eo & _ & _). destruct (forall2_in_r _ _ _ _ Ees Hin) as (t & Ht & Et).
      apply in_combine_l in Ht. destruct (forall2_in_l _ _ _ _ Em Ht) as (t' & Hp' & Rt). unfold ren_mod in Rt.
      destruct (dget _ _ (rm_cn t)) as [ct|] eqn:Edt; [|discriminate]. destruct (ren_insts _ _ _) as [lt|]; [|discriminate]. injection Rt as <-.
      destruct (mod_key _ _ Ees t ct Ht Edt) as (j' & _ & _ & _ & E' & Ct & _). rewrite Et in E'. injection E' as -> ->.
      assert (Eq : ri_ctn i = rm_cn t) by congruence. eexists t, _. split; [exact Hp'|]. split; [exact Eq|]. cbn. congruence.
Qed.

Theorem change_success p : change_names p <> None <-> numbered p /\ referenced p.
Proof.
  split.
  - intros H. unfold change_names in H. destruct (cn_entries (rp_mods p)) as [es|] eqn:Ees; [|easy]. apply entries_ok in Ees.
    destruct (ren_mods _ _ _) as [ms'|] eqn:Em; [|easy]. apply ren_mods_ok in Em. clear H.
    assert (N : numbered p).
    { intros m Hm. destruct (forall2_in_l _ _ _ _ Em Hm) as (m' & Hp & Hr). unfold ren_mod in Hr.
      destruct (dget _ _ (rm_cn m)) as [c|] eqn:Ed; [|discriminate]. destruct (mod_key _ _ Ees m c Hm Ed) as (i & k & Ha & Hi & _ & C & _).
      split; [exact Ha|]. now exists i. }
    split; [exact N|]. intros m i Hm Hi. destruct (forall2_in_l _ _ _ _ Em Hm) as (m' & Hp & Hr). unfold ren_mod in Hr.
    destruct (dget _ _ (rm_cn m)) as [c|]; [|discriminate]. destruct (ren_insts _ _ _) as [l|] eqn:El; [|discriminate]. clear Hr.
    apply ren_insts_ok in El. destruct (forall2_in_l _ _ _ _ El Hi) as (i' & _ & Ri). unfold ren_inst in Ri.
    assert (T : In (ri_ctn i) (map rm_cn (rp_mods p)) <-> dget chars_eqb (tr_tbl es) (ri_ctn i) <> None).
    { split.
      - intros Hin. apply in_map_iff in Hin as (t & <- & Ht). destruct (forall2_in_l _ _ _ _ Em Ht) as (t' & _ & Rt). unfold ren_mod in Rt.
        now destruct (dget _ _ (rm_cn t)).
      - destruct (dget chars_eqb (tr_tbl es) (ri_ctn i)) as [n|] eqn:Ed; [|easy]. intros _.
        pose proof (tr_key _ _ _ Ed) as (an & j & k & Hin & Eo & _ & _). destruct (forall2_in_r _ _ _ _ Ees Hin) as (t & Ht & Et).
        apply in_combine_l in Ht. destruct (N t Ht) as (Ha & x & Hx & Cx). pose proof (entry_of t x Ha Hx Cx) as Ex. rewrite Et in Ex. injection Ex as -> ->.
        rewrite Eo. rewrite variant_idx in Cx. rewrite <- Cx. now apply in_map. }
    rewrite T. destruct (cmem (ri_ctn i) (map rl_cn (rp_leaves p))) eqn:Ec.
    + apply cmem_ok in Ec. unfold dmem in Ri. destruct (dget _ _ (ri_ctn i)); [discriminate|]. tauto.
    + destruct (dget _ _ (ri_ctn i)); [|discriminate]. split.
      * intros Hin. apply cmem_ok in Hin. congruence.
      * intros Hno. exfalso. apply Hno. discriminate.
  - intros (N & R). unfold change_names.
    assert (exists es, Forall2 (fun m e => cn_entry m = Some e) (rp_mods p) es) as (es & Ees).
    { clear R. unfold numbered in N. induction (rp_mods p) as [|m ms IH]; [exists []; constructor|].
      destruct IH as (es & He); [intros; apply N; now right|]. destruct (N m (or_introl eq_refl)) as (Ha & k & Hk & C).
      exists ((rm_an m, k) :: es). constructor; [now apply entry_of|exact He]. }
    pose proof Ees as Ees'. apply entries_ok in Ees'. rewrite Ees'.
    assert (T : forall x, In x (map rm_cn (rp_mods p)) <-> dget chars_eqb (tr_tbl es) x <> None).
    { intros x. split.
      - intros Hin. apply in_map_iff in Hin as (t & <- & Ht). destruct (N t Ht) as (Ha & k & Hk & C).
        destruct (forall2_in_l _ _ _ _ Ees Ht) as ((a, j) & Hp & E). rewrite (entry_of t k Ha Hk C) in E. injection E as <- <-.
        apply in_combine_r in Hp. destruct (tr_has _ _ _ Hp) as (n & Hn). rewrite C, variant_idx, Hn. discriminate.
      - destruct (dget chars_eqb (tr_tbl es) x) as [n|] eqn:Ed; [|easy]. intros _.
        pose proof (tr_key _ _ _ Ed) as (an & j & k & Hin & Eo & _ & _). destruct (forall2_in_r _ _ _ _ Ees Hin) as (t & Ht & Et).
        apply in_combine_l in Ht. destruct (N t Ht) as (Ha & y & Hy & Cy). pose proof (entry_of t y Ha Hy Cy) as Ex. rewrite Et in Ex. injection Ex as -> ->.
        rewrite Eo. rewrite variant_idx in Cy. rewrite <- Cy. now apply in_map. }
    assert (exists ms', Forall2 (fun m m' => ren_mod (tr_tbl es) (map rl_cn (rp_leaves p)) m = Some m') (rp_mods p) ms') as (ms' & Em).
    { assert (G : forall l, incl l (rp_mods p) -> exists ms', Forall2 (fun m m' => ren_mod (tr_tbl es) (map rl_cn (rp_leaves p)) m = Some m') l ms').
      { induction l as [|m l IH]; intros Hl; [exists []; constructor|]. destruct IH as (ms' & F); [intros x Hx; apply Hl; now right|].
        assert (Hm : In m (rp_mods p)) by (apply Hl; now left).
        assert (exists li, ren_insts (tr_tbl es) (map rl_cn (rp_leaves p)) (rm_insts m) = Some li) as (li & Eli).
        { assert (GI : forall q, incl q (rm_insts m) -> exists li, Forall2 (fun i i' => ren_inst (tr_tbl es) (map rl_cn (rp_leaves p)) i = Some i') q li).
          { induction q as [|i q IHq]; intros Hq; [exists []; constructor|]. destruct IHq as (li & Fq); [intros x Hx; apply Hq; now right|].
            specialize (R m i Hm (Hq i (or_introl eq_refl))). rewrite T in R. 
            assert (exists i', ren_inst (tr_tbl es) (map rl_cn (rp_leaves p)) i = Some i') as (i' & Ei).
            { unfold ren_inst, dmem. destruct (cmem _ _) eqn:Ec.
              - apply cmem_ok in Ec. apply R in Ec. destruct (dget _ _ _); [exfalso; apply Ec; discriminate|]. eexists. reflexivity.
              - destruct (dget _ _ _) as [c|] eqn:Ed; [eexists; reflexivity|]. exfalso.
                assert (In (ri_ctn i) (map rl_cn (rp_leaves p))) as Hin by (apply R; auto). apply cmem_ok in Hin. congruence. }
            exists (i' :: li). now constructor. }
          destruct (GI (rm_insts m) (incl_refl _)) as (li & F'). exists li. now apply ren_insts_ok. }
        assert (dget chars_eqb (tr_tbl es) (rm_cn m) <> None) as Hd by (apply T; now apply in_map).
        destruct (dget chars_eqb (tr_tbl es) (rm_cn m)) as [c|] eqn:Ed; [|easy].
        exists (mkRmod (rm_an m) c li :: ms'). constructor; [|exact F]. unfold ren_mod. now rewrite Ed, Eli. }
      apply G, incl_refl. }
    apply ren_mods_ok in Em. rewrite Em. discriminate.
Qed.
