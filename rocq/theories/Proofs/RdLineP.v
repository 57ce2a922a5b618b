From Coq Require Import String Ascii.
From Verif Require Import Base.Prelude Base.PyDict Model.Transformation Model.UnionFind Model.PySort
  Model.RemoveDuplicates Spec.RemoveDuplicatesSpec Proofs.UnionFindP Proofs.PySortP Proofs.RemoveDuplicatesP.
From Coq Require Import ZifyBool.
Local Open Scope Z_scope.

Definition ekey (d : sdir) (e : entry) : Z := dlo d (e_rect e).

Record LI (layer : string) (d : sdir) (s0 : rst) (rep0 : nat -> nat)
  (P : list entry) (cur : option nat) (ids : list nat) (s : rst) (rep : nat -> nat) : Prop := {
  li_wf : wf s rep;
  li_size : (size s0 <= size s)%nat;
  li_frame : forall i, (i < size s0)%nat ->
     rect_of s i = rect_of s0 i /\ type_of s i = type_of s0 i /\ term_of s i = term_of s0 i /\
     ported_of s i = ported_of s0 i /\ net_of s i = net_of s0 i /\ rep i = rep0 i;
  li_seg : forall i, (size s0 <= i < size s)%nat -> (size s0 <= rep i)%nat;
  li_ids : forall i, In i ids -> (size s0 <= i < size s)%nat;
  li_nodup : NoDup ids;
  li_cur : match cur with None => ids = [] /\ P = [] | Some c => exists l, ids = l ++ [c] end;
  li_start : forall i, In i ids -> exists e, In e P /\ dlo d (rect_of s i) = dlo d (e_rect e) /\
     same_width d (rect_of s i) (e_rect e) = true /\ type_of s i = e_type e /\
     (e_ported e = true -> ported_of s i = true) /\ inside (e_rect e) (rect_of s i);
  li_in : forall e, In e P -> exists i, In i ids /\ inside (e_rect e) (rect_of s i) /\
     same_width d (e_rect e) (rect_of s i) = true;
  li_out : forall i k p, In i ids -> 0 < k -> covers k (rect_of s i) p ->
     exists e, In e P /\ covers k (e_rect e) p;
  li_names : forall i n, (size s0 <= i)%nat -> net_of s i = Some n -> exists e, In e P /\ e_net e = Some n;
  li_shorts : exists new, s_shorts s = s_shorts s0 ++ new /\
     forall x, In x new -> exists a b, x = SPair layer a b /\ a <> b /\
       (exists e, In e P /\ e_net e = Some a) /\ (exists e, In e P /\ e_net e = Some b) }.

Definition clean_entry (e : entry) : Prop :=
  parse_name (e_net e) = Some (e_net e, None) /\ is_blockage (e_type e) = false.

Definition gap_order (d : sdir) (s : rst) (i j : nat) : Prop :=
  dlo d (rect_of s i) <= dlo d (rect_of s j) /\ dhi d (rect_of s i) < dlo d (rect_of s j).

Record LC (d : sdir) (s0 : rst) (P : list entry) (ids : list nat) (s : rst) (rep : nat -> nat) : Prop := {
  lc_root : forall i, In i ids -> rep i = i;
  lc_term : forall i, In i ids -> term_of s i = None;
  lc_type : forall i, In i ids -> is_blockage (type_of s i) = false;
  lc_names : forall e, In e P -> exists i, In i ids /\ inside (e_rect e) (rect_of s i) /\
     (forall n, e_net e = Some n -> net_of s i = Some n) /\ (e_ported e = true -> ported_of s i = true);
  lc_back : forall i n, In i ids -> net_of s i = Some n ->
     exists e, In e P /\ inside (e_rect e) (rect_of s i) /\ e_net e = Some n;
  lc_ported : forall i, In i ids -> ported_of s i = true ->
     exists e, In e P /\ e_ported e = true /\ (forall n, e_net e = Some n -> net_of s i = Some n);
  lc_sorted : s_shorts s = s_shorts s0 ->
     (forall e e', In e P -> In e' P -> same_width d (e_rect e) (e_rect e') = true) ->
     StronglySorted (gap_order d s) ids }.

Lemma same_width_sym d a b : same_width d a b = true -> same_width d b a = true.
Proof. unfold same_width. lia. Qed.
Lemma same_width_trans d a b c : same_width d a b = true -> same_width d b c = true -> same_width d a c = true.
Proof. unfold same_width. lia. Qed.
Lemma same_width_refl d a : same_width d a a = true.
Proof. unfold same_width. lia. Qed.
Lemma inside_refl r : inside r r.
Proof. unfold inside. lia. Qed.
Lemma inside_trans a b c : inside a b -> inside b c -> inside a c.
Proof. unfold inside. lia. Qed.

(** Geometry of a merge. *)
Lemma set_dhi_lo d r v : dlo d (set_dhi d r v) = dlo d r.
Proof. destruct d; reflexivity. Qed.
Lemma set_dhi_hi d r v : dhi d (set_dhi d r v) = v.
Proof. destruct d; reflexivity. Qed.
Lemma set_dhi_width d r v x : same_width d (set_dhi d r v) x = same_width d r x.
Proof. destruct d; reflexivity. Qed.
Lemma inside_set_dhi d r v : dhi d r <= v -> inside r (set_dhi d r v).
Proof. destruct d; unfold inside; simpl; lia. Qed.
Lemma inside_merge d e c :
  dlo d c <= dlo d e -> same_width d e c = true -> inside e (set_dhi d c (Z.max (dhi d c) (dhi d e))).
Proof. unfold same_width, inside. destruct d; simpl; lia. Qed.

Lemma merge_cover d e c k p :
  0 < k -> dlo d c <= dlo d e -> dlo d e <= dhi d c -> same_width d e c = true ->
  covers k (set_dhi d c (Z.max (dhi d c) (dhi d e))) p -> covers k c p \/ covers k e p.
Proof.
  unfold same_width, covers. intros Hk H1 H2 H3 Hp.
  destruct d; simpl in *;
    destruct (Z.le_gt_cases (dhi DH c) (dhi DH e)); destruct (Z.le_gt_cases (dhi DV c) (dhi DV e)); simpl in *.
  all: nia.
Qed.

Lemma join_other rep a b i : rep i <> rep b -> join rep a b i = rep i.
Proof. intros H. unfold join. apply Nat.eqb_neq in H. now rewrite H. Qed.

Lemma addrep_same n rep : addrep n rep n = n.
Proof. unfold addrep. now rewrite Nat.eqb_refl. Qed.
Lemma addrep_other n rep i : i <> n -> addrep n rep i = rep i.
Proof. unfold addrep. intros H. apply Nat.eqb_neq in H. now rewrite H. Qed.

Lemma nodup_snoc {A} (l : list A) x : NoDup l -> ~ In x l -> NoDup (l ++ [x]).
Proof.
  intros H1 H2. apply NoDup_Add with (a := x) (l := l); [|auto].
  pose proof (Add_app x l []) as HA. rewrite app_nil_r in HA. exact HA.
Qed.

(** After a step the new object's class: [rep' i] for old objects. *)
Lemma join_new_old rep n c i :
  (i < n)%nat -> (forall j, (j < n)%nat -> (rep j < n)%nat) -> (c < n)%nat ->
  join (addrep n rep) c n i = rep i.
Proof.
  intros Hi Hr Hc. unfold join. rewrite addrep_same, !addrep_other by lia.
  specialize (Hr i Hi). destruct (rep i =? n)%nat eqn:E; [apply Nat.eqb_eq in E; lia|reflexivity].
Qed.
Lemma join_new_new rep n c :
  (c < n)%nat -> join (addrep n rep) c n n = rep c.
Proof.
  intros Hc. unfold join. rewrite addrep_same, Nat.eqb_refl, addrep_other by lia. reflexivity.
Qed.

Lemma snoc_inj_last {A} (l l' : list A) x y : l ++ [x] = l' ++ [y] -> x = y.
Proof. intros H. apply app_inj_tail in H. tauto. Qed.

Lemma LI_step layer d s0 rep0 P cur ids s rep e cur' ids' s' :
  LI layer d s0 rep0 P cur ids s rep ->
  (forall e', In e' P -> ekey d e' <= ekey d e) ->
  line_step layer d (cur, ids, s) e = Some (cur', ids', s') ->
  exists n t rep', parse_name (e_net e) = Some (n, t) /\
    step_kind layer d cur ids s rep e n t cur' ids' s' rep' /\
    (forall j, type_of s' j = if (j =? size s)%nat then e_type e else type_of s j) /\
    (forall j, term_of s' j = if (j =? size s)%nat then t else term_of s j) /\
    LI layer d s0 rep0 (P ++ [e]) cur' ids' s' rep'.
Proof.
  intros I Hsort Hstep.
  assert (Hcin : forall c, cur = Some c -> In c ids).
  { intros c ->. destruct (li_cur _ _ _ _ _ _ _ _ _ I) as [l ->]. apply in_app_iff. right. now left. }
  assert (Hclt : forall c, cur = Some c -> (size s0 <= c < size s)%nat).
  { intros c Hc. apply (li_ids _ _ _ _ _ _ _ _ _ I); auto. }
  destruct (step_cases layer d cur ids s rep e cur' ids' s') as (n & t & rep' & Ep & W & Zs & Ty & Tm & K); auto.
  { apply I. } { intros c Hc. apply Hclt in Hc. lia. }
  exists n, t, rep'. do 4 (split; [assumption|]).
  assert (Hclo : forall c, cur = Some c -> dlo d (rect_of s c) <= dlo d (e_rect e)).
  { intros c Hc. destruct (li_start _ _ _ _ _ _ _ _ _ I c) as (e0 & H1 & H2 & _); auto.
    rewrite H2. apply (Hsort e0 H1). }
  assert (Hszs : (size s0 <= size s)%nat) by apply I.
  assert (Hrlt : forall j, (j < size s)%nat -> (rep j < size s)%nat).
  { intros j Hj. eapply Inv_rep_lt; [apply I|assumption]. }
  (* names: everything comes from entries *)
  assert (Hnn : forall m, n = Some m -> e_net e = Some m).
  { intros m ->. destruct (parse_name_some _ _ _ Ep) as [[H _]|[H _]]; congruence. }
  assert (Hnames : (forall i m, (size s0 <= i)%nat -> net_of s' i = Some m -> exists e', In e' (P ++ [e]) /\ e_net e' = Some m) ).
  { intros i m Hi Hm.
    assert (Old : forall j, (size s0 <= j)%nat -> net_of s j = Some m -> exists e', In e' (P ++ [e]) /\ e_net e' = Some m).
    { intros j Hj H. destruct (li_names _ _ _ _ _ _ _ _ _ I j m Hj H) as (e' & H1 & H2). exists e'.
      split; [apply in_app_iff; now left|assumption]. }
    assert (New : n = Some m -> exists e', In e' (P ++ [e]) /\ e_net e' = Some m).
    { intros H. exists e. split; [apply in_app_iff; right; now left|auto]. }
    assert (ByNets : forall c, cur = Some c -> NETS s s' c n -> exists e', In e' (P ++ [e]) /\ e_net e' = Some m).
    { intros c Hc (N1 & N2 & N3). specialize (Hclt c Hc).
      destruct (Nat.eq_dec i c) as [->|Hic].
      - rewrite N2 in Hm. destruct (net_of s c) eqn:E; [apply (Old c); [lia|congruence]|auto].
      - destruct (Nat.eq_dec i (size s)) as [->|His].
        + rewrite N3 in Hm. destruct n eqn:En; [auto|]. destruct (net_of s c) eqn:E; [|congruence].
          apply (Old c); [lia|congruence].
        + rewrite N1 in Hm by assumption. eauto. }
    destruct K; eauto.
    rewrite H4 in Hm. destruct (i =? size s)%nat; eauto. }
  assert (Hframe : forall i, (i < size s0)%nat ->
     rect_of s' i = rect_of s0 i /\ type_of s' i = type_of s0 i /\ term_of s' i = term_of s0 i /\
     ported_of s' i = ported_of s0 i /\ net_of s' i = net_of s0 i /\ rep' i = rep0 i).
  { intros i Hi. destruct (li_frame _ _ _ _ _ _ _ _ _ I i Hi) as (F1 & F2 & F3 & F4 & F5 & F6).
    assert (Hne : (i =? size s)%nat = false) by (apply Nat.eqb_neq; lia).
    assert (Hnc : forall c, cur = Some c -> (i =? c)%nat = false).
    { intros c Hc. apply Hclt in Hc. apply Nat.eqb_neq. lia. }
    rewrite Ty, Tm, Hne.
    assert (Rep1 : forall c, cur = Some c -> join (addrep (size s) rep) c (size s) i = rep0 i).
    { intros c Hc. rewrite join_new_old; auto; [lia|]. apply Hclt in Hc. lia. }
    assert (Rep2 : addrep (size s) rep i = rep0 i) by (rewrite addrep_other by lia; assumption).
    assert (ByNets : forall c, cur = Some c -> NETS s s' c n -> net_of s' i = net_of s0 i).
    { intros c Hc (N1 & _). rewrite N1; auto; [apply Hclt in Hc; lia|lia]. }
    destruct K as [? ? [A1 A2] -> ? HN ?|c x y ? ? ? ? [A1 A2] -> ? ? ? ? HN|c ? ? ? ? [A1 A2] -> ? HN ? ?|c ? ? ? ? [A1 A2] -> ? HN ? ? ? ? ?];
      rewrite A1, A2; try (rewrite (Hnc c) by assumption); rewrite Hne; repeat split; eauto.
    rewrite HN, Hne. assumption. }
  assert (Hrepp : forall i, (size s0 <= i < size s')%nat -> (size s0 <= rep' i)%nat).
  { intros i Hi.
    assert (Rep1 : forall c, cur = Some c -> (size s0 <= join (addrep (size s) rep) c (size s) i)%nat).
    { intros c Hc. apply Hclt in Hc. destruct (Nat.eq_dec i (size s)) as [->|Hn].
      - rewrite join_new_new by lia. apply (li_seg _ _ _ _ _ _ _ _ _ I). lia.
      - rewrite join_new_old; auto; try lia. apply (li_seg _ _ _ _ _ _ _ _ _ I). lia. }
    assert (Rep2 : (size s0 <= addrep (size s) rep i)%nat).
    { destruct (Nat.eq_dec i (size s)) as [->|Hn]; [rewrite addrep_same; lia|].
      rewrite addrep_other by assumption. apply (li_seg _ _ _ _ _ _ _ _ _ I). lia. }
    destruct K; subst rep'; eauto. }
  assert (Hshorts : exists new, s_shorts s' = s_shorts s0 ++ new /\
     forall x, In x new -> exists a b, x = SPair layer a b /\ a <> b /\
       (exists e', In e' (P ++ [e]) /\ e_net e' = Some a) /\ (exists e', In e' (P ++ [e]) /\ e_net e' = Some b)).
  { destruct (li_shorts _ _ _ _ _ _ _ _ _ I) as (new & HS & HF).
    assert (Mono : forall a, (exists e', In e' P /\ e_net e' = Some a) -> exists e', In e' (P ++ [e]) /\ e_net e' = Some a).
    { intros a (e' & H1 & H2). exists e'. split; [apply in_app_iff; now left|assumption]. }
    assert (Same : s_shorts s' = s_shorts s -> exists new, s_shorts s' = s_shorts s0 ++ new /\
     forall x, In x new -> exists a b, x = SPair layer a b /\ a <> b /\
       (exists e', In e' (P ++ [e]) /\ e_net e' = Some a) /\ (exists e', In e' (P ++ [e]) /\ e_net e' = Some b)).
    { intros E. exists new. split; [congruence|]. intros x Hx. destruct (HF x Hx) as (a & b & H1 & H2 & H3 & H4).
      exists a, b. auto. }
    destruct K as [| c x y Hc ? ? ? ? ? Es Ec En Hxy ? | |]; auto.
    exists (new ++ [SPair layer x y]). split; [rewrite Es, HS; now rewrite <- app_assoc|].
    intros z Hz. apply in_app_iff in Hz as [Hz|[<-|[]]].
    - destruct (HF z Hz) as (a & b & H5 & H6 & H7 & H8). exists a, b. auto.
    - exists x, y. split; [reflexivity|]. split; [assumption|]. split.
      + apply Mono. apply (li_names _ _ _ _ _ _ _ _ _ I c x); [apply Hclt in Hc; lia|assumption].
      + exists e. split; [apply in_app_iff; right; now left|auto]. }
  (* added: all cases but merge *)
  assert (Hadd : cur' = Some (size s) -> ids' = ids ++ [size s] -> added_rects s s' e -> LI layer d s0 rep0 (P ++ [e]) cur' ids' s' rep').
  { intros -> -> [A1 A2].
    assert (Hold : forall i, In i ids -> (i =? size s)%nat = false).
    { intros i Hi. apply (li_ids _ _ _ _ _ _ _ _ _ I) in Hi. apply Nat.eqb_neq. lia. }
    split; auto.
    - lia.
    - intros i Hi. apply in_app_iff in Hi as [Hi|[<-|[]]]; [apply (li_ids _ _ _ _ _ _ _ _ _ I) in Hi|]; lia.
    - apply nodup_snoc; [apply I|]. intros Hi. apply Hold in Hi. rewrite Nat.eqb_refl in Hi. discriminate.
    - eauto.
    - intros i Hi. apply in_app_iff in Hi as [Hi|[<-|[]]].
      + destruct (li_start _ _ _ _ _ _ _ _ _ I i Hi) as (e0 & H1 & H2 & H3 & H4 & H5 & H5'). exists e0.
        rewrite A1, A2, Ty, (Hold i Hi). split; [apply in_app_iff; now left|auto].
      + exists e. rewrite A1, A2, Ty, Nat.eqb_refl. split; [apply in_app_iff; right; now left|].
        split; [reflexivity|]. split; [apply same_width_refl|]. split; [auto|]. split; [auto|]. apply inside_refl.
    - intros e0 He. apply in_app_iff in He as [He|[<-|[]]].
      + destruct (li_in _ _ _ _ _ _ _ _ _ I e0 He) as (i & H1 & H2 & H3). exists i.
        rewrite A1, (Hold i H1). split; [apply in_app_iff; now left|auto].
      + exists (size s). rewrite A1, Nat.eqb_refl. split; [apply in_app_iff; right; now left|].
        split; [apply inside_refl|apply same_width_refl].
    - intros i k p Hi Hk Hcov. apply in_app_iff in Hi as [Hi|[<-|[]]].
      + rewrite A1, (Hold i Hi) in Hcov. destruct (li_out _ _ _ _ _ _ _ _ _ I i k p Hi Hk Hcov) as (e0 & H1 & H2).
        exists e0. split; [apply in_app_iff; now left|assumption].
      + rewrite A1, Nat.eqb_refl in Hcov. exists e. split; [apply in_app_iff; right; now left|assumption]. }
  destruct K as [E1 E2 A|c x y ? ? E1 E2 A|c ? ? E1 E2 A|c Hcur Hcont E1 E2 [A1 A2] Er Es HN ? ? ? ? ?]; auto.
  (* merged *)
  subst cur' ids'. destruct Hcont as [Hov Hw]. specialize (Hcin c Hcur). specialize (Hclt c Hcur). specialize (Hclo c Hcur).
  assert (Hold : forall i, In i ids -> (i =? size s)%nat = false).
  { intros i Hi. apply (li_ids _ _ _ _ _ _ _ _ _ I) in Hi. apply Nat.eqb_neq. lia. }
  assert (Hgrow : forall i, In i ids -> inside (rect_of s i) (rect_of s' i)).
  { intros i Hi. rewrite A1. destruct (Nat.eqb_spec i c) as [->|Hn]; [|rewrite (Hold i Hi); apply inside_refl].
    apply inside_set_dhi. lia. }
  assert (Hwid : forall i r, In i ids -> same_width d (rect_of s' i) r = same_width d (rect_of s i) r).
  { intros i r Hi. rewrite A1. destruct (Nat.eqb_spec i c) as [->|Hn]; [apply set_dhi_width|rewrite (Hold i Hi); reflexivity]. }
  assert (Hlo : forall i, In i ids -> dlo d (rect_of s' i) = dlo d (rect_of s i)).
  { intros i Hi. rewrite A1. destruct (Nat.eqb_spec i c) as [->|Hn]; [apply set_dhi_lo|rewrite (Hold i Hi); reflexivity]. }
  split; auto.
  - lia.
  - intros i Hi. apply (li_ids _ _ _ _ _ _ _ _ _ I) in Hi. lia.
  - apply I.
  - pose proof (li_cur _ _ _ _ _ _ _ _ _ I) as HC. rewrite Hcur in HC. exact HC.
  - intros i Hi. destruct (li_start _ _ _ _ _ _ _ _ _ I i Hi) as (e0 & H5 & H6 & H7 & H8 & H9 & H10). exists e0.
    split; [apply in_app_iff; now left|]. rewrite Hlo, Hwid, Ty, (Hold i Hi) by assumption.
    split; [assumption|]. split; [assumption|]. split; [assumption|].
    split; [|eapply inside_trans; [exact H10|apply Hgrow; exact Hi]].
    intros Hp. rewrite A2. destruct (Nat.eqb_spec i c) as [->|Hn].
    + rewrite H9 by assumption. reflexivity.
    + rewrite (Hold i Hi). auto.
  - intros e0 He. apply in_app_iff in He as [He|[<-|[]]].
    + destruct (li_in _ _ _ _ _ _ _ _ _ I e0 He) as (i & H5 & H6 & H7). exists i. split; [assumption|].
      split; [eapply inside_trans; eauto|]. apply same_width_sym. rewrite Hwid by assumption. now apply same_width_sym.
    + exists c. split; [assumption|]. split.
      * rewrite A1, Nat.eqb_refl. now apply inside_merge.
      * apply same_width_sym. rewrite Hwid by assumption. now apply same_width_sym.
  - intros i k p Hi Hk Hcov. rewrite A1 in Hcov. destruct (Nat.eqb_spec i c) as [->|Hn].
    + apply merge_cover in Hcov; auto. destruct Hcov as [Hcov|Hcov].
      * destruct (li_out _ _ _ _ _ _ _ _ _ I c k p Hi Hk Hcov) as (e0 & H5 & H6).
        exists e0. split; [apply in_app_iff; now left|assumption].
      * exists e. split; [apply in_app_iff; right; now left|assumption].
    + rewrite (Hold i Hi) in Hcov. destruct (li_out _ _ _ _ _ _ _ _ _ I i k p Hi Hk Hcov) as (e0 & H5 & H6).
      exists e0. split; [apply in_app_iff; now left|assumption].
Qed.

Lemma ssorted_snoc {A} (R : A -> A -> Prop) l x :
  StronglySorted R l -> (forall y, In y l -> R y x) -> StronglySorted R (l ++ [x]).
Proof.
  induction 1 as [|y l Hs IH Hy]; simpl; intros H; [repeat constructor|].
  constructor; [apply IH; intros; apply H; now right|].
  apply Forall_app. split; [assumption|]. constructor; [apply H; now left|constructor].
Qed.

Lemma ssorted_impl_in {A} (R R' : A -> A -> Prop) l :
  (forall x y, In x l -> In y l -> R x y -> R' x y) -> StronglySorted R l -> StronglySorted R' l.
Proof.
  intros H HS. induction HS as [|y l Hs IH Hy]; constructor.
  - apply IH. intros; apply H; auto; now right.
  - rewrite Forall_forall in *. intros z Hz. apply H; [now left|now right|auto].
Qed.

Lemma ssorted_snoc_inv {A} (R : A -> A -> Prop) l x :
  StronglySorted R (l ++ [x]) -> StronglySorted R l /\ forall y, In y l -> R y x.
Proof.
  induction l as [|y l IH]; simpl; intros H; [split; [constructor|intros ? []]|].
  inversion H as [|? ? Hs Hy]; subst. destruct (IH Hs) as [H1 H2]. apply Forall_app in Hy as [Hy1 Hy2].
  split; [now constructor|]. intros z [<-|Hz]; [|auto]. now inversion Hy2.
Qed.

Lemma shorts_prefix (a b c : list short) x : a = b ++ c -> a ++ [x] = b -> False.
Proof. intros -> H. apply (f_equal (@List.length _)) in H. rewrite !app_length in H. simpl in H. lia. Qed.

Lemma LC_step layer d s0 rep0 P cur ids s rep e n t cur' ids' s' rep' :
  LI layer d s0 rep0 P cur ids s rep -> LC d s0 P ids s rep ->
  (forall e', In e' P -> ekey d e' <= ekey d e) ->
  clean_entry e -> parse_name (e_net e) = Some (n, t) ->
  step_kind layer d cur ids s rep e n t cur' ids' s' rep' ->
  (forall j, type_of s' j = if (j =? size s)%nat then e_type e else type_of s j) ->
  (forall j, term_of s' j = if (j =? size s)%nat then t else term_of s j) ->
  LC d s0 (P ++ [e]) ids' s' rep'.
Proof.
  intros I C Hsort [Hc1 Hc2] Ep K Ty Tm.
  rewrite Hc1 in Ep. injection Ep as <- <-.
  assert (Hcin : forall c, cur = Some c -> In c ids).
  { intros c ->. destruct (li_cur _ _ _ _ _ _ _ _ _ I) as [l ->]. apply in_app_iff. right. now left. }
  assert (Hids : forall i, In i ids -> (size s0 <= i < size s)%nat) by apply I.
  assert (Hold : forall i, In i ids -> (i =? size s)%nat = false).
  { intros i Hi. apply Hids in Hi. apply Nat.eqb_neq. lia. }
  assert (Hclo : forall c, cur = Some c -> dlo d (rect_of s c) <= dlo d (e_rect e)).
  { intros c Hc. destruct (li_start _ _ _ _ _ _ _ _ _ I c) as (e0 & H1 & H2 & _); auto.
    rewrite H2. apply (Hsort e0 H1). }
  assert (Hrlt : forall j, (j < size s)%nat -> (rep j < size s)%nat).
  { intros j Hj. eapply Inv_rep_lt; [apply I|assumption]. }
  (* a new object that is its own root and leaves the names of the line alone *)
  assert (Hadd : ids' = ids ++ [size s] -> added_rects s s' e -> rep' = addrep (size s) rep ->
     (forall j, In j ids -> net_of s' j = net_of s j) -> net_of s' (size s) = e_net e ->
     (s_shorts s' = s_shorts s0 -> s_shorts s' = s_shorts s /\ forall c, cur = Some c -> ~ continues d s c e) ->
     LC d s0 (P ++ [e]) ids' s' rep').
  { intros -> [A1 A2] -> N1 N2 HS. split.
    - intros i Hi. apply in_app_iff in Hi as [Hi|[<-|[]]]; [|apply addrep_same].
      rewrite addrep_other by (apply Nat.eqb_neq; auto). apply (lc_root _ _ _ _ _ _ C i Hi).
    - intros i Hi. rewrite Tm. apply in_app_iff in Hi as [Hi|[<-|[]]].
      + rewrite (Hold i Hi). apply (lc_term _ _ _ _ _ _ C i Hi).
      + rewrite Nat.eqb_refl. reflexivity.
    - intros i Hi. rewrite Ty. apply in_app_iff in Hi as [Hi|[<-|[]]].
      + rewrite (Hold i Hi). apply (lc_type _ _ _ _ _ _ C i Hi).
      + rewrite Nat.eqb_refl. assumption.
    - intros e0 He. apply in_app_iff in He as [He|[<-|[]]].
      + destruct (lc_names _ _ _ _ _ _ C e0 He) as (i & H1 & H2 & H3 & H4). exists i.
        rewrite A1, A2, (Hold i H1), N1 by assumption. split; [apply in_app_iff; now left|auto].
      + exists (size s). rewrite A1, A2, Nat.eqb_refl, N2. split; [apply in_app_iff; right; now left|].
        split; [apply inside_refl|auto].
    - intros i m Hi Hm. apply in_app_iff in Hi as [Hi|[<-|[]]].
      + rewrite N1 in Hm by assumption. destruct (lc_back _ _ _ _ _ _ C i m Hi Hm) as (e0 & H1 & H2 & H3).
        exists e0. rewrite A1, (Hold i Hi). split; [apply in_app_iff; now left|auto].
      + exists e. rewrite A1, Nat.eqb_refl. split; [apply in_app_iff; right; now left|].
        split; [apply inside_refl|congruence].
    - intros i Hi Hp. rewrite A2 in Hp. apply in_app_iff in Hi as [Hi|[<-|[]]].
      + rewrite (Hold i Hi) in Hp. destruct (lc_ported _ _ _ _ _ _ C i Hi Hp) as (e0 & H1 & H2 & H3).
        exists e0. rewrite N1 by assumption. split; [apply in_app_iff; now left|auto].
      + rewrite Nat.eqb_refl in Hp. exists e. split; [apply in_app_iff; right; now left|].
        split; [assumption|]. congruence.
    - intros Es Hw. destruct (HS Es) as [Es2 Hnc].
      assert (Hsi : StronglySorted (gap_order d s) ids).
      { apply (lc_sorted _ _ _ _ _ _ C); [congruence|]. intros; apply Hw; apply in_app_iff; now left. }
      apply ssorted_snoc.
      + eapply ssorted_impl_in; [|eassumption]. intros i j Hi Hj. unfold gap_order.
        rewrite !A1, (Hold i Hi), (Hold j Hj). auto.
      + intros i Hi. unfold gap_order. rewrite !A1, (Hold i Hi), Nat.eqb_refl.
        destruct cur as [c|]; [|destruct (li_cur _ _ _ _ _ _ _ _ _ I) as [-> _]; destruct Hi].
        specialize (Hclo c eq_refl).
        assert (Hgap : dhi d (rect_of s c) < dlo d (e_rect e)).
        { destruct (Z.lt_ge_cases (dhi d (rect_of s c)) (dlo d (e_rect e))) as [|Hge]; [assumption|].
          exfalso. apply (Hnc c eq_refl). split; [lia|].
          destruct (li_start _ _ _ _ _ _ _ _ _ I c) as (e0 & H1 & _ & H3 & _); auto.
          apply same_width_sym. eapply same_width_trans; [exact H3|].
          apply Hw; apply in_app_iff; [now left|right; now left]. }
        destruct (li_cur _ _ _ _ _ _ _ _ _ I) as [l El]. rewrite El in Hsi, Hi.
        apply ssorted_snoc_inv in Hsi as [_ Hlast].
        apply in_app_iff in Hi as [Hi|[<-|[]]].
        * destruct (Hlast i Hi). lia.
        * lia. }
  assert (HshLI : exists new, s_shorts s = s_shorts s0 ++ new).
  { destruct (li_shorts _ _ _ _ _ _ _ _ _ I) as (new & H & _). eauto. }
  destruct K as [E1 E2 A Er Es HN Hnc|c x y Hcur Hcont E1 E2 A Er Es Ec En Hxy HN|c Hcur Hcont E1 E2 A Er Es HN Hor Hnet|c Hcur Hcont E1 E2 [A1 A2] Er Es HN T1 T2 B1 B2 Hnet].
  - apply Hadd; auto.
    + intros j Hj. rewrite HN, (Hold j Hj). reflexivity.
    + rewrite HN, Nat.eqb_refl. reflexivity.
  - apply Hadd; auto.
    + destruct HN as (N1 & N2 & N3). intros j Hj. destruct (Nat.eq_dec j c) as [->|Hn].
      * rewrite N2, Ec. reflexivity.
      * apply N1; [assumption|]. apply Hids in Hj. lia.
    + destruct HN as (N1 & N2 & N3). rewrite N3, En. reflexivity.
    + intros Es0. exfalso. destruct HshLI as [new HS]. rewrite Es in Es0. eapply shorts_prefix; eauto.
  - exfalso. destruct Hor as [H|[H|[H|H]]]; try congruence.
    + apply H. apply (lc_term _ _ _ _ _ _ C). auto.
    + rewrite (lc_type _ _ _ _ _ _ C) in H by auto. discriminate.
  - subst ids'. destruct Hcont as [Hov Hw]. pose proof (Hcin c Hcur) as Hci. specialize (Hclo c Hcur).
    assert (Hgrow : forall i, In i ids -> inside (rect_of s i) (rect_of s' i)).
    { intros i Hi. rewrite A1. destruct (Nat.eqb_spec i c) as [->|Hn]; [|rewrite (Hold i Hi); apply inside_refl].
      apply inside_set_dhi. lia. }
    destruct HN as (N1 & N2 & N3).
    assert (Nkeep : forall i m, In i ids -> net_of s i = Some m -> net_of s' i = Some m).
    { intros i m Hi Hm. destruct (Nat.eq_dec i c) as [->|Hn]; [rewrite N2, Hm; reflexivity|].
      rewrite N1; auto. apply Hids in Hi. lia. }
    assert (Ncnew : forall m, e_net e = Some m -> net_of s' c = Some m).
    { intros m Hm. rewrite N2. destruct (net_of s c) as [x|] eqn:Ex; [|assumption].
      destruct Hnet as [H|[H|H]]; congruence. }
    assert (Hin : inside (e_rect e) (rect_of s' c)) by (rewrite A1, Nat.eqb_refl; now apply inside_merge).
    split.
    + intros i Hi. subst rep'. rewrite join_new_old; auto.
      * apply (lc_root _ _ _ _ _ _ C i Hi).
      * apply Hids in Hi. lia.
      * apply Hids in Hci. lia.
    + intros i Hi. rewrite Tm, (Hold i Hi). apply (lc_term _ _ _ _ _ _ C i Hi).
    + intros i Hi. rewrite Ty, (Hold i Hi). apply (lc_type _ _ _ _ _ _ C i Hi).
    + intros e0 He. apply in_app_iff in He as [He|[<-|[]]].
      * destruct (lc_names _ _ _ _ _ _ C e0 He) as (i & H1 & H2 & H3 & H4). exists i.
        split; [assumption|]. split; [eapply inside_trans; eauto|]. split; [auto|].
        intros Hp. rewrite A2. destruct (Nat.eqb_spec i c) as [->|Hn]; [rewrite H4 by assumption; reflexivity|].
        rewrite (Hold i H1). auto.
      * exists c. split; [assumption|]. split; [assumption|]. split; [assumption|].
        intros Hp. rewrite A2, Nat.eqb_refl, Hp. apply Bool.orb_true_r.
    + intros i m Hi Hm. destruct (Nat.eq_dec i c) as [->|Hn].
      * rewrite N2 in Hm. destruct (net_of s c) as [x|] eqn:Ex.
        -- destruct (lc_back _ _ _ _ _ _ C c x Hci Ex) as (e0 & H1 & H2 & H3). exists e0.
           split; [apply in_app_iff; now left|]. split; [eapply inside_trans; eauto|congruence].
        -- exists e. split; [apply in_app_iff; right; now left|auto].
      * rewrite N1 in Hm; [|assumption|apply Hids in Hi; lia].
        destruct (lc_back _ _ _ _ _ _ C i m Hi Hm) as (e0 & H1 & H2 & H3). exists e0.
        split; [apply in_app_iff; now left|]. split; [eapply inside_trans; eauto|assumption].
    + intros i Hi Hp. rewrite A2 in Hp. destruct (Nat.eqb_spec i c) as [->|Hn].
      * apply orb_true_iff in Hp as [Hp|Hp].
        -- destruct (lc_ported _ _ _ _ _ _ C c Hi Hp) as (e0 & H1 & H2 & H3). exists e0.
           split; [apply in_app_iff; now left|]. split; [assumption|]. intros m Hm. auto.
        -- exists e. split; [apply in_app_iff; right; now left|auto].
      * rewrite (Hold i Hi) in Hp. destruct (lc_ported _ _ _ _ _ _ C i Hi Hp) as (e0 & H1 & H2 & H3). exists e0.
        split; [apply in_app_iff; now left|]. split; [assumption|]. intros m Hm. auto.
    + intros Es0 Hsw.
      assert (Hsi : StronglySorted (gap_order d s) ids).
      { apply (lc_sorted _ _ _ _ _ _ C); [congruence|]. intros; apply Hsw; apply in_app_iff; now left. }
      pose proof (li_cur _ _ _ _ _ _ _ _ _ I) as HC. rewrite Hcur in HC. destruct HC as [l El].
      pose proof (li_nodup _ _ _ _ _ _ _ _ _ I) as Hnd.
      assert (Hnl : forall i, In i l -> i <> c).
      { intros i Hi ->. rewrite El in Hnd. apply NoDup_remove_2 in Hnd. apply Hnd. rewrite app_nil_r. assumption. }
      assert (Hl : forall i, In i l -> In i ids) by (intros i Hi; rewrite El; apply in_app_iff; now left).
      rewrite El in Hsi |- *. apply ssorted_snoc_inv in Hsi as [Hs1 Hs2].
      apply ssorted_snoc.
      * eapply ssorted_impl_in; [|eassumption]. intros i j Hi Hj. unfold gap_order. rewrite !A1.
        pose proof (Hnl i Hi) as Ni. pose proof (Hnl j Hj) as Nj. apply Nat.eqb_neq in Ni. apply Nat.eqb_neq in Nj.
        rewrite Ni, Nj, (Hold i (Hl i Hi)), (Hold j (Hl j Hj)). auto.
      * intros i Hi. unfold gap_order. rewrite !A1. pose proof (Hnl i Hi) as Ni. apply Nat.eqb_neq in Ni.
        rewrite Ni, (Hold i (Hl i Hi)), Nat.eqb_refl, set_dhi_lo. apply (Hs2 i Hi).
Qed.

(** * A whole scan line *)

Lemma key_sorted_app_last {A} (key : A -> Z) pre e post :
  key_sorted key (pre ++ e :: post) -> forall e', In e' pre -> key e' <= key e.
Proof.
  induction pre as [|x pre IH]; simpl; intros H e' He; [destruct He|].
  inversion H as [|? ? Hs Hx]; subst. destruct He as [<-|He]; [|auto].
  rewrite Forall_forall in Hx. apply Hx. apply in_app_iff. right. now left.
Qed.

Lemma build_line_spec layer d s0 rep0 v ids s :
  wf s0 rep0 -> build_line layer d s0 v = Some (ids, s) ->
  exists cur rep P, Permutation v P /\ LI layer d s0 rep0 P cur ids s rep /\
    ((forall e, In e v -> clean_entry e) -> LC d s0 P ids s rep).
Proof.
  intros W. unfold build_line.
  set (l := sort_by (fun e => dlo d (e_rect e)) v).
  assert (Hl : key_sorted (ekey d) l) by apply sort_by_sorted.
  assert (Hp : Permutation v l) by apply sort_by_perm.
  destruct (foldM (line_step layer d) l (None, [], s0)) as [[[cur ids0] s1]|] eqn:E; [|discriminate].
  intros [= <- <-].
  assert (G : exists rep, LI layer d s0 rep0 l cur ids0 s1 rep /\
             ((forall e, In e l -> clean_entry e) -> LC d s0 l ids0 s1 rep)).
  { pose (Q := fun (pre : list entry) (acc : option nat * list nat * rst) =>
        exists rep, LI layer d s0 rep0 pre (fst (fst acc)) (snd (fst acc)) (snd acc) rep /\
             ((forall e, In e pre -> clean_entry e) -> LC d s0 pre (snd (fst acc)) (snd acc) rep)).
    apply (foldM_inv (line_step layer d) Q) in E; [exact E| |].
    - exists rep0. simpl. split.
      + split; auto; try (intros; exfalso; assumption); try (intros; simpl in *; tauto).
        * intros; lia.
        * constructor.
        * intros i m Hi Hm. exfalso. unfold net_of in Hm.
          rewrite nth_overflow in Hm; [discriminate|]. rewrite (wf_net _ _ W). exact Hi.
        * exists []. split; [now rewrite app_nil_r|]. intros x [].
      + intros _. split; try (intros; exfalso; assumption). intros; constructor.
    - intros pre e post [[c i] st] [[c' i'] st'] El (rep & HI & HC) Hst. simpl in *.
      assert (Hk : forall e', In e' pre -> ekey d e' <= ekey d e).
      { rewrite El in Hl. eapply key_sorted_app_last; eauto. }
      destruct (LI_step _ _ _ _ _ _ _ _ _ _ _ _ _ HI Hk Hst) as (n & t & rep' & Ep & K & Ty & Tm & HI').
      exists rep'. simpl. split; [assumption|]. intros Hcl.
      eapply LC_step; eauto.
      + apply HC. intros; apply Hcl; apply in_app_iff; now left.
      + apply Hcl. apply in_app_iff. right. now left. }
  destruct G as (rep & G1 & G2). exists cur, rep, l. split; [assumption|]. split; [assumption|].
  intros Hcl. apply G2. intros e He. apply Hcl. eapply Permutation_in; [symmetry; eassumption|assumption].
Qed.
