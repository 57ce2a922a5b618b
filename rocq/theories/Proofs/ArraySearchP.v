From Coq Require Import String.
From Verif Require Import Base.Prelude Base.PyDict Model.PySort Model.RemoveDuplicates Model.Canvas Model.Netlist Model.GroupBlock Model.SymConst Model.FindSym Model.ArraySearch.
From Verif Require Import Spec.ArrayFindSpec Proofs.PySortP Proofs.HierP Proofs.GroupBlockP.

Lemma lsorted_perm l : Permutation (lsorted l) l.
Proof.
  assert (I : forall x l, Permutation (linsert x l) (x :: l)).
  { intros x l'. induction l' as [|y l' IH]; cbn [linsert]; [reflexivity|]. destruct (lex_leb x y); [reflexivity|]. rewrite IH. apply perm_swap. }
  induction l as [|x l IH]; [constructor|]. cbn [lsorted fold_right]. rewrite I. now constructor.
Qed.
(** The groups are the classes of at least two neighbours with the same property. *)
Lemma groups_spec G node lvl1 gs : matching_groups G node lvl1 = Some gs ->
  (forall n, In n lvl1 -> a_sig G node n <> None) /\
  forall g, In g gs <-> exists s, g = filter (fun n => String.eqb (sig_of G node n) s) lvl1 /\ (1 < length g)%nat.
Proof.
  unfold matching_groups. destruct (forallb _ lvl1) eqn:E; [|discriminate]. intros H. injection H as <-. rewrite forallb_forall in E. split.
  - intros n Hn X. apply E in Hn. rewrite X in Hn. discriminate.
  - intros g. transitivity (In g (filter (fun v => Nat.ltb 1 (length v)) (map snd (group_by String.eqb (sig_of G node) lvl1)))); [split; apply Permutation_in; [|symmetry]; apply lsorted_perm|].
    rewrite filter_In, in_map_iff, Nat.ltb_lt. split.
    + intros (((s, l) & Hl & Hg) & Hn). cbn [snd] in Hl. subst l. apply (group_by_in _ _ String.eqb_eq) in Hg as (-> & _). eauto.
    + intros (s & -> & Hn). split; [|assumption]. exists (s, filter (fun n => String.eqb (sig_of G node n) s) lvl1). split; [reflexivity|]. apply (group_by_in _ _ String.eqb_eq). split; [reflexivity|]. intros X. rewrite X in Hn. inversion Hn.
Qed.

Lemma same_count_perm a b : same_count a b = true <-> Permutation a b.
Proof.
  unfold same_count, count. rewrite forallb_forall. split.
  - intros H. apply (Permutation_count_occ string_dec). intros x. destruct (in_dec string_dec x (a ++ b)) as [I|I]; [apply H in I; now apply Nat.eqb_eq|].
    rewrite in_app_iff in I. rewrite !(proj1 (count_occ_not_In string_dec _ _)); tauto.
  - intros H x _. apply Nat.eqb_eq. now apply (Permutation_count_occ string_dec).
Qed.
Lemma map_snd_eq {A B} (l : list (A * B)) : flat_map (fun r => [snd r]) l = map snd l.
Proof. induction l; cbn; congruence. Qed.
Lemma in_fst {A B} (l : list (A * B)) a : In a (map fst l) <-> exists b, In (a, b) l.
Proof. rewrite in_map_iff. split; [intros ((x, b) & <- & H); eauto|intros (b & H); exists (a, b); auto]. Qed.
Lemma nodup_fst {A B} (l : list (A * B)) a b c : NoDup (map fst l) -> In (a, b) l -> In (a, c) l -> b = c.
Proof.
  induction l as [|(x, y) l IH]; [intros _ []|]. cbn [map fst]. intros N. inversion N as [|? ? N1 N2]; subst. intros [E|E] [F|F].
  - congruence.
  - injection E as -> ->. exfalso. apply N1, in_fst. eauto.
  - injection F as -> ->. exfalso. apply N1, in_fst. eauto.
  - now apply IH.
Qed.
Lemma nodup_map_filter {A B} (f : A -> B) p l : NoDup (map f l) -> NoDup (map f (filter p l)).
Proof.
  induction l as [|x l IH]; cbn [map filter]; intros N; [assumption|]. inversion N; subst. destruct (p x); cbn [map]; [|auto]. constructor; [|auto]. intros H. apply in_map_iff in H as (y & E & H). apply filter_In in H as (H & _). apply H1. rewrite <- E. now apply in_map.
Qed.

Section Search.
  Variable G : agraph.
  Variable ord : list string -> list string.
  Hypothesis ord_perm : forall l, Permutation (ord l) l.

  Lemma minus_in l tr x : In x (minus ord l tr) <-> In x l /\ ~ In x tr.
  Proof.
    unfold minus. transitivity (In x (filter (fun x => negb (in_strs x tr)) l)); [split; apply Permutation_in; [|symmetry]; apply ord_perm|].
    rewrite filter_In, negb_true_iff. rewrite <- (not_true_iff_false (in_strs x tr)), in_strs_iff. tauto.
  Qed.
  Lemma ksorted_in l x : In x (ksorted (fun y => y) l) <-> In x l.
  Proof. split; apply Permutation_in; [|symmetry]; apply ksorted_perm. Qed.

  Definition go (tr : list string) (r : list string) : list string :=
    flat_map (fun n => filter (a_sd G n) (minus ord (a_nb G n) tr)) (ksorted (fun x => x) r).
  Lemma go_in tr r x : In x (go tr r) <-> exists n, In n r /\ In x (a_nb G n) /\ a_sd G n x = true /\ ~ In x tr.
  Proof.
    unfold go. rewrite in_flat_map. split.
    - intros (n & Hn & H). apply (proj1 (ksorted_in r n)) in Hn. apply filter_In in H as (H & Hs). apply minus_in in H as (H & Ht). exists n. auto.
    - intros (n & Hn & H & Hs & Ht). exists n. split; [now apply ksorted_in|]. apply filter_In. split; [|assumption]. now apply minus_in.
  Qed.
  Lemma next_in m tr a r' : In (a, r') (next_level G ord m tr) <-> (exists r, In (a, r) m /\ r' = go tr r) /\ r' <> [].
  Proof.
    unfold next_level. rewrite filter_In, in_map_iff. cbn [snd fst]. rewrite negb_true_iff, Nat.eqb_neq. split.
    - intros (((b, r) & E & H) & Hn). cbn [fst snd] in E. injection E as <- <-. split; [exists r; auto|]. intros X. apply Hn. unfold go in X. rewrite X. reflexivity.
    - intros ((r & H & ->) & Hn). split; [exists (a, r); auto|]. intros X. apply Hn. destruct (go tr r); [reflexivity|discriminate].
  Qed.
  Lemma next_nodup m tr : NoDup (map fst m) -> NoDup (map fst (next_level G ord m tr)).
  Proof. intros N. unfold next_level. apply nodup_map_filter. rewrite map_map. exact N. Qed.
  Lemma branches_true m : match_branches G m = true -> forall a b ra rb, In (a, ra) m -> In (b, rb) m -> Permutation (models G ra) (models G rb).
  Proof.
    unfold match_branches. destruct (rev m) as [|main others] eqn:E; [discriminate|]. intros H.
    assert (K : forall a ra, In (a, ra) m -> Permutation (models G ra) (models G (snd main))).
    { intros a ra Ha. apply in_rev in Ha. rewrite E in Ha. destruct Ha as [->|Ha]; [reflexivity|]. rewrite forallb_forall in H. apply H in Ha. now apply same_count_perm in Ha. }
    intros a b ra rb Ha Hb. rewrite (K a ra Ha), (K b rb Hb). reflexivity.
  Qed.
  Lemma branches_false m : m <> [] -> match_branches G m = false -> exists a b ra rb, In (a, ra) m /\ In (b, rb) m /\ ~ Permutation (models G ra) (models G rb).
  Proof.
    unfold match_branches. intros Hm. destruct (rev m) as [|main others] eqn:E; [apply (f_equal (@rev _)) in E; rewrite rev_involutive in E; contradiction|]. intros H.
    assert (exists r, In r others /\ same_count (models G (snd r)) (models G (snd main)) = false) as (r & Hr & F).
    { clear - H. induction others as [|r o IH]; [discriminate|]. cbn [forallb] in H. apply andb_false_iff in H as [H|H]; [exists r; split; [now left|assumption]|destruct (IH H) as (r' & I1 & I2); exists r'; split; [now right|assumption]]. }
    destruct r as (a, ra), main as (b, rb). exists a, b, ra, rb. split; [apply in_rev; rewrite E; now right|]. split; [apply in_rev; rewrite E; now left|]. intros P. apply same_count_perm in P. cbn [snd] in F. congruence.
  Qed.
  Lemma apart_false m : forall vals, apart_rows G vals m = false -> exists a r x, In (a, r) m /\ In x r /\ a_el G x <> None /\ (In x vals \/ exists m1 m2 b rb, m = m1 ++ (a, r) :: m2 /\ In (b, rb) m1 /\ In x rb).
  Proof.
    induction m as [|(a, r) m IH]; intros vals H; [discriminate|]. cbn [apart_rows snd] in H. apply andb_false_iff in H as [H|H].
    - apply negb_false_iff, existsb_exists in H as (x & Hx & H). apply andb_true_iff in H as (H & He). apply in_strs_iff in H. exists a, r, x. split; [now left|]. split; [assumption|]. split; [unfold is_el in He; destruct (a_el G x); [discriminate|discriminate]|now left].
    - destruct (IH _ H) as (a' & r' & x & I1 & I2 & I3 & I4). exists a', r', x. split; [now right|]. split; [assumption|]. split; [assumption|]. destruct I4 as [I4|(m1 & m2 & b & rb & E & I4 & I5)].
      + apply in_app_iff in I4 as [I4|I4]; [now left|]. right. apply in_split in I1 as (m1 & m2 & ->). exists ((a, r) :: m1), m2, a, r. split; [reflexivity|]. split; [now left|assumption].
      + right. exists ((a, r) :: m1), m2, b, rb. rewrite E. split; [reflexivity|]. split; [now right|assumption].
  Qed.
  Lemma extend_fst a n : map fst (extend a n) = map fst a.
  Proof. unfold extend. rewrite map_map. apply map_ext. intros r. destruct (dget String.eqb n (fst r)); reflexivity. Qed.
  Lemma extend_in A next a r' : NoDup (map fst next) -> In (a, r') (extend A next) -> exists r, In (a, r) A /\ ((exists l, In (a, l) next /\ r' = r ++ l) \/ (~ In a (map fst next) /\ r' = r)).
  Proof.
    intros N H. unfold extend in H. apply in_map_iff in H as ((b, r) & E & H). cbn [fst snd] in E. destruct (dget String.eqb next b) as [l|] eqn:D; injection E as <- <-; exists r; (split; [assumption|]).
    - left. exists l. split; [apply (dget_in _ String.eqb_eq); exact D|reflexivity].
    - right. split; [now apply (dget_none _ String.eqb_eq)|reflexivity].
  Qed.

  Variables (avoid group : list string).
  Notation lv := (level G avoid group).
  Notation seen k := (snd (levels G avoid group k)).

  Record inv (k : nat) (m : rows) (V : list string) (A : rows) : Prop := mkInv {
    i_nd : NoDup (map fst m);
    i_lv : forall a r, In (a, r) m -> r <> [] /\ forall x, In x r <-> lv k a x;
    i_al : forall a x, lv k a x -> In a (map fst m);
    i_v : forall x, In x V <-> In x avoid \/ seen k x;
    i_a : forall a r, In (a, r) A -> forall x, In x r <-> exists j, (j <= k)%nat /\ lv j a x;
    i_hd : forall a r, In (a, r) A -> exists t, r = a :: t;
    i_in : forall a, In a (map fst m) -> In a (map fst A);
    i_pre : forall a b ra rb, In (a, ra) A -> In (b, rb) A -> (length ra <= length rb)%nat -> exists rest, Permutation (models G (tl rb)) (models G (tl ra) ++ rest);
    i_max : forall a b ra rb, In a (map fst m) -> In (a, ra) A -> In (b, rb) A -> (length rb <= length ra)%nat
  }.
  (** The result of the search. *)
  Definition done (K : nat) (A : rows) : Prop :=
    (forall a r, In (a, r) A -> (forall x, In x r <-> exists j, (j <= K)%nat /\ lv j a x) /\ exists t, r = a :: t) /\
    (forall a b ra rb, In (a, ra) A -> In (b, rb) A -> (length ra <= length rb)%nat -> exists rest, Permutation (map (kind G) (tl rb)) (map (kind G) (tl ra) ++ rest)) /\
    ((forall a x, ~ lv (Datatypes.S K) a x) \/ meet G avoid group K \/ differ G avoid group (Datatypes.S K)).

  Lemma next_lv k m V A a r' : inv k m V A -> In (a, r') (next_level G ord m V) -> r' <> [] /\ forall x, In x r' <-> lv (Datatypes.S k) a x.
  Proof.
    intros I H. apply next_in in H as ((r & Hr & ->) & Hn). split; [assumption|]. intros x. rewrite go_in. unfold level. cbn [levels fst]. unfold fresh_nbr.
    destruct (i_lv _ _ _ _ I a r Hr) as (_ & L). split.
    - intros (n & H1 & H2 & H3 & H4). exists n. split; [now apply L|]. split; [assumption|]. split; [assumption|]. rewrite (i_v _ _ _ _ I x) in H4. tauto.
    - intros (n & H1 & H2 & H3 & H4 & H5). exists n. split; [now apply L|]. split; [assumption|]. split; [assumption|]. rewrite (i_v _ _ _ _ I x). tauto.
  Qed.
  Lemma next_al k m V A a x : inv k m V A -> lv (Datatypes.S k) a x -> In a (map fst (next_level G ord m V)).
  Proof.
    intros I (n & H1 & H2 & H3 & H4 & H5). pose proof (i_al _ _ _ _ I a n H1) as Ha. apply in_fst in Ha as (r & Hr). destruct (i_lv _ _ _ _ I a r Hr) as (_ & L).
    assert (X : In x (go V r)) by (apply go_in; exists n; split; [now apply L|]; split; [assumption|]; split; [assumption|]; rewrite (i_v _ _ _ _ I x); tauto).
    apply in_fst. exists (go V r). apply next_in. split; [eauto|]. intros E. rewrite E in X. destruct X.
  Qed.
  Lemma inv_step k m V A : inv k m V A -> next_level G ord m V <> [] -> match_branches G (next_level G ord m V) = true ->
    inv (Datatypes.S k) (next_level G ord m V) (V ++ flat_map snd (next_level G ord m V)) (extend A (next_level G ord m V)).
  Proof.
    intros I Hne Hb. set (next := next_level G ord m V) in *. pose proof (next_nodup m V (i_nd _ _ _ _ I)) as ND.
    assert (ALIVE : forall a, In a (map fst next) -> In a (map fst m)) by (intros a Ha; apply in_fst in Ha as (r' & Hr'); apply next_in in Hr' as ((r & Hr & _) & _); apply in_fst; eauto).
    assert (LEN : forall a b la lb, In (a, la) next -> In (b, lb) next -> length la = length lb).
    { intros a b la lb Ha Hb'. pose proof (Permutation_length (branches_true _ Hb a b la lb Ha Hb')) as P. unfold models in P. now rewrite !map_length in P. }
    constructor.
    - assumption.
    - intros a r Hr. exact (next_lv k m V A a r I Hr).
    - intros a x Hx. exact (next_al k m V A a x I Hx).
    - intros x. rewrite in_app_iff, (i_v _ _ _ _ I x), in_flat_map. cbn [levels snd]. split.
      + intros [H|((a, r) & Hr & Hx)]; [tauto|]. cbn [snd] in Hx. right. right. exists a. now apply (next_lv k m V A a r I Hr).
      + intros [H|[H|(a & H)]]; [tauto|tauto|]. right. pose proof (next_al k m V A a x I H) as Ha. apply in_fst in Ha as (r & Hr). exists (a, r). split; [assumption|]. now apply (next_lv k m V A a r I Hr).
    - intros a r' Hr'. apply (extend_in A next a r' ND) in Hr' as (r & Hr & [(l & Hl & ->)|(Hn & ->)]); intros x; [rewrite in_app_iff|]; rewrite (i_a _ _ _ _ I a r Hr x).
      + destruct (next_lv k m V A a l I Hl) as (_ & L). rewrite (L x). split.
        * intros [(j & Hj & H)|H]; [exists j; split; [lia|assumption]|exists (Datatypes.S k); split; [lia|assumption]].
        * intros (j & Hj & H). destruct (Nat.eq_dec j (Datatypes.S k)) as [->|E]; [now right|left; exists j; split; [lia|assumption]].
      + split; intros (j & Hj & H); [exists j; split; [lia|assumption]|]. destruct (Nat.eq_dec j (Datatypes.S k)) as [->|E]; [exfalso; apply Hn; exact (next_al k m V A a x I H)|exists j; split; [lia|assumption]].
    - intros a r' Hr'. apply (extend_in A next a r' ND) in Hr' as (r & Hr & [(l & Hl & ->)|(Hn & ->)]); destruct (i_hd _ _ _ _ I a r Hr) as (t & ->); [exists (t ++ l)|exists t]; reflexivity.
    - intros a Ha. rewrite extend_fst. apply (i_in _ _ _ _ I). auto.
    - intros a b ra' rb' Ha Hb' Hl. apply (extend_in A next a ra' ND) in Ha as (ra & Ha & Ca). apply (extend_in A next b rb' ND) in Hb' as (rb & Hb' & Cb).
      destruct (i_hd _ _ _ _ I a ra Ha) as (ta & Ta), (i_hd _ _ _ _ I b rb Hb') as (tb & Tb). pose proof (i_pre _ _ _ _ I a b ra rb Ha Hb') as P.
      destruct Ca as [(la & Hla & ->)|(Na & ->)], Cb as [(lb & Hlb & ->)|(Nb & ->)].
      + pose proof (i_max _ _ _ _ I b a rb ra (ALIVE b ltac:(apply in_fst; eauto)) Hb' Ha). pose proof (i_max _ _ _ _ I a b ra rb (ALIVE a ltac:(apply in_fst; eauto)) Ha Hb').
        destruct (P ltac:(lia)) as (rest & PP). subst ra rb. cbn [tl app] in *. unfold models in *. pose proof (Permutation_length PP) as PL. rewrite app_length, !map_length in PL. cbn [length] in *. destruct rest; [|cbn [length] in PL; lia].
        rewrite app_nil_r in PP. exists []. rewrite app_nil_r, !map_app. rewrite PP. apply Permutation_app_head. exact (branches_true _ Hb b a lb la Hlb Hla).
      + exfalso. pose proof (i_max _ _ _ _ I a b ra rb (ALIVE a ltac:(apply in_fst; eauto)) Ha Hb'). destruct (next_lv k m V A a la I Hla) as (Hn & _). rewrite app_length in Hl. destruct la; [contradiction|cbn [length] in Hl; lia].
      + pose proof (i_max _ _ _ _ I b a rb ra (ALIVE b ltac:(apply in_fst; eauto)) Hb' Ha). destruct (P ltac:(lia)) as (rest & PP). exists (rest ++ models G lb). subst ra rb. cbn [tl app] in *. unfold models in *. rewrite map_app, app_assoc. now apply Permutation_app_tail.
      + apply P. assumption.
    - intros a b ra' rb' Hal Ha Hb'. apply (extend_in A next a ra' ND) in Ha as (ra & Ha & Ca). apply (extend_in A next b rb' ND) in Hb' as (rb & Hb' & Cb).
      pose proof (i_max _ _ _ _ I a b ra rb (ALIVE a Hal) Ha Hb'). destruct Ca as [(la & Hla & ->)|(Na & ->)]; [|contradiction]. rewrite app_length. destruct Cb as [(lb & Hlb & ->)|(Nb & ->)]; [|lia]. rewrite app_length. rewrite (LEN a b la lb Hla Hlb). lia.
  Qed.
  Lemma trace_done fuel : forall k m V A A', inv k m V A -> NoDup (map fst A) -> trace G ord fuel m V A = Some A' -> map fst A' = map fst A /\ exists K, done K A'.
  Proof.
    induction fuel as [|fuel IH]; intros k m V A A' I N H; [discriminate|]. cbn [trace] in H. set (next := next_level G ord m V) in *.
    assert (D : forall k m V A, inv k m V A -> ((forall a x, ~ lv (Datatypes.S k) a x) \/ meet G avoid group k \/ differ G avoid group (Datatypes.S k)) -> done k A).
    { clear. intros k m V A I S. split; [|split; [|exact S]]; [intros a r Hr; split; [exact (i_a _ _ _ _ I a r Hr)|exact (i_hd _ _ _ _ I a r Hr)]|exact (i_pre _ _ _ _ I)]. }
    destruct next as [|n0 nx] eqn:En.
    - injection H as <-. split; [reflexivity|]. exists k. apply (D k m V A I). left. intros a x Hx. pose proof (next_al k m V A a x I Hx) as Ha. subst next. rewrite En in Ha. destruct Ha.
    - rewrite <- En in *. assert (Hne : next <> []) by congruence. destruct (match_branches G next) eqn:Hb.
      + pose proof (inv_step k m V A I Hne Hb) as I'. fold next in I'. destruct (apart_rows G [] next) eqn:Ha.
        * destruct (IH _ _ _ _ _ I' ltac:(rewrite extend_fst; assumption) H) as (E & K & DK). rewrite extend_fst in E. eauto.
        * injection H as <-. rewrite extend_fst. split; [reflexivity|]. exists (Datatypes.S k). apply (D _ _ _ _ I'). right. left.
          destruct (apart_false _ _ Ha) as (a & r & x & H1 & H2 & H3 & [[]|(m1 & m2 & b & rb & E & H4 & H5)]). exists b, a, x.
          assert (Hb' : In (b, rb) next) by (rewrite E; apply in_or_app; now left).
          split; [|split; [now apply (next_lv k m V A b rb I Hb')|split; [now apply (next_lv k m V A a r I H1)|assumption]]].
          intros ->. pose proof (next_nodup m V (i_nd _ _ _ _ I)) as ND. fold next in ND. rewrite E, map_app in ND. cbn [map fst] in ND. apply NoDup_remove_2 in ND. apply ND. apply in_or_app. left. apply in_fst. eauto.
      + injection H as <-. split; [reflexivity|]. exists k. apply (D k m V A I). right. right. destruct (branches_false next Hne Hb) as (a & b & ra & rb & H1 & H2 & H3). exists a, b, ra, rb.
        destruct (next_lv k m V A a ra I H1) as (N1 & L1), (next_lv k m V A b rb I H2) as (N2 & L2). exact (conj N1 (conj N2 (conj L1 (conj L2 H3)))).
  Qed.
End Search.
