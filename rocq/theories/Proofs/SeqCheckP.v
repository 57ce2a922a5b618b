(** Proofs about the tests of sequence pairs: a pair with a placement is not thrown away. *)
From Coq Require Import ZArith ZifyBool.
From Verif Require Import Base.Prelude Model.SeqEnum Model.SymmGroup Model.KeepOrder Model.SeqCheck
  Spec.SeqEnumSpec Spec.SymmGroupSpec Spec.SeqCheckSpec Proofs.SeqEnumP Proofs.KeepOrderP.

Lemma some_two_false {A} (f : A -> A -> bool) l : (forall p q, two_of l p q -> f p q = false) -> some_two f l = false.
Proof.
  induction l as [|a l IH]; intros H; [reflexivity|]. cbn [some_two]. rewrite IH.
  - rewrite orb_false_r. destruct (existsb (f a) l) eqn:E; [|reflexivity]. apply existsb_exists in E as (q & H1 & H2).
    apply in_split in H1 as (l1 & l2 & ->). rewrite (H a q) in H2; [discriminate|]. now exists [], l1, l2.
  - intros p q (l1 & l2 & l3 & ->). apply H. now exists (a :: l1), l2, l3.
Qed.
Lemma some_two_true {A} (f : A -> A -> bool) l p q : two_of l p q -> f p q = true -> some_two f l = true.
Proof.
  intros (l1 & l2 & l3 & ->) H. induction l1 as [|a l1 IH]; cbn [some_two app].
  - apply orb_true_iff. left. apply existsb_exists. exists q. split; [|exact H]. apply in_or_app. right. now left.
  - rewrite IH. apply orb_true_r.
Qed.
Lemma two_of_in {A} (l : list A) p q : two_of l p q -> In p l /\ In q l.
Proof. intros (l1 & l2 & l3 & ->). split; rewrite !in_app_iff; cbn; rewrite ?in_app_iff; cbn; auto. Qed.
Lemma existsb_false {A} (f : A -> bool) l : (forall x, In x l -> f x = false) -> existsb f l = false.
Proof.
  intros H. destruct (existsb f l) eqn:E; [|reflexivity]. apply existsb_exists in E as (x & H1 & H2). now rewrite (H x H1) in H2.
Qed.

(** Positions in parts of a sequence. *)
Lemma in_firstn_at l k a : In a (firstn k l) -> at_ l a < k /\ In a l.
Proof.
  intros H. assert (In a l) as Hl by (rewrite <- (firstn_skipn k l); apply in_or_app; auto). split; [|exact Hl].
  destruct (at_split l a) as [(_ & l1 & l2 & -> & <- & N)|[N _]]; [|contradiction].
  destruct (Nat.lt_ge_cases (length l1) k) as [|L]; [assumption|]. rewrite firstn_app in H.
  replace (k - length l1) with 0 in H by lia. cbn in H. rewrite app_nil_r in H.
  exfalso. apply N. rewrite <- (firstn_skipn k l1). apply in_or_app. auto.
Qed.
Lemma in_skipn_at l k a : NoDup l -> In a (skipn k l) -> k <= at_ l a /\ In a l.
Proof.
  intros Hn H. assert (In a l) as Hl by (rewrite <- (firstn_skipn k l); apply in_or_app; auto). split; [|exact Hl].
  destruct (Nat.lt_ge_cases (at_ l a) k) as [L|]; [|assumption]. exfalso.
  rewrite <- (firstn_skipn k l) in Hn. pose proof (at_in l a Hl) as [L1 L2].
  assert (In a (firstn k l)) as F.
  { rewrite <- L2. rewrite <- (firstn_skipn k l) at 2. rewrite app_nth1; [apply nth_In|]; rewrite firstn_length; lia. }
  apply in_split in F as (f1 & f2 & F). rewrite F in Hn. rewrite <- app_assoc in Hn. cbn in Hn.
  apply NoDup_remove_2 in Hn. apply Hn. rewrite in_app_iff. right. apply in_or_app. auto.
Qed.

Section Fit.
Variables (d : cdesign) (pos neg : list nat) (P : placement).
Hypothesis Hs : sequences (c_blocks d) pos neg.
Hypothesis Hw : within d.
Hypothesis Hf : fits d pos neg P.
Notation n := (c_blocks d).

Lemma sizes a : a < n -> (0 < pw P a /\ 0 < ph P a)%Z.
Proof. intros H. destruct Hf as (R & _). destruct (R a a H H) as (A & B & _). auto. Qed.
Lemma lef_x a b : a < n -> b < n -> lef (at_ pos) (at_ neg) a b = true -> (px P a + pw P a <= px P b)%Z.
Proof.
  intros Ha Hb H. destruct Hf as (R & _). destruct (R a b Ha Hb) as (_ & _ & L & _). apply L. unfold lef in H.
  destruct Hs as (_ & _ & I). destruct (I b Hb) as [I1 I2]. split; apply at_precedes; auto; lia.
Qed.
Lemma abv_y a b : a < n -> b < n -> abv (at_ pos) (at_ neg) a b = true -> (py P b + ph P b <= py P a)%Z.
Proof.
  intros Ha Hb H. destruct Hf as (R & _). destruct (R a b Ha Hb) as (_ & _ & _ & L). apply L. unfold abv in H.
  destruct Hs as (_ & _ & I). destruct (I b Hb) as [I1 I2]. destruct (I a Ha) as [I3 I4]. split; apply at_precedes; auto; lia.
Qed.

Ltac geo :=
  repeat match goal with
         | H : lef _ _ ?a ?b = true |- _ => apply lef_x in H; [|assumption|assumption]
         | H : abv _ _ ?a ?b = true |- _ => apply abv_y in H; [|assumption|assumption]
         end;
  repeat match goal with H : ?a < n |- _ => pose proof (sizes a H); clear H end; unfold cx, cy in *; lia.
Ltac no_both := match goal with |- ?x && ?y = false => destruct x eqn:?; [|reflexivity]; destruct y eqn:?; [exfalso; geo|reflexivity] end.
Ltac no_one := match goal with |- ?x = false => destruct x eqn:?; [exfalso; geo|reflexivity] end.

Lemma group_fits g : In g (c_groups d) -> (g_axis g = DirH -> forall p q, two_of (g_pairs g) p q -> ~ nested pos neg p q) ->
  group_bad (at_ pos) (at_ neg) g = false.
Proof.
  intros Hg Hn. destruct Hf as (_ & M & _). destruct (M g Hg) as (ax & Hax).
  assert (forall a b, In (a, b) (g_pairs g) -> a < n /\ b < n /\
            match g_axis g with DirV => (py P a = py P b /\ ph P a = ph P b /\ cx P a + cx P b = 2 * ax)%Z
                              | DirH => (px P a = px P b /\ pw P a = pw P b /\ cy P a + cy P b = 2 * ax)%Z end) as Hp.
  { intros a b H. assert (In (EPair (a, b)) (elems g)) as E by (apply in_or_app; left; now apply in_map).
    destruct Hw as [W _]. split; [eapply W; eauto; cbn; auto|]. split; [eapply W; eauto; cbn; auto|].
    specialize (Hax _ E). destruct (g_axis g); exact Hax. }
  assert (forall a, In a (selfs g) -> a < n /\ match g_axis g with DirV => cx P a = ax | DirH => cy P a = ax end) as Hsf.
  { intros a H. apply in_map_iff in H as ((a' & m) & <- & H).
    assert (In (ESelf (a', m)) (elems g)) as E by (apply in_or_app; right; now apply in_map).
    destruct Hw as [W _]. split; [eapply W; eauto; cbn; auto|]. specialize (Hax _ E). destruct (g_axis g); exact Hax. }
  clear Hax M. unfold group_bad. apply orb_false_iff. split; [apply orb_false_iff; split|].
  - apply some_two_false. intros a b H. apply two_of_in in H as [H1 H2]. apply Hsf in H1 as [L1 E1]. apply Hsf in H2 as [L2 E2].
    unfold self_bad. destruct (g_axis g); apply orb_false_iff; split; no_one.
  - apply existsb_false. intros (a, b) H. apply Hp in H as (L1 & L2 & E). apply orb_false_iff. split.
    + unfold pair_bad. cbn [fst snd]. destruct (g_axis g); apply orb_false_iff; split; no_one.
    + apply existsb_false. intros c H. apply Hsf in H as [L3 E3]. unfold pair_self_bad. destruct (g_axis g).
      * apply orb_false_iff. split; match goal with |- ?x && ?y = false => destruct x eqn:?X; [|reflexivity]; destruct y eqn:?Y; [exfalso|reflexivity] end.
        -- destruct (abv (at_ pos) (at_ neg) a b) eqn:Z; [geo|]. destruct (lef (at_ pos) (at_ neg) a b) eqn:Z2; [geo|].
           unfold lef, abv in *. destruct Hs as (_ & N2 & I). destruct (I a L1) as [_ I1]. destruct (I b L2) as [_ I2].
           assert (at_ neg a <> at_ neg b) by (intros Q; pose proof (proj2 (at_in _ _ I1)) as Q1; rewrite Q in Q1; rewrite (proj2 (at_in _ _ I2)) in Q1; subst; lia).
           lia.
        -- destruct (abv (at_ pos) (at_ neg) b a) eqn:Z; [geo|]. destruct (lef (at_ pos) (at_ neg) b a) eqn:Z2; [geo|].
           unfold lef, abv in *. destruct Hs as (_ & N2 & I). destruct (I a L1) as [_ I1]. destruct (I b L2) as [_ I2].
           assert (at_ neg a <> at_ neg b) by (intros Q; pose proof (proj2 (at_in _ _ I1)) as Q1; rewrite Q in Q1; rewrite (proj2 (at_in _ _ I2)) in Q1; subst; lia).
           lia.
      * assert (forall u v, u < n -> v < n -> at_ pos u < at_ pos v -> lef (at_ pos) (at_ neg) u v = true \/ abv (at_ pos) (at_ neg) u v = true) as T.
        { clear - Hs. intros u v Lu Lv H. unfold lef, abv. destruct Hs as (_ & N2 & I). destruct (I u Lu) as [_ I1]. destruct (I v Lv) as [_ I2].
          assert (at_ neg u <> at_ neg v) by (intros Q; pose proof (proj2 (at_in _ _ I1)) as Q1; rewrite Q in Q1; rewrite (proj2 (at_in _ _ I2)) in Q1; subst; lia).
          lia. }
        destruct (at_ pos a <? at_ pos b) eqn:O.
        -- destruct (T a b L1 L2) as [Z|Z]; [lia| |geo]. apply orb_false_iff; split; no_one.
        -- destruct (Nat.eq_dec a b) as [->|Nab]; [apply orb_false_iff; split; no_one|].
           assert (at_ pos a <> at_ pos b) as Q.
           { intros Q. destruct Hs as (_ & _ & I). destruct (I a L1) as [I1 _]. destruct (I b L2) as [I2 _].
             pose proof (proj2 (at_in _ _ I1)) as Q1. rewrite Q in Q1. rewrite (proj2 (at_in _ _ I2)) in Q1. congruence. }
           destruct (T b a L2 L1) as [Z|Z]; [lia| |geo]. apply orb_false_iff; split; no_one.
  - apply some_two_false. intros (a, b) (c, e) H. specialize (fun X => Hn X _ _ H). apply two_of_in in H as [H1 H2].
    apply Hp in H1 as (L1 & L2 & E1). apply Hp in H2 as (L3 & L4 & E2). unfold pair_pair_bad. destruct (g_axis g).
    + specialize (Hn eq_refl).
      assert (forall u v, u < n -> v < n -> abv (at_ pos) (at_ neg) u v = true -> above pos neg u v) as T.
      { clear - Hs. intros u v Lu Lv H. unfold abv in H. destruct Hs as (_ & _ & I). destruct (I u Lu). destruct (I v Lv).
        split; apply at_precedes; auto; lia. }
      repeat (apply orb_false_iff; split); try no_both.
      all: match goal with |- ?x && ?y = false => destruct x eqn:X1; [|reflexivity]; destruct y eqn:X2; [exfalso|reflexivity] end;
           apply T in X1; auto; apply T in X2; auto; apply Hn.
      * exists a, b, c, e. auto.
      * exists a, b, c, e. auto.
      * exists a, b, e, c. auto 6.
      * exists a, b, e, c. auto 6.
    + repeat (apply orb_false_iff; split); no_both.
Qed.

(** The sets hold only blocks whose edge lies beyond the one of the block. *)
Definition edge_of (h : bool) (a : nat) : Z := if h then py P a else (- px P a)%Z.
Definition inv (h : bool) (ar bl : nat -> list nat) : Prop :=
  forall x b, (In b (ar x) -> (edge_of h x < edge_of h b)%Z) /\ (In b (bl x) -> (edge_of h b < edge_of h x)%Z).

Lemma dir_is_true h ax : dir_is h ax = true -> ax = if h then DirV else DirH.
Proof. destruct h, ax; cbn; congruence. Qed.
Lemma edge_align_true h u : edge_align h u = true -> al_line u = 0 /\ al_hor u = h.
Proof. unfold edge_align. rewrite andb_true_iff, Nat.eqb_eq, Bool.eqb_true_iff. tauto. Qed.
Lemma pair_edge h g p : In g (c_groups d) -> dir_is h (g_axis g) = true -> In p (g_pairs g) -> edge_of h (fst p) = edge_of h (snd p).
Proof.
  intros Hg Hd Hp. apply dir_is_true in Hd. destruct Hf as (_ & M & _). destruct (M g Hg) as (ax & Hax).
  specialize (Hax (EPair p)). unfold edge_of. destruct p as (a, b). rewrite Hd in Hax.
  assert (In (EPair (a, b)) (elems g)) as E by (apply in_or_app; left; now apply in_map). specialize (Hax E). destruct h; cbn in *; lia.
Qed.
Lemma align_edge h u a b : In u (c_aligns d) -> edge_align h u = true -> In a (al_blocks u) -> In b (al_blocks u) -> edge_of h a = edge_of h b.
Proof.
  intros Hu He Ha Hb. apply edge_align_true in He as [E1 E2]. destruct Hf as (_ & _ & _ & A). specialize (A u Hu a b Ha Hb).
  unfold on_line in A. rewrite E1, E2 in A. unfold edge_of. destruct h; lia.
Qed.
Lemma aligned_edge h x b : In b (aligned_with d h x) -> edge_of h b = edge_of h x.
Proof.
  intros H. apply in_app_or in H as [H|H]; apply in_flat_map in H as (g & Hg & H).
  - destruct (dir_is h (g_axis g)) eqn:D; [|destruct H]. apply in_flat_map in H as (p & Hp & H).
    pose proof (pair_edge h g p Hg D Hp) as E. destruct ((x =? fst p) || (x =? snd p)) eqn:X; [|destruct H].
    apply orb_true_iff in X. rewrite !Nat.eqb_eq in X. destruct H as [<-|[<-|[]]], X as [->| ->]; congruence.
  - destruct (edge_align h g && has x (al_blocks g)) eqn:D; [|destruct H]. apply andb_true_iff in D as [D1 D2].
    apply has_iff in D2. eapply align_edge; eauto.
Qed.

Lemma neg_distinct a b : a < n -> b < n -> a <> b -> at_ neg a <> at_ neg b.
Proof.
  intros La Lb N Q. destruct Hs as (_ & _ & I). destruct (I a La) as [_ I1]. destruct (I b Lb) as [_ I2].
  pose proof (proj2 (at_in _ _ I1)) as Q1. rewrite Q in Q1. rewrite (proj2 (at_in _ _ I2)) in Q1. congruence.
Qed.
Lemma first_inv h : inv h (fun x => fst (first_sets d pos neg h x)) (fun x => snd (first_sets d pos neg h x)).
Proof.
  intros x b. unfold first_sets. destruct (has x pos && (x <? n)) eqn:X; [|cbn; tauto].
  apply andb_true_iff in X as [X1 X2]. apply has_iff in X1. apply Nat.ltb_lt in X2. cbn [fst snd]. split; intros H; apply in_flat_map in H as (c & Hc & H).
  - destruct ((c <? n) && _) eqn:C in H; [|destruct H]. apply andb_true_iff in C as [C1 C2]. apply Nat.ltb_lt in C1.
    apply Bool.eqb_true_iff in C2. apply in_firstn_at in Hc as [O Ic].
    assert (edge_of h b = edge_of h c) as -> by (destruct H as [<-|H]; [reflexivity|now apply aligned_edge]).
    assert (at_ neg x <> at_ neg c) as Nn by (apply neg_distinct; auto; intros ->; lia).
    pose proof (sizes x X2). pose proof (sizes c C1). unfold edge_of. destruct h.
    + assert (abv (at_ pos) (at_ neg) c x = true) as R by (unfold abv; lia). apply abv_y in R; auto. lia.
    + assert (lef (at_ pos) (at_ neg) c x = true) as R by (unfold lef; lia). apply lef_x in R; auto. lia.
  - destruct ((c <? n) && _) eqn:C in H; [|destruct H]. apply andb_true_iff in C as [C1 C2]. apply Nat.ltb_lt in C1.
    apply Bool.eqb_true_iff in C2. destruct Hs as (N1 & N2 & I). apply in_skipn_at in Hc as [O Ic]; [|exact N1].
    assert (edge_of h b = edge_of h c) as -> by (destruct H as [<-|H]; [reflexivity|now apply aligned_edge]).
    assert (at_ neg x <> at_ neg c) as Nn by (apply neg_distinct; auto; intros ->; lia).
    pose proof (sizes x X2). pose proof (sizes c C1). unfold edge_of. destruct h.
    + assert (abv (at_ pos) (at_ neg) x c = true) as R by (unfold abv; lia). apply abv_y in R; auto. lia.
    + assert (lef (at_ pos) (at_ neg) x c = true) as R by (unfold lef; lia). apply lef_x in R; auto. lia.
Qed.

Lemma meet_true a b : meet a b = true -> exists x, In x a /\ In x b.
Proof. intros H. apply existsb_exists in H as (x & H1 & H2). apply has_iff in H2. eauto. Qed.
Lemma widen_inv h l : forall ar bl, inv h ar bl -> exists ar' bl', widen n l ar bl = Some (ar', bl') /\ inv h ar' bl'.
Proof.
  induction l as [|x l IH]; intros ar bl Hi; cbn [widen]; [eauto|]. destruct (x <? n); [|auto].
  assert (inv h (upd ar x (ar x ++ flat_map ar (ar x))) (upd bl x (bl x ++ flat_map bl (bl x)))) as Hi2.
  { intros y b. unfold upd. destruct (y =? x) eqn:E; [|exact (Hi y b)]. apply Nat.eqb_eq in E as ->. split; intros H.
    - apply in_app_or in H as [H|H]; [exact (proj1 (Hi x b) H)|]. apply in_flat_map in H as (c & H1 & H2).
      apply (proj1 (Hi x c)) in H1. apply (proj1 (Hi c b)) in H2. lia.
    - apply in_app_or in H as [H|H]; [exact (proj2 (Hi x b) H)|]. apply in_flat_map in H as (c & H1 & H2).
      apply (proj2 (Hi x c)) in H1. apply (proj2 (Hi c b)) in H2. lia. }
  cbv zeta. destruct (meet _ _) eqn:M; [|auto]. exfalso. apply meet_true in M as (b & H1 & H2).
  apply (proj1 (Hi2 x b)) in H1. apply (proj2 (Hi2 x b)) in H2. lia.
Qed.
Lemma clash_false h ar bl a b : inv h ar bl -> edge_of h a = edge_of h b -> clash ar bl a b = false.
Proof.
  intros Hi E. unfold clash. apply orb_false_iff. split; destruct (meet _ _) eqn:M; auto; exfalso; apply meet_true in M as (c & H1 & H2); apply Hi in H1, H2; lia.
Qed.
Lemma sets_fit h : sets_ok d pos neg h = true.
Proof.
  unfold sets_ok. destruct (any_align d h); [|reflexivity].
  destruct (widen_inv h pos _ _ (first_inv h)) as (ar & bl & -> & Hi). apply negb_true_iff. apply existsb_false. intros u Hu.
  unfold align_clash. apply orb_false_iff. split.
  - destruct (edge_align h u) eqn:E; [|reflexivity]. apply some_two_false. intros a b Hab. apply two_of_in in Hab as [Ha Hb].
    apply (clash_false h); auto. eapply align_edge; eauto.
  - apply existsb_false. intros g Hg. apply existsb_false. intros p Hp. destruct (dir_is h (g_axis g)) eqn:D; [|reflexivity].
    apply (clash_false h); auto. eapply pair_edge; eauto.
Qed.

Lemma symm_fits : abut_even d -> none_nested d pos neg -> check_symm d pos neg = true.
Proof.
  intros Ha Hn. unfold check_symm. rewrite !sets_fit, !andb_true_r. apply andb_true_iff. split; apply negb_true_iff; apply existsb_false.
  - intros ((a, b), []) H; unfold abut_bad; cbn [fst snd o_first o_second]; [|now destruct (c_cp d a)].
    destruct (c_cp d a) as [b'|] eqn:E; [|reflexivity]. destruct (Nat.eqb_spec b' b) as [->|]; [|reflexivity]. cbn [andb].
    destruct (Ha a b H E) as (k & ->). rewrite Z_mod_mult. reflexivity.
  - intros g Hg. apply group_fits; [exact Hg|]. intros X p q T. eapply Hn; eauto.
Qed.

(** ** Alignment *)
Lemma line_range u a : a < n -> (if al_hor u then 2 * py P a <= on_line P u a <= 2 * (py P a + ph P a)
                                              else 2 * px P a <= on_line P u a <= 2 * (px P a + pw P a))%Z.
Proof. intros L. pose proof (sizes a L). unfold on_line, cx, cy. destruct (al_hor u), (al_line u) as [|[|k]]; lia. Qed.
(** A block that is not below (left of) another one has its line not below that of the other. *)
Lemma line_order u a b : a < n -> b < n -> on_line P u a = on_line P u b ->
  if al_hor u then (py P b < py P a + ph P a)%Z else (px P b < px P a + pw P a)%Z.
Proof.
  intros L1 L2. pose proof (sizes a L1). pose proof (sizes b L2). unfold on_line, cx, cy.
  destruct (al_hor u), (al_line u) as [|[|k]]; lia.
Qed.
Lemma tied_order h a b : tied d h a b = true ->
  a < n /\ b < n /\ if h then (py P b < py P a + ph P a)%Z else (px P a < px P b + pw P b)%Z.
Proof.
  intros H. apply orb_true_iff in H as [H|H]; apply existsb_exists in H as (g & Hg & H); apply andb_true_iff in H as [D H].
  - apply dir_is_true in D. apply existsb_exists in H as ((x, y) & Hp & H). cbn [fst snd] in H.
    assert (In (EPair (x, y)) (elems g)) as E by (apply in_or_app; left; now apply in_map).
    destruct Hf as (_ & _ & M & _). destruct (M g Hg) as (ax & Hax). specialize (Hax _ E). rewrite D in Hax. destruct Hw as [W _].
    assert (x < n) as Lx by (eapply W; eauto; cbn; auto). assert (y < n) as Ly by (eapply W; eauto; cbn; auto).
    pose proof (sizes x Lx). pose proof (sizes y Ly).
    assert ((a = x /\ b = y) \/ (a = y /\ b = x)) as [[-> ->]|[-> ->]] by lia; destruct h; cbn in Hax; lia.
  - apply Bool.eqb_prop in D. destruct Hf as (_ & _ & _ & A). specialize (A g Hg). destruct Hw as [_ W]. specialize (fun a => W g a Hg).
    assert (In a (al_blocks g) /\ In b (al_blocks g)) as [Ia Ib].
    { clear - H. induction (al_blocks g) as [|z l IH]; [discriminate|]. cbn [some_two] in H. apply orb_true_iff in H as [H|H].
      - apply existsb_exists in H as (y & Hy & H). assert ((a = z /\ b = y) \/ (a = y /\ b = z)) as [[-> ->]|[-> ->]] by lia; cbn; auto.
      - apply IH in H as [H1 H2]. cbn; auto. }
    pose proof (line_order g a b (W a Ia) (W b Ib) (A a b Ia Ib)) as R.
    pose proof (line_order g b a (W b Ib) (W a Ia) (A b a Ib Ia)) as R2. rewrite D in R, R2. destruct h; auto.
Qed.

Lemma two_fits u x y : In u (c_aligns d) -> In x (al_blocks u) -> In y (al_blocks u) -> two_bad d pos neg (al_hor u) x y = false.
Proof.
  intros Hu Hx Hy. unfold two_bad.
  assert (forall x y, In x (al_blocks u) -> In y (al_blocks u) ->
    (if al_hor u then
    ((at_ pos x <? at_ pos y) && (at_ neg y <? at_ neg x)) ||
    existsb (fun a => has a (firstn (at_ neg x) neg) &&
               existsb (fun b => has b (skipn (S (at_ neg y)) neg) && tied d true a b)
                 (firstn (at_ pos x) pos ++ firstn (at_ pos y - S (at_ pos x)) (skipn (S (at_ pos x)) pos)))
               (firstn (at_ pos y - S (at_ pos x)) (skipn (S (at_ pos x)) pos) ++ skipn (S (at_ pos y)) pos)
    else
    ((at_ pos x <? at_ pos y) && (at_ neg x <? at_ neg y)) ||
    existsb (fun a => has a (skipn (S (at_ neg x)) neg) &&
               existsb (fun b => has b (firstn (at_ neg y) neg) && tied d false a b)
                 (firstn (at_ pos x) pos ++ firstn (at_ pos y - S (at_ pos x)) (skipn (S (at_ pos x)) pos)))
               (firstn (at_ pos y - S (at_ pos x)) (skipn (S (at_ pos x)) pos) ++ skipn (S (at_ pos y)) pos)) = false
    \/ at_ pos y < at_ pos x) as T.
  { clear x y Hx Hy. intros x y Hx Hy. destruct (Nat.lt_ge_cases (at_ pos y) (at_ pos x)) as [|O]; [now right|left].
    destruct Hs as (N1 & N2 & I). destruct Hw as [_ W]. pose proof (W u x Hu Hx) as Lx. pose proof (W u y Hu Hy) as Ly. clear W.
    pose proof (sizes x Lx) as Sx. pose proof (sizes y Ly) as Sy.
    assert (on_line P u x = on_line P u y) as E by (destruct Hf as (_ & _ & _ & A); now apply A).
    pose proof (line_order u x y Lx Ly E) as R1. pose proof (line_order u y x Ly Lx (eq_sym E)) as R2.
    assert (forall a, In a (firstn (at_ pos y - S (at_ pos x)) (skipn (S (at_ pos x)) pos)) -> at_ pos x < at_ pos a < at_ pos y) as M.
    { intros a Ha. split.
      - assert (In a (skipn (S (at_ pos x)) pos)) as K by (rewrite <- (firstn_skipn (at_ pos y - S (at_ pos x))); apply in_or_app; auto).
        apply in_skipn_at in K; [lia|exact N1].
      - rewrite firstn_skipn_comm in Ha.
        assert (In a (firstn (S (at_ pos x) + (at_ pos y - S (at_ pos x))) pos)) as K by (rewrite <- (firstn_skipn (S (at_ pos x))); apply in_or_app; auto).
        apply in_firstn_at in K as [K _]. destruct (Nat.lt_ge_cases (at_ pos x) (at_ pos y)) as [|O2]; [lia|].
        replace (at_ pos y - S (at_ pos x)) with 0 in Ha by lia. rewrite Nat.add_0_r, skipn_all2 in Ha; [destruct Ha|]. apply firstn_le_length. }
    assert (forall a, In a (firstn (at_ pos y - S (at_ pos x)) (skipn (S (at_ pos x)) pos) ++ skipn (S (at_ pos y)) pos) -> at_ pos x < at_ pos a) as M1.
    { intros a Ha. apply in_app_or in Ha as [Ha|Ha]; [apply M in Ha; lia|]. apply in_skipn_at in Ha; [lia|exact N1]. }
    assert (forall b, In b (firstn (at_ pos x) pos ++ firstn (at_ pos y - S (at_ pos x)) (skipn (S (at_ pos x)) pos)) -> at_ pos b < at_ pos y) as M2.
    { intros b Hb. apply in_app_or in Hb as [Hb|Hb]; [apply in_firstn_at in Hb; lia|]. apply M in Hb. lia. }
    clear M. destruct (al_hor u) eqn:Eh; apply orb_false_iff; split.
    - match goal with |- ?z = false => destruct z eqn:Z; [exfalso|reflexivity] end. fold (abv (at_ pos) (at_ neg) x y) in Z. apply abv_y in Z; auto. lia.
    - apply existsb_false. intros a Ha. apply M1 in Ha. destruct (has a (firstn (at_ neg x) neg)) eqn:Za; [|reflexivity]. cbn [andb].
      apply has_iff, in_firstn_at in Za as [Za _]. apply existsb_false. intros b Hb. apply M2 in Hb.
      destruct (has b (skipn (S (at_ neg y)) neg)) eqn:Zb; [|reflexivity]. cbn [andb]. apply has_iff, in_skipn_at in Zb as [Zb _]; [|exact N2].
      destruct (tied d true a b) eqn:T; [exfalso|reflexivity]. apply tied_order in T as (La & Lb & T).
      assert (abv (at_ pos) (at_ neg) x a = true) as Y1 by (unfold abv; lia). assert (abv (at_ pos) (at_ neg) b y = true) as Y2 by (unfold abv; lia).
      apply abv_y in Y1; auto. apply abv_y in Y2; auto. lia.
    - match goal with |- ?z = false => destruct z eqn:Z; [exfalso|reflexivity] end. fold (lef (at_ pos) (at_ neg) x y) in Z. apply lef_x in Z; auto. lia.
    - apply existsb_false. intros a Ha. apply M1 in Ha. destruct (has a (skipn (S (at_ neg x)) neg)) eqn:Za; [|reflexivity]. cbn [andb].
      apply has_iff, in_skipn_at in Za as [Za _]; [|exact N2]. apply existsb_false. intros b Hb. apply M2 in Hb.
      destruct (has b (firstn (at_ neg y) neg)) eqn:Zb; [|reflexivity]. cbn [andb]. apply has_iff, in_firstn_at in Zb as [Zb _].
      destruct (tied d false a b) eqn:T; [exfalso|reflexivity]. apply tied_order in T as (La & Lb & T).
      assert (lef (at_ pos) (at_ neg) x a = true) as Y1 by (unfold lef; lia). assert (lef (at_ pos) (at_ neg) b y = true) as Y2 by (unfold lef; lia).
      apply lef_x in Y1; auto. apply lef_x in Y2; auto. lia. }
  destruct (at_ pos y <? at_ pos x) eqn:O.
  - destruct (T y x Hy Hx) as [->|]; [reflexivity|]. apply Nat.ltb_lt in O. lia.
  - destruct (T x y Hx Hy) as [->|]; [reflexivity|]. apply Nat.ltb_ge in O. lia.
Qed.
Lemma align_fits : check_align d pos neg = true.
Proof.
  unfold check_align. apply negb_true_iff. apply existsb_false. intros u Hu. apply some_two_false. intros x y H.
  apply two_of_in in H as [H1 H2]. now apply two_fits.
Qed.
End Fit.
