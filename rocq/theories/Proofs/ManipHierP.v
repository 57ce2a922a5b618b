(** Power-pin removal: proofs for C30. *)
From Coq Require Import String Ascii.
From Verif Require Import Base.Prelude Base.PyDict Base.PyStr Model.Transformation Model.RemoveDuplicates Model.Topo Model.Hpwl
  Model.ManipHier Spec.ManipHierSpec Proofs.TopoP.
Local Open Scope nat_scope.

Lemma find_mod_of S n : find_mod S n = mod_of S n. Proof. reflexivity. Qed.
Lemma pg_name_form X i : pg_name X i = pg_form X i. Proof. reflexivity. Qed.

(** * Names *)
Lemma app_str a b : list_ascii_of_string (a ++ b)%string = list_ascii_of_string a ++ list_ascii_of_string b.
Proof. induction a; simpl; congruence. Qed.

Lemma str_inj a b : list_ascii_of_string a = list_ascii_of_string b -> a = b.
Proof. intros H. rewrite <- (string_of_list_ascii_of_string a), <- (string_of_list_ascii_of_string b). now rewrite H. Qed.

Definition isG (c : ascii) : bool := Ascii.eqb c "G"%char.

Lemma last_G a b d e : existsb isG d = false -> existsb isG e = false ->
  a ++ "G"%char :: d = b ++ "G"%char :: e -> a = b /\ d = e.
Proof.
  revert b. induction a as [|x a IH]; intros [|y b] Hd He H; simpl in H.
  - now injection H.
  - injection H as _ H. subst d. exfalso. rewrite existsb_app in Hd. simpl in Hd. now rewrite orb_true_r in Hd.
  - injection H as _ H. subst e. exfalso. rewrite existsb_app in He. simpl in He. now rewrite orb_true_r in He.
  - injection H as -> H. destruct (IH b Hd He H) as (-> & ->). now split.
Qed.

Lemma digits_noG ds : forallb is_digit ds = true -> existsb isG ds = false.
Proof.
  induction ds as [|c ds IH]; simpl; intros H; [reflexivity|]. apply andb_true_iff in H as (Hc & H).
  rewrite (IH H), orb_false_r. unfold isG. destruct (Ascii.eqb_spec c "G"%char); [subst; vm_compute in Hc; discriminate|reflexivity].
Qed.

Lemma print_noG z : existsb isG (print_Z z) = false.
Proof.
  destruct (print_Z_form z) as (neg & ds & -> & _ & H). rewrite existsb_app, (digits_noG _ H), orb_false_r. now destruct neg.
Qed.

Lemma pg_inj X Y i j : pg_name X i = pg_name Y j -> X = Y /\ i = j.
Proof.
  unfold pg_name. intros H. apply (f_equal list_ascii_of_string) in H. rewrite !app_str, !list_ascii_of_string_of_list_ascii in H.
  change (list_ascii_of_string "_PG") with ["_"%char; "P"%char; "G"%char] in H.
  assert (E : forall X d, list_ascii_of_string X ++ ["_"%char; "P"%char; "G"%char] ++ d
                = (list_ascii_of_string X ++ ["_"%char; "P"%char]) ++ "G"%char :: d) by (intros; now rewrite <- app_assoc).
  rewrite !E in H. apply last_G in H as (H1 & H2); try apply print_noG.
  apply print_Z_inj in H2. apply app_inv_tail in H1.
  split; [now apply str_inj|lia].
Qed.

(** * Module tables *)
Lemma find_name S n m : mod_of S n = Some m -> md_name m = n /\ In m S.
Proof. intros H. apply find_some in H as (H1 & H2). apply String.eqb_eq in H2. now split. Qed.

Lemma find_none' S n : mod_of S n = None <-> ~ In n (map md_name S).
Proof.
  induction S as [|m S IH]; simpl; [tauto|]. destruct (String.eqb_spec (md_name m) n) as [->|N].
  - split; [discriminate|]. intros H. exfalso. apply H. now left.
  - rewrite IH. tauto.
Qed.

Lemma find_some_in S n : In n (map md_name S) -> exists m, mod_of S n = Some m.
Proof. intros H. destruct (mod_of S n) as [m|] eqn:E; [now exists m|]. now apply find_none' in E. Qed.

Lemma find_in S m : NoDup (map md_name S) -> In m S -> mod_of S (md_name m) = Some m.
Proof.
  intros Hn Hi. induction S as [|a S IH]; [easy|]. simpl in *. apply NoDup_cons_iff in Hn as (H1 & H2).
  destruct Hi as [->|Hi]; [now rewrite String.eqb_refl|].
  destruct (String.eqb_spec (md_name a) (md_name m)) as [E|N].
  - exfalso. apply H1. rewrite E. apply in_map_iff. now exists m.
  - now apply IH.
Qed.

Lemma find_app S T n : mod_of (S ++ T) n = match mod_of S n with Some m => Some m | None => mod_of T n end.
Proof. induction S as [|m S IH]; simpl; [reflexivity|]. destruct (String.eqb (md_name m) n); [reflexivity|apply IH]. Qed.

Definition keeps (f : modl -> modl) : Prop := forall m, md_name (f m) = md_name m.

Lemma upd_names S n f : keeps f -> map md_name (upd_mod S n f) = map md_name S.
Proof.
  intros K. unfold upd_mod. rewrite map_map. apply map_ext. intros m. now destruct (String.eqb (md_name m) n).
Qed.

Lemma upd_same S n f : keeps f -> mod_of (upd_mod S n f) n = option_map f (mod_of S n).
Proof.
  intros K. induction S as [|m S IH]; simpl; [reflexivity|].
  destruct (String.eqb (md_name m) n) eqn:E; simpl; [rewrite K, E; reflexivity|rewrite E; apply IH].
Qed.

Lemma upd_other S n f x : keeps f -> x <> n -> mod_of (upd_mod S n f) x = mod_of S x.
Proof.
  intros K Hx. induction S as [|m S IH]; simpl; [reflexivity|].
  destruct (String.eqb_spec (md_name m) n) as [E|E]; simpl.
  - rewrite K. destruct (String.eqb_spec (md_name m) x) as [E2|E2]; [congruence|apply IH].
  - destruct (String.eqb (md_name m) x); [reflexivity|apply IH].
Qed.

Lemma upd_id S n f m : NoDup (map md_name S) -> mod_of S n = Some m -> f m = m -> upd_mod S n f = S.
Proof.
  intros Hn Hm Hf. unfold upd_mod. rewrite <- (map_id S) at 2. apply map_ext_in. intros a Ha.
  destruct (String.eqb_spec (md_name a) n) as [E|E]; [|reflexivity].
  assert (a = m) by (pose proof (find_in _ _ Hn Ha); congruence). now subst.
Qed.

Lemma upd_nth_at {A} (f : A -> A) l1 x l2 : upd_nth (l1 ++ x :: l2) (List.length l1) f = l1 ++ f x :: l2.
Proof.
  unfold upd_nth.
  assert (E : forall k (l1 : list A) off, off = k - List.length l1 -> List.length l1 <= k -> 
            map (fun p => if fst p =? k then f (snd p) else snd p) (combine (seq off (List.length (l1 ++ x :: l2))) (l1 ++ x :: l2)) = l1 ++ f x :: l2).
  { intros k. clear l1. induction l1 as [|y l1 IH]; intros off Ho Hl; simpl in *.
    - assert (off = k) as -> by lia. rewrite Nat.eqb_refl. f_equal.
      assert (forall off (l : list A), k < off -> map (fun p => if fst p =? k then f (snd p) else snd p) (combine (seq off (List.length l)) l) = l) as Hr.
      { intros o l. revert o. induction l as [|z l IHl]; intros o Hk; simpl; [reflexivity|].
        destruct (Nat.eqb_spec o k); [lia|]. f_equal. apply IHl. lia. }
      apply Hr. lia.
    - destruct (Nat.eqb_spec off k); [lia|]. f_equal. apply IH; lia. }
  apply E; lia.
Qed.

Lemma strs_eqb_ok a b : strs_eqb a b = true <-> a = b.
Proof.
  revert b. induction a as [|x a IH]; intros [|y b]; simpl; try (split; [discriminate|congruence]); [tauto|].
  rewrite andb_true_iff, String.eqb_eq, IH. split; [intros (-> & ->); reflexivity|intros [= -> ->]; tauto].
Qed.

Lemma nodup_tail {A} (l : list A) x : NoDup l -> ~ In x l -> NoDup (l ++ [x]).
Proof.
  intros H Hx. induction l as [|y l IH]; simpl; [now constructor|]. apply NoDup_cons_iff in H as (Hy & H).
  constructor; [|apply IH; [exact H|intros Hl; apply Hx; now right]].
  intros Hin. apply in_app_or in Hin as [Hin|[->|[]]]; [contradiction|]. apply Hx. now left.
Qed.

Lemma forall2_len {A B} (R : A -> B -> Prop) l l' : Forall2 R l l' -> List.length l = List.length l'.
Proof. induction 1; simpl; congruence. Qed.

(** * Supplies *)
Definition Mok (M : pgmap) (P : sup) : Prop := forall a, dget String.eqb M a = P a.
Definition isnone {A} (o : option A) : bool := match o with Some _ => false | None => true end.

Lemma dmem_isnone (M : pgmap) P a : Mok M P -> negb (dmem String.eqb M a) = isnone (P a).
Proof. intros H. unfold dmem. rewrite H. now destruct (P a). Qed.

Lemma drop_ok M P ps : Mok M P -> drop_params M ps = filter (fun p => isnone (P p)) ps.
Proof. intros H. apply filter_ext. intros a. now apply dmem_isnone. Qed.

Lemma filter_twice {A} (f : A -> bool) l : filter f (filter f l) = filter f l.
Proof. induction l as [|x l IH]; simpl; [reflexivity|]. destruct (f x) eqn:E; simpl; [rewrite E; now f_equal|exact IH]. Qed.

Definition kid (fa : list (string * string)) (P : sup) : sup :=
  fun f => match dget String.eqb fa f with Some a => P a | None => None end.

Lemma child_ok M P fa : Mok M P -> NoDup (map fst fa) -> Mok (child_map M fa) (kid fa P).
Proof.
  intros HM Hn a. unfold child_map, kid.
  assert (E : forall d, dget String.eqb (fold_left (fun d c => match dget String.eqb M (snd c) with Some g => dset String.eqb d (fst c) g | None => d end) fa d) a
     = match dget String.eqb fa a with Some x => match P x with Some g => Some g | None => dget String.eqb d a end | None => dget String.eqb d a end).
  { induction fa as [|(f, x) fa IH]; intros d; simpl; [reflexivity|]. simpl in Hn. apply NoDup_cons_iff in Hn as (Hf & Hn).
    rewrite (IH Hn). destruct (String.eqb_spec a f) as [->|N].
    - assert (dget String.eqb fa f = None) as -> by now apply (dget_none _ String.eqb_eq).
      rewrite HM. destruct (P x); [|reflexivity]. unfold dset. now rewrite (dget_dupd_same _ String.eqb_eq).
    - rewrite HM. destruct (P x); [|reflexivity]. unfold dset. now rewrite (dget_dupd_other _ String.eqb_eq). }
  rewrite E. destruct (dget String.eqb fa a); [|reflexivity]. now destruct (P s).
Qed.

Lemma child_nil M P fa : Mok M P -> NoDup (map fst fa) ->
  (child_map M fa = [] <-> forall c, In c fa -> P (snd c) = None).
Proof.
  intros HM Hn. split.
  - intros E (f, a) Hc. pose proof (child_ok M P fa HM Hn f) as H. rewrite E in H. unfold kid in H.
    rewrite (in_dget _ String.eqb_eq fa f a Hn Hc) in H. now symmetry.
  - intros H. unfold child_map. clear Hn. generalize (@nil (string * string)). induction fa as [|c fa IH]; intros d; simpl; [reflexivity|].
    rewrite HM, (H c (or_introl eq_refl)). apply IH. intros; apply H. now right.
Qed.

(** * The design *)
Section Design.
  Variables (S0 : list modl) (top : string) (G : list string) (rank : string -> nat).
  Hypothesis WF : well_formed S0 top rank.
  Hypothesis One : one_supply S0 top G.
  Hypothesis Cap : no_capture S0 top G.

  Notation supplied := (supplied S0 top G).

  Lemma sup_glob X P : supplied X P -> forall f g, P f = Some g -> In g G.
  Proof.
    induction 1 as [|X P m i m' H IH Hm Hi Hm']; intros f g.
    - destruct (existsb _ G) eqn:E; [|discriminate]. intros [= ->]. apply existsb_exists in E as (x & Hx & E). apply String.eqb_eq in E. now subst.
    - destruct (dget _ _ f); [|discriminate]. intros; eauto.
  Qed.

  Lemma orig_not_pg n X k : In n (map md_name S0) -> In X (map md_name S0) -> n <> pg_name X k.
  Proof. intros Hn HX. apply in_map_iff in Hn as (m & <- & Hm). now apply (wf_free _ _ _ WF m X k Hm HX). Qed.

  (** [impl k S X P n]: module [n] of [S] is [X] with the pins of [P] removed. *)
  Fixpoint impl (k : nat) (S : list modl) (X : string) (P : sup) (n : string) : Prop :=
    match k with
    | 0 => False
    | Datatypes.S k =>
      exists m m', mod_of S0 X = Some m /\ mod_of S n = Some m' /\
        md_params m' = filter (fun p => isnone (P p)) (md_params m) /\
        Forall2 (fun i i' => mi_name i' = mi_name i /\
           match mod_of S0 (mi_ctn i) with
           | None => mi_ctn i' = mi_ctn i /\ mi_fa i' = map (fun c => (fst c, match P (snd c) with Some g => g | None => snd c end)) (mi_fa i)
           | Some _ =>
             ((forall c, In c (mi_fa i) -> P (snd c) = None) /\ i' = i) \/
             (mi_fa i' = filter (fun c => isnone (kid (mi_fa i) P (fst c))) (mi_fa i) /\
              exists j, mi_ctn i' = pg_name (mi_ctn i) j /\ impl k S (mi_ctn i) (kid (mi_fa i) P) (mi_ctn i'))
           end) (md_insts m) (md_insts m')
    end.

  Definition iok (k : nat) (S : list modl) (P : sup) (i i' : minst) : Prop :=
    mi_name i' = mi_name i /\
    match mod_of S0 (mi_ctn i) with
    | None => mi_ctn i' = mi_ctn i /\ mi_fa i' = map (fun c => (fst c, match P (snd c) with Some g => g | None => snd c end)) (mi_fa i)
    | Some _ =>
      ((forall c, In c (mi_fa i) -> P (snd c) = None) /\ i' = i) \/
      (mi_fa i' = filter (fun c => isnone (kid (mi_fa i) P (fst c))) (mi_fa i) /\
       exists j, mi_ctn i' = pg_name (mi_ctn i) j /\ impl k S (mi_ctn i) (kid (mi_fa i) P) (mi_ctn i'))
    end.

  Lemma kid_ext fa P Q : (forall f, P f = Q f) -> forall f, kid fa P f = kid fa Q f.
  Proof. intros H f. unfold kid. destruct (dget _ fa f); auto. Qed.

  Lemma rank_lt X m i : mod_of S0 X = Some m -> In i (md_insts m) -> mod_of S0 (mi_ctn i) <> None -> rank (mi_ctn i) < rank X.
  Proof.
    intros Hm Hi Hc. apply find_name in Hm as (<- & Hm). apply (wf_rank _ _ _ WF m i Hm Hi).
    destruct (mod_of S0 (mi_ctn i)) as [mc|] eqn:E; [|easy]. apply find_name in E as (E1 & E2). apply in_map_iff. now exists mc.
  Qed.

  Lemma forall2_impl_in {A B} (R T : A -> B -> Prop) l l' : (forall a b, In a l -> In b l' -> R a b -> T a b) -> Forall2 R l l' -> Forall2 T l l'.
  Proof.
    intros H F. induction F; constructor; [apply H; simpl; auto|]. apply IHF. intros; apply H; simpl; auto.
  Qed.

  Lemma impl_ext k : forall S S' X P n,
    (forall m, mod_of S n = Some m -> mod_of S' n = Some m) ->
    (forall Z j m, rank Z < rank X -> mod_of S (pg_name Z j) = Some m -> mod_of S' (pg_name Z j) = Some m) ->
    impl k S X P n -> impl k S' X P n.
  Proof.
    induction k as [|k IH]; intros S S' X P n H1 H2; simpl; [easy|].
    intros (m & m' & Hm & Hm' & Hp & F). exists m, m'. repeat split; auto.
    revert F. apply forall2_impl_in. intros i i' Hi _ (Hn & Hi'). split; [exact Hn|].
    destruct (mod_of S0 (mi_ctn i)) eqn:Ec; [|exact Hi']. destruct Hi' as [Hi'|(Hf & j & Hj & Hd)]; [now left|right].
    split; [exact Hf|]. exists j. split; [exact Hj|].
    assert (rank (mi_ctn i) < rank X) as Hr by (apply (rank_lt X m i Hm Hi); congruence).
    apply (IH S); [| |exact Hd].
    - rewrite Hj. intros mm. now apply H2.
    - intros Z jj mm Hz. apply H2. lia.
  Qed.

  Lemma impl_mono k : forall k' S X P n, k <= k' -> impl k S X P n -> impl k' S X P n.
  Proof.
    induction k as [|k IH]; intros [|k'] S X P n Hk; simpl; try easy.
    intros (m & m' & Hm & Hm' & Hp & F). exists m, m'. repeat split; auto.
    revert F. apply forall2_impl_in. intros i i' Hi _ (Hn & Hi'). split; [exact Hn|].
    destruct (mod_of S0 (mi_ctn i)) eqn:Ec; [|exact Hi']. destruct Hi' as [Hi'|(Hf & j & Hj & Hd)]; [now left|right].
    split; [exact Hf|]. exists j. split; [exact Hj|]. apply IH; [lia|exact Hd].
  Qed.

  Lemma impl_sup k : forall S X P Q n, (forall f, P f = Q f) -> impl k S X P n -> impl k S X Q n.
  Proof.
    induction k as [|k IH]; intros S X P Q n E; simpl; [easy|].
    intros (m & m' & Hm & Hm' & Hp & F). exists m, m'. repeat split; auto.
    { rewrite Hp. apply filter_ext. intros a. now rewrite E. }
    revert F. apply forall2_impl_in. intros i i' Hi _ (Hn & Hi'). split; [exact Hn|].
    destruct (mod_of S0 (mi_ctn i)) eqn:Ec.
    - destruct Hi' as [(Hi' & ->)|(Hf & j & Hj & Hd)]; [left|right].
      + split; [|reflexivity]. intros c Hc. rewrite <- E. now apply Hi'.
      + split; [rewrite Hf; apply filter_ext; intros c; now rewrite (kid_ext _ _ _ E)|].
        exists j. split; [exact Hj|]. now apply (IH S _ _ _ _ (kid_ext _ _ _ E)).
    - destruct Hi' as (H1 & H2). split; [exact H1|]. rewrite H2. apply map_ext. intros c. now rewrite E.
  Qed.

  Record INV (r : nat) (S : list modl) : Prop := {
    i_names : NoDup (map md_name S);
    i_orig : forall n m, n <> top -> mod_of S0 n = Some m -> mod_of S n = Some m;
    i_dom : forall n, In n (map md_name S) -> In n (map md_name S0) \/ exists X j, In X (map md_name S0) /\ n = pg_name X j;
    i_sub : incl (map md_name S0) (map md_name S);
    i_done : forall Z j m, In Z (map md_name S0) -> rank Z < r -> mod_of S (pg_name Z j) = Some m ->
               exists P, supplied Z P /\ impl (Datatypes.S (rank Z)) S Z P (pg_name Z j)
  }.

  Lemma top_name : In top (map md_name S0).
  Proof. destruct (wf_top _ _ _ WF) as (m & Hm). apply find_name in Hm as (<- & Hm). apply in_map_iff. now exists m. Qed.

  Lemma sup_name X P : supplied X P -> In X (map md_name S0).
  Proof.
    intros [|X' P' m i m' H Hm Hi Hm']; [apply top_name|]. apply find_name in Hm' as (<- & Hm'). apply in_map_iff. now exists m'.
  Qed.

  Lemma sup_fix X P a g g' : supplied X P -> P a = Some g -> P g = Some g' -> P g = Some g.
  Proof.
    intros HP Ea Eg. destruct (find_some_in S0 X (sup_name X P HP)) as (m & Hm).
    assert (HC := Cap X P m a g HP Hm Ea). destruct HP as [|X' P' m0 i0 m1 H0 Hm0 Hi0 Hm1]; cbv beta in *.
    - destruct (existsb (String.eqb g) G); congruence.
    - apply HC. destruct (dget String.eqb (mi_fa i0) g) as [x|] eqn:Ed; [|discriminate].
      apply find_name in Hm0 as (_ & Hm0). apply (wf_ports _ _ _ WF m0 i0 m Hm0 Hi0 Hm).
      apply (dget_in _ String.eqb_eq) in Ed. apply in_map_iff. now exists (g, x).
  Qed.

  (** a template name is a module of [S] iff it is one of [S0] *)
  Lemma leaf_names r S m i : INV r S -> In m S0 -> In i (md_insts m) ->
    smem (mi_ctn i) (map md_name S) = negb (isnone (mod_of S0 (mi_ctn i))).
  Proof.
    intros HI Hm Hi. destruct (mod_of S0 (mi_ctn i)) as [mc|] eqn:E; simpl.
    - apply smem_ok. apply (i_sub _ _ HI). apply find_name in E as (<- & E). apply in_map_iff. now exists mc.
    - destruct (smem (mi_ctn i) (map md_name S)) eqn:F; [|reflexivity]. exfalso. apply smem_ok in F.
      apply (i_dom _ _ HI) in F as [F|(X & j & HX & F)].
      + now apply find_none' in E.
      + destruct (wf_free _ _ _ WF m X j Hm HX) as (_ & Hc). now apply (Hc i Hi).
  Qed.

  (** * Reprocessing a finished module *)
  Lemma foldM_id {A B} (f : B -> A -> option B) l b : (forall a, In a l -> f b a = Some b) -> foldM f l b = Some b.
  Proof.
    induction l as [|x l IH]; simpl; intros H; [reflexivity|]. rewrite (H x (or_introl eq_refl)). apply IH. intros; apply H. now right.
  Qed.

  Lemma inst_eta i : mkInst (mi_name i) (mi_ctn i) (mi_tr i) (mi_fa i) = i. Proof. now destruct i. Qed.
  Lemma mod_eta m : mkMod (md_name m) (md_params m) (md_insts m) = m. Proof. now destruct m. Qed.

  Lemma nth_split' {A} (l : list A) k x : nth_error l k = Some x -> exists l1 l2, l = l1 ++ x :: l2 /\ List.length l1 = k.
  Proof. apply nth_error_split. Qed.

  Lemma forall2_nth {A B} (R : A -> B -> Prop) l l' k b : Forall2 R l l' -> nth_error l' k = Some b -> exists a, nth_error l k = Some a /\ R a b.
  Proof.
    intros F. revert k. induction F as [|x y l l' H F IH]; intros [|k]; simpl; try discriminate.
    - intros [= <-]. now exists x.
    - apply IH.
  Qed.

  Lemma again r S X P M n k fuel : INV r S -> supplied X P -> Mok M P -> impl k S X P n -> 
    remove_pg (Datatypes.S fuel) S n M = Some S.
  Proof.
    intros HI HP HM Hd. destruct k as [|k]; [easy|]. destruct Hd as (m & m' & Hm & Hm' & Hp & F).
    cbn [remove_pg]. rewrite find_mod_of, Hm'. rewrite (upd_id S n _ m' (i_names _ _ HI) Hm').
    2: { rewrite Hp, (drop_ok M P _ HM), filter_twice, <- Hp. apply mod_eta. }
    apply foldM_id. intros j Hj. apply in_seq in Hj. rewrite find_mod_of, Hm'.
    destruct (nth_error (md_insts m') j) as [i'|] eqn:Ej; [|apply nth_error_None in Ej; lia].
    destruct (forall2_nth _ _ _ _ _ F Ej) as (i & Ei & Hn & Hi').
    apply nth_error_In in Ei. destruct (find_name _ _ _ Hm) as (HmX & HmS).
    assert (Hfa := wf_formals _ _ _ WF m i HmS Ei).
    destruct (mod_of S0 (mi_ctn i)) as [mc|] eqn:Ec.
    - assert (E0 : child_map M (mi_fa i') = []).
      { destruct Hi' as [(Hz & ->)|(Hf & _)].
        - now apply (child_nil M P _ HM Hfa).
        - apply (child_nil M P).
          + exact HM.
          + rewrite Hf. clear - Hfa. induction (mi_fa i) as [|c l IH]; simpl in *; [constructor|]. apply NoDup_cons_iff in Hfa as (H1 & H2).
            assert (G : forall (p : string * string -> bool) l, ~ In (fst c) (map fst l) -> NoDup (map fst l) -> ~ In (fst c) (map fst (filter p l)) /\ NoDup (map fst (filter p l))).
            { clear. intros p l. induction l as [|d l IH]; simpl; intros Ha Hb; [easy|]. apply NoDup_cons_iff in Hb as (Hb & Hc).
              destruct (IH (fun z => Ha (or_intror z)) Hc) as (I1 & I2). destruct (p d); simpl; [|easy]. split; [tauto|]. constructor; [|exact I2].
              intros Hin. apply Hb. apply in_map_iff in Hin as (e & He & Hin). apply filter_In in Hin as (Hin & _). apply in_map_iff. now exists e. }
            destruct (G (fun c0 => isnone (kid (c :: l) P (fst c0))) l H1 H2) as (G1 & G2). destruct (isnone _); [simpl; now constructor|exact G2].
          + rewrite Hf. intros c Hc. apply filter_In in Hc as (Hc & Hk). unfold kid in Hk. destruct c as (f, a). simpl in *.
            rewrite (in_dget _ String.eqb_eq _ f a Hfa Hc) in Hk. now destruct (P a). }
      rewrite E0. destruct (smem (mi_ctn i') (map md_name S)) eqn:Es; [reflexivity|]. exfalso.
      assert (In (mi_ctn i') (map md_name S)) as Hin; [|apply smem_ok in Hin; congruence].
      destruct Hi' as [(_ & ->)|(_ & jj & Hj' & Hd)].
      + apply (i_sub _ _ HI). apply find_name in Ec as (<- & Ec). apply in_map_iff. now exists mc.
      + destruct k; [easy|]. destruct Hd as (_ & md & _ & Hmd & _). apply find_name in Hmd as (<- & Hmd). apply in_map_iff. now exists md.
    - destruct Hi' as (Hc & Hf). rewrite Hc, (leaf_names r S m i HI HmS Ei), Ec. simpl.
      f_equal. unfold upd_inst. apply (upd_id S n _ m' (i_names _ _ HI) Hm').
      destruct (nth_split' _ _ _ Ej) as (l1 & l2 & El & Hl). subst j. rewrite El. rewrite upd_nth_at. 
      unfold set_fa at 1.
      assert (E : map (fun c => (fst c, match dget String.eqb M (snd c) with Some g => g | None => snd c end)) (mi_fa i') = mi_fa i').
      { rewrite Hf, map_map. apply map_ext. intros (f, a). simpl. f_equal. rewrite HM.
        destruct (P a) as [g|] eqn:Ea; [|now rewrite Ea]. destruct (P g) as [g'|] eqn:Eg; [|reflexivity].
        rewrite (sup_fix X P a g g' HP Ea Eg) in Eg. now injection Eg. }
      rewrite E, inst_eta, <- El. apply mod_eta.
  Qed.

  (** * One call *)
  Definition subok (X sub : string) : Prop := (X = top /\ sub = top) \/ (In X (map md_name S0) /\ exists j, sub = pg_name X j).

  Lemma subok_pg X sub Z j : subok X sub -> In Z (map md_name S0) -> rank Z < rank X -> pg_name Z j <> sub.
  Proof.
    intros [(-> & ->)|(_ & j' & ->)] HZ Hr E.
    - exact (orig_not_pg top Z j top_name HZ (eq_sym E)).
    - apply pg_inj in E as (-> & _). lia.
  Qed.

  Lemma subok_orig X sub n : subok X sub -> In n (map md_name S0) -> n <> top -> n <> sub.
  Proof. intros [(_ & ->)|(HX & j & ->)] Hn Ht; [exact Ht|]. now apply orig_not_pg. Qed.

  Lemma in_names S n m : mod_of S n = Some m -> In n (map md_name S).
  Proof. intros H. apply find_name in H as (<- & H). apply in_map_iff. now exists m. Qed.

  Definition agree_lt (r : nat) (S S' : list modl) : Prop :=
    forall Z j m, In Z (map md_name S0) -> rank Z < r -> mod_of S (pg_name Z j) = Some m -> mod_of S' (pg_name Z j) = Some m.

  Lemma impl_agree k : forall r S S' X P n, rank X < r -> In X (map md_name S0) -> (exists j, n = pg_name X j) ->
    agree_lt r S S' -> impl k S X P n -> impl k S' X P n.
  Proof.
    induction k as [|k IH]; intros r S S' X P n Hr HX (j & ->) HA; simpl; [easy|].
    intros (m & m' & Hm & Hm' & Hp & F). exists m, m'. repeat split; auto.
    revert F. apply forall2_impl_in. intros i i' Hi _ (Hn & Hi'). split; [exact Hn|].
    destruct (mod_of S0 (mi_ctn i)) eqn:Ec; [|exact Hi']. destruct Hi' as [Hi'|(Hf & j' & Hj & Hd)]; [now left|right].
    split; [exact Hf|]. exists j'. split; [exact Hj|].
    assert (rank (mi_ctn i) < rank X) as Hr' by (apply (rank_lt X m i Hm Hi); congruence).
    apply (IH r S); auto; [lia|now apply (in_names S0 _ m0)|now exists j'].
  Qed.

  Lemma iok_agree k r S S' X m P i i' : rank X <= r -> mod_of S0 X = Some m -> In i (md_insts m) -> agree_lt r S S' -> iok k S P i i' -> iok k S' P i i'.
  Proof.
    intros Hr Hm Hi HA (Hn & Hi'). split; [exact Hn|].
    destruct (mod_of S0 (mi_ctn i)) eqn:Ec; [|exact Hi']. destruct Hi' as [Hi'|(Hf & j' & Hj & Hd)]; [now left|right].
    split; [exact Hf|]. exists j'. split; [exact Hj|].
    assert (rank (mi_ctn i) < rank X) as Hr' by (apply (rank_lt X m i Hm Hi); congruence).
    apply (impl_agree k r S); auto; [lia|now apply (in_names S0 _ m0)|now exists j'].
  Qed.

  Lemma inv_upd X sub S f : subok X sub -> keeps f -> INV (rank X) S -> INV (rank X) (upd_mod S sub f).
  Proof.
    intros Hs K HI. assert (N := upd_names S sub f K). split; rewrite ?N.
    - apply (i_names _ _ HI).
    - intros n m Hn Hm. rewrite upd_other; [now apply (i_orig _ _ HI)|exact K|].
      apply (subok_orig X sub n Hs); [now apply (in_names S0 n m)|exact Hn].
    - apply (i_dom _ _ HI).
    - apply (i_sub _ _ HI).
    - intros Z j m HZ Hr Hm. rewrite (upd_other _ _ _ _ K (subok_pg X sub Z j Hs HZ Hr)) in Hm.
      destruct (i_done _ _ HI Z j m HZ Hr Hm) as (P & HP & Hd). exists P. split; [exact HP|].
      apply (impl_agree _ (rank X) S); auto; [now exists j|].
      intros Z' j' m' HZ' Hr' Hm'. rewrite upd_other; auto. exact (subok_pg X sub Z' j' Hs HZ' Hr').
  Qed.

  Lemma inv_le r r' S : r' <= r -> INV r S -> INV r' S.
  Proof. intros Hr [A B C D E]. split; auto. intros Z j m HZ Hz Hm. apply (E Z j m HZ); [lia|exact Hm]. Qed.

  Lemma keeps_inst k f : keeps (fun m => mkMod (md_name m) (md_params m) (upd_nth (md_insts m) k f)).
  Proof. easy. Qed.

  Lemma mod_upd_inst S sub ps l1 x l2 f : mod_of S sub = Some (mkMod sub ps (l1 ++ x :: l2)) ->
    mod_of (upd_inst S sub (List.length l1) f) sub = Some (mkMod sub ps (l1 ++ f x :: l2)).
  Proof. intros H. unfold upd_inst. rewrite (upd_same _ _ _ (keeps_inst _ _)), H. simpl. now rewrite upd_nth_at. Qed.

  Lemma mod_upd_inst_o S sub k f n : n <> sub -> mod_of (upd_inst S sub k f) n = mod_of S n.
  Proof. intros H. apply upd_other; [apply keeps_inst|exact H]. Qed.

  Lemma pg_search_ok f : forall S sub ps i,
    match pg_search f S sub ps i with
    | Some (n, b) => exists j, n = pg_name sub j /\
        if b : bool then mod_of S n = None else exists m, mod_of S n = Some m /\ md_params m = ps
    | None => forall j, j < f -> In (pg_name sub (i + j)) (map md_name S)
    end.
  Proof.
    induction f as [|f IH]; intros S sub ps i; simpl; [lia|]. rewrite find_mod_of.
    destruct (mod_of S (pg_name sub i)) as [m|] eqn:E.
    - destruct (strs_eqb (md_params m) ps) eqn:Es.
      + exists i. split; [reflexivity|]. exists m. split; [exact E|]. now apply strs_eqb_ok.
      + specialize (IH S sub ps (Datatypes.S i)). destruct (pg_search f S sub ps (Datatypes.S i)) as [(n, b)|]; [exact IH|].
        intros [|j] Hj.
        * rewrite Nat.add_0_r. now apply (in_names S _ m).
        * replace (i + Datatypes.S j) with (Datatypes.S i + j) by lia. apply IH. lia.
    - exists i. now split.
  Qed.

  Lemma pg_search_some S sub ps : pg_search (Datatypes.S (List.length S)) S sub ps 0 <> None.
  Proof.
    intros E. pose proof (pg_search_ok (Datatypes.S (List.length S)) S sub ps 0) as H. rewrite E in H.
    assert (L : List.length (map (pg_name sub) (seq 0 (Datatypes.S (List.length S)))) <= List.length (map md_name S)).
    { apply NoDup_incl_length.
      - apply FinFun.Injective_map_NoDup; [|apply seq_NoDup]. intros a b Hab. now apply pg_inj in Hab.
      - intros n Hn. apply in_map_iff in Hn as (j & <- & Hj). apply in_seq in Hj. apply (H j). lia. }
    rewrite !map_length, seq_length in L. lia.
  Qed.

  Lemma sup_rank X P : supplied X P -> rank X <= rank top.
  Proof.
    induction 1 as [|X P m i m' H IH Hm Hi Hm']; [lia|].
    assert (rank (mi_ctn i) < rank X); [apply (rank_lt X m i Hm Hi); congruence|lia].
  Qed.

  Lemma sup_dom X P m f : supplied X P -> X <> top -> mod_of S0 X = Some m -> P f <> None -> In f (md_params m).
  Proof.
    intros HP Ht Hm. destruct HP as [|X' P' m0 i0 m1 H0 Hm0 Hi0 Hm1]; [easy|]. cbv beta.
    destruct (dget String.eqb (mi_fa i0) f) as [x|] eqn:Ed; [|easy]. intros _.
    apply find_name in Hm0 as (_ & Hm0). apply (wf_ports _ _ _ WF m0 i0 m Hm0 Hi0 Hm).
    apply (dget_in _ String.eqb_eq) in Ed. apply in_map_iff. now exists (f, x).
  Qed.

  Definition frame (X sub : string) (S S' : list modl) : Prop :=
    (forall n m, n <> sub -> mod_of S n = Some m -> mod_of S' n = Some m) /\
    (forall n, In n (map md_name S') -> In n (map md_name S) \/ exists Z j, In Z (map md_name S0) /\ rank Z < rank X /\ n = pg_name Z j).

  Lemma frame_agree X sub S S' : subok X sub -> frame X sub S S' -> agree_lt (rank X) S S'.
  Proof. intros Hs (H & _) Z j m HZ Hr Hm. apply H; [|exact Hm]. exact (subok_pg X sub Z j Hs HZ Hr). Qed.

  Lemma frame_trans X sub S S' S'' : frame X sub S S' -> frame X sub S' S'' -> frame X sub S S''.
  Proof.
    intros (A & B) (C & D). split; [auto|]. intros n Hn. apply D in Hn as [Hn|Hn]; [now apply B|now right].
  Qed.

  Lemma frame_upd X sub S f : keeps f -> frame X sub S (upd_mod S sub f).
  Proof. intros K. split; [intros n m Hn Hm; now rewrite upd_other|]. rewrite (upd_names S sub f K). now left. Qed.

  Definition call_ok (fuel : nat) : Prop := forall X P M sub S m ps, rank X < fuel -> INV (rank X) S -> supplied X P -> Mok M P ->
    mod_of S0 X = Some m -> subok X sub -> mod_of S sub = Some (mkMod sub ps (md_insts m)) ->
    filter (fun p => isnone (P p)) ps = filter (fun p => isnone (P p)) (md_params m) ->
    exists S', remove_pg fuel S sub M = Some S' /\ INV (rank X) S' /\ impl (Datatypes.S (rank X)) S' X P sub /\ frame X sub S S'.

  Definition step (fuel' : nat) (names : list string) (sub : string) (M : pgmap) (S : list modl) (k : nat) : option (list modl) :=
    match find_mod S sub with
    | None => None
    | Some m =>
      match nth_error (md_insts m) k with
      | None => None
      | Some i =>
        if smem (mi_ctn i) names then
          match child_map M (mi_fa i) with
          | [] => Some S
          | M' =>
            let S2 := upd_inst S sub k (set_fa (filter (fun c => negb (dmem String.eqb M' (fst c))) (mi_fa i))) in
            match modify_pg S2 (mi_ctn i) M' with
            | None => None
            | Some (n, S3) => remove_pg fuel' (upd_inst S3 sub k (set_ctn n)) n M'
            end
          end
        else Some (upd_inst S sub k (set_fa (map (fun c => (fst c, match dget String.eqb M (snd c) with Some g => g | None => snd c end)) (mi_fa i))))
      end
    end.

  Lemma step_ok fuel X P M sub S m ps names l1 l1' i l2 : call_ok fuel -> rank X <= fuel -> INV (rank X) S -> supplied X P -> Mok M P ->
    mod_of S0 X = Some m -> subok X sub -> md_insts m = l1 ++ i :: l2 ->
    smem (mi_ctn i) names = negb (isnone (mod_of S0 (mi_ctn i))) ->
    List.length l1' = List.length l1 ->
    mod_of S sub = Some (mkMod sub ps (l1' ++ i :: l2)) ->
    exists S' i', step fuel names sub M S (List.length l1) = Some S' /\ INV (rank X) S' /\
      mod_of S' sub = Some (mkMod sub ps (l1' ++ i' :: l2)) /\ iok (rank X) S' P i i' /\ frame X sub S S'.
  Proof.
    intros IH Hf HI HP HM Hm Hs El Hnm Hlen HS.
    assert (Hi : In i (md_insts m)) by (rewrite El; apply in_or_app; right; now left).
    destruct (find_name _ _ _ Hm) as (HmX & HmS).
    assert (Hfa := wf_formals _ _ _ WF m i HmS Hi).
    unfold step. rewrite find_mod_of, HS. cbn [md_insts]. rewrite <- Hlen, nth_error_app2, Nat.sub_diag by lia. cbn [nth_error].
    rewrite Hnm. destruct (mod_of S0 (mi_ctn i)) as [mc|] eqn:Ec; cbn [isnone negb].
    2: { eexists _, _. split; [reflexivity|]. split; [|split; [|split]].
      - apply inv_upd; [exact Hs|apply keeps_inst|exact HI].
      - apply mod_upd_inst. exact HS.
      - split; [reflexivity|]. rewrite Ec. split; [reflexivity|]. cbn. apply map_ext. intros c. now rewrite HM.
      - apply frame_upd. apply keeps_inst. }
    destruct (child_map M (mi_fa i)) as [|c0 M0] eqn:EM.
    { exists S, i. split; [reflexivity|]. split; [exact HI|]. split; [exact HS|]. split; [|split; [auto|now left]].
      split; [reflexivity|]. rewrite Ec. left. split; [|reflexivity]. now apply (child_nil M P _ HM Hfa). }
    assert (HM' := child_ok M P (mi_fa i) HM Hfa). rewrite EM in HM'. set (M' := c0 :: M0) in *. clearbody M'. clear c0 M0 EM.
    assert (HP' : supplied (mi_ctn i) (kid (mi_fa i) P)) by (exact (sup_child S0 top G X P m i mc HP Hm Hi Ec)).
    assert (HrY : rank (mi_ctn i) < rank X) by (apply (rank_lt X m i Hm Hi); congruence).
    assert (HYn : In (mi_ctn i) (map md_name S0)) by now apply (in_names S0 _ mc).
    assert (HYt : mi_ctn i <> top) by (intros E; pose proof (sup_rank X P HP); rewrite E in HrY; lia).
    assert (HYs : mi_ctn i <> sub) by (now apply (subok_orig X sub _ Hs)).
    set (fa' := filter (fun c => negb (dmem String.eqb M' (fst c))) (mi_fa i)).
    assert (Efa : fa' = filter (fun c => isnone (kid (mi_fa i) P (fst c))) (mi_fa i)).
    { apply filter_ext. intros c. now apply dmem_isnone. }
    set (S2 := upd_inst S sub (List.length l1') (set_fa fa')).
    assert (HI2 : INV (rank X) S2) by (apply inv_upd; [exact Hs|apply keeps_inst|exact HI]).
    assert (HS2 : mod_of S2 sub = Some (mkMod sub ps (l1' ++ set_fa fa' i :: l2))) by now apply mod_upd_inst.
    assert (HF2 : frame X sub S S2) by (apply frame_upd; apply keeps_inst).
    unfold modify_pg. rewrite find_mod_of, (i_orig _ _ HI2 _ _ HYt Ec).
    rewrite (drop_ok M' _ (md_params mc) HM').
    set (qs := filter (fun p => isnone (kid (mi_fa i) P p)) (md_params mc)).
    pose proof (pg_search_ok (Datatypes.S (List.length S2)) S2 (mi_ctn i) qs 0) as Hps.
    destruct (pg_search (Datatypes.S (List.length S2)) S2 (mi_ctn i) qs 0) as [(n, b)|] eqn:Eps; [|now apply pg_search_some in Eps].
    destruct Hps as (j & Hn & Hb).
    assert (Hns : n <> sub) by (rewrite Hn; exact (subok_pg X sub _ j Hs HYn HrY)).
    destruct b.
    - (* a new copy *)
      set (mn := mkMod n qs (md_insts mc)).
      set (S4 := upd_inst (S2 ++ [mn]) sub (List.length l1') (set_ctn n)).
      assert (E4 : forall x, x <> sub -> mod_of S4 x = match mod_of S2 x with Some mm => Some mm | None => if String.eqb n x then Some mn else None end).
      { intros x Hx. unfold S4. rewrite mod_upd_inst_o by exact Hx. rewrite find_app. destruct (mod_of S2 x); [reflexivity|]. simpl. now destruct (String.eqb n x). }
      assert (E4s : mod_of S4 sub = Some (mkMod sub ps (l1' ++ set_ctn n (set_fa fa' i) :: l2))).
      { unfold S4. apply mod_upd_inst. rewrite find_app, HS2. reflexivity. }
      assert (E4n : mod_of S4 n = Some mn) by (rewrite E4 by exact Hns; now rewrite Hb, String.eqb_refl).
      assert (N4 : map md_name S4 = map md_name S2 ++ [n]).
      { unfold S4, upd_inst. rewrite (upd_names _ _ _ (keeps_inst _ _)), map_app. reflexivity. }
      assert (A4 : agree_lt (rank X) S2 S4).
      { intros Z jz mz HZ Hrz Hmz. rewrite E4; [now rewrite Hmz|]. exact (subok_pg X sub Z jz Hs HZ Hrz). }
      assert (HI4 : INV (rank (mi_ctn i)) S4).
      { split; rewrite ?N4.
        - apply nodup_tail; [apply (i_names _ _ HI2)|now apply find_none'].
        - intros x mx Hx Hmx. rewrite E4; [now rewrite (i_orig _ _ HI2 x mx Hx Hmx)|].
          apply (subok_orig X sub x Hs); [now apply (in_names S0 x mx)|exact Hx].
        - intros x Hx. apply in_app_or in Hx as [Hx|[<-|[]]]; [now apply (i_dom _ _ HI2)|]. right. exists (mi_ctn i), j. now split.
        - intros x Hx. apply in_or_app. left. now apply (i_sub _ _ HI2).
        - intros Z jz mz HZ Hrz Hmz. rewrite E4 in Hmz by exact (subok_pg X sub Z jz Hs HZ ltac:(lia)).
          destruct (mod_of S2 (pg_name Z jz)) as [mm|] eqn:E.
          + destruct (i_done _ _ HI2 Z jz mm HZ ltac:(lia) E) as (Q & HQ & Hd). exists Q. split; [exact HQ|].
            apply (impl_agree _ (rank X) S2); auto; [lia|now exists jz].
          + exfalso. destruct (String.eqb_spec n (pg_name Z jz)) as [E'|]; [|discriminate]. rewrite Hn in E'. apply pg_inj in E' as (E' & _).
            rewrite E' in Hrz. lia. }
      destruct (IH (mi_ctn i) (kid (mi_fa i) P) M' n S4 mc qs ltac:(lia) HI4 HP' HM' Ec) as (S5 & R5 & HI5 & D5 & F5).
      { right. split; [exact HYn|]. now exists j. }
      { exact E4n. }
      { unfold qs. apply filter_twice. }
      exists S5, (set_ctn n (set_fa fa' i)). fold S4. split; [exact R5|].
      destruct F5 as (F5a & F5b).
      assert (F25 : forall x mx, x <> sub -> mod_of S2 x = Some mx -> mod_of S5 x = Some mx).
      { intros x mx Hx Hmx. apply F5a; [intros ->; congruence|]. rewrite E4 by exact Hx. now rewrite Hmx. }
      assert (A5 : agree_lt (rank X) S2 S5).
      { intros Z jz mz HZ Hrz Hmz. apply F25; [|exact Hmz]. exact (subok_pg X sub Z jz Hs HZ Hrz). }
      assert (FR : frame X sub S S5).
      { apply (frame_trans X sub S S2 S5 HF2). split; [exact F25|]. intros x Hx.
        apply F5b in Hx as [Hx|(Z & jz & HZ & Hrz & Hx)].
        - rewrite N4 in Hx. apply in_app_or in Hx as [Hx|[<-|[]]]; [now left|]. right. exists (mi_ctn i), j. auto.
        - right. exists Z, jz. repeat split; auto. lia. }
      split; [|split; [|split]].
      + split; try apply HI5. intros Z jz mz HZ Hrz Hmz.
        destruct (mod_of S2 (pg_name Z jz)) as [mm|] eqn:E.
        * destruct (i_done _ _ HI2 Z jz mm HZ Hrz E) as (Q & HQ & Hd). exists Q. split; [exact HQ|].
          apply (impl_agree _ (rank X) S2); auto. now exists jz.
        * assert (Hx := in_names S5 _ _ Hmz). apply F5b in Hx as [Hx|(Z' & jz' & HZ' & Hrz' & Hx)].
          -- rewrite N4 in Hx. apply in_app_or in Hx as [Hx|[Hx|[]]]; [now apply find_none' in E|].
             assert (Z = mi_ctn i) as -> by (rewrite Hn in Hx; now apply pg_inj in Hx).
             exists (kid (mi_fa i) P). split; [exact HP'|]. rewrite <- Hx. exact D5.
          -- apply pg_inj in Hx as (<- & <-). exact (i_done _ _ HI5 Z jz mz HZ' Hrz' Hmz).
      + apply F5a; [congruence|exact E4s].
      + split; [reflexivity|]. rewrite Ec. right. cbn [mi_fa mi_ctn set_ctn set_fa]. split; [exact Efa|].
        exists j. split; [exact Hn|]. apply (impl_mono (Datatypes.S (rank (mi_ctn i)))); [lia|exact D5].
      + exact FR.
    - (* an existing copy *)
      destruct Hb as (mn & Hmn & Hq).
      assert (Hmn' : mod_of S2 (pg_name (mi_ctn i) j) = Some mn) by now rewrite <- Hn.
      destruct (i_done _ _ HI2 (mi_ctn i) j mn HYn HrY Hmn') as (Q & HQ & Hd).
      assert (EQ : forall f, Q f = kid (mi_fa i) P f).
      { apply (One (mi_ctn i) Q (kid (mi_fa i) P) HQ HP'). intros f.
        destruct Hd as (mc' & mn' & Hmc' & Hmn'' & Hp & _).
        assert (mc' = mc) as -> by congruence. assert (mn' = mn) as -> by congruence. rewrite Hp in Hq. unfold qs in Hq.
        destruct (in_dec string_dec f (md_params mc)) as [Hin|Hout].
        - assert (E : In f (filter (fun p => isnone (Q p)) (md_params mc)) <-> In f (filter (fun p => isnone (kid (mi_fa i) P p)) (md_params mc))) by now rewrite Hq.
          rewrite !filter_In in E. destruct (Q f), (kid (mi_fa i) P f); simpl in E; try tauto; split; try discriminate; intuition discriminate.
        - pose proof (sup_dom _ Q mc f HQ HYt Ec). pose proof (sup_dom _ _ mc f HP' HYt Ec).
          destruct (Q f), (kid (mi_fa i) P f); try tauto; exfalso; apply Hout; auto; (apply H + apply H0); discriminate. }
      set (S4 := upd_inst S2 sub (List.length l1') (set_ctn n)).
      assert (HI4 : INV (rank X) S4) by (apply inv_upd; [exact Hs|apply keeps_inst|exact HI2]).
      assert (HF4 : frame X sub S2 S4) by (apply frame_upd; apply keeps_inst).
      assert (D4 : impl (Datatypes.S (rank (mi_ctn i))) S4 (mi_ctn i) (kid (mi_fa i) P) n).
      { apply (impl_sup _ S4 _ Q); [exact EQ|]. rewrite Hn. apply (impl_agree _ (rank X) S2); auto; [now exists j|].
        now apply (frame_agree X sub). }
      destruct fuel as [|fuel]; [lia|].
      exists S4, (set_ctn n (set_fa fa' i)). split; [exact (again (rank X) S4 _ _ M' n _ fuel HI4 HP' HM' D4)|].
      split; [exact HI4|]. split; [|split].
      + now apply mod_upd_inst.
      + split; [reflexivity|]. rewrite Ec. right. cbn [mi_fa mi_ctn set_ctn set_fa]. split; [exact Efa|].
        exists j. split; [exact Hn|]. apply (impl_mono (Datatypes.S (rank (mi_ctn i)))); [lia|exact D4].
      + now apply (frame_trans X sub S S2 S4).
  Qed.

  Lemma fold_ok fuel X P M sub m ps names : call_ok fuel -> rank X <= fuel -> supplied X P -> Mok M P ->
    mod_of S0 X = Some m -> subok X sub ->
    (forall i, In i (md_insts m) -> smem (mi_ctn i) names = negb (isnone (mod_of S0 (mi_ctn i)))) ->
    forall l2 l1 l1' S, md_insts m = l1 ++ l2 -> INV (rank X) S -> Forall2 (iok (rank X) S P) l1 l1' ->
    mod_of S sub = Some (mkMod sub ps (l1' ++ l2)) ->
    exists S' l', foldM (step fuel names sub M) (seq (List.length l1) (List.length l2)) S = Some S' /\ INV (rank X) S' /\
      mod_of S' sub = Some (mkMod sub ps l') /\ Forall2 (iok (rank X) S' P) (md_insts m) l' /\ frame X sub S S'.
  Proof.
    intros IH Hf HP HM Hm Hs Hnm l2. induction l2 as [|i l2 IHl]; intros l1 l1' S El HI F HS; cbn [List.length seq foldM].
    - rewrite app_nil_r in *. exists S, l1'. rewrite El. split; [reflexivity|]. split; [exact HI|]. split; [exact HS|]. split; [exact F|]. split; [auto|now left].
    - assert (Hi : In i (md_insts m)) by (rewrite El; apply in_or_app; right; now left).
      destruct (step_ok fuel X P M sub S m ps names l1 l1' i l2 IH Hf HI HP HM Hm Hs El (Hnm i Hi) (eq_sym (forall2_len _ _ _ F)) HS)
        as (S1 & i' & R1 & HI1 & HS1 & Hok & F1).
      rewrite R1.
      destruct (IHl (l1 ++ [i]) (l1' ++ [i']) S1) as (S' & l' & R & HI' & HS' & F' & FR).
      + now rewrite <- app_assoc.
      + exact HI1.
      + apply Forall2_app; [|constructor; [exact Hok|constructor]].
        revert F. apply forall2_impl_in. intros a b Ha _. apply (iok_agree _ (rank X) S S1 X m); auto.
        { rewrite El. apply in_or_app. now left. } now apply (frame_agree X sub).
      + now rewrite <- app_assoc.
      + rewrite app_length in R. simpl in R. rewrite Nat.add_1_r in R.
        exists S', l'. split; [exact R|]. repeat (split; [assumption|]). now apply (frame_trans X sub S S1 S').
  Qed.

  Lemma call_all fuel : call_ok fuel.
  Proof.
    induction fuel as [|fuel IH]; intros X P M sub S m ps Hr HI HP HM Hm Hs HS Hps; [lia|].
    cbn [remove_pg]. rewrite find_mod_of, HS. cbn [md_insts].
    set (S1 := upd_mod S sub _).
    assert (K : keeps (fun m => mkMod (md_name m) (drop_params M (md_params m)) (md_insts m))) by easy.
    assert (HI1 : INV (rank X) S1) by now apply inv_upd.
    assert (HS1 : mod_of S1 sub = Some (mkMod sub (filter (fun p => isnone (P p)) (md_params m)) (md_insts m))).
    { unfold S1. rewrite (upd_same _ _ _ K), HS. simpl. now rewrite (drop_ok M P _ HM), Hps. }
    destruct (fold_ok fuel X P M sub m (filter (fun p => isnone (P p)) (md_params m)) (map md_name S) IH ltac:(lia) HP HM Hm Hs)
      with (l2 := md_insts m) (l1 := @nil minst) (l1' := @nil minst) (S := S1) as (S' & l' & R & HI' & HS' & F' & FR); auto.
    { intros i Hi. apply (leaf_names (rank X) S m i HI); [now apply find_name in Hm|exact Hi]. }
    exists S'. split; [exact R|]. split; [exact HI'|]. split.
    - exists m, (mkMod sub (filter (fun p => isnone (P p)) (md_params m)) l'). repeat split; auto.
    - apply (frame_trans X sub S S1 S'); [now apply frame_upd|exact FR].
  Qed.

  (** * The flat netlist *)
  Lemma mod_same r S m i : INV r S -> In m S0 -> In i (md_insts m) -> (mod_of S (mi_ctn i) = None <-> mod_of S0 (mi_ctn i) = None).
  Proof.
    intros HI Hm Hi. pose proof (leaf_names r S m i HI Hm Hi) as H. rewrite find_none'.
    destruct (mod_of S0 (mi_ctn i)); simpl in H; split; intros E; try discriminate; try reflexivity.
    - exfalso. apply E. now apply smem_ok.
    - intros Hin. apply smem_ok in Hin. congruence.
  Qed.

  Lemma orig_flat r S d : INV r S -> forall X path env, X <> top -> rank X <= rank top -> In X (map md_name S0) ->
    flat d S G X path env = flat d S0 G X path env.
  Proof.
    intros HI. induction d as [|d IH]; intros X path env Ht Hr HX; simpl; [reflexivity|].
    destruct (find_some_in S0 X HX) as (m & Hm). rewrite Hm, (i_orig _ _ HI X m Ht Hm).
    rewrite !flat_map_concat_map. f_equal. apply map_ext_in. intros i Hi.
    destruct (find_name _ _ _ Hm) as (_ & HmS). pose proof (mod_same r S m i HI HmS Hi) as HE.
    destruct (mod_of S0 (mi_ctn i)) as [mc|] eqn:Ec.
    - destruct (mod_of S (mi_ctn i)) as [ms|]; [|now destruct HE as (HE & _); discriminate HE].
      assert (rank (mi_ctn i) < rank X) by (apply (rank_lt X m i Hm Hi); congruence).
      apply IH; [intros E; rewrite E in *; lia|lia|now apply (in_names S0 _ mc)].
    - destruct HE as (_ & HE). now rewrite (HE eq_refl).
  Qed.

  Definition rel (P : sup) (path : list string) (env0 env1 : list (string * net)) : Prop :=
    (forall a g, P a = Some g -> res G path env0 a = Glob g /\ res G path env1 g = Glob g) /\
    (forall a, P a = None -> res G path env1 a = res G path env0 a).

  Lemma flat_map_forall2 {A B C} (R : A -> B -> Prop) (f : A -> list C) (g : B -> list C) l l' :
    Forall2 R l l' -> (forall a b, In a l -> R a b -> g b = f a) -> flat_map g l' = flat_map f l.
  Proof.
    intros F H. induction F as [|a b l l' Hab F IH]; simpl; [reflexivity|]. f_equal; [apply H; simpl; auto|apply IH; intros; apply H; simpl; auto].
  Qed.

  Lemma dget_map_snd (fa : list (string * string)) (h : string -> net) f :
    dget String.eqb (map (fun c => (fst c, h (snd c))) fa) f = option_map h (dget String.eqb fa f).
  Proof. induction fa as [|(x, y) fa IH]; simpl; [reflexivity|]. destruct (String.eqb f x); [reflexivity|exact IH]. Qed.

  Lemma dget_filter (p : string -> bool) (fa : list (string * string)) f :
    dget String.eqb (filter (fun c => p (fst c)) fa) f = if p f then dget String.eqb fa f else None.
  Proof.
    induction fa as [|(x, y) fa IH]; simpl; [now destruct (p f)|]. destruct (p x) eqn:E; simpl.
    - destruct (String.eqb_spec f x) as [->|]; [now rewrite E|exact IH].
    - rewrite IH. destruct (String.eqb_spec f x) as [->|]; [now rewrite E|reflexivity].
  Qed.

  Lemma impl_flat r S d : INV r S -> forall k X P n path env0 env1, impl k S X P n -> supplied X P -> rel P path env0 env1 ->
    flat d S G n path env1 = flat d S0 G X path env0.
  Proof.
    intros HI. induction d as [|d IH]; intros k X P n path env0 env1 Hd HP (R1 & R2); simpl; [reflexivity|].
    destruct k as [|k]; [easy|]. destruct Hd as (m & m' & Hm & Hm' & Hp & F). rewrite Hm, Hm'.
    refine (flat_map_forall2 _ _ _ _ _ F _). intros i i' Hi (Hn & Hi').
    destruct (find_name _ _ _ Hm) as (_ & HmS). pose proof (mod_same r S m i HI HmS Hi) as HE.
    destruct (mod_of S0 (mi_ctn i)) as [mc|] eqn:Ec.
    - assert (rank (mi_ctn i) < rank X) as Hr by (apply (rank_lt X m i Hm Hi); congruence).
      assert (HYt : mi_ctn i <> top) by (intros E; pose proof (sup_rank X P HP); rewrite E in Hr; lia).
      destruct Hi' as [(Hz & ->)|(Hf & j & Hj & Hd)].
      + rewrite (i_orig _ _ HI _ _ HYt Ec). rewrite (orig_flat r S d HI); auto.
        * f_equal. apply map_ext_in. intros c Hc. f_equal. apply R2. now apply Hz.
        * pose proof (sup_rank X P HP). lia.
        * now apply (in_names S0 _ mc).
      + assert (exists md, mod_of S (mi_ctn i') = Some md) as (md & Hmd).
        { destruct k; [easy|]. destruct Hd as (_ & md & _ & Hmd & _). now exists md. }
        rewrite Hmd, Hn, Hf.
        assert (HP' : supplied (mi_ctn i) (kid (mi_fa i) P)) by (exact (sup_child S0 top G X P m i mc HP Hm Hi Ec)).
        apply (IH k (mi_ctn i) (kid (mi_fa i) P)); [exact Hd|exact HP'|].
        assert (E1 : forall f, dget String.eqb (map (fun c => (fst c, res G path env1 (snd c))) (filter (fun c => isnone (kid (mi_fa i) P (fst c))) (mi_fa i))) f
                     = if isnone (kid (mi_fa i) P f) then option_map (res G path env1) (dget String.eqb (mi_fa i) f) else None).
        { intros f. rewrite (dget_map_snd _ (res G path env1)), (dget_filter (fun x => isnone (kid (mi_fa i) P x))). now destruct (isnone _). }
        split.
        * intros f g Hfg. split.
          -- unfold res at 1. rewrite (dget_map_snd _ (res G path env0)). unfold kid in Hfg.
             destruct (dget String.eqb (mi_fa i) f) as [a|]; [|discriminate]. simpl. now apply (R1 a g).
          -- assert (Hg : In g G) by exact (sup_glob _ _ HP' f g Hfg).
             assert (existsb (String.eqb g) G = true) as Hg' by (apply existsb_exists; exists g; now rewrite String.eqb_refl).
             unfold res. rewrite E1, Hg'. destruct (kid (mi_fa i) P g) eqn:Eg; simpl; [reflexivity|].
             destruct (dget String.eqb (mi_fa i) g) as [a|] eqn:Ea; [exfalso|reflexivity].
             assert (In g (md_params mc)) as Hin.
             { apply (wf_ports _ _ _ WF m i mc HmS Hi Ec). apply (dget_in _ String.eqb_eq) in Ea. apply in_map_iff. now exists (g, a). }
             pose proof (Cap _ _ mc f g HP' Ec Hfg Hin). congruence.
        * intros f Hfn. unfold res. rewrite E1, Hfn. rewrite (dget_map_snd _ (res G path env0)). simpl.
          destruct (dget String.eqb (mi_fa i) f) as [a|] eqn:Ea; simpl; [|reflexivity].
          apply R2. unfold kid in Hfn. now rewrite Ea in Hfn.
    - destruct Hi' as (Hc & Hf). rewrite Hc. destruct HE as (_ & HE). rewrite (HE eq_refl), Hf, map_map, Hn. apply map_ext. intros (f, a). simpl.
      f_equal. destruct (P a) as [g|] eqn:Ea; [|now apply R2]. destruct (R1 a g Ea) as (-> & ->). reflexivity.
  Qed.

  (** * Removing unused modules, and the checks *)
  Lemma clean_mod S x : smem x (flat_map (fun m => map mi_ctn (md_insts m)) S ++ [top]) = true -> mod_of (clean S top) x = mod_of S x.
  Proof.
    unfold clean. generalize (flat_map (fun m => map mi_ctn (md_insts m)) S ++ [top]). intros us Hx.
    induction S as [|m S IH]; simpl; [reflexivity|]. destruct (String.eqb_spec (md_name m) x) as [E|N].
    - rewrite E, Hx. simpl. rewrite E. now rewrite String.eqb_refl.
    - destruct (smem (md_name m) us); simpl; [|exact IH]. destruct (String.eqb_spec (md_name m) x); [easy|exact IH].
  Qed.

  Lemma inst_used S m i : In m S -> In i (md_insts m) -> smem (mi_ctn i) (flat_map (fun m => map mi_ctn (md_insts m)) S ++ [top]) = true.
  Proof. intros Hm Hi. apply smem_ok. apply in_or_app. left. apply in_flat_map. exists m. split; [exact Hm|]. apply in_map_iff. now exists i. Qed.

  Lemma clean_flat S d : forall X path env, smem X (flat_map (fun m => map mi_ctn (md_insts m)) S ++ [top]) = true ->
    flat d (clean S top) G X path env = flat d S G X path env.
  Proof.
    induction d as [|d IH]; intros X path env HX; simpl; [reflexivity|]. rewrite (clean_mod S X HX).
    destruct (mod_of S X) as [m|] eqn:Em; [|reflexivity]. apply find_name in Em as (_ & Hm).
    rewrite !flat_map_concat_map. f_equal. apply map_ext_in. intros i Hi.
    assert (Hu := inst_used S m i Hm Hi). rewrite (clean_mod S _ Hu). destruct (mod_of S (mi_ctn i)); [now apply IH|reflexivity].
  Qed.

  Lemma check_ok S : (forall m i m', In m S -> In i (md_insts m) -> mod_of S (mi_ctn i) = Some m' -> incl (map fst (mi_fa i)) (md_params m')) ->
    check_modules S = true.
  Proof.
    intros H. apply forallb_forall. intros m Hm. apply forallb_forall. intros i Hi. rewrite find_mod_of.
    destruct (mod_of S (mi_ctn i)) as [m'|] eqn:E; [|reflexivity]. apply forallb_forall. intros c Hc. apply smem_ok.
    apply (H m i m' Hm Hi E). now apply in_map.
  Qed.

  Lemma impl_check r S k X P n m' i' mm : INV r S -> impl k S X P n -> supplied X P -> mod_of S n = Some m' -> In i' (md_insts m') ->
    mod_of S (mi_ctn i') = Some mm -> incl (map fst (mi_fa i')) (md_params mm).
  Proof.
    intros HI Hd HP Hm' Hi' Hmm. destruct k as [|k]; [easy|]. destruct Hd as (m & m2 & Hm & Hm2 & _ & F).
    assert (m2 = m') as -> by congruence. apply In_nth_error in Hi' as (x & Hx). destruct (forall2_nth _ _ _ _ _ F Hx) as (i & Ei & Hn & Hi').
    apply nth_error_In in Ei. destruct (find_name _ _ _ Hm) as (_ & HmS). pose proof (mod_same r S m i HI HmS Ei) as HE.
    destruct (mod_of S0 (mi_ctn i)) as [mc|] eqn:Ec.
    - assert (rank (mi_ctn i) < rank X) as Hr by (apply (rank_lt X m i Hm Ei); congruence).
      assert (HYt : mi_ctn i <> top) by (intros E; pose proof (sup_rank X P HP); rewrite E in Hr; lia).
      destruct Hi' as [(Hz & ->)|(Hf & j & Hj & Hd)].
      + rewrite (i_orig _ _ HI _ _ HYt Ec) in Hmm. injection Hmm as <-. exact (wf_ports _ _ _ WF m i mc HmS Ei Ec).
      + destruct k; [easy|]. destruct Hd as (mc' & md & Hmc & Hmd & Hp & _).
        assert (mc' = mc) as -> by congruence. assert (md = mm) as -> by congruence. rewrite Hp, Hf.
        intros f Hin. apply in_map_iff in Hin as (c & <- & Hc). apply filter_In in Hc as (Hc & Hk). apply filter_In. split; [|exact Hk].
        apply (wf_ports _ _ _ WF m i mc HmS Ei Ec). now apply in_map.
    - destruct Hi' as (Hc & _). rewrite Hc in Hmm. destruct HE as (_ & HE). rewrite (HE eq_refl) in Hmm. discriminate.
  Qed.

  Lemma globals_map gs : (forall a, existsb (String.eqb a) gs = existsb (String.eqb a) G) ->
    Mok (fold_left (fun d g => dset String.eqb d g g) gs []) (fun a => if existsb (String.eqb a) G then Some a else None).
  Proof.
    intros HG a. rewrite <- HG. clear HG.
    assert (E : forall d, dget String.eqb (fold_left (fun d g => dset String.eqb d g g) gs d) a
       = if existsb (String.eqb a) gs then Some a else dget String.eqb d a).
    { induction gs as [|g gs IH]; intros d; simpl; [reflexivity|]. rewrite IH. destruct (String.eqb_spec a g) as [->|N]; simpl.
      - unfold dset. rewrite (dget_dupd_same _ String.eqb_eq). now destruct (existsb (String.eqb g) gs).
      - unfold dset. rewrite (dget_dupd_other _ String.eqb_eq) by auto. reflexivity. }
    apply E.
  Qed.

  Theorem manipulate_ok fuel : rank top < fuel ->
    exists S', manipulate fuel S0 top G = Some S' /\ forall d, flat d S' G top [] [] = flat d S0 G top [] [].
  Proof.
    intros Hf. unfold manipulate. rewrite (check_ok S0).
    2: { intros m i m' Hm Hi Hm'. exact (wf_ports _ _ _ WF m i m' Hm Hi Hm'). }
    destruct (wf_top _ _ _ WF) as (m & Hm).
    assert (HI : INV (rank top) S0).
    { split.
      - apply (wf_names _ _ _ WF).
      - auto.
      - auto.
      - apply incl_refl.
      - intros Z j mz HZ _ Hmz. exfalso. apply in_names in Hmz. exact (orig_not_pg _ Z j Hmz HZ eq_refl). }
    assert (HP := sup_top S0 top G).
    destruct (call_all fuel top _ _ top S0 m (md_params m) Hf HI HP (globals_map G (fun a => eq_refl)) Hm (or_introl (conj eq_refl eq_refl)))
      as (S' & R & HI' & HD & (F1 & F2)).
    { rewrite Hm. f_equal. destruct (find_name _ _ _ Hm) as (E & _). rewrite <- E at 1. now rewrite mod_eta. }
    { reflexivity. }
    rewrite R.
    assert (HC : forall m i m', In m S' -> In i (md_insts m) -> mod_of S' (mi_ctn i) = Some m' -> incl (map fst (mi_fa i)) (md_params m')).
    { intros mm i mi Hmm Hi Hmi. pose proof (find_in _ _ (i_names _ _ HI') Hmm) as Ef.
      destruct (string_dec (md_name mm) top) as [E|N].
      - rewrite E in Ef. exact (impl_check _ S' _ top _ top mm i mi HI' HD HP Ef Hi Hmi).
      - assert (Hin : In (md_name mm) (map md_name S')) by now apply in_map.
        apply F2 in Hin as [Hin|(Z & j & HZ & Hr & Hn)].
        + destruct (find_some_in S0 _ Hin) as (m0 & Hm0). rewrite (i_orig _ _ HI' _ m0 N Hm0) in Ef. injection Ef as ->.
          destruct (find_name _ _ _ Hm0) as (_ & Hm0').
          pose proof (mod_same _ S' mm i HI' Hm0' Hi) as HE. destruct (mod_of S0 (mi_ctn i)) as [mc|] eqn:Ec; [|destruct HE as (_ & HE); rewrite (HE eq_refl) in Hmi; discriminate].
          destruct (string_dec (mi_ctn i) top) as [Et|Nt].
          * exfalso. exact (wf_root _ _ _ WF mm i Hm0' Hi Et).
          * rewrite (i_orig _ _ HI' _ _ Nt Ec) in Hmi. injection Hmi as <-. exact (wf_ports _ _ _ WF mm i mc Hm0' Hi Ec).
        + rewrite Hn in Ef. destruct (i_done _ _ HI' Z j mm HZ Hr Ef) as (Q & HQ & Hd).
          exact (impl_check _ S' _ Z Q (pg_name Z j) mm i mi HI' Hd HQ Ef Hi Hmi). }
    rewrite (check_ok (clean S' top)).
    2: { intros mm i mi Hmm Hi Hmi. apply filter_In in Hmm as (Hmm & _). rewrite (clean_mod S' _ (inst_used S' mm i Hmm Hi)) in Hmi.
         exact (HC mm i mi Hmm Hi Hmi). }
    eexists. split; [reflexivity|]. intros d.
    rewrite clean_flat by (apply smem_ok; apply in_or_app; right; now left).
    apply (impl_flat (rank top) S' d HI' _ top _ top [] [] [] HD HP). split; [|reflexivity].
    intros a g. destruct (existsb (String.eqb a) G) eqn:E; [|discriminate]. intros [= <-]. unfold res. simpl. now rewrite E.
  Qed.
End Design.
