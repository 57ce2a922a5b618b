(** The parser on statements. *)
From Coq Require Import String Ascii.
From Verif Require Import Base.Prelude Base.PyDict Base.PyStr Model.RemoveDuplicates Model.Canvas Model.Netlist Model.Hier Model.UpdateConst Model.SpiceLex Model.SpiceParse
  Spec.SpiceSpec Spec.SpiceDocSpec Proofs.SpiceLexP.

Lemma ustr_upper a : ustr a = upper_text a.
Proof. unfold ustr, upper_text. f_equal. apply map_ext. intros c. symmetry. apply upper_up. Qed.

(** * Positions of the assignments. *)
Fixpoint idx (k : nat) (cache : list (ttype * chars)) : list nat := match cache with [] => [] | t :: r => if is_eq t then k :: idx (S k) r else idx (S k) r end.
Lemma filter_seq_idx pre cache : filter (fun i => match nth_error (pre ++ cache) i with Some t => is_eq t | None => false end) (List.seq (length pre) (length cache)) = idx (length pre) cache.
Proof.
  revert pre. induction cache as [|t r IH]; intros pre; [reflexivity|]. cbn [length List.seq filter idx]. rewrite nth_error_app2, Nat.sub_diag by lia. cbn [nth_error].
  specialize (IH (pre ++ [t])). rewrite <- app_assoc in IH. cbn [app] in IH. rewrite app_length in IH. cbn [length] in IH. rewrite Nat.add_1_r in IH. rewrite IH. now destruct (is_eq t).
Qed.
Lemma assignments_idx cache : assignments cache = idx 0 cache.
Proof. exact (filter_seq_idx [] cache). Qed.
Lemma idx_app k a b : idx k (a ++ b) = idx k a ++ idx (k + length a) b.
Proof.
  revert k. induction a as [|t a IH]; intros k; cbn [idx app length]; [now rewrite Nat.add_0_r|].
  rewrite IH. replace (S k + length a)%nat with (k + S (length a))%nat by lia. now destruct (is_eq t).
Qed.
Lemma idx_none k a : Forall (fun t => is_eq t = false) a -> idx k a = [].
Proof. intros H. revert k. induction H as [|t a Ht Ha IH]; intros k; cbn; [easy|]. now rewrite Ht. Qed.

(** Triples [k = v]. *)
Notation triple := ((ttype * chars) * (ttype * chars) * (ttype * chars))%type.
Definition flat (l : list triple) : list (ttype * chars) := concat (map (fun t => let '(k, e, v) := t in [k; e; v]) l).
Definition triple_ok (t : triple) : Prop := let '(k, e, v) := t in is_name k = true /\ is_eq e = true /\ is_eq v = false /\ operand_tok v = true.
Lemma name_not_eq k : is_name k = true -> is_eq k = false.
Proof. destruct k as [[] ?]; easy. Qed.
Lemma idx_flat k l : Forall triple_ok l -> idx k (flat l) = map (fun j => k + 3 * j + 1)%nat (List.seq 0 (length l)).
Proof.
  intros H. revert k. induction H as [|[[a e] v] l (H1 & H2 & H3 & H4) Hl IH]; intros k; [reflexivity|]. unfold flat. cbn [map concat app idx]. fold (flat l).
  rewrite (name_not_eq _ H1), H2, H3, IH. cbn [length List.seq map]. f_equal; [lia|]. rewrite <- seq_shift, map_map. apply map_ext. intros j. lia.
Qed.
Lemma flat_nth l j k e v : nth_error l j = Some (k, e, v) -> nth_error (flat l) (3 * j) = Some k /\ nth_error (flat l) (3 * j + 1) = Some e /\ nth_error (flat l) (3 * j + 2) = Some v.
Proof.
  revert j. induction l as [|[[a b] c] l IH]; intros [|j] H; try discriminate.
  - injection H as -> -> ->. easy.
  - cbn in H. destruct (IH j H) as (H1 & H2 & H3). unfold flat. cbn [map concat app]. fold (flat l).
    replace (3 * S j)%nat with (S (S (S (3 * j)))) by lia. replace (S (S (S (3 * j))) + 1)%nat with (S (S (S (3 * j + 1)))) by lia. replace (S (S (S (3 * j))) + 2)%nat with (S (S (S (3 * j + 2)))) by lia. easy.
Qed.
Lemma flat_length l : length (flat l) = (3 * length l)%nat.
Proof. induction l as [|[[a b] c] l IH]; [reflexivity|]. unfold flat. cbn [map concat app length]. fold (flat l). rewrite IH. lia. Qed.

Lemma mapM_perm {A B} (f : A -> option B) l l' r : Permutation l l' -> mapM f l = Some r -> exists r', mapM f l' = Some r' /\ Permutation r r'.
Proof.
  intros P. revert r. induction P as [|x l l' P IH|x y l|l1 l2 l3 P1 IH1 P2 IH2]; intros r H.
  - eauto.
  - cbn in H |- *. destruct (f x) as [b|]; [|discriminate]. destruct (mapM f l) as [bs|]; [|discriminate]. injection H as <-. destruct (IH _ eq_refl) as (r' & -> & Pr). eauto.
  - cbn in H |- *. destruct (f x), (f y); try discriminate; destruct (mapM f l) as [bs|]; try discriminate. injection H as <-. eexists. split; [reflexivity|constructor].
  - destruct (IH1 _ H) as (r1 & H1 & Q1). destruct (IH2 _ H1) as (r2 & H2 & Q2). eexists. split; [exact H2|]. etransitivity; eauto.
Qed.
Lemma dset_new {V} (d : list (string * V)) k v : ~ In k (map fst d) -> dset String.eqb d k v = d ++ [(k, v)].
Proof.
  intros H. unfold dset. induction d as [|[k' v'] d IH]; [reflexivity|]. cbn [dupd app]. cbn in H.
  destruct (String.eqb_spec k k') as [E|E]; [exfalso; apply H; now left|]. f_equal. apply IH. tauto.
Qed.
Lemma fold_dset_nodup {V} (l d : list (string * V)) : NoDup (map fst (d ++ l)) -> fold_left (fun d kv => dset String.eqb d (fst kv) (snd kv)) l d = d ++ l.
Proof.
  revert d. induction l as [|[k v] l IH]; intros d H; cbn [fold_left fst snd]; [now rewrite app_nil_r|].
  rewrite dset_new.
  - rewrite IH; rewrite <- app_assoc; [reflexivity|exact H].
  - rewrite map_app in H. cbn [map fst] in H. apply NoDup_remove_2 in H. intros Hk. apply H. apply in_or_app. now left.
Qed.
Lemma dict_of_nodup l : NoDup (map fst l) -> dict_of l = l.
Proof. intros H. unfold dict_of. now apply (fold_dset_nodup (V := string) l []). Qed.

Section num.
Variable num : string -> option string.
Variable ord : list nat -> list nat.
Hypothesis ord_perm : forall l, Permutation (ord l) l.

Lemma args_filter A l : Forall (fun t => is_eq t = false) A -> Forall triple_ok l ->
  map (fun x => cast num (snd x)) (filter (fun x => negb (near (idx 0 (A ++ flat l)) (fst x))) (combine (List.seq 0 (length (A ++ flat l))) (A ++ flat l))) = map (cast num) A.
Proof.
  intros HA Hl. rewrite idx_app, (idx_none 0 A HA), (idx_flat _ _ Hl). cbn [app plus]. set (n := length A).
  set (asg := map (fun j => (n + 3 * j + 1)%nat) (List.seq 0 (length l))).
  assert (N1 : forall i, (i < n)%nat -> near asg i = false).
  { intros i Hi. unfold near. destruct (existsb _ asg) eqn:E; [|easy]. apply existsb_exists in E. destruct E as (j & Hj & E). unfold asg in Hj. apply in_map_iff in Hj. destruct Hj as (x & <- & _).
    rewrite !orb_true_iff, !Nat.eqb_eq in E. lia. }
  assert (N2 : forall i, (n <= i)%nat -> (i < n + 3 * length l)%nat -> near asg i = true).
  { intros i H1 H2. unfold near. apply existsb_exists. exists (n + 3 * ((i - n) / 3) + 1)%nat. pose proof (Nat.div_mod (i - n) 3 ltac:(lia)) as D. pose proof (Nat.mod_upper_bound (i - n) 3 ltac:(lia)) as U.
    split; [apply in_map_iff; exists ((i - n) / 3)%nat; split; [easy|apply in_seq; lia]|]. rewrite !orb_true_iff, !Nat.eqb_eq. lia. }
  rewrite app_length, flat_length. fold n. rewrite seq_app. 
  assert (Cb : combine (List.seq 0 n ++ List.seq (0 + n) (3 * length l)) (A ++ flat l) = combine (List.seq 0 n) A ++ combine (List.seq n (3 * length l)) (flat l)).
  { assert (G : forall (a : list nat) (b : list (ttype * chars)) a2 b2, length a = length b -> combine (a ++ a2) (b ++ b2) = combine a b ++ combine a2 b2).
    { induction a as [|x a IH]; intros [|y b] a2 b2 E; try discriminate; [reflexivity|]. cbn. f_equal. apply IH. now injection E. }
    apply G. now rewrite seq_length. }
  rewrite Cb, filter_app, map_app.
  assert (F1 : forall (q : list (nat * (ttype * chars))), Forall (fun x => near asg (fst x) = false) q -> filter (fun x => negb (near asg (fst x))) q = q).
  { induction 1 as [|x q Hx Hq IH]; [reflexivity|]. cbn [filter]. rewrite Hx. cbn. now rewrite IH. }
  assert (F2 : forall (q : list (nat * (ttype * chars))), Forall (fun x => near asg (fst x) = true) q -> filter (fun x => negb (near asg (fst x))) q = []).
  { induction 1 as [|x q Hx Hq IH]; [reflexivity|]. cbn [filter]. now rewrite Hx. }
  rewrite F1, F2; [|apply Forall_forall..].
  - cbn [map]. rewrite app_nil_r. rewrite <- map_map. f_equal. 
    assert (G : forall (a : list nat) (b : list (ttype * chars)), length a = length b -> map snd (combine a b) = b).
    { induction a as [|x a IH]; intros [|y b] E; try discriminate; [reflexivity|]. cbn. f_equal. apply IH. now injection E. }
    apply G. now rewrite seq_length.
  - intros [i t] Hi. apply in_combine_l in Hi. apply in_seq in Hi. cbn. apply N2; lia.
  - intros [i t] Hi. apply in_combine_l in Hi. apply in_seq in Hi. cbn. apply N1; lia.
Qed.
Definition pairs (l : list triple) : list (string * val) := map (fun t => let '(k, _, v) := t in (ustr (snd k), cast num v)) l.
Lemma mapM_map_nat {B} (f : nat -> option B) (g : nat -> nat) (l : list B) : (forall j x, nth_error l j = Some x -> f (g j) = Some x) -> mapM f (map g (List.seq 0 (length l))) = Some l.
Proof.
  enough (K : forall k, (forall j x, nth_error l j = Some x -> f (g (k + j)%nat) = Some x) -> mapM f (map g (List.seq k (length l))) = Some l) by (intros H; now apply (K 0%nat)).
  induction l as [|x l IH]; intros k H; [reflexivity|]. cbn [length List.seq map mapM]. pose proof (H 0%nat x eq_refl) as H0. rewrite Nat.add_0_r in H0. rewrite H0, IH; [easy|].
  intros j y Hj. replace (S k + j)%nat with (k + S j)%nat by lia. apply H. exact Hj.
Qed.
Lemma decompose_ok A l : Forall (fun t => is_eq t = false /\ operand_tok t = true) A -> Forall triple_ok l -> NoDup (map fst (pairs l)) ->
  exists kw, decompose num ord (A ++ flat l) = Some (map (cast num) A, kw) /\ Permutation kw (pairs l).
Proof.
  intros HA Hl Hn. assert (HA1 : Forall (fun t => is_eq t = false) A) by (eapply Forall_impl; [|exact HA]; intros ? [H _]; exact H).
  unfold decompose. rewrite assignments_idx, (args_filter A l HA1 Hl).
  assert (O1 : forallb operand_tok (A ++ flat l) = true).
  { rewrite forallb_app. apply andb_true_iff. split.
    - apply forallb_forall. intros t Ht. rewrite Forall_forall in HA. now apply HA.
    - clear - Hl. induction Hl as [|[[k e] v] l (H1 & H2 & H3 & H4) Hl IH]; [reflexivity|]. unfold flat. cbn [map concat app forallb]. fold (flat l). rewrite IH, H4.
      destruct k as [[] ?], e as [[] ?]; easy. }
  rewrite O1. cbn [negb].
  assert (Bf : forall j k e v, nth_error l j = Some (k, e, v) -> before (A ++ flat l) (length A + 3 * j + 1) = Some k /\ nth_error (A ++ flat l) (S (length A + 3 * j + 1)) = Some v).
  { intros j k e v Hj. destruct (flat_nth _ _ _ _ _ Hj) as (F1 & _ & F3). replace (length A + 3 * j + 1)%nat with (S (length A + 3 * j)) by lia. cbn [before]. split.
    - rewrite nth_error_app2 by lia. replace (length A + 3 * j - length A)%nat with (3 * j)%nat by lia. exact F1.
    - rewrite nth_error_app2 by lia. replace (S (S (length A + 3 * j)) - length A)%nat with (3 * j + 2)%nat by lia. exact F3. }
  assert (Ix : idx 0 (A ++ flat l) = map (fun j => (length A + 3 * j + 1)%nat) (List.seq 0 (length l))) by (rewrite idx_app, (idx_none 0 A HA1), (idx_flat _ _ Hl); reflexivity).
  rewrite Ix.
  assert (O2 : forallb (fun i => match before (A ++ flat l) i with Some t => is_name t | None => false end) (map (fun j => (length A + 3 * j + 1)%nat) (List.seq 0 (length l))) = true).
  { apply forallb_forall. intros i Hi. apply in_map_iff in Hi. destruct Hi as (j & <- & Hj). apply in_seq in Hj. destruct (nth_error l j) as [[[k e] v]|] eqn:Ej; [|apply nth_error_None in Ej; lia].
    destruct (Bf _ _ _ _ Ej) as [-> _]. rewrite Forall_forall in Hl. apply nth_error_In in Ej. now destruct (Hl _ Ej). }
  rewrite O2. cbn [negb].
  set (f := fun i => match before (A ++ flat l) i, nth_error (A ++ flat l) (S i) with Some k, Some v => Some (ustr (snd k), cast num v) | _, _ => None end).
  assert (M : mapM f (map (fun j => (length A + 3 * j + 1)%nat) (List.seq 0 (length l))) = Some (pairs l)).
  { replace (length l) with (length (pairs l)) by (unfold pairs; apply map_length). apply mapM_map_nat. intros j x Hj. unfold pairs in Hj. rewrite nth_error_map in Hj.
    remember (nth_error l j) as o eqn:Eo. destruct o as [[[k e] v]|]; cbn in Hj; [|discriminate Hj]. symmetry in Eo.
    injection Hj as <-. destruct (Bf _ _ _ _ Eo) as [E1 E2]. unfold f. now rewrite E1, E2. }
  destruct (mapM_perm f _ (ord (map (fun j => (length A + 3 * j + 1)%nat) (List.seq 0 (length l)))) _ (Permutation_sym (ord_perm _)) M) as (r & -> & Pr).
  eexists. split; [reflexivity|]. rewrite (fold_dset_nodup r []); [now symmetry|]. cbn [app]. eapply Permutation_NoDup; [apply Permutation_map; exact Pr|exact Hn].
Qed.

(** * Tokens of the specification. *)
Lemma removelast_snoc {A} (l : list A) x : removelast (l ++ [x]) = l.
Proof. apply removelast_last. Qed.
Lemma says_cast tok s : says num tok s -> vtext (cast num tok) = s /\ is_eq tok = false /\ operand_tok tok = true.
Proof.
  destruct tok as [t a]. unfold says, cast, is_eq, operand_tok. cbn [fst snd]. destruct t; try contradiction; intros H; (split; [|split; reflexivity]).
  - destruct H as (q & b & q' & -> & Hb). cbn [tl vtext]. now rewrite removelast_snoc, ustr_upper.
  - rewrite ustr_upper. now destruct (num (upper_text a)).
  - cbn. now rewrite ustr_upper.
Qed.
Lemma says_all toks ss : Forall2 (says num) toks ss -> map vtext (map (cast num) toks) = ss /\ Forall (fun t => is_eq t = false /\ operand_tok t = true) toks.
Proof.
  induction 1 as [|t s toks ss Ht Hs [IH1 IH2]]; [easy|]. destruct (says_cast _ _ Ht) as (E1 & E2 & E3). cbn. rewrite E1, IH1. auto.
Qed.
Lemma name_cast tok s : name_tok tok s -> cast num tok = VS s /\ is_eq tok = false /\ operand_tok tok = true /\ ustr (snd tok) = s.
Proof. destruct tok as [t a]. unfold name_tok, cast, is_eq, operand_tok. cbn [fst snd]. intros [-> <-]. now rewrite !ustr_upper. Qed.
Lemma assigns_triples toks kvs : assigns num toks kvs -> exists l, toks = flat l /\ Forall triple_ok l /\ texts (pairs l) = kvs.
Proof.
  induction 1 as [|k e v toks ks vs kvs Hk He Hv Hr (l & -> & Hl & E)]; [exists []; easy|]. exists ((k, e, v) :: l). split; [reflexivity|].
  destruct Hk as [Hk1 Hk2]. destruct (says_cast _ _ Hv) as (E1 & E2 & E3). split.
  - constructor; [|easy]. cbn. unfold is_name, is_eq at 1. rewrite Hk1, He. auto.
  - unfold texts, pairs in *. cbn [map fst snd]. rewrite E, E1, ustr_upper, Hk2. reflexivity.
Qed.
Lemma texts_keys kw : map fst (texts kw) = map fst kw.
Proof. unfold texts. now rewrite map_map. Qed.
Lemma decompose_stmt A kws kvs : Forall (fun t => is_eq t = false /\ operand_tok t = true) A -> assigns num kws kvs -> NoDup (map fst kvs) ->
  exists kw, decompose num ord (A ++ kws) = Some (map (cast num) A, kw) /\ Permutation (texts kw) kvs.
Proof.
  intros HA Hk Hn. destruct (assigns_triples _ _ Hk) as (l & -> & Hl & <-). rewrite texts_keys in Hn. destruct (decompose_ok A l HA Hl Hn) as (kw & E & P).
  exists kw. split; [exact E|]. unfold texts. now apply Permutation_map.
Qed.

(** * Instances. *)
Lemma pop_snoc args v : pop (args ++ [v]) = Some (v, args).
Proof. unfold pop. rewrite rev_app_distr. cbn. now rewrite rev_involutive. Qed.
Lemma same_set_refl l : same_set l l = true.
Proof.
  unfold same_set. assert (H : forallb (fun x => in_strs x l) l = true) by (apply forallb_forall; intros x Hx; unfold in_strs; apply existsb_exists; exists x; split; [easy|apply String.eqb_refl]).
  now rewrite H.
Qed.
Lemma combine_fst {A B} (a : list A) (b : list B) : length b = length a -> map fst (combine a b) = a.
Proof. revert b. induction a as [|x a IH]; intros [|y b] H; try discriminate; [reflexivity|]. cbn. f_equal. apply IH. now injection H. Qed.
Lemma sget_find (kvs : dict) k : sget kvs k = option_map snd (find (fun kv => String.eqb (fst kv) k) kvs).
Proof.
  unfold sget. induction kvs as [|[k' v] kvs IH]; [reflexivity|]. cbn [dget find fst]. rewrite String.eqb_sym. now destruct (String.eqb k' k).
Qed.
Lemma str_eqb_ok (a b : string) : String.eqb a b = true <-> a = b.
Proof. apply String.eqb_eq. Qed.
Lemma sget_perm (a b : dict) k : Permutation a b -> NoDup (map fst b) -> sget a k = sget b k.
Proof.
  intros P Hn. assert (Ha : NoDup (map fst a)) by (eapply Permutation_NoDup; [apply Permutation_map; symmetry; exact P|exact Hn]).
  unfold sget. destruct (dget String.eqb b k) as [v|] eqn:E.
  - apply (dget_in _ str_eqb_ok) in E. apply (in_dget _ str_eqb_ok); [exact Ha|]. eapply Permutation_in; [symmetry; exact P|exact E].
  - apply (dget_none _ str_eqb_ok) in E. apply (dget_none _ str_eqb_ok). intros H. apply E. eapply Permutation_in; [apply Permutation_map; exact P|exact H].
Qed.
Lemma mk_inst_ok L name m c ns kw kvs : lfind L m = Some c -> String.prefix (cell_prefix c) name = true -> length ns = length (cell_pins c) -> NoDup (cell_pins c) -> NoDup (map fst kvs) ->
  incl (map fst kvs) (map fst (cell_params c)) -> Permutation kw kvs ->
  mk_inst L name m (dict_of (combine (cell_pins c) ns)) kw = Some (mkElem name m (combine (cell_pins c) ns) (map (given kvs) (cell_params c))).
Proof.
  intros Hm Hp Hl Hn Hk Hi P. unfold mk_inst. rewrite Hm, Hp. cbn [negb]. rewrite dict_of_nodup by (rewrite combine_fst by easy; exact Hn). rewrite (combine_fst _ _ Hl), same_set_refl. cbn [negb].
  assert (F : forallb (fun k => in_strs k (map fst (cell_params c))) (map fst kw) = true).
  { apply forallb_forall. intros k Hk2. unfold in_strs. apply existsb_exists. exists k. split; [|apply String.eqb_refl]. apply Hi. eapply Permutation_in; [apply Permutation_map; exact P|exact Hk2]. }
  destruct kw as [|x kw].
  - apply Permutation_nil in P. subst kvs. f_equal. f_equal. symmetry. rewrite <- (map_id (cell_params c)) at 2. apply map_ext. intros [k v]. reflexivity.
  - rewrite F. f_equal. f_equal. apply map_ext. intros [k v]. unfold given. cbn [fst snd]. f_equal. rewrite (sget_perm _ _ k P Hk), sget_find. now destruct (find _ kvs).
Qed.
Lemma passive_default name : passive name = default_model name.
Proof. reflexivity. Qed.
Lemma element_step L toks e st : (forall m c, lfind L m = Some c -> lfind (p_lib st) m = Some c) -> element_stmt num L toks e -> do_event num ord st (EStmt toks) = Some (add_elem st (p_lib st) e).
Proof.
  intros HL [H|H].
  - destruct H as (n & nets & m & kws & name & ns & ms & kvs & c & -> & Hname & Hnets & Hm & Hk & Hc & Hlen & Hnd & Hnk & Hincl & Hpre & Hpas & ->).
    destruct (says_all _ _ Hnets) as [Ens Ans]. destruct (name_cast _ _ Hm) as (Em1 & Em2 & Em3 & _). destruct Hname as [Hn1 Hn2].
    cbn [do_event]. replace (nets ++ m :: kws) with ((nets ++ [m]) ++ kws) by (now rewrite <- app_assoc).
    destruct (decompose_stmt (nets ++ [m]) kws kvs) as (kw & -> & P); auto.
    { apply Forall_app. split; [exact Ans|]. constructor; auto. }
    rewrite Hn1, ustr_upper, Hn2, map_app. cbn [map]. rewrite Em1. unfold process_instance. rewrite pop_snoc.
    assert (Ld : match default_model name, kw with Some d, [] => (VS d, [("VALUE"%string, VS ms)]) | _, _ => (VS ms, kw) end = (VS ms, kw)).
    { destruct (default_model name) as [d|] eqn:Ed; [|easy]. destruct kw as [|x kw]; [|easy]. exfalso. apply Permutation_nil in P. apply Hpas; [|exact P]. rewrite passive_default, Ed. discriminate. }
    rewrite Ld. pose proof (HL _ _ Hc) as Hc'. cbv beta iota zeta. rewrite Hc'. cbv beta iota zeta. rewrite Hc'. rewrite map_length.
    assert (El : length nets = length ns) by (rewrite <- Ens, !map_length; reflexivity). rewrite El, Hlen, Nat.eqb_refl. cbn [negb]. rewrite Ens.
    now rewrite (mk_inst_ok _ _ _ _ _ _ kvs Hc').
  - destruct H as (n & nets & v & name & ns & d & vs & c & -> & Hname & Hnets & Hv & Hpas & Hc & Hlen & Hnd & Hin & Hpre & ->).
    destruct (says_all _ _ Hnets) as [Ens Ans]. destruct (says_cast _ _ Hv) as (Ev1 & Ev2 & Ev3). destruct Hname as [Hn1 Hn2].
    cbn [do_event]. rewrite <- (app_nil_r (nets ++ [v])).
    destruct (decompose_stmt (nets ++ [v]) [] []) as (kw & -> & P); [|constructor|constructor|].
    { apply Forall_app. split; [exact Ans|]. constructor; auto. }
    symmetry in P. apply Permutation_nil in P. destruct kw; [|discriminate]. rewrite Hn1, ustr_upper, Hn2, map_app. cbn [map]. unfold process_instance. rewrite pop_snoc.
    rewrite passive_default in Hpas. rewrite Hpas. pose proof (HL _ _ Hc) as Hc'. cbv beta iota zeta. rewrite Hc'. cbv beta iota zeta. rewrite Hc'. rewrite map_length.
    assert (El : length nets = length ns) by (rewrite <- Ens, !map_length; reflexivity). rewrite El, Hlen, Nat.eqb_refl. cbn [negb]. rewrite Ens.
    cbn [texts map fst snd]. rewrite Ev1. rewrite (mk_inst_ok _ _ _ _ _ _ [("VALUE"%string, vs)] Hc'); auto.
    + constructor; [easy|constructor].
    + intros x [<-|[]]. exact Hin.
Qed.

(** * Documents. *)
Lemma foldO_app {A B} (f : B -> A -> option B) l1 l2 b b' : foldO f l1 b = Some b' -> foldO f (l1 ++ l2) b = foldO f l2 b'.
Proof. revert b. induction l1 as [|x l1 IH]; intros b H; cbn in *; [now injection H as <-|]. destruct (f b x); [auto|discriminate]. Qed.
Lemma lfind_app L x m c : lfind L m = Some c -> lfind (L ++ [x]) m = Some c.
Proof. unfold lfind. induction L as [|y L IH]; cbn; [discriminate|]. destruct (String.eqb (cell_name y) m); auto. Qed.
Lemma lfind_none L n : ~ In n (map cell_name L) -> lfind L n = None.
Proof.
  unfold lfind. induction L as [|y L IH]; cbn; [easy|]. intros H. destruct (String.eqb_spec (cell_name y) n) as [E|E]; [exfalso; apply H; now left|]. apply IH. tauto.
Qed.
Lemma sset_set d k v d' : set_in d k v d' -> sset d k v = d'.
Proof.
  intros H. unfold sset. destruct H as [d k v H|d1 d2 k o v H]; [now apply dset_new|]. unfold dset. induction d1 as [|[k' v'] d1 IH]; cbn [dupd app].
  - now rewrite String.eqb_refl.
  - cbn in H. destruct (String.eqb_spec k k') as [E|E]; [exfalso; apply H; now left|]. f_equal. apply IH. tauto.
Qed.
Lemma map_add_other n e L : ~ In n (map cell_name L) -> map (add_to n e) L = L.
Proof.
  induction L as [|c L IH]; cbn; [easy|]. intros H. f_equal; [|apply IH; tauto]. destruct c as [l|s]; [easy|]. cbn in H |- *. destruct (String.eqb_spec (sb_name s) n); [exfalso; apply H; now left|easy].
Qed.
Definition upd_params (n : string) (kw : dict) (c : cell) : cell := match c with Sub s => if String.eqb (sb_name s) n then Sub (mkSub (sb_name s) (sb_pins s) (update_all (sb_params s) kw) (sb_elems s)) else c | Prim _ => c end.
Lemma map_upd_other n kw L : ~ In n (map cell_name L) -> map (upd_params n kw) L = L.
Proof.
  induction L as [|c L IH]; cbn; [easy|]. intros H. f_equal; [|apply IH; tauto]. destruct c as [l|s]; [easy|]. cbn in H |- *. destruct (String.eqb_spec (sb_name s) n); [exfalso; apply H; now left|easy].
Qed.
Lemma texts_one kw k v : Permutation (texts kw) [(k, v)] -> texts kw = [(k, v)].
Proof. intros P. symmetry in P. now apply Permutation_length_1_inv in P. Qed.
Lemma few_texts kw kvs : few kvs -> Permutation (texts kw) kvs -> texts kw = kvs.
Proof.
  unfold few. intros F P. destruct kvs as [|[k v] [|? ?]].
  - symmetry in P. now apply Permutation_nil in P.
  - now apply texts_one.
  - cbn in F. lia.
Qed.
Lemma few_nodup kvs : few kvs -> NoDup (map fst kvs).
Proof. unfold few. destruct kvs as [|[k v] [|? ?]]; cbn; intros; [constructor| |lia]. constructor; [easy|constructor]. Qed.
Lemma body_parse_scope L evs p p' els notes : body num L evs p p' els notes -> forall name ps els0 notes0 top prm cs sc, ~ In name (map cell_name L) ->
  parse_events num ord (mkP (L ++ [Sub (mkSub name ps p els0)]) top prm (name :: sc) (Some notes0) cs) evs =
  Some (mkP (L ++ [Sub (mkSub name ps p' (els0 ++ els))]) top prm (name :: sc) (Some (notes0 ++ notes)) cs).
Proof.
  induction 1 as [p|toks e evs p p' els notes He Hb IH|txt evs p p' els notes Hb IH|d kws k v evs p p1 p' els notes Hd Hk Hs Hb IH]; intros name ps els0 notes0 top prm cs sc Hn; unfold parse_events in *; cbn [foldO].
  - now rewrite !app_nil_r.
  - rewrite (element_step L _ e _); [|intros m c; apply lfind_app|exact He]. unfold add_elem. cbn [p_scope p_lib p_top p_params p_pending p_cons]. rewrite map_app, (map_add_other _ _ _ Hn).
    cbn [map add_to sb_name sb_pins sb_params sb_elems]. rewrite String.eqb_refl, IH by exact Hn. now rewrite <- app_assoc.
  - cbn [do_event p_pending p_scope p_lib p_top p_params p_cons]. rewrite IH by exact Hn. now rewrite <- app_assoc.
  - cbn [do_event]. destruct (decompose_stmt [] kws [(k, v)]) as (kw & E & P); [constructor|exact Hk|apply few_nodup; unfold few; cbn; lia|]. cbn [app map] in E. rewrite E.
    apply texts_one in P. destruct Hd as [Hd1 Hd2]. rewrite Hd1, ustr_upper, Hd2. cbn [process_declaration String.eqb Ascii.eqb Bool.eqb]. unfold set_params. cbn [p_scope p_lib p_top p_params p_pending p_cons].
    rewrite P. change (fun c => match c with Prim _ => c | Sub s => if String.eqb (sb_name s) name then Sub (mkSub (sb_name s) (sb_pins s) (update_all (sb_params s) [(k, v)]) (sb_elems s)) else c end) with (upd_params name [(k, v)]).
    rewrite map_app, (map_upd_other _ _ _ Hn). cbn [map upd_params sb_name sb_pins sb_params sb_elems]. rewrite String.eqb_refl. unfold update_all. cbn [fold_left fst snd]. rewrite (sset_set _ _ _ _ Hs).
    apply IH. exact Hn.
Qed.
Lemma body_parse L evs p p' els notes : body num L evs p p' els notes -> forall name ps els0 notes0 top prm cs, ~ In name (map cell_name L) ->
  parse_events num ord (mkP (L ++ [Sub (mkSub name ps p els0)]) top prm [name] (Some notes0) cs) evs =
  Some (mkP (L ++ [Sub (mkSub name ps p' (els0 ++ els))]) top prm [name] (Some (notes0 ++ notes)) cs).
Proof. intros H name ps els0 notes0 top prm cs Hn. now apply body_parse_scope. Qed.
Lemma argument_ok args : Forall (argument num) args -> Forall (fun t => is_eq t = false /\ operand_tok t = true) args.
Proof. apply Forall_impl. intros t (s & Hs). now destruct (says_cast _ _ Hs) as (_ & H1 & H2). Qed.
Lemma decompose_args args : Forall (argument num) args -> decompose num ord args = Some (map (cast num) args, []).
Proof.
  intros H. destruct (decompose_stmt args [] [] (argument_ok _ H)) as (kw & E & P); [constructor|constructor|]. rewrite app_nil_r in E.
  symmetry in P. apply Permutation_nil in P. destruct kw; [exact E|discriminate].
Qed.
Lemma doc_parse L evs L' top cs : doc num L evs L' top cs -> forall top0 prm cs0,
  parse_events num ord (mkP L top0 prm [] None cs0) evs = Some (mkP L' (top0 ++ top) prm [] None (cs0 ++ cs)).
Proof.
  induction 1 as [L|L d n pins kws name ps kvs evs p els notes en args rest L' top cs Hd Hname Hpins Hne Hk Hf Hfresh Hb Hen Hargs Hdoc IH
                 |L d n b kws name base kvs c params rest L' top cs Hd Hname Hbase Hk Hf Hfresh Hc Hp Hdoc IH|L toks e rest L' top cs He Hdoc IH|L d args rest L' top cs Hd Hno Hargs Hdoc IH];
    intros top0 prm cs0.
  - cbn. now rewrite !app_nil_r.
  - destruct (says_all _ _ Hpins) as [Ens Ans]. destruct (name_cast _ _ Hname) as (En1 & En2 & En3 & _). destruct Hd as [Hd1 Hd2], Hen as [He1 He2].
    assert (S1 : do_event num ord (mkP L top0 prm [] None cs0) (EStmt (d :: n :: pins ++ kws)) = Some (mkP (L ++ [Sub (mkSub name ps kvs [])]) top0 prm [name] (Some []) cs0)).
    { cbn [do_event]. destruct (decompose_stmt (n :: pins) kws kvs) as (kw & E & P); [constructor; auto|exact Hk|now apply few_nodup|].
      cbn [app] in E. rewrite E. apply few_texts in P; [|exact Hf]. rewrite Hd1, ustr_upper, Hd2. cbn [process_declaration String.eqb Ascii.eqb Bool.eqb map]. rewrite En1.
      destruct pins as [|x pins]; [exfalso; apply Hne; now inversion Hpins|]. cbn [map tl p_lib p_top p_params p_scope p_cons]. rewrite (lfind_none _ _ Hfresh). rewrite <- Ens, P. reflexivity. }
    assert (S3 : do_event num ord (mkP (L ++ [Sub (mkSub name ps p ([] ++ els))]) top0 prm [name] (Some ([] ++ notes)) cs0) (EStmt (en :: args)) = Some (mkP (L ++ [Sub (mkSub name ps p els)]) top0 prm [] None (cs0 ++ [(name, notes)]))).
    { cbn [do_event]. rewrite (decompose_args _ Hargs), He1, ustr_upper, He2. reflexivity. }
    unfold parse_events. change (EStmt (d :: n :: pins ++ kws) :: evs ++ EStmt (en :: args) :: rest) with ([EStmt (d :: n :: pins ++ kws)] ++ evs ++ EStmt (en :: args) :: rest).
    rewrite (foldO_app _ _ _ _ (mkP (L ++ [Sub (mkSub name ps kvs [])]) top0 prm [name] (Some []) cs0)) by (cbn [foldO]; rewrite S1; reflexivity).
    rewrite (foldO_app _ _ _ _ _ (body_parse _ _ _ _ _ _ Hb name ps [] [] top0 prm cs0 Hfresh)). cbn [foldO]. rewrite S3. unfold parse_events in IH. rewrite IH. now rewrite <- app_assoc.
  - destruct (name_cast _ _ Hname) as (En1 & En2 & En3 & _). destruct (name_cast _ _ Hbase) as (Eb1 & Eb2 & Eb3 & _). destruct Hd as [Hd1 Hd2].
    assert (S1 : do_event num ord (mkP L top0 prm [] None cs0) (EStmt (d :: n :: b :: kws)) = Some (mkP (L ++ [Prim (mkLeaf name (cell_pins c) params (cell_prefix c))]) top0 prm [] None cs0)).
    { cbn [do_event]. destruct (decompose_stmt [n; b] kws kvs) as (kw & E & P); [repeat constructor; auto|exact Hk|now apply few_nodup|].
      cbn [app] in E. rewrite E. apply few_texts in P; [|exact Hf]. rewrite Hd1, ustr_upper, Hd2. cbn [process_declaration String.eqb Ascii.eqb Bool.eqb map]. rewrite En1, Eb1. cbn [p_lib p_top p_params p_scope p_pending p_cons].
      rewrite (lfind_none _ _ Hfresh). unfold lfind. rewrite Hc. rewrite P. do 4 f_equal.
      assert (Ep : update_all (cell_params c) kvs = params).
      { destruct kvs as [|[k v] [|? ?]]; [now subst|cbn; now apply sset_set|unfold few in Hf; cbn in Hf; lia]. }
      now rewrite Ep. }
    unfold parse_events in *. cbn [foldO]. rewrite S1. apply IH.
  - unfold parse_events in *. cbn [foldO]. rewrite (element_step L _ e _); [|auto|exact He]. cbn [add_elem p_scope p_lib p_top p_params p_pending p_cons]. rewrite IH. now rewrite <- app_assoc.
  - unfold parse_events in *. cbn [foldO]. cbn [do_event]. rewrite (decompose_args _ Hargs), Hd, ustr_upper.
    assert (E : process_declaration (mkP L top0 prm [] None cs0) (upper_text (snd d)) (map (cast num) args) [] = Some (mkP L top0 prm [] None cs0)).
    { assert (Ne : forall x, In x [".SUBCKT"; ".ENDS"; ".PARAM"; ".MODEL"]%string -> String.eqb (upper_text (snd d)) x = false) by (intros x Hx; apply String.eqb_neq; intros E; apply Hno; now rewrite E).
      unfold process_declaration. rewrite !Ne by (cbn; tauto). reflexivity. }
    rewrite E. apply IH.
Qed.
End num.
