From Coq Require Import String.
From Verif Require Import Base.Prelude Model.RemoveDuplicates Model.Canvas Model.Netlist Model.Hier Model.NewHier Model.SymConst Model.ArrayHier.
From Verif Require Import Spec.HierSpec Proofs.NetlistP Proofs.SeriesP Proofs.HierP Proofs.FindDummyP Proofs.NewHierP Props.C33.

Lemma append_inj (a b c : string) : (a ++ b = a ++ c)%string -> b = c.
Proof. induction a as [|x a IH]; cbn [append]; intros H; [assumption|]. injection H as H. auto. Qed.
Lemma append_nil (a b : string) : a = (a ++ b)%string -> b = EmptyString.
Proof. intros H. apply (append_inj a). rewrite <- H. clear. induction a; cbn [append]; congruence. Qed.
Lemma zstr_nonempty z : zstr z <> EmptyString.
Proof. intros H. pose proof (py_int_zstr z) as K. rewrite H in K. discriminate. Qed.

(** The names tried by [new_name]. *)
Definition tried (base cur : string) (count : Z) (fuel : nat) : list string := match fuel with O => [] | Datatypes.S f => cur :: map (fun i => (base ++ zstr (count + Z.of_nat i))%string) (seq 0 f) end.
Lemma new_name_none fuel : forall L base cur count, new_name fuel L base cur count = None -> forall n, In n (tried base cur count fuel) -> lfind L n <> None.
Proof.
  induction fuel as [|fuel IH]; intros L base cur count H n Hn; [destruct Hn|]. cbn [new_name] in H. destruct (lfind L cur) as [c|] eqn:E; [|discriminate]. cbn [tried] in Hn. destruct Hn as [<-|Hn]; [congruence|].
  apply (IH _ _ _ _ H n). destruct fuel as [|fuel]; [destruct Hn|]. cbn [seq map] in Hn. cbn [tried]. destruct Hn as [Hn|Hn]; [left; rewrite <- Hn; f_equal; f_equal; lia|]. right. apply in_map_iff in Hn as (i & <- & Hi). apply in_map_iff. exists (i - 1)%nat. apply in_seq in Hi. split; [f_equal; f_equal; lia|apply in_seq; lia].
Qed.
Lemma new_name_free fuel : forall L base cur count t, new_name fuel L base cur count = Some t -> lfind L t = None.
Proof. induction fuel as [|fuel IH]; intros L base cur count t H; [discriminate|]. cbn [new_name] in H. destruct (lfind L cur) eqn:E; [eauto|]. injection H as <-. assumption. Qed.
Lemma new_name_ok L base : exists t, new_subckt_name L base = Some t /\ lfind L t = None.
Proof.
  unfold new_subckt_name. destruct (new_name (Datatypes.S (length L)) L base base 1) as [t|] eqn:E; [exists t; split; [reflexivity|exact (new_name_free _ _ _ _ _ _ E)]|]. exfalso.
  pose proof (new_name_none _ _ _ _ _ E) as K. set (l := tried base base 1 (Datatypes.S (length L))) in *.
  assert (N : NoDup l).
  { cbn [l tried]. constructor.
    - intros H. apply in_map_iff in H as (i & Hi & _). symmetry in Hi. apply append_nil in Hi. exact (zstr_nonempty _ Hi).
    - apply FinFun.Injective_map_NoDup; [|apply seq_NoDup]. intros i j H. apply append_inj, zstr_inj in H. lia. }
  assert (I : incl l (map cell_name L)).
  { intros n Hn. apply K in Hn. destruct (lfind L n) as [c|] eqn:F; [|contradiction]. apply lfind_in in F as (F1 & F2). rewrite <- F2. now apply in_map. }
  pose proof (NoDup_incl_length N I) as LE. rewrite map_length in LE. cbn [l tried length] in LE. rewrite map_length, seq_length in LE. lia.
Qed.

(** One move. *)
Lemma create_facts L pn cn names L' : well_formed L -> NoDup names -> create_hier L pn cn names = Some L' -> exists p child p',
  lfind L pn = Some (Sub p) /\ lfind L cn = None /\ lfind L' cn = Some (Sub child) /\ lfind L' pn = Some (Sub p') /\
  sb_name child = cn /\ sb_pins p' = sb_pins p /\
  (forall e, In e (sb_elems child) <-> In e (sb_elems p) /\ In (e_name e) names) /\
  (forall e, In e (sb_elems p') <-> (In e (sb_elems p) /\ ~ In (e_name e) names) \/ e = mkElem ("X_" ++ cn)%string cn (map (fun n => (n, n)) (sb_pins child)) []) /\
  (forall n, n <> pn -> n <> cn -> lfind L' n = lfind L n) /\
  (forall c, In (Sub c) L' -> In (Sub c) L \/ c = child \/ c = p').
Proof.
  intros W Hn H. assert (exists p, lfind L pn = Some (Sub p)) as (p & Hp) by (unfold create_hier in H; destruct (lfind L pn) as [[|p]|]; try discriminate; eauto).
  assert (Hc : lfind L cn = None) by (unfold create_hier in H; rewrite Hp in H; destruct (new_pins p names); [discriminate|]; destruct (lfind L cn); [discriminate|reflexivity]).
  assert (Hne : new_pins p names <> []) by (unfold create_hier in H; rewrite Hp in H; destruct (new_pins p names); discriminate).
  pose proof (proj1 (proj2 W p (proj1 (lfind_in _ _ _ Hp)))) as N.
  destruct (create_form L pn cn names p W Hp Hc Hn Hne) as (rest & R2 & R3 & E). rewrite E in H. injection H as <-.
  pose proof (proj2 (lfind_in _ _ _ Hp)) as Epn. simpl in Epn.
  exists p. do 2 eexists. split; [exact Hp|]. split; [exact Hc|]. split; [exact (find_child L pn cn names p rest Hp Hc)|]. split; [exact (find_sub L pn cn names p rest Hp Hc pn p Hp)|].
  split; [reflexivity|]. split; [unfold upd; rewrite Epn, String.eqb_refl; reflexivity|]. split; [intros e; cbn [sb_elems]; apply found_in; exact N|]. split; [|split].
  - intros e. unfold upd. rewrite Epn, String.eqb_refl. cbn [sb_elems sb_pins]. rewrite in_app_iff. rewrite (rest_in L pn names p rest W Hp R3 e). simpl. intuition congruence.
  - intros n N1 N2. etransitivity; [exact (find_L' L pn cn names p rest Hp Hc n)|]. destruct (lfind L n) as [[l|c]|] eqn:F; [reflexivity| |].
    + apply lfind_in in F as (_ & F). cbn [cell_name] in F. unfold updc. destruct (String.eqb_spec (sb_name c) pn); [congruence|reflexivity].
    + destruct (String.eqb_spec cn n); [congruence|reflexivity].
  - intros c H. pose proof (L'_map L pn cn names p rest Hp Hc) as LM. cbv zeta in LM. change (In (Sub c) (replace_sub (L ++ [Sub (mkSub cn (new_pins p names) [] (found (sb_elems p) names))]) (mkSub (sb_name p) (sb_pins p) (sb_params p) (rest ++ [mkElem ("X_" ++ cn)%string cn (map (fun n => (n, n)) (new_pins p names)) []])))) in H. rewrite LM in H. apply in_app_iff in H as [H|[H|[]]]; [|injection H as <-; auto]. apply in_map_iff in H as ([l|o] & E1 & H); [discriminate|]. unfold updc in E1. unfold upd. rewrite Epn, String.eqb_refl. destruct (String.eqb (sb_name o) pn); injection E1 as <-; [right; right; now rewrite ?Epn|now left].
Qed.

(** Elements called like an instance of an array subcircuit belong to one that exists. *)
Definition tidy (L : lib) : Prop := forall c e cn, In (Sub c) L -> In e (sb_elems c) -> e_name e = ("X_" ++ cn)%string -> String.prefix "ARRAY_" cn = true -> lfind L cn <> None.
Lemma create_tidy L pn cn names L' : well_formed L -> NoDup names -> tidy L -> create_hier L pn cn names = Some L' -> tidy L'.
Proof.
  intros W Hn T H. destruct (create_facts L pn cn names L' W Hn H) as (p & child & p' & F1 & F2 & F3 & F4 & F5 & F6 & F7 & F8 & F9 & F10).
  assert (M : forall n, lfind L n <> None -> lfind L' n <> None) by (intros n Hl; destruct (String.eqb_spec n pn) as [->|N1]; [congruence|]; destruct (String.eqb_spec n cn) as [->|N2]; [congruence|]; now rewrite F9).
  pose proof (proj1 (lfind_in _ _ _ F1)) as Ip. intros c e n Hc He En Hx. destruct (F10 c Hc) as [I|[->| ->]].
  - apply M. exact (T c e n I He En Hx).
  - apply F7 in He as (He & _). apply M. exact (T p e n Ip He En Hx).
  - apply F8 in He as [(He & _)|He]; [apply M; exact (T p e n Ip He En Hx)|]. subst e. cbn [e_name] in En. apply (append_inj "X_") in En. subst n. congruence.
Qed.
Lemma tidy_fresh L pn cn names p : tidy L -> lfind L pn = Some (Sub p) -> lfind L cn = None -> String.prefix "ARRAY_" cn = true -> fresh_inst p cn names.
Proof. intros T Hp Hc Hx e He _ En. exact (T p e cn (proj1 (lfind_in _ _ _ Hp)) He En Hx Hc). Qed.
Lemma moves_trans L1 L2 L3 : moves L1 L2 -> moves L2 L3 -> moves L1 L3.
Proof. induction 1; [auto|]. intros H'. econstructor; eauto. Qed.
Lemma move_one L pn cn names L' : well_formed L -> tidy L -> NoDup names -> String.prefix "ARRAY_" cn = true -> create_hier L pn cn names = Some L' -> moves L L' /\ well_formed L' /\ tidy L'.
Proof.
  intros W T Hn Hx H. destruct (create_facts L pn cn names L' W Hn H) as (p & child & p' & F1 & F2 & _). pose proof (tidy_fresh L pn cn names p T F1 F2 Hx) as Hf.
  split; [econstructor; eauto; constructor|]. split; [exact (proj1 (C33_flat L pn cn names L' p W Hn F1 Hf H))|exact (create_tidy L pn cn names L' W Hn T H)].
Qed.

Lemma prefix_app (a b : string) : String.prefix a (a ++ b) = true.
Proof. induction a as [|x a IH]; cbn [append String.prefix]; [destruct b; reflexivity|]. destruct (Ascii.ascii_dec x x); [assumption|contradiction]. Qed.
Lemma new_name_prefix fuel : forall L base cur count t, String.prefix "ARRAY_" cur = true -> (forall c, String.prefix "ARRAY_" (base ++ c) = true) -> new_name fuel L base cur count = Some t -> String.prefix "ARRAY_" t = true.
Proof. induction fuel as [|fuel IH]; intros L base cur count t Hc Hb H; [discriminate|]. cbn [new_name] in H. destruct (lfind L cur); [|injection H as <-; assumption]. apply (IH _ _ _ _ _ (Hb _) Hb H). Qed.

Section Arrays.
  Variables (ord : list string -> list string) (nodes : list string).
  Hypothesis ord_perm : forall l, Permutation (ord l) l.
  Lemma row_nodup sub rows r : NoDup (row_of ord nodes sub rows r).
  Proof. unfold row_of. eapply Permutation_NoDup; [symmetry; apply ord_perm|]. apply NoDup_filter, uniq_nodup. Qed.
  Lemma chosen_nodup sub rows : NoDup (chosen ord nodes sub rows).
  Proof. unfold chosen. eapply Permutation_NoDup; [symmetry; apply ord_perm|]. apply NoDup_filter, uniq_nodup. Qed.
  Lemma template_moves hn L ts r L' ts' : well_formed L -> tidy L -> NoDup r -> add_template hn (L, ts) r = Some (L', ts') -> moves L L' /\ well_formed L' /\ tidy L'.
  Proof.
    intros W T N H. unfold add_template in H. cbn [fst snd] in H. destruct (new_subckt_name L "ARRAY_TEMPLATE") as [t|] eqn:E; [|discriminate]. destruct (create_hier L hn t r) as [L1|] eqn:C; [|discriminate]. cbn [option_map] in H. injection H as <- <-.
    apply (move_one L hn t r L1 W T N); [|assumption]. unfold new_subckt_name in E. eapply (new_name_prefix _ L "ARRAY_TEMPLATE" "ARRAY_TEMPLATE" 1 t); [reflexivity|reflexivity|exact E].
  Qed.
  Lemma templates_moves hn l : forall st st', (forall r, In r l -> NoDup r) -> well_formed (fst st) -> tidy (fst st) -> foldM (add_template hn) l st = Some st' -> moves (fst st) (fst st') /\ well_formed (fst st') /\ tidy (fst st').
  Proof.
    induction l as [|r l IH]; intros (L, ts) st' N W T H; cbn [foldM] in H; [injection H as <-; split; [constructor|auto]|]. destruct (add_template hn (L, ts) r) as [(L1, ts1)|] eqn:E; [|discriminate].
    destruct (template_moves hn L ts r L1 ts1 W T (N r (or_introl eq_refl)) E) as (M1 & W1 & T1). destruct (IH (L1, ts1) st' (fun r' Hr' => N r' (or_intror Hr')) W1 T1 H) as (M2 & W2 & T2). split; [exact (moves_trans _ _ _ M1 M2)|auto].
  Qed.
  Lemma one_moves pn L sub kr L' sub' : well_formed L -> tidy L -> one_array ord nodes pn (L, sub) kr = Some (L', sub') -> moves L L' /\ well_formed L' /\ tidy L'.
  Proof.
    intros W T H. destruct kr as (key, rows). unfold one_array in H. destruct (Nat.leb _ 1); [injection H as <- <-; split; [constructor|auto]|]. destruct (create_hier L pn _ _) as [L1|] eqn:C; [|discriminate].
    destruct (move_one L pn _ _ L1 W T (chosen_nodup sub rows) (eq_refl : String.prefix "ARRAY_" ("ARRAY_HIER_" ++ key) = true) C) as (M1 & W1 & T1). destruct (foldM _ _ (L1, [])) as [(L2, ts)|] eqn:F; [|discriminate]. cbn [option_map fst] in H. injection H as <- <-.
    destruct (templates_moves _ _ (L1, []) (L2, ts) (fun r Hr => ltac:(apply in_map_iff in Hr as (r0 & <- & _); apply row_nodup)) W1 T1 F) as (M2 & W2 & T2). split; [exact (moves_trans _ _ _ M1 M2)|auto].
  Qed.

  (** What the templates hold. *)
  Lemma templates_shape hn l : forall L ts L' ts' h, (forall r, In r l -> NoDup r) -> (forall r1 r2 e l1 l2 l3, In e (sb_elems h) -> l = l1 ++ r1 :: l2 ++ r2 :: l3 -> In (e_name e) r1 -> ~ In (e_name e) r2) -> well_formed L -> tidy L ->
    lfind L hn = Some (Sub h) -> foldM (add_template hn) l (L, ts) = Some (L', ts') ->
    (forall r t, In r l -> In t ts -> ~ In ("X_" ++ t)%string r) -> (forall r t, In r l -> ~ In ("X_ARRAY_TEMPLATE" ++ t)%string r) ->
    exists new h', ts' = ts ++ new /\ lfind L' hn = Some (Sub h') /\ (forall n, n <> hn -> lfind L n <> None -> lfind L' n = lfind L n) /\
      Forall2 (fun t r => lfind L t = None /\ t <> hn /\ exists c, lfind L' t = Some (Sub c) /\ forall e, In e (sb_elems c) <-> In e (sb_elems h) /\ In (e_name e) r) new l /\ NoDup new /\
      (forall e, In e (sb_elems h') <-> (In e (sb_elems h) /\ ~ In (e_name e) (concat l)) \/ exists t c, In t new /\ lfind L' t = Some (Sub c) /\ e = mkElem ("X_" ++ t)%string t (map (fun n => (n, n)) (sb_pins c)) []).
  Proof.
    induction l as [|r l IH]; intros L ts L' ts' h N D W T Hh H Hts Hx; cbn [foldM] in H.
    - injection H as <- <-. exists [], h. rewrite app_nil_r. split; [reflexivity|]. split; [assumption|]. split; [auto|]. split; [constructor|]. split; [constructor|]. intros e. simpl. split; [tauto|]. intros [(H & _)|(t & c & [] & _)]. assumption.
    - destruct (add_template hn (L, ts) r) as [(L1, ts1)|] eqn:E; [|discriminate]. pose proof (template_moves hn L ts r L1 ts1 W T (N r (or_introl eq_refl)) E) as (_ & W1 & T1).
      unfold add_template in E. cbn [fst snd] in E. destruct (new_subckt_name L "ARRAY_TEMPLATE") as [t|] eqn:Et; [|discriminate]. destruct (create_hier L hn t r) as [L2|] eqn:C; [|discriminate]. cbn [option_map] in E. injection E as <- <-.
      destruct (create_facts L hn t r L2 W (N r (or_introl eq_refl)) C) as (p & child & p' & F1 & F2 & F3 & F4 & F5 & F6 & F7 & F8 & F9 & F10). rewrite Hh in F1. injection F1 as <-.
      assert (Htn : t <> hn) by congruence.
      assert (Xt : exists s, t = ("ARRAY_TEMPLATE" ++ s)%string).
      { assert (G : forall fuel cur count, (exists s, cur = ("ARRAY_TEMPLATE" ++ s)%string) -> new_name fuel L "ARRAY_TEMPLATE" cur count = Some t -> exists s, t = ("ARRAY_TEMPLATE" ++ s)%string).
        { clear. induction fuel as [|fuel IH]; intros cur count Hc Hn; [discriminate|]. cbn [new_name] in Hn. destruct (lfind L cur); [apply (IH _ _ (ex_intro _ _ eq_refl) Hn)|]. injection Hn as <-. assumption. }
        apply (G _ _ _ (ex_intro _ EmptyString eq_refl) Et). }
      destruct Xt as (st & Est).
      assert (Xn : forall r', In r' (r :: l) -> ~ In ("X_" ++ t)%string r') by (intros r' Hr'; rewrite Est; exact (Hx r' st Hr')).
      destruct (IH L2 (ts ++ [t]) L' ts' p' (fun r' Hr' => N r' (or_intror Hr'))) as (new & h' & I1 & I2 & I3 & I4 & I5 & I6).
      + intros r1 r2 e l1 l2 l3 He El Hr1. apply F8 in He as [(He & _)| ->]; [apply (D r1 r2 e (r :: l1) l2 l3); [assumption|rewrite El; reflexivity|assumption]|]. exfalso. apply (Xn r1); [right; rewrite El; apply in_or_app; right; now left|exact Hr1].
      + assumption.
      + assumption.
      + assumption.
      + assumption.
      + intros r' t' Hr' Ht'. apply in_app_iff in Ht' as [Ht'|[<-|[]]]; [apply Hts; [now right|assumption]|apply Xn; now right].
      + intros r' s Hr'. apply Hx. now right.
      + assert (DIS : forall r' e, In r' l -> In e (sb_elems h) -> In (e_name e) r -> ~ In (e_name e) r') by (intros r' e Hr' He Hr1; apply in_split in Hr' as (l2 & l3 & ->); exact (D r r' e [] l2 l3 He eq_refl Hr1)).
        assert (NEW : forall t', In t' new -> t' <> t /\ t' <> hn) by (intros t' Ht'; clear - I4 Ht' F3; induction I4 as [|a b new l (A1 & A2 & _) _ IH]; [destruct Ht'|]; destruct Ht' as [<-|Ht']; [split; [congruence|assumption]|auto]).
        assert (Lt : lfind L' t = Some (Sub child)) by (rewrite I3; [assumption|assumption|congruence]).
        exists (t :: new), h'. split; [rewrite I1, <- app_assoc; reflexivity|]. split; [assumption|]. split; [|split; [|split]].
        * intros n Hn Hl. rewrite I3; [|assumption|]; rewrite F9; congruence.
        * constructor; [split; [assumption|]; split; [assumption|]; exists child; auto|].
          assert (GEN : forall new l0, Forall2 (fun t r => lfind L2 t = None /\ t <> hn /\ exists c, lfind L' t = Some (Sub c) /\ forall e, In e (sb_elems c) <-> In e (sb_elems p') /\ In (e_name e) r) new l0 -> (forall r', In r' l0 -> In r' l) ->
            Forall2 (fun t r => lfind L t = None /\ t <> hn /\ exists c, lfind L' t = Some (Sub c) /\ forall e, In e (sb_elems c) <-> In e (sb_elems h) /\ In (e_name e) r) new l0).
          { induction 1 as [|t1 r1 new' l0 (A1 & A2 & c & A3 & A4) F IHF]; intros S; constructor; [|apply IHF; intros; apply S; now right]. specialize (S r1 (or_introl eq_refl)). split; [|split; [assumption|]].
            - destruct (String.eqb_spec t1 t) as [->|N1]; [congruence|]. rewrite <- (F9 t1 A2 N1). assumption.
            - exists c. split; [assumption|]. intros e. rewrite A4, F8. split.
              + intros ([(B1 & B2)|B1] & B3); [auto|]. exfalso. subst e. cbn [e_name] in B3. exact (Xn r1 (or_intror S) B3).
              + intros (B1 & B2). split; [|assumption]. left. split; [assumption|]. intros B3. exact (DIS r1 e S B1 B3 B2). }
          apply GEN; auto.
        * constructor; [|assumption]. intros Ht. exact (proj1 (NEW t Ht) eq_refl).
        * intros e. rewrite I6, F8. cbn [concat]. rewrite in_app_iff. split.
          -- intros [([(A1 & A2)|A1] & A3)|(t' & c & A1 & A2 & A3)]; [left; tauto| |right; exists t', c; split; [now right|auto]]. right. exists t, child. split; [now left|]. auto.
          -- intros [(A1 & A2)|(t' & c & [<-|A1] & A2 & A3)]; [left; split; [left; tauto|tauto]| |right; eauto]. rewrite Lt in A2. injection A2 as <-. left. split; [right; assumption|]. subst e. cbn [e_name]. intros X. apply in_concat in X as (r' & Hr' & X). exact (Xn r' (or_intror Hr') X).
  Qed.
  (** Templates are made when every row has an element on a port of the hierarchy. *)
  Lemma templates_complete hn l : forall L ts h, (forall r, In r l -> NoDup r) -> (forall r1 r2 e l1 l2 l3, In e (sb_elems h) -> l = l1 ++ r1 :: l2 ++ r2 :: l3 -> In (e_name e) r1 -> ~ In (e_name e) r2) -> well_formed L -> tidy L ->
    lfind L hn = Some (Sub h) -> (forall r t, In r l -> ~ In ("X_ARRAY_TEMPLATE" ++ t)%string r) ->
    (forall r, In r l -> exists e n, In e (sb_elems h) /\ In (e_name e) r /\ on e n /\ In n (sb_pins h)) -> exists st, foldM (add_template hn) l (L, ts) = Some st.
  Proof.
    induction l as [|r l IH]; intros L ts h N D W T Hh Hx Hc; cbn [foldM]; [eauto|]. destruct (new_name_ok L "ARRAY_TEMPLATE") as (t & Et & Lt).
    destruct (Hc r (or_introl eq_refl)) as (e & n & C1 & C2 & C3 & C4).
    destruct (C33_completes L hn t r h W Hh Lt (N r (or_introl eq_refl))) as (L1 & E); [exists n, e; auto|].
    assert (A : add_template hn (L, ts) r = Some (L1, ts ++ [t])) by (unfold add_template; cbn [fst snd]; rewrite Et, E; reflexivity). rewrite A.
    pose proof (template_moves hn L ts r L1 (ts ++ [t]) W T (N r (or_introl eq_refl)) A) as (_ & W1 & T1).
    destruct (create_facts L hn t r L1 W (N r (or_introl eq_refl)) E) as (p & child & p' & F1 & F2 & F3 & F4 & F5 & F6 & F7 & F8 & F9 & F10). rewrite Hh in F1. injection F1 as <-.
    assert (Xt : exists s, t = ("ARRAY_TEMPLATE" ++ s)%string).
    { assert (G : forall fuel cur count, (exists s, cur = ("ARRAY_TEMPLATE" ++ s)%string) -> new_name fuel L "ARRAY_TEMPLATE" cur count = Some t -> exists s, t = ("ARRAY_TEMPLATE" ++ s)%string).
      { clear. induction fuel as [|fuel IH]; intros cur count Hc Hn; [discriminate|]. cbn [new_name] in Hn. destruct (lfind L cur); [apply (IH _ _ (ex_intro _ _ eq_refl) Hn)|]. injection Hn as <-. assumption. }
      apply (G _ _ _ (ex_intro _ EmptyString eq_refl) Et). }
    destruct Xt as (st & Est).
    apply (IH L1 (ts ++ [t]) p' (fun r' Hr' => N r' (or_intror Hr'))); [|assumption|assumption|assumption|intros r' t' Hr'; apply Hx; now right|].
    - intros r1 r2 e1 l1 l2 l3 He El Hr1. apply F8 in He as [(He & _)| ->]; [apply (D r1 r2 e1 (r :: l1) l2 l3); [assumption|rewrite El; reflexivity|assumption]|]. exfalso. apply (Hx r1 st); [right; rewrite El; apply in_or_app; right; now left|]. cbn [e_name] in Hr1. rewrite Est in Hr1. exact Hr1.
    - intros r' Hr'. destruct (Hc r' (or_intror Hr')) as (e1 & n1 & B1 & B2 & B3 & B4). exists e1, n1. split; [|split; [assumption|split; [assumption|congruence]]]. apply F8. left. split; [assumption|]. intros Hr1. apply in_split in Hr' as (l2 & l3 & ->). exact (D r r' e1 [] l2 l3 B1 eq_refl Hr1 B2).
  Qed.
End Arrays.
