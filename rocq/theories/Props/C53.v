(** C53: check_placement accepts exactly the placements that satisfy the posted formulae. *)
From Coq Require Import String QArith.
From Verif Require Import Base.Prelude Model.Transformation Model.SeqPair Model.ConstraintDB Model.Formulas Spec.FormulaSpec Spec.ConstraintDBSpec.
From Verif Require Import Proofs.ConstraintDBP Proofs.SyncP Props.C39.
Local Open Scope Z_scope.

Definition holds (fs : list formula) (bx : boxes) : Prop := Forall (fun f => f bx) fs.

Section C53.
  Variables (repr : hcon -> string) (unsat : list formula -> bool) (names : list string).
  Notation tr := (fun c => Some (ztranslate names c)).
  Notation hdb := (db hcon formula).
  Notation happend := (append hcon formula repr tr (module_base names) unsat).
  Notation check := (check_module repr unsat names).
  Notation run := (run hcon formula repr tr (module_base names) unsat).
  Notation init := (init hcon formula).
  Notation zf n b := (ztranslate names (HAssign n b)).

  (** What the solver has been told before the check, and what the check adds. *)
  Definition known (s : hdb) : list formula :=
    match solver s with Some fr => asserted formula fr | None => module_base names ++ map (ztranslate names) (root s) end.
  Definition assignments (k : Z) (l : list (string * Rect)) : list formula := map (fun i => zf (fst i) (scaled k (snd i))) l.

  Lemma formulas_map l : formulas hcon formula tr l = map (ztranslate names) l.
  Proof. induction l as [|c l IH]; [reflexivity|]. simpl. now rewrite IH. Qed.

  (** The texts of the boxes in [L] are different. *)
  Definition told_apart (L : list (string * Rect)) : Prop :=
    forall i j, In i L -> In j L -> repr (HAssign (fst i) (snd i)) = repr (HAssign (fst j) (snd j)) -> i = j.
  Definition J (L : list (string * Rect)) (fr : list (list formula)) (s : hdb) : Prop :=
    solver s = Some fr /\ fr <> [] /\ forall n b, In (n, b) L -> smem (repr (HAssign n b)) (cache s) = true -> In (zf n b) (asserted formula fr).
  Lemma append_spec L n b s s' fr : told_apart L -> In (n, b) L -> J L fr s -> happend (HAssign n b) s = (s', true) ->
    exists fr', J L fr' s' /\ incl (asserted formula fr) (asserted formula fr') /\ In (zf n b) (asserted formula fr') /\
                incl (asserted formula fr') (asserted formula fr ++ [zf n b]) /\
                (unsat (asserted formula fr') = false \/ fr' = fr /\ smem (repr (HAssign n b)) (cache s) = true).
  Proof.
    intros Hinj HL (Es & Hne & Hc) E. unfold ConstraintDB.append in E. destruct (smem _ (cache s)) eqn:Em.
    - injection E as <-. exists fr. split; [split; [assumption|split; assumption]|]. split; [apply incl_refl|]. split; [auto|]. split; [apply incl_appl, incl_refl|auto].
    - unfold ensure, verify_one in E. rewrite Es in E. cbv beta iota zeta in E. rewrite Es in E. destruct (unsat _) eqn:Eu; [discriminate|]. cbn [negb] in E. injection E as <-.
      rewrite asserted_post in Eu by assumption. exists (post formula (zf n b) fr). unfold J, push_item. cbn [solver cache]. rewrite asserted_post by assumption.
      split; [split; [reflexivity|split; [apply post_ne|]]|].
      { intros n' b' HL' H. unfold smem in H. cbn [existsb] in H. apply orb_true_iff in H as [H|H].
        - apply String.eqb_eq in H. apply (Hinj (n', b') (n, b) HL' HL) in H. injection H as -> ->. apply in_or_app. right. now left.
        - apply in_or_app. left. apply Hc; assumption. }
      split; [apply incl_appl, incl_refl|]. split; [apply in_or_app; right; now left|]. split; [apply incl_refl|auto].
  Qed.
  Lemma assigns_spec L k l : told_apart L -> forall s s' fr, incl (map (fun i => (fst i, scaled k (snd i))) l) L -> J L fr s -> assigns repr unsat names k l s = (s', true) ->
    exists fr', J L fr' s' /\ incl (asserted formula fr) (asserted formula fr') /\ incl (assignments k l) (asserted formula fr') /\
                incl (asserted formula fr') (asserted formula fr ++ assignments k l) /\ (unsat (asserted formula fr') = false \/ fr' = fr).
  Proof.
    intros Hinj. induction l as [|(n, r) l IH]; intros s s' fr HL H E.
    - simpl in E. injection E as <-. exists fr. split; [assumption|]. split; [apply incl_refl|]. split; [intros f []|]. split; [apply incl_appl, incl_refl|auto].
    - cbn [assigns] in E. destruct (assign repr unsat names k n r s) as (s1, ok) eqn:E1. destruct ok; [|discriminate]. unfold assign in E1. destruct (proper (scaled k r)); [|discriminate].
      destruct (append_spec L _ _ _ _ _ Hinj (HL _ (or_introl eq_refl)) H E1) as (fr1 & H1 & I1 & M1 & U1 & V1). destruct (IH _ _ _ (fun i Hi => HL i (or_intror Hi)) H1 E) as (fr2 & H2 & I2 & M2 & U2 & V2).
      exists fr2. split; [assumption|]. split; [eapply incl_tran; eassumption|]. unfold assignments. cbn [map fst snd]. fold (assignments k l). split; [intros f [<-|Hf]; auto|]. split.
      + intros f Hf. apply U2 in Hf. apply in_app_or in Hf as [Hf|Hf]; [|apply in_or_app; right; now right]. apply U1 in Hf. apply in_app_or in Hf as [Hf|[<-|[]]]; apply in_or_app; [now left|right; now left].
      + destruct V2 as [V2|V2]; [auto|]. subst fr2. destruct V1 as [V1|(V1 & _)]; auto.
  Qed.
  Lemma assigns_inv k l : forall ss s, inv hcon formula ss s -> inv hcon formula ss (fst (assigns repr unsat names k l s)).
  Proof.
    induction l as [|(n, r) l IH]; intros ss s H; [assumption|]. cbn [assigns]. unfold assign. destruct (proper (scaled k r)); [|assumption].
    pose proof (append_inv hcon formula repr tr (module_base names) unsat ss s (HAssign n (scaled k r)) H) as H1. destruct (happend _ s) as (s1, ok). cbn [fst] in H1. destruct ok; [auto|assumption].
  Qed.
  Lemma checked ss s id s1 : inv hcon formula ss s -> synced hcon formula tr (module_base names) s ->
    checkpoint hcon formula tr (module_base names) unsat id s = (s1, true) ->
    exists fr, inv hcon formula ((id, (root s, fr)) :: ss) s1 /\ solver s1 = Some ([] :: fr) /\ cache s1 = cache s /\ asserted formula fr = known s /\ incl (module_base names ++ map (ztranslate names) (root s)) (known s).
  Proof.
    intros H Hy E. destruct (checkpoint_inv _ _ _ _ _ _ _ _ _ H E) as (fr & E1 & _ & _ & Ec & Hi & E2 & _). exists fr. split; [assumption|]. split; [assumption|]. split; [assumption|].
    unfold known, synced, ensure, verify_all in *. destruct (solver s) as [fr'|] eqn:Es; cbn [fst solver] in E1.
    - rewrite Es in E1. injection E1 as ->. split; [reflexivity|]. destruct Hy as (_ & Hk). unfold knows in Hk. rewrite formulas_map in Hk. exact Hk.
    - injection E1 as <-. split; [|apply incl_refl]. unfold asserted. simpl. now rewrite app_nil_r, formulas_map.
  Qed.

  (** On the first check of a database (no box has been assigned before), with a solver that
      reports sat only for satisfiable formulae: an accepted placement satisfies, on the scaled
      boxes, the formulae of the module and of every constraint; and the constraints are
      afterwards what they were. *)
  Theorem C53_check l h k id bbox insts s' :
    let s := run h (init l) in
    let L := map (fun i => (fst i, scaled k (snd i))) ((top_name, bbox) :: insts) in
    told_apart L -> (forall n b, In (n, b) L -> smem (repr (HAssign n b)) (cache s) = false) ->
    (forall fs, incl fs (known s ++ assignments k ((top_name, bbox) :: insts)) -> unsat fs = false -> exists bx, holds fs bx) ->
    check k id bbox insts s = (s', true) ->
    (exists bx, bx top_name = scaled k bbox /\ Forall (fun i => bx (fst i) = scaled k (snd i)) insts /\
       holds (module_base names) bx /\ Forall (fun c => ztranslate names c bx) (root s)) /\
    root s' = root s /\ commits s' = commits s.
  Proof.
    intros s L Hinj Hfresh Hsat E. destruct (run_inv2 hcon formula repr tr (module_base names) unsat l h) as (ss & Hi & _ & Hy). fold s in Hi, Hy.
    unfold check_module in E. destruct (checkpoint _ _ _ _ _ id s) as (s1, ok) eqn:E1. destruct ok; [|discriminate].
    destruct (checked _ _ _ _ Hi Hy E1) as (fr & Hi1 & Es1 & Ec1 & Ha & Hin).
    pose proof (assigns_inv k ((top_name, bbox) :: insts) _ _ Hi1) as Hi2. destruct (assigns _ _ _ _ _ s1) as (s2, ok2) eqn:E2. cbn [fst] in Hi2. destruct ok2; [|discriminate].
    destruct (revert_none _ _ _ _ _ _ _ Hi2) as (cs & Er & Hi3). rewrite Er in E. injection E as <-. cbn [root commits].
    assert (HJ : J L ([] :: fr) s1).
    { split; [assumption|]. split; [discriminate|]. intros n b Hn. rewrite Ec1, Hfresh by assumption. discriminate. }
    split; [|split; [reflexivity|]].
    - cbn [assigns] in E2. destruct (assign repr unsat names k top_name bbox s1) as (s1', ok) eqn:E3. destruct ok; [|discriminate]. unfold assign in E3. destruct (proper (scaled k bbox)); [|discriminate].
      destruct (append_spec L _ _ _ _ _ Hinj (or_introl eq_refl) HJ E3) as (fr1 & H1 & I1 & M1 & U1 & V1). destruct V1 as [V1|(_ & V1)]; [|rewrite Ec1, Hfresh in V1; [discriminate|now left]].
      destruct (assigns_spec L k insts Hinj _ _ _ (fun i Hi => or_intror Hi) H1 E2) as (fr2 & H2 & I2 & M2 & U2 & V2). rewrite asserted_push, Ha in I1, U1.
      assert (Hu : unsat (asserted formula fr2) = false) by (destruct V2 as [V2|V2]; [assumption|now subst fr2]).
      destruct (Hsat (asserted formula fr2)) as (bx & Hbx); [|assumption|].
      + intros f Hf. apply U2 in Hf. apply in_app_or in Hf as [Hf|Hf]; [|apply in_or_app; right; now right]. apply U1 in Hf. apply in_app_or in Hf as [Hf|[<-|[]]]; apply in_or_app; [now left|right; now left].
      + unfold holds in Hbx. rewrite Forall_forall in Hbx. exists bx. split; [apply (Hbx _ (I2 _ M1))|]. split; [|split].
        * rewrite Forall_forall. intros (n, r) Hx. apply (Hbx (zf n (scaled k r))). apply M2. unfold assignments. apply in_map_iff. exists (n, r). auto.
        * unfold holds. rewrite Forall_forall. intros f Hf. apply Hbx, I2, I1, Hin, in_or_app. now left.
        * rewrite Forall_forall. intros c Hc. apply (Hbx (ztranslate names c)), I2, I1, Hin, in_or_app. right. now apply in_map.
    - destruct (revert_one_inv _ _ _ _ _ _ _ Hi1) as (cs1 & Hc1 & _). destruct Hi1 as (_ & _ & cs1' & Hc1' & _).
      destruct (checkpoint_inv _ _ _ _ _ _ _ _ _ Hi E1) as (_ & _ & _ & _ & _ & _ & _ & Hk). rewrite Hc1' in Hk. apply app_inj_tail in Hk as (<- & _).
      assert (Hcm : forall l' s0 s0', assigns repr unsat names k l' s0 = (s0', true) -> commits s0' = commits s0 \/ solver s0 = None).
      { assert (Hap : forall c s0 s0' ok, happend c s0 = (s0', ok) -> commits s0' = commits s0).
        { intros c s0 s0' ok. unfold ConstraintDB.append, ensure, verify_one, verify_all, push_item. destruct (smem _ _); [intros X; injection X as <- _; reflexivity|].
          destruct (solver s0) as [fr0|] eqn:E0; cbv beta iota zeta; cbn [solver root commits cache].
          - rewrite E0. destruct (negb _); intros X; injection X as <- _; reflexivity.
          - destruct (negb _); cbv beta iota zeta; cbn [solver root commits cache]; [|intros X; injection X as <- _; reflexivity]. destruct (negb _); intros X; injection X as <- _; reflexivity. }
        induction l' as [|(n, r) l' IH]; intros s0 s0' X; [injection X as <-; auto|]. cbn [assigns] in X. unfold assign in X. destruct (proper (scaled k r)); [|discriminate].
        destruct (happend _ s0) as (s3, ok3) eqn:E3. destruct ok3; [|discriminate]. rewrite <- (Hap _ _ _ _ E3). destruct (IH _ _ X) as [X'|X']; [auto|].
        right. destruct (solver s0) eqn:E0; [|reflexivity]. exfalso. unfold ConstraintDB.append, ensure, verify_one, push_item in E3. rewrite E0 in E3.
        destruct (smem _ _); [injection E3 as <-; congruence|]. cbv beta iota zeta in E3. rewrite E0 in E3. destruct (negb _); [|discriminate]. injection E3 as <-. discriminate. }
      destruct (Hcm _ _ _ E2) as [X|X]; [|congruence]. destruct (revert_one_inv _ _ _ _ _ _ _ Hi2) as (cs2 & Hc2 & Hr2 & _). rewrite X, Hc1' in Hc2. apply app_inj_tail in Hc2 as (<- & _).
      unfold revert in Er. rewrite X, Hc1', app_length in Er. cbn [length] in Er. rewrite Nat.add_1_r in Er.
      cbn [revert_to] in Er. rewrite Hr2, X, Hc1', rev_app_distr in Er. cbn [rev app] in Er. now injection Er as <-.
  Qed.

  (** Conversely a placement that satisfies them is accepted, by a solver that reports unsat
      only for unsatisfiable formulae. *)
  Theorem C53_accepts l h k id bbox insts bx :
    let s := run h (init l) in
    (forall fs bx, unsat fs = true -> ~ holds fs bx) ->
    Forall (fun i => proper (scaled k (snd i)) = true /\ bx (fst i) = scaled k (snd i)) ((top_name, bbox) :: insts) -> holds (known s) bx ->
    snd (check k id bbox insts s) = true.
  Proof.
    intros s Hsound Hb Hk. destruct (run_inv2 hcon formula repr tr (module_base names) unsat l h) as (ss & Hi & _ & Hy). fold s in Hi, Hy.
    assert (Hno : forall fs, holds fs bx -> unsat fs = false).
    { intros fs H. destruct (unsat fs) eqn:E; [|reflexivity]. exfalso. exact (Hsound _ _ E H). }
    unfold check_module. destruct (checkpoint _ _ _ _ _ id s) as (s1, ok) eqn:E1. destruct ok.
    2:{ exfalso. unfold checkpoint, ensure, verify_all in E1. unfold known in Hk. destruct (solver s) eqn:Es; cbv beta iota zeta in E1; [discriminate|].
        rewrite Hno in E1; [discriminate|]. unfold asserted. simpl. rewrite app_nil_r, formulas_map. exact Hk. }
    destruct (checked _ _ _ _ Hi Hy E1) as (fr & Hi1 & Es1 & Ec1 & Ha & _).
    assert (G : forall l' s0 fr0, Forall (fun i => proper (scaled k (snd i)) = true /\ bx (fst i) = scaled k (snd i)) l' -> solver s0 = Some fr0 -> fr0 <> [] -> holds (asserted formula fr0) bx ->
                snd (assigns repr unsat names k l' s0) = true).
    { clear Hb. induction l' as [|(n, r) l' IH]; intros s0 fr0 Hb E0 Hne Hh; [reflexivity|]. apply Forall_cons_iff in Hb as ((Hp & Hx) & Hb). cbn [fst snd] in Hp, Hx. cbn [assigns]. unfold assign. rewrite Hp.
      unfold ConstraintDB.append, ensure, verify_one. destruct (smem _ _); [exact (IH s0 fr0 Hb E0 Hne Hh)|]. rewrite E0. cbv beta iota zeta. rewrite E0.
      assert (Hh' : holds (asserted formula (post formula (zf n (scaled k r)) fr0)) bx).
      { rewrite asserted_post by assumption. unfold holds. apply Forall_app. split; [assumption|]. constructor; [assumption|constructor]. }
      rewrite (Hno _ Hh'). cbn [negb]. apply (IH _ (post formula (zf n (scaled k r)) fr0)); [assumption|reflexivity|apply post_ne|assumption]. }
    pose proof (assigns_inv k ((top_name, bbox) :: insts) _ _ Hi1) as Hi2. specialize (G _ s1 ([] :: fr) Hb Es1 ltac:(discriminate)). rewrite asserted_push, Ha in G. specialize (G Hk).
    destruct (assigns _ _ _ _ _ s1) as (s2, ok2). cbn [fst snd] in *. rewrite G. destruct (revert_none _ _ _ _ _ _ _ Hi2) as (cs & Er & _). now rewrite Er.
  Qed.

  (** The formulae of the module keep every instance inside the module and nonempty, *)
  Theorem C53_inside bx : holds (module_base names) bx -> solid (bx top_name) /\
    forall n, In n names -> solid (bx n) /\ llx (bx top_name) <= llx (bx n) /\ lly (bx top_name) <= lly (bx n) /\ urx (bx n) <= urx (bx top_name) /\ ury (bx n) <= ury (bx top_name).
  Proof.
    unfold holds, module_base. cbn [drain]. intros H. apply Forall_cons_iff in H as (H1 & H). apply Forall_cons_iff in H as (H2 & H). apply Forall_app in H as (H3 & H). apply Forall_app in H as (H4 & _).
    split; [split; assumption|]. rewrite Forall_map, Forall_forall in H3, H4. intros n Hn. split; [apply (H3 n Hn)|]. exact (H4 n Hn).
  Qed.
  (** and say nothing about overlap. *)
  Theorem C53_inside_enough bx : solid (bx top_name) ->
    (forall n, In n names -> solid (bx n) /\ llx (bx top_name) <= llx (bx n) /\ lly (bx top_name) <= lly (bx n) /\ urx (bx n) <= urx (bx top_name) /\ ury (bx n) <= ury (bx top_name)) ->
    holds (module_base names) bx.
  Proof.
    intros (H1 & H2) H. unfold holds, module_base. cbn [drain]. constructor; [assumption|]. constructor; [assumption|]. apply Forall_app. split; [|apply Forall_app; split; [|constructor]];
      rewrite Forall_map, Forall_forall; intros n Hn; destruct (H n Hn) as (Hs & Hi); assumption.
  Qed.
End C53.

(** Overlapping instances are accepted: the loop over pairs of instances runs over an iterator
    that the loop before it has used up. *)
Theorem C53_overlap_refuted : forall repr unsat, (forall fs bx, unsat fs = true -> ~ holds fs bx) ->
  exists names bbox insts, names = map fst insts /\ ~ ForallOrdPairs apart (map snd insts) /\
    forall id, snd (check_module repr unsat names 1 id bbox insts (init hcon formula [])) = true.
Proof.
  intros repr unsat Hs. exists ["A"; "B"]%string, (mkRect 0 0 20 10), [("A"%string, mkRect 0 0 10 10); ("B"%string, mkRect 5 0 15 10)]. split; [reflexivity|]. split.
  - intros H. inversion H as [|? ? Ha _]; subst. apply Forall_cons_iff in Ha as (Ha & _). unfold apart in Ha. simpl in Ha. lia.
  - intros id. apply (C53_accepts repr unsat ["A"; "B"]%string [] [] 1 id (mkRect 0 0 20 10) [("A"%string, mkRect 0 0 10 10); ("B"%string, mkRect 5 0 15 10)]
      (fun n => if String.eqb n "A" then mkRect 0 0 10 10 else if String.eqb n "B" then mkRect 5 0 15 10 else mkRect 0 0 20 10) Hs).
    + repeat constructor.
    + unfold known. cbn [run fold_left init solver root map]. rewrite app_nil_r. apply C53_inside_enough; [split; simpl; lia|]. intros n [<-|[<-|[]]]; unfold solid; simpl; lia.
Qed.

(** Coordinates are divided and truncated first: an overlap below the scale factor that violates
    an ordering constraint is accepted. *)
Theorem C53_rounding_refuted : forall repr unsat, (forall fs bx, unsat fs = true -> ~ holds fs bx) ->
  exists names c bbox insts, names = map fst insts /\ (forall bx, (forall n r, In (n, r) insts -> bx n = r) -> ~ ztranslate names c bx) /\
    forall id, snd (check_module repr unsat names 10 id bbox insts (init hcon formula [c])) = true.
Proof.
  intros repr unsat Hs. exists ["A"; "B"]%string, (HOrder OLR false ["A"; "B"]%string), (mkRect 0 0 200 100), [("A"%string, mkRect 0 0 105 100); ("B"%string, mkRect 104 0 200 100)]. split; [reflexivity|]. split.
  - intros bx H. assert (HA := H "A"%string _ (or_introl eq_refl)). assert (HB := H "B"%string _ (or_intror (or_introl eq_refl))). simpl. intros X. apply Forall_cons_iff in X as (X & _). simpl in X. rewrite HA, HB in X. unfold zorder_cc in X. simpl in X. lia.
  - intros id. apply (C53_accepts repr unsat ["A"; "B"]%string [HOrder OLR false ["A"; "B"]%string] [] 10 id (mkRect 0 0 200 100) [("A"%string, mkRect 0 0 105 100); ("B"%string, mkRect 104 0 200 100)]
      (fun n => if String.eqb n "A" then mkRect 0 0 10 10 else if String.eqb n "B" then mkRect 10 0 20 10 else mkRect 0 0 20 10) Hs).
    + repeat constructor.
    + unfold known. cbn [run fold_left init solver root map]. apply Forall_app. split; [|repeat constructor; simpl; unfold zorder_cc; simpl; lia]. apply C53_inside_enough; [split; simpl; lia|]. intros n [<-|[<-|[]]]; unfold solid; simpl; lia.
Qed.

Lemma append_hit repr unsat names c s : smem (repr c) (cache s) = true ->
  append hcon formula repr (fun c => Some (ztranslate names c)) (module_base names) unsat c s = (s, true).
Proof. intros H. unfold append. now rewrite H. Qed.
Lemma append_miss repr unsat names c r k ca fr : smem (repr c) ca = false -> unsat (asserted formula (post formula (ztranslate names c) fr)) = false ->
  append hcon formula repr (fun c => Some (ztranslate names c)) (module_base names) unsat c (mkDb r k ca (Some fr)) = (mkDb (r ++ [c]) k (repr c :: ca) (Some (post formula (ztranslate names c) fr)), true).
Proof. intros H Hu. unfold append, ensure, verify_one. cbn [cache solver]. rewrite H. cbv beta iota zeta. cbn [solver root commits cache]. rewrite Hu. reflexivity. Qed.
Lemma check_open repr unsat names k id bbox insts r cm ca fr :
  check_module repr unsat names k id bbox insts (mkDb r cm ca (Some fr)) =
  let (s2, ok2) := assigns repr unsat names k ((top_name, bbox) :: insts) (mkDb r (cm ++ [(id, length r)]) ca (Some ([] :: fr))) in
  if ok2 then revert hcon formula None s2 else (s2, false).
Proof. reflexivity. Qed.
Lemma assigns_cons repr unsat names k n b l s s1 : proper (scaled k b) = true ->
  append hcon formula repr (fun c => Some (ztranslate names c)) (module_base names) unsat (HAssign n (scaled k b)) s = (s1, true) ->
  assigns repr unsat names k ((n, b) :: l) s = assigns repr unsat names k l s1.
Proof. intros H E. cbn [assigns]. unfold assign. now rewrite H, E. Qed.

(** A second check on the same database does not post boxes it has seen: A keeps its box, B
    moves over A, and the violated order is not noticed. *)
Theorem C53_second_check_refuted : forall repr unsat, (forall c c', repr c = repr c' -> c = c') -> (forall fs bx, unsat fs = true -> ~ holds fs bx) ->
  exists names c bbox insts insts', names = map fst insts' /\ (forall bx, (forall n r, In (n, r) insts' -> bx n = r) -> ~ ztranslate names c bx) /\
    forall id, let (s1, ok1) := check_module repr unsat names 1 id bbox insts (init hcon formula [c]) in
               ok1 = true /\ snd (check_module repr unsat names 1 id bbox insts' s1) = true.
Proof.
  intros repr unsat Hinj Hs. exists ["A"; "B"]%string, (HOrder OLR false ["A"; "B"]%string), (mkRect 0 0 40 10),
    [("A"%string, mkRect 0 0 10 10); ("B"%string, mkRect 20 0 30 10)], [("A"%string, mkRect 0 0 10 10); ("B"%string, mkRect 5 0 15 10)]. split; [reflexivity|]. split.
  - intros bx H. assert (HA := H "A"%string _ (or_introl eq_refl)). assert (HB := H "B"%string _ (or_intror (or_introl eq_refl))). simpl. intros X. apply Forall_cons_iff in X as (X & _). simpl in X. rewrite HA, HB in X. unfold zorder_cc in X. simpl in X. lia.
  - intros id. set (bx1 := fun n => if String.eqb n "A" then mkRect 0 0 10 10 else if String.eqb n "B" then mkRect 20 0 30 10 else mkRect 0 0 40 10).
    set (bx2 := fun n => if String.eqb n "A" then mkRect 0 0 5 10 else if String.eqb n "B" then mkRect 5 0 15 10 else mkRect 0 0 40 10).
    set (N := ["A"; "B"]%string). set (c := HOrder OLR false N).
    assert (No : forall bx fs, holds fs bx -> unsat fs = false).
    { intros bx fs H. destruct (unsat fs) eqn:E; [|reflexivity]. exfalso. exact (Hs _ _ E H). }
    assert (B1 : holds (module_base N ++ [ztranslate N c]) bx1).
    { apply Forall_app. split; [|repeat constructor; simpl; unfold zorder_cc; simpl; lia]. apply C53_inside_enough; [split; simpl; lia|]. intros n [<-|[<-|[]]]; unfold solid; simpl; lia. }
    assert (B2 : holds (module_base N ++ [ztranslate N c]) bx2).
    { apply Forall_app. split; [|repeat constructor; simpl; unfold zorder_cc; simpl; lia]. apply C53_inside_enough; [split; simpl; lia|]. intros n [<-|[<-|[]]]; unfold solid; simpl; lia. }
    assert (Eq : forall a b, String.eqb (repr a) (repr b) = true <-> a = b) by (intros a b; rewrite String.eqb_eq; split; [apply Hinj|now intros ->]).
    assert (Ne : forall a b, a <> b -> String.eqb (repr a) (repr b) = false) by (intros a b H; apply not_true_is_false; rewrite Eq; exact H).
    set (T := HAssign top_name (mkRect 0 0 40 10)). set (A := HAssign "A"%string (mkRect 0 0 10 10)). set (B := HAssign "B"%string (mkRect 20 0 30 10)). set (B' := HAssign "B"%string (mkRect 5 0 15 10)).
    set (b0 := module_base N ++ [ztranslate N c]) in *.
    assert (H0 : unsat b0 = false) by exact (No _ _ B1).
    assert (H1 : unsat (b0 ++ [ztranslate N T]) = false) by (apply (No bx1), Forall_app; split; [assumption|repeat constructor]).
    assert (H2 : unsat ((b0 ++ [ztranslate N T]) ++ [ztranslate N A]) = false) by (apply (No bx1), Forall_app; split; [apply Forall_app; split; [assumption|repeat constructor]|repeat constructor]).
    assert (H3 : unsat (((b0 ++ [ztranslate N T]) ++ [ztranslate N A]) ++ [ztranslate N B]) = false) by (apply (No bx1), Forall_app; split; [apply Forall_app; split; [apply Forall_app; split; [assumption|repeat constructor]|repeat constructor]|repeat constructor]).
    assert (H4 : unsat (b0 ++ [ztranslate N B']) = false) by (apply (No bx2), Forall_app; split; [assumption|repeat constructor]).
    assert (As1 : forall (a : formula) u, unsat (b0 ++ [a]) = u -> unsat (asserted formula (post formula a [[]; b0])) = u) by (intros a u <-; unfold asserted; simpl; now rewrite ?app_nil_r).
    assert (As2 : forall (a b : formula) u, unsat ((b0 ++ [a]) ++ [b]) = u -> unsat (asserted formula (post formula b [[a]; b0])) = u) by (intros a b u <-; unfold asserted; simpl; rewrite <- ?app_assoc; reflexivity).
    assert (As3 : forall (a b d : formula) u, unsat (((b0 ++ [a]) ++ [b]) ++ [d]) = u -> unsat (asserted formula (post formula d [[a; b]; b0])) = u) by (intros a b d u <-; unfold asserted; simpl; rewrite <- ?app_assoc; reflexivity).
    assert (M1 : forall x a, x <> a -> smem (repr x) [repr a] = false) by (intros x a H; unfold smem; cbn [existsb]; now rewrite Ne).
    assert (M2 : forall x a b, x <> a -> x <> b -> smem (repr x) [repr a; repr b] = false) by (intros x a b Ha Hb; unfold smem; cbn [existsb]; now rewrite !Ne).
    assert (M3 : forall x a b d, x <> a -> x <> b -> x <> d -> smem (repr x) [repr a; repr b; repr d] = false) by (intros x a b d Ha Hb Hd; unfold smem; cbn [existsb]; now rewrite !Ne).
    assert (K3 : forall x r k fr, smem (repr x) (cache (mkDb (C := hcon) (F := formula) r k [repr B; repr A; repr x] fr)) = true) by (intros; unfold smem; cbn [cache existsb]; rewrite String.eqb_refl; now rewrite !orb_true_r).
    assert (K2 : forall x r k fr, smem (repr x) (cache (mkDb (C := hcon) (F := formula) r k [repr B; repr x; repr T] fr)) = true) by (intros; unfold smem; cbn [cache existsb]; rewrite String.eqb_refl; now rewrite !orb_true_r).
    assert (F : check_module repr unsat N 1 id (mkRect 0 0 40 10) [("A"%string, mkRect 0 0 10 10); ("B"%string, mkRect 20 0 30 10)] (init hcon formula [c]) =
      (mkDb [c] [] [repr B; repr A; repr T] (Some [b0]), true)).
    { assert (E0 : check_module repr unsat N 1 id (mkRect 0 0 40 10) [("A"%string, mkRect 0 0 10 10); ("B"%string, mkRect 20 0 30 10)] (init hcon formula [c]) =
        check_module repr unsat N 1 id (mkRect 0 0 40 10) [("A"%string, mkRect 0 0 10 10); ("B"%string, mkRect 20 0 30 10)] (mkDb [c] [] [] (Some [b0]))).
      { unfold check_module, checkpoint. unfold ensure at 1, verify_all. cbn [init solver root commits cache]. change (formulas hcon formula (fun c0 => Some (ztranslate N c0)) [c]) with [ztranslate N c]. fold b0.
        replace (asserted formula [b0]) with b0 by (unfold asserted; cbn [rev app concat]; now rewrite app_nil_r). rewrite H0. reflexivity. }
      rewrite E0, check_open. rewrite app_nil_l.
      erewrite assigns_cons; [|reflexivity|apply (append_miss repr unsat N T); [reflexivity|apply As1, H1]].
      erewrite assigns_cons; [|reflexivity|apply (append_miss repr unsat N A); [apply M1; discriminate|apply As2, H2]].
      erewrite assigns_cons; [|reflexivity|apply (append_miss repr unsat N B); [apply M2; discriminate|apply As3, H3]].
      reflexivity. }
    fold N c. rewrite F. split; [reflexivity|]. rewrite check_open, app_nil_l.
    erewrite assigns_cons; [|reflexivity|apply (append_hit repr unsat N T); apply K3].
    erewrite assigns_cons; [|reflexivity|apply (append_hit repr unsat N A); apply K2].
    erewrite assigns_cons; [|reflexivity|apply (append_miss repr unsat N B'); [apply M3; discriminate|apply As1, H4]].
    reflexivity.
Qed.

(** The hypotheses of [C53_check] can be met. *)
Example C53_nonvacuous :
  let repr c := match c with HAssign n _ => n | _ => "other"%string end in let unsat (_ : list formula) := false in let names := ["A"; "B"]%string in let c := HOrder OLR false names in
  let insts := [("A"%string, mkRect 0 0 10 10); ("B"%string, mkRect 20 0 30 10)] in let bbox := mkRect 0 0 40 10 in
  told_apart repr (map (fun i => (fst i, scaled 1 (snd i))) ((top_name, bbox) :: insts)) /\
  (forall fs, incl fs (known names (init hcon formula [c]) ++ assignments names 1 ((top_name, bbox) :: insts)) -> unsat fs = false -> exists bx, holds fs bx) /\
  snd (check_module repr unsat names 1 "X" bbox insts (init hcon formula [c])) = true.
Proof.
  cbv zeta. split; [|split].
  - intros i j [<-|[<-|[<-|[]]]] [<-|[<-|[<-|[]]]]; simpl; intros H; try discriminate; reflexivity.
  - intros fs Hi _. exists (fun n => if String.eqb n "A" then mkRect 0 0 10 10 else if String.eqb n "B" then mkRect 20 0 30 10 else mkRect 0 0 40 10). apply (incl_Forall Hi). apply Forall_app. split.
    + unfold known. cbn [init solver root map]. apply Forall_app. split; [|repeat constructor; simpl; unfold zorder_cc; simpl; lia]. apply C53_inside_enough; [split; simpl; lia|]. intros n [<-|[<-|[]]]; unfold solid; simpl; lia.
    + repeat constructor.
  - reflexivity.
Qed.

(** What is checked is the placement itself, up to less than one unit of the scale. *)
Theorem C53_scaled k r : 0 < k ->
  let s := scaled k r in
  ((k | llx r) -> k * llx s = llx r) /\ ((k | lly r) -> k * lly s = lly r) /\ ((k | urx r) -> k * urx s = urx r) /\ ((k | ury r) -> k * ury s = ury r) /\
  Z.abs (llx r - k * llx s) < k /\ Z.abs (lly r - k * lly s) < k /\ Z.abs (urx r - k * urx s) < k /\ Z.abs (ury r - k * ury s) < k.
Proof.
  intros Hk s. assert (D : forall c, (k | c) -> k * Z.quot c k = c) by (intros c (q & ->); rewrite Z.quot_mul by lia; lia).
  assert (A : forall c, Z.abs (c - k * Z.quot c k) < k).
  { intros c. pose proof (Z.quot_rem' c k). pose proof (Z.rem_bound_abs c k ltac:(lia)). replace (c - k * Z.quot c k) with (Z.rem c k) by lia. lia. }
  unfold s, scaled. cbn [llx lly urx ury]. auto 10.
Qed.

Print Assumptions C53_check.
Print Assumptions C53_accepts.
Print Assumptions C53_inside.
Print Assumptions C53_inside_enough.
Print Assumptions C53_overlap_refuted.
Print Assumptions C53_rounding_refuted.
Print Assumptions C53_second_check_refuted.
Print Assumptions C53_scaled.
