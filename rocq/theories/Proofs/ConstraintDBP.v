(** Checkpoints of the constraint database. *)
From Coq Require Import String.
From Verif Require Import Base.Prelude Model.ConstraintDB Spec.ConstraintDBSpec.

Section P.
  Variables (C F : Type) (repr : C -> string) (tr : C -> option F) (base : list F) (unsat : list F -> bool).
  Notation db := (db C F).
  Notation append := (append C F repr tr base unsat).
  Notation checkpoint := (checkpoint C F tr base unsat).
  Notation revert := (revert C F).
  Notation revert_to := (revert_to C F).
  Notation ensure := (ensure C F tr base unsat).
  Notation step := (step C F repr tr base unsat).
  Notation run := (run C F repr tr base unsat).
  Notation init := (init C F).

  Definition snap : Type := (string * (list C * list (list F)))%type.
  Definition prefix {A} (l l' : list A) : Prop := exists t, l' = l ++ t.

  (** The state [s] is above the snapshots, newest first. *)
  Fixpoint inv (ss : list snap) (s : db) : Prop :=
    match ss with
    | [] => commits s = [] /\ (solver s = None \/ exists t, solver s = Some [t])
    | (id, (l, fr)) :: tl =>
        prefix l (root s) /\ (exists t, solver s = Some (t :: fr)) /\
        exists cs, commits s = cs ++ [(id, List.length l)] /\ forall c, inv tl (mkDb l cs c (Some fr))
    end.
  Definition names (ss : list snap) : list string := map fst ss.

  Lemma inv_cache ss s c : inv ss s -> inv ss (mkDb (root s) (commits s) c (solver s)).
  Proof. destruct ss as [|(id & l & fr) tl]; simpl; auto. Qed.
  Lemma inv_commits ss s : inv ss s -> map fst (commits s) = rev (names ss).
  Proof.
    revert s. induction ss as [|(id & l & fr) tl IH]; intros s; simpl.
    - intros (-> & _). reflexivity.
    - intros (_ & _ & cs & -> & H). rewrite map_app. simpl. specialize (IH _ (H [])). simpl in IH. now rewrite IH.
  Qed.
  Lemma inv_len ss s : inv ss s -> List.length (commits s) = List.length ss.
  Proof. intros H. apply inv_commits in H. rewrite <- (map_length fst (commits s)), H, rev_length. unfold names. apply map_length. Qed.

  Lemma ensure_spec ss s s1 ok : inv ss s -> ensure s = (s1, ok) -> root s1 = root s /\ commits s1 = commits s /\ cache s1 = cache s /\ inv ss s1 /\ exists t fr, solver s1 = Some (t :: fr).
  Proof.
    intros H E. unfold ConstraintDB.ensure in E. destruct (solver s) as [fr|] eqn:Es.
    - injection E as <- <-. repeat (split; [reflexivity || assumption|]). destruct ss as [|(id & l & fr') tl]; simpl in H.
      + destruct H as (_ & [H|(t & H)]); [congruence|]. rewrite H. eauto.
      + destruct H as (_ & (t & H) & _). rewrite H. eauto.
    - unfold verify_all in E. injection E as <- <-. simpl. repeat (split; [reflexivity|]). split; [|eauto].
      destruct ss as [|(id & l & fr') tl]; simpl in H |- *; [split; [apply H|eauto]|]. destruct H as (_ & (t & H) & _). congruence.
  Qed.

  Lemma append_inv ss s c : inv ss s -> inv ss (fst (append c s)).
  Proof.
    intros H. unfold ConstraintDB.append. destruct (smem (repr c) (cache s)); [assumption|]. destruct (tr c) as [f|].
    - destruct (ensure s) as (s1, ok1) eqn:E1. destruct (ensure_spec ss s s1 ok1 H E1) as (R & K & _ & H1 & t & fr & E). destruct ok1; [|assumption].
      unfold verify_one. rewrite E. simpl post. set (u := unsat _). destruct ss as [|(id & l & fr') tl]; simpl in H1.
      + destruct u; simpl; (split; [apply H1|]); right; destruct H1 as (_ & [H1|(t' & H1)]); try congruence; rewrite E in H1; injection H1 as -> ->; eauto.
      + destruct H1 as (P & (t' & E') & cs & Hc & Hi). rewrite E in E'. injection E' as -> ->.
        destruct u; simpl; (split; [|split; [eauto|exists cs; auto]]); destruct P as (z & ->); [exists z; reflexivity|exists (z ++ [c])]; now rewrite app_assoc.
    - destruct ss as [|(id & l & fr') tl]; simpl in H |- *; [assumption|]. destruct H as ((z & Hz) & H2 & H3). split; [|auto]. exists (z ++ [c]). now rewrite Hz, app_assoc.
  Qed.

  Lemma checkpoint_inv ss s id s1 : inv ss s -> checkpoint id s = (s1, true) ->
    exists fr, solver (fst (ensure s)) = Some fr /\ snd (ensure s) = true /\ root s1 = root s /\ cache s1 = cache s /\ inv ((id, (root s, fr)) :: ss) s1 /\ solver s1 = Some ([] :: fr) /\ commits s1 = commits s ++ [(id, List.length (root s))].
  Proof.
    intros H E. unfold ConstraintDB.checkpoint in E. destruct (ensure s) as (s0, ok) eqn:E0. destruct (ensure_spec ss s s0 ok H E0) as (R & K & Q & H1 & t & fr & Es).
    destruct ok; [|discriminate]. injection E as <-. exists (t :: fr). cbn [fst snd root commits cache solver]. rewrite Es, R, K, Q. simpl. repeat (split; [reflexivity|]). split; [|split; reflexivity].
    split; [exists []; now rewrite app_nil_r|]. split; [eauto|]. exists (commits s). split; [reflexivity|]. intros c.
    destruct s0 as [r0 k0 c0 sv0]. simpl in *. subst. exact (inv_cache ss (mkDb (root s) (commits s) (cache s) (Some (t :: fr))) c H1).
  Qed.
  Lemma checkpoint_inv_fail ss s id s1 : inv ss s -> checkpoint id s = (s1, false) -> inv ss s1.
  Proof.
    intros H E. unfold ConstraintDB.checkpoint in E. destruct (ensure s) as (s0, ok) eqn:E0. destruct (ensure_spec ss s s0 ok H E0) as (_ & _ & _ & H1 & _).
    destruct ok; [discriminate|]. now injection E as <-.
  Qed.

  Lemma firstn_prefix {A} (l l' : list A) : prefix l l' -> firstn (List.length l) l' = l.
  Proof. intros (t & ->). rewrite firstn_app, Nat.sub_diag, firstn_all. simpl. apply app_nil_r. Qed.
  Lemma revert_one_inv id l fr tl s : inv ((id, (l, fr)) :: tl) s ->
    exists cs, commits s = cs ++ [(id, List.length l)] /\ revert_one C F s = (mkDb l cs (cache s) (Some fr), true) /\ inv tl (mkDb l cs (cache s) (Some fr)).
  Proof.
    intros (P & (t & E) & cs & Hc & H). exists cs. split; [assumption|]. split; [|apply H]. unfold revert_one. rewrite E, Hc, rev_app_distr. simpl.
    rewrite rev_involutive, firstn_prefix by assumption. destruct fr as [|f fr]; [|reflexivity]. exfalso. specialize (H []). destruct tl as [|(id' & l' & fr') tl]; simpl in H.
    - destruct H as (_ & [H|(t' & H)]); discriminate.
    - destruct H as (_ & (t' & H) & _). discriminate.
  Qed.

  (** Reverting to a name goes down to the newest snapshot of that name. *)
  Lemma revert_name new : forall fuel nm l fr old s, inv (new ++ (nm, (l, fr)) :: old) s -> ~ In nm (names new) -> (List.length new < fuel)%nat ->
    exists cs, revert_to fuel (Some nm) s = (mkDb l cs (cache s) (Some fr), true) /\ inv old (mkDb l cs (cache s) (Some fr)).
  Proof.
    induction new as [|(id & l' & fr') new IH]; intros fuel nm l fr old s H Hn Hf; (destruct fuel as [|fuel]; [simpl in Hf; lia|]).
    - cbn [app] in H. destruct (revert_one_inv _ _ _ _ _ H) as (cs & Hc & Hr & Hi). exists cs. cbn [ConstraintDB.revert_to]. rewrite Hr, Hc, rev_app_distr. simpl. rewrite String.eqb_refl. auto.
    - cbn [app] in H. pose proof (inv_commits _ _ H) as Hk. destruct (revert_one_inv _ _ _ _ _ H) as (cs & Hc & Hr & Hi). simpl in Hn.
      destruct (IH fuel nm l fr old _ Hi) as (cs' & E & Hi'); [tauto|simpl in Hf; lia|]. exists cs'. split; [|exact Hi'].
      cbn [ConstraintDB.revert_to]. rewrite Hr. rewrite Hc at 1. rewrite rev_app_distr. simpl. destruct (String.eqb_spec nm id) as [->|]; [tauto|].
      assert (Hx : existsb (fun p => String.eqb nm (fst p)) (commits s) = true).
      { assert (Hin : In nm (map fst (commits s))).
        { rewrite Hk. apply in_rev. rewrite rev_involutive. unfold names. simpl. rewrite map_app. right. apply in_or_app. right. simpl. now left. }
        apply in_map_iff in Hin as (p & E1 & E2). apply existsb_exists. exists p. split; [assumption|]. rewrite E1. apply String.eqb_refl. }
      rewrite Hx. exact E.
  Qed.
  Lemma revert_none id l fr old s : inv ((id, (l, fr)) :: old) s -> exists cs, revert None s = (mkDb l cs (cache s) (Some fr), true) /\ inv old (mkDb l cs (cache s) (Some fr)).
  Proof.
    intros H. destruct (revert_one_inv _ _ _ _ _ H) as (cs & Hc & Hr & Hi). exists cs. split; [|assumption]. unfold ConstraintDB.revert. rewrite (inv_len _ _ H). cbn [List.length ConstraintDB.revert_to].
    rewrite Hr, Hc, rev_app_distr. reflexivity.
  Qed.
  (** A failing revert changes nothing. *)
  Lemma revert_bad ss nm s : inv ss s -> ~ In nm (names ss) -> revert (Some nm) s = (s, false).
  Proof.
    intros H Hn. unfold ConstraintDB.revert. pose proof (inv_commits _ _ H) as Hk. rewrite (inv_len _ _ H). destruct ss as [|(id & l & fr) tl]; [reflexivity|].
    destruct (revert_one_inv _ _ _ _ _ H) as (cs & Hc & Hr & Hi). cbn [List.length ConstraintDB.revert_to]. rewrite Hr. rewrite Hc at 1. rewrite rev_app_distr. simpl.
    simpl in Hn. destruct (String.eqb_spec nm id) as [->|]; [tauto|].
    assert (Hx : existsb (fun p => String.eqb nm (fst p)) (commits s) = false); [|now rewrite Hx].
    apply not_true_is_false. intros Hx. apply existsb_exists in Hx as (p & Hp & E). apply String.eqb_eq in E. apply (in_map fst) in Hp. rewrite <- E, Hk in Hp. apply in_rev in Hp.
    simpl in Hp. tauto.
  Qed.
  Lemma revert_empty nm s : inv [] s -> revert nm s = (s, false).
  Proof. intros (H & _). unfold ConstraintDB.revert. rewrite H. reflexivity. Qed.

  (** Any call keeps the snapshots below a checkpoint, as long as the checkpoint is there. *)
  Lemma split_at nm (ss : list snap) : In nm (names ss) -> exists new x old, ss = new ++ (nm, x) :: old /\ ~ In nm (names new).
  Proof.
    induction ss as [|(id, x) ss IH]; [intros []|]. intros H. destruct (string_dec id nm) as [->|Hne].
    - exists [], x, ss. simpl. auto.
    - destruct H as [H|H]; [simpl in H; contradiction|]. destruct (IH H) as (new & x' & old & -> & Hn). exists ((id, x) :: new), x', old. split; [reflexivity|]. simpl. tauto.
  Qed.
  Lemma step_inv ss s o : inv ss s ->
    inv ss (fst (step s o)) \/
    (exists id x, o = OCheckpoint id /\ inv ((id, x) :: ss) (fst (step s o))) \/
    (exists new x old, ss = new ++ x :: old /\ inv old (fst (step s o)) /\ (forall nm, o = ORevert (Some nm) -> ~ In nm (names new) /\ fst x = nm) /\ (o = ORevert None -> new = []) /\ exists n, o = ORevert n).
  Proof.
    intros H. destruct o as [c|id|[nm|]]; simpl.
    - left. now apply append_inv.
    - destruct (checkpoint id s) as (s1, [|]) eqn:E.
      + right. left. destruct (checkpoint_inv ss s id s1 H E) as (fr & _ & _ & _ & _ & Hi & _). exists id, (root s, fr). split; [reflexivity|exact Hi].
      + left. now apply (checkpoint_inv_fail ss s id).
    - destruct (in_dec string_dec nm (names ss)) as [Hin|Hin]; [|left; now rewrite (revert_bad ss nm s H Hin)].
      right. right. destruct (split_at nm ss Hin) as (new & (l, fr) & old & -> & Hn). exists new, (nm, (l, fr)), old. split; [reflexivity|].
      destruct (revert_name new (List.length (commits s)) nm l fr old s H Hn) as (cs & E & Hi); [rewrite (inv_len _ _ H), app_length; simpl; lia|].
      unfold ConstraintDB.revert. rewrite E. split; [exact Hi|]. split; [intros n [= <-]; auto|]. split; [discriminate|eauto].
    - destruct ss as [|(id & l & fr) tl]; [left; now rewrite (revert_empty None s H)|].
      right. right. destruct (revert_none id l fr tl s H) as (cs & E & Hi). exists [], (id, (l, fr)), tl. rewrite E. split; [reflexivity|]. split; [assumption|]. split; [discriminate|]. split; [reflexivity|eauto].
  Qed.

  Lemma run_inv h : forall ss s, inv ss s -> exists ss', inv ss' (run h s).
  Proof.
    induction h as [|o h IH]; intros ss s H; [eauto|]. simpl. destruct (step_inv ss s o H) as [Hi|[(id & x & _ & Hi)|(new & x & old & _ & Hi & _)]]; eauto.
  Qed.
  Lemma init_inv l : inv [] (init l).
  Proof. simpl. auto. Qed.

  Notation fresh_names := (fresh_names C F repr tr base unsat).
  Notation alive := (alive C F repr tr base unsat).
  Lemma alive_now id h s : alive id h s -> In id (map fst (commits s)).
  Proof. destruct h; intros (H & _); exact H. Qed.
  Lemma alive_inv id x old h : forall new s, inv (new ++ (id, x) :: old) s -> ~ In id (names new) -> ~ In id (names old) -> fresh_names h s -> alive id h s ->
    exists new', inv (new' ++ (id, x) :: old) (run h s) /\ ~ In id (names new').
  Proof.
    induction h as [|o h IH]; intros new s H Hn Ho Hf Ha; [exists new; auto|]. simpl in Hf, Ha. destruct Hf as (Hf0 & Hf), Ha as (_ & Ha). simpl.
    destruct (step_inv _ s o H) as [Hi|[(id' & x' & -> & Hi)|(new' & x' & old' & E & Hi & Hnm & Hnn & n & ->)]].
    - exact (IH new _ Hi Hn Ho Hf Ha).
    - apply (IH ((id', x') :: new) _ Hi); auto. simpl. intros [<-|]; [|auto]. apply Hf0. rewrite (inv_commits _ _ H). apply in_rev. rewrite rev_involutive. unfold names. rewrite map_app. apply in_or_app. right. now left.
    - (* the reverted part must lie above the checkpoint *)
      assert (Hin : In id (names old')).
      { apply alive_now in Ha. rewrite (inv_commits _ _ Hi) in Ha. now apply in_rev in Ha. }
      assert (Hd : exists k, old' = k ++ (id, x) :: old /\ ~ In id (names k)).
      { clear - E Hin Hn Ho. revert new' E Hn. induction new as [|y new IH]; intros new' E Hn.
        - exfalso. simpl in E. destruct new' as [|y new']; simpl in E; injection E as _ E.
          + rewrite E in Ho. contradiction.
          + rewrite E in Ho. unfold names in Ho, Hin. rewrite map_app in Ho. simpl in Ho. apply Ho, in_or_app. right. now right.
        - destruct new' as [|y' new']; simpl in E; injection E as _ E.
          + exists new. split; [now symmetry|]. simpl in Hn. tauto.
          + apply (IH new' E). simpl in Hn. tauto. }
      destruct Hd as (k & -> & Hk). exact (IH k _ Hi Hk Ho Hf Ha).
  Qed.

  Theorem revert_restores l h id s1 h' :
    let s := run h (init l) in
    checkpoint id s = (s1, true) -> ~ In id (map fst (commits s)) -> fresh_names h' s1 -> alive id h' s1 ->
    let s2 := run h' s1 in
    exists s3, revert (Some id) s2 = (s3, true) /\ root s3 = root s /\ commits s3 = commits s /\ solver s3 = solver (fst (ensure s)) /\ cache s3 = cache s2.
  Proof.
    cbv zeta. intros E Hid Hf Ha. destruct (run_inv h [] (init l) (init_inv l)) as (ss & H). set (s := run h (init l)) in *.
    destruct (checkpoint_inv ss s id s1 H E) as (fr & Es & _ & R & _ & Hi & _ & Hc).
    assert (Hn : ~ In id (names ss)). { intros Hx. apply Hid. rewrite (inv_commits _ _ H). now apply -> in_rev. }
    destruct (alive_inv id (root s, fr) ss h' [] s1 Hi (fun x => x) Hn Hf Ha) as (new & Hi2 & Hn2).
    destruct (revert_name new (List.length (commits (run h' s1))) id (root s) fr ss _ Hi2 Hn2) as (cs & Er & Hi3).
    { rewrite (inv_len _ _ Hi2), app_length. simpl. lia. }
    eexists. split; [exact Er|]. cbn [root commits solver cache]. split; [reflexivity|]. split; [|split; [now symmetry|reflexivity]].
    (* commits: same names and lengths below the checkpoint *)
    clear - H Hi3. assert (G : forall ss a b, inv ss a -> inv ss b -> commits a = commits b).
    { intros ss0. induction ss0 as [|(i & l0 & f0) tl IH]; intros a b Ha Hb; simpl in Ha, Hb; [destruct Ha as (-> & _), Hb as (-> & _); reflexivity|].
      destruct Ha as (_ & _ & ca & -> & Ha), Hb as (_ & _ & cb & -> & Hb). f_equal. exact (IH _ _ (Ha []) (Hb [])). }
    symmetry. apply (G ss _ _ H Hi3).
  Qed.
  Lemma revert_named_newest id x old s : inv ((id, x) :: old) s -> revert (Some id) s = revert None s.
  Proof.
    destruct x as (l & fr). intros H. destruct (revert_one_inv _ _ _ _ _ H) as (cs & Hc & Hr & Hi). unfold ConstraintDB.revert. rewrite (inv_len _ _ H). cbn [List.length ConstraintDB.revert_to].
    rewrite Hr, Hc, rev_app_distr. simpl. now rewrite String.eqb_refl.
  Qed.
  Lemma latest_top ss s id : inv ss s -> latest C F s id -> exists x old, ss = (id, x) :: old.
  Proof.
    intros H (l & n & E). destruct ss as [|(i & l' & fr) tl]; simpl in H.
    - destruct H as (H & _). rewrite H in E. destruct l; discriminate.
    - destruct H as (_ & _ & cs & H & _). rewrite H in E. apply app_inj_tail in E as (_ & E). injection E as -> _. eauto.
  Qed.

  (** Two databases that differ in the cache only, outside the given texts. *)
  Definition like (texts : list string) (a b : db) : Prop :=
    root a = root b /\ commits a = commits b /\ solver a = solver b /\ forall x, ~ In x texts -> smem x (cache a) = smem x (cache b).
  Lemma like_step texts a b o : like texts a b -> (forall c, o = OAppend c -> ~ In (repr c) texts) ->
    like texts (fst (step a o)) (fst (step b o)) /\ snd (step a o) = snd (step b o).
  Proof.
    intros (R & K & S & Q) Ha. destruct a as [ra ka ca sa], b as [rb kb cb sb]. cbn [root commits solver cache] in *. subst rb kb sb. destruct o as [c|id|n]; simpl.
    - unfold ConstraintDB.append. cbn [cache]. rewrite <- (Q (repr c) (Ha c eq_refl)). destruct (smem (repr c) ca); [split; [repeat split; assumption|reflexivity]|].
      assert (Qc : forall x, ~ In x texts -> smem x (repr c :: ca) = smem x (repr c :: cb)) by (intros x Hx; unfold smem; simpl; fold (smem x ca); fold (smem x cb); now rewrite (Q x Hx)).
      destruct (tr c) as [f|]; [|split; [repeat split; assumption|reflexivity]].
      unfold ConstraintDB.ensure, verify_all, verify_one. destruct sa as [fr|]; cbn [solver root commits cache fst snd].
      + destruct (negb (unsat (asserted F (post F f fr)))); cbn; (split; [repeat split; assumption|reflexivity]).
      + destruct (negb (unsat (asserted F [base ++ formulas C F tr ra]))); cbn [solver root commits cache]; [|split; [repeat split; assumption|reflexivity]].
        destruct (negb (unsat (asserted F (post F f [base ++ formulas C F tr ra])))); cbn; (split; [repeat split; assumption|reflexivity]).
    - unfold ConstraintDB.checkpoint, ConstraintDB.ensure, verify_all. destruct sa as [fr|]; cbn [solver root commits cache fst snd option_map]; [split; [repeat split; assumption|reflexivity]|].
      destruct (negb (unsat (asserted F [base ++ formulas C F tr ra]))); cbn; (split; [repeat split; assumption|reflexivity]).
    - unfold ConstraintDB.revert. cbn [commits]. assert (G : forall fuel r k sv, like texts (fst (revert_to fuel n (mkDb r k ca sv))) (fst (revert_to fuel n (mkDb r k cb sv))) /\ snd (revert_to fuel n (mkDb r k ca sv)) = snd (revert_to fuel n (mkDb r k cb sv))); [|apply G].
      induction fuel as [|fuel IH]; intros r k sv; [split; [repeat split; assumption|reflexivity]|]. cbn [ConstraintDB.revert_to commits]. destruct (rev k) as [|(id, m) tl] eqn:Ek; [split; [repeat split; assumption|reflexivity]|].
      unfold revert_one. cbn [solver root commits cache]. rewrite Ek. destruct sv as [[|t [|t' fr]]|]; cbn [fst snd].
      all: destruct n as [nm|]; [|split; [repeat split; assumption|reflexivity]].
      all: destruct (String.eqb nm id); [split; [repeat split; assumption|reflexivity]|].
      all: destruct (existsb (fun p => String.eqb nm (fst p)) k); [|split; [repeat split; assumption|reflexivity]].
      all: try (split; [repeat split; assumption|reflexivity]). apply IH.
  Qed.
  Lemma like_run texts h : forall a b, like texts a b -> avoids C repr texts h -> like texts (run h a) (run h b).
  Proof.
    induction h as [|o h IH]; intros a b H Ha; [assumption|]. simpl. apply IH; [apply like_step; [assumption|]|].
    - intros c ->. apply Ha.
    - destruct o; simpl in Ha; tauto.
  Qed.

  (** The cache only grows. *)
  Lemma revert_cache s n fuel : cache (fst (revert_to fuel n s)) = cache s.
  Proof.
    assert (Hone : forall s, cache (fst (revert_one C F s)) = cache s).
    { intros s0. unfold revert_one. destruct (solver s0) as [[|t [|t' fr]]|]; try reflexivity. destruct (rev (commits s0)) as [|(i, m) tl]; reflexivity. }
    revert s. induction fuel as [|fuel IH]; intros s; [reflexivity|]. cbn [ConstraintDB.revert_to]. destruct (rev (commits s)) as [|(id, m) tl]; [reflexivity|].
    specialize (Hone s). destruct (revert_one C F s) as (s1, ok). simpl in Hone. destruct n as [nm|]; [|assumption]. destruct (String.eqb nm id); [assumption|].
    destruct (existsb (fun p => String.eqb nm (fst p)) (commits s)); [|reflexivity]. destruct ok; [|assumption]. now rewrite IH.
  Qed.
  Lemma ensure_cache s : cache (fst (ensure s)) = cache s /\ root (fst (ensure s)) = root s.
  Proof. unfold ConstraintDB.ensure. destruct (solver s); split; reflexivity. Qed.
  Lemma verify_one_cache f s : cache (fst (verify_one C F unsat f s)) = cache s /\ root (fst (verify_one C F unsat f s)) = root s.
  Proof. unfold verify_one. destruct (solver s); split; reflexivity. Qed.
  Lemma append_fail_root c s : snd (append c s) = false -> root (fst (append c s)) = root s /\ cache (fst (append c s)) = cache s.
  Proof.
    unfold ConstraintDB.append. destruct (smem (repr c) (cache s)); [discriminate|]. destruct (tr c) as [f|]; [|discriminate].
    pose proof (ensure_cache s) as E1. destruct (ensure s) as (s1, ok1). simpl in E1. destruct ok1; [|tauto]. pose proof (verify_one_cache f s1) as E2. destruct (verify_one C F unsat f s1) as (s2, ok2).
    simpl in E2. destruct ok2; [discriminate|]. simpl. intros _. destruct E1, E2. split; congruence.
  Qed.
  Lemma append_ok c s : snd (append c s) = true -> smem (repr c) (cache s) = false -> root (fst (append c s)) = root s ++ [c] /\ cache (fst (append c s)) = repr c :: cache s.
  Proof.
    unfold ConstraintDB.append. intros H E. rewrite E in *. destruct (tr c) as [f|]; [|split; reflexivity].
    pose proof (ensure_cache s) as E1. destruct (ensure s) as (s1, ok1). simpl in E1. destruct ok1; [|discriminate]. pose proof (verify_one_cache f s1) as E2. destruct (verify_one C F unsat f s1) as (s2, ok2).
    simpl in E2. destruct ok2; [|discriminate]. simpl. destruct E1 as (A & B), E2 as (A' & B'). split; congruence.
  Qed.
  Lemma append_cached c s : smem (repr c) (cache s) = true -> append c s = (s, true).
  Proof. unfold ConstraintDB.append. intros ->. reflexivity. Qed.
  Lemma append_in c s : snd (append c s) = true -> smem (repr c) (cache (fst (append c s))) = true.
  Proof.
    intros H. destruct (smem (repr c) (cache s)) eqn:E; [now rewrite (append_cached c s E)|]. destruct (append_ok c s H E) as (_ & ->). unfold smem. simpl. now rewrite String.eqb_refl.
  Qed.
  Lemma step_cache s o x : smem x (cache s) = true -> smem x (cache (fst (step s o))) = true.
  Proof.
    intros H. destruct o as [c|id|n]; simpl.
    - destruct (snd (append c s)) eqn:E.
      + destruct (smem (repr c) (cache s)) eqn:Ec; [now rewrite (append_cached c s Ec)|]. destruct (append_ok c s E Ec) as (_ & ->). unfold smem in *. simpl. now rewrite H, orb_true_r.
      + destruct (append_fail_root c s E) as (_ & ->). assumption.
    - unfold ConstraintDB.checkpoint. pose proof (ensure_cache s) as (E & _). destruct (ensure s) as (s1, [|]); simpl in *; now rewrite E.
    - unfold ConstraintDB.revert. now rewrite revert_cache.
  Qed.
  Lemma run_cache h : forall s x, smem x (cache s) = true -> smem x (cache (run h s)) = true.
  Proof. induction h as [|o h IH]; intros s x H; [assumption|]. simpl. apply IH. now apply step_cache. Qed.
  (** Texts in the cache afterwards were there before or belong to appended constraints. *)
  Definition appended (h : list (op C)) : list string := flat_map (fun o => match o with OAppend c => [repr c] | _ => [] end) h.
  Lemma step_cache_new s o x : smem x (cache (fst (step s o))) = true -> smem x (cache s) = true \/ In x (appended [o]).
  Proof.
    destruct o as [c|id|n]; simpl.
    - destruct (snd (append c s)) eqn:E.
      + destruct (smem (repr c) (cache s)) eqn:Ec; [rewrite (append_cached c s Ec); auto|]. destruct (append_ok c s E Ec) as (_ & ->). unfold smem. simpl. intros H.
        apply orb_true_iff in H as [H|H]; [apply String.eqb_eq in H; right; left; now symmetry|now left].
      + destruct (append_fail_root c s E) as (_ & ->). auto.
    - unfold ConstraintDB.checkpoint. pose proof (ensure_cache s) as (E & _). destruct (ensure s) as (s1, [|]); simpl in *; rewrite E; auto.
    - unfold ConstraintDB.revert. rewrite revert_cache. auto.
  Qed.
  Lemma run_cache_new h : forall s x, smem x (cache (run h s)) = true -> smem x (cache s) = true \/ In x (appended h).
  Proof.
    induction h as [|o h IH]; intros s x H; [auto|]. simpl in H. apply IH in H as [H|H].
    - apply step_cache_new in H as [H|H]; [auto|]. right. unfold appended in *. simpl in *. rewrite app_nil_r in H. apply in_or_app. auto.
    - right. unfold appended in *. simpl. apply in_or_app. auto.
  Qed.
End P.
