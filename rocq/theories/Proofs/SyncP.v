(** The solver of the constraint database always knows the constraints in the list. *)
From Coq Require Import String.
From Verif Require Import Base.Prelude Model.ConstraintDB Spec.ConstraintDBSpec Proofs.ConstraintDBP.

Section S.
  Variables (C F : Type) (repr : C -> string) (tr : C -> option F) (base : list F) (unsat : list F -> bool).
  Notation db := (db C F).
  Notation append := (append C F repr tr base unsat).
  Notation checkpoint := (checkpoint C F tr base unsat).
  Notation ensure := (ensure C F tr base unsat).
  Notation step := (step C F repr tr base unsat).
  Notation run := (run C F repr tr base unsat).
  Notation formulas := (formulas C F tr).
  Notation asserted := (asserted F).
  Notation post := (post F).

  Definition knows (l : list C) (fr : list (list F)) : Prop := incl (base ++ formulas l) (asserted fr).
  Definition synced (s : db) : Prop := match solver s with None => True | Some fr => fr <> [] /\ knows (root s) fr end.

  Lemma asserted_post f fr : fr <> [] -> asserted (post f fr) = asserted fr ++ [f].
  Proof.
    destruct fr as [|t tl]; [contradiction|]. intros _. unfold ConstraintDB.asserted, ConstraintDB.post. cbn [rev]. rewrite !concat_app. cbn [concat].
    rewrite !app_nil_r. now rewrite app_assoc.
  Qed.
  Lemma asserted_push fr : asserted ([] :: fr) = asserted fr.
  Proof. unfold ConstraintDB.asserted. cbn [rev]. rewrite concat_app. cbn [concat]. now rewrite !app_nil_r. Qed.
  Lemma post_ne f fr : post f fr <> [].
  Proof. destruct fr; discriminate. Qed.
  Lemma formulas_app l l' : formulas (l ++ l') = formulas l ++ formulas l'.
  Proof. apply flat_map_app. Qed.

  Lemma ensure_synced s s1 ok : synced s -> ensure s = (s1, ok) -> synced s1 /\ exists fr, solver s1 = Some fr /\ fr <> [] /\ knows (root s1) fr.
  Proof.
    unfold ConstraintDB.ensure, synced. destruct (solver s) as [fr|] eqn:E; intros H Eq; injection Eq as <- <-.
    - rewrite E. destruct H as (H1 & H2). split; [auto|]. exists fr. auto.
    - cbn [solver root]. assert (G : [base ++ formulas (root s)] <> [] /\ knows (root s) [base ++ formulas (root s)]).
      { split; [discriminate|]. unfold knows, ConstraintDB.asserted. simpl. rewrite app_nil_r. apply incl_refl. }
      destruct G as (G1 & G2). split; [auto|]. eexists. split; [reflexivity|]. auto.
  Qed.
  Lemma append_synced c s : synced s -> synced (fst (append c s)).
  Proof.
    intros H. unfold ConstraintDB.append. destruct (smem (repr c) (cache s)); [assumption|]. destruct (tr c) as [f|] eqn:Et.
    - destruct (ensure s) as (s1, ok1) eqn:E1. destruct (ensure_synced _ _ _ H E1) as (H1 & fr & Es & Hne & Hk). destruct ok1; [|assumption].
      unfold verify_one. rewrite Es. assert (G : knows (root s1) (post f fr)) by (unfold knows; rewrite asserted_post by assumption; apply incl_appl; exact Hk).
      destruct (negb _); unfold push_item, synced; cbn [fst solver root]; (split; [apply post_ne|]); [|assumption].
      unfold knows. rewrite formulas_app, asserted_post by assumption. simpl. rewrite Et. simpl. rewrite app_assoc.
      apply incl_app; [now apply incl_appl|]. now apply incl_appr, incl_refl.
    - unfold push_item, synced in *. cbn [fst solver root]. destruct (solver s) as [fr|]; [|exact I]. destruct H as (H1 & H2). split; [assumption|].
      unfold knows in *. rewrite formulas_app. simpl. rewrite Et. simpl. now rewrite app_nil_r.
  Qed.

  Definition inv2 (ss : list (snap C F)) (s : db) : Prop :=
    inv C F ss s /\ Forall (fun x => snd (snd x) <> [] /\ knows (fst (snd x)) (snd (snd x))) ss /\ synced s.
  Lemma revert_one_inv2 ss s : inv2 ss s -> exists ss', inv2 ss' (fst (revert_one C F s)).
  Proof.
    intros (H & Hs & Hy). destruct ss as [|(id & l & fr) tl].
    - exists []. destruct H as (Hc & [H|(t & H)]); unfold revert_one; rewrite H; cbn [fst]; (split; [simpl; split; [assumption|eauto]|]); split; assumption.
    - destruct (revert_one_inv C F _ _ _ _ _ H) as (cs & _ & E & Hi). rewrite E. apply Forall_cons_iff in Hs as ((H1 & H2) & Hs). exists tl. cbn [fst snd] in *. split; [assumption|]. split; [assumption|]. split; assumption.
  Qed.
  Lemma revert_to_inv2 fuel : forall name ss s, inv2 ss s -> exists ss', inv2 ss' (fst (revert_to C F fuel name s)).
  Proof.
    induction fuel as [|fuel IH]; intros name ss s H; [eauto|]. simpl. destruct (rev (commits s)) as [|(id, n) cs]; [eauto|].
    destruct (revert_one_inv2 ss s H) as (ss' & H'). destruct (revert_one C F s) as (s1, ok). cbn [fst] in H'. destruct name as [nm|]; [|eauto].
    destruct (String.eqb nm id); [eauto|]. destruct (existsb _ _); [|eauto]. destruct ok; eauto.
  Qed.
  Lemma step_inv2 ss s o : inv2 ss s -> exists ss', inv2 ss' (fst (step s o)).
  Proof.
    intros H. destruct o as [c|id|n]; cbn [ConstraintDB.step].
    - exists ss. destruct H as (H & Hs & Hy). split; [now apply append_inv|]. split; [assumption|]. now apply append_synced.
    - destruct (checkpoint id s) as (s1, ok) eqn:E. cbn [fst]. destruct H as (H & Hs & Hy). destruct ok.
      + destruct (checkpoint_inv C F tr base unsat _ _ _ _ H E) as (fr & E1 & _ & R & _ & Hi & E2 & _). destruct (ensure s) as (s0, ok0) eqn:E0.
        destruct (ensure_synced _ _ _ Hy E0) as (_ & fr' & E1' & Hne & Hk). cbn [fst] in E1. rewrite E1 in E1'. injection E1' as <-.
        assert (R0 : root s0 = root s) by (destruct (ensure_spec C F tr base unsat _ _ _ _ H E0) as (R0 & _); exact R0). rewrite R0 in Hk.
        exists ((id, (root s, fr)) :: ss). split; [assumption|]. split; [constructor; [split; assumption|assumption]|]. unfold synced. rewrite E2, R. split; [discriminate|].
        unfold knows. now rewrite asserted_push.
      + exists ss. split; [now apply (checkpoint_inv_fail C F tr base unsat _ _ _ _ H E)|]. split; [assumption|]. unfold ConstraintDB.checkpoint in E.
        destruct (ensure s) as (s0, ok0) eqn:E0. destruct (ensure_synced _ _ _ Hy E0) as (Hy0 & _). destruct ok0; [discriminate|]. now injection E as <-.
    - apply (revert_to_inv2 _ _ _ _ H).
  Qed.
  Theorem run_inv2 l h : exists ss, inv2 ss (run h (init C F l)).
  Proof.
    assert (G : forall h ss s, inv2 ss s -> exists ss', inv2 ss' (run h s)).
    { clear h. induction h as [|o h IH]; intros ss s H; [eauto|]. simpl. destruct (step_inv2 ss s o H) as (ss' & H'). eauto. }
    apply (G h []). split; [apply init_inv|]. split; [constructor|exact I].
  Qed.
End S.
