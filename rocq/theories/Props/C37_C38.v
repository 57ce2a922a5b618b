(** C37: constraint checkpoints nest.  C38: a reverted constraint can be added again. *)
From Coq Require Import String.
From Verif Require Import Base.Prelude Model.ConstraintDB Spec.ConstraintDBSpec Proofs.ConstraintDBP.

Section Props.
  Variables (C F : Type) (repr : C -> string) (ceqb : C -> C -> bool) (tr : C -> option F) (base : list F) (unsat : list F -> bool).
  Notation append := (append C F repr tr base unsat).
  Notation checkpoint := (checkpoint C F tr base unsat).
  Notation revert := (revert C F).
  Notation ensure := (ensure C F tr base unsat).
  Notation run := (run C F repr tr base unsat).
  Notation init := (init C F).
  Notation fresh_names := (fresh_names C F repr tr base unsat).
  Notation alive := (alive C F repr tr base unsat).

  (** After any history (calls that raised included), a checkpoint, and any further history during
      which it is not taken back, reverting to it succeeds and brings back the list, the
      older checkpoints and the solver as they were when the checkpoint was taken. *)
  Theorem C37_revert l h id s1 h' :
    let s := run h (init l) in
    checkpoint id s = (s1, true) -> ~ In id (map fst (commits s)) -> fresh_names h' s1 -> alive id h' s1 ->
    exists s3, revert (Some id) (run h' s1) = (s3, true) /\ root s3 = root s /\ commits s3 = commits s /\ solver s3 = solver (fst (ensure s)).
  Proof.
    cbv zeta. intros E Hid Hf Ha. destruct (revert_restores C F repr tr base unsat l h id s1 h' E Hid Hf Ha) as (s3 & H1 & H2 & H3 & H4 & _). exists s3. auto.
  Qed.
  (** Reverting without a name is reverting to the newest checkpoint; an unknown name changes
      nothing and is reported. *)
  Theorem C37_latest l h id : latest C F (run h (init l)) id -> revert None (run h (init l)) = revert (Some id) (run h (init l)) /\ snd (revert None (run h (init l))) = true.
  Proof.
    intros H. destruct (run_inv C F repr tr base unsat h [] (init l) (init_inv C F l)) as (ss & Hi). destruct (latest_top C F ss _ id Hi H) as ((l' & fr) & old & ->).
    split; [symmetry; exact (revert_named_newest C F id _ old _ Hi)|]. destruct (revert_none C F _ _ _ _ _ Hi) as (cs & -> & _). reflexivity.
  Qed.
  Theorem C37_unknown l h id : ~ In id (map fst (commits (run h (init l)))) -> revert (Some id) (run h (init l)) = (run h (init l), false).
  Proof.
    intros H. destruct (run_inv C F repr tr base unsat h [] (init l) (init_inv C F l)) as (ss & Hi). apply (revert_bad C F base unsat ss); [exact Hi|].
    intros Hx. apply H. rewrite (inv_commits C F _ _ Hi). now apply -> in_rev.
  Qed.
  (** Removing an item after the checkpoint is not undone: the reverted list lacks it. *)
  Theorem C37_remove_refuted c d : ceqb c c = true -> tr c = None -> tr d = None -> unsat base = false -> repr c <> repr d ->
    exists s1 s2, checkpoint "a" (run [OAppend c; OAppend d] (init [])) = (s1, true) /\ root s1 = [c; d] /\
      ConstraintDB.remove C F ceqb c s1 = (s2, true) /\ root (fst (revert (Some "a"%string) s2)) = [d].
  Proof.
    intros Hc Tc Td Hu Hr. unfold ConstraintDB.run, ConstraintDB.checkpoint. simpl. unfold ConstraintDB.append. rewrite Tc, Td. simpl.
    assert (E : String.eqb (repr d) (repr c) = false) by (apply String.eqb_neq; congruence).
    rewrite E. simpl. unfold ConstraintDB.ensure, verify_all, asserted, formulas. simpl. rewrite Tc, Td. simpl. rewrite !app_nil_r, Hu. simpl.
    eexists. eexists. split; [reflexivity|]. split; [reflexivity|]. unfold ConstraintDB.remove. simpl. rewrite Hc. split; [reflexivity|]. reflexivity.
  Qed.

  (** * C38 *)

  (** What the cache remembers and the list does not. *)
  Theorem C38_as_if_never_added l h id s1 h' s3 h'' :
    let s := run h (init l) in
    checkpoint id s = (s1, true) -> ~ In id (map fst (commits s)) -> fresh_names h' s1 -> alive id h' s1 ->
    revert (Some id) (run h' s1) = (s3, true) -> avoids C repr (flat_map (fun o => match o with OAppend c => [repr c] | _ => [] end) h') h'' ->
    root (run h'' s3) = root (run h'' (fst (ensure s))) /\ commits (run h'' s3) = commits (run h'' (fst (ensure s))) /\
    solver (run h'' s3) = solver (run h'' (fst (ensure s))).
  Proof.
    cbv zeta. intros E Hid Hf Ha Er Hav. destruct (revert_restores C F repr tr base unsat l h id s1 h' E Hid Hf Ha) as (s3' & H1 & H2 & H3 & H4 & H5). cbv zeta in H1. rewrite Er in H1. injection H1 as <-.
    destruct (run_inv C F repr tr base unsat h [] (init l) (init_inv C F l)) as (ss & Hi).
    destruct (checkpoint_inv C F tr base unsat ss _ id s1 Hi E) as (fr & Es & _ & R & Q & _ & _ & K).
    destruct (ensure (run h (init l))) as (s0, ok) eqn:E0. destruct (ensure_spec C F tr base unsat ss _ s0 ok Hi E0) as (R0 & K0 & Q0 & _). simpl in H4.
    assert (G : like C F (flat_map (fun o => match o with OAppend c => [repr c] | _ => [] end) h') s3 s0).
    { split; [simpl; congruence|]. split; [simpl; congruence|]. split; [assumption|]. intros x Hx. rewrite H5. simpl. apply eq_true_iff_eq. split.
      - intros Hm. apply (run_cache_new C F repr tr base unsat) in Hm as [Hm|Hm]; [rewrite Q in Hm; congruence|contradiction].
      - intros Hm. apply (run_cache C F repr tr base unsat). rewrite Q. congruence. }
    destruct (like_run C F repr tr base unsat _ h'' _ _ G Hav) as (A & B & D & _). auto.
  Qed.

  (** The claim as stated fails for every constraint: after checkpoint, append and revert,
      appending it again reports success and adds nothing. *)
  Theorem C38_again_refuted l h id c s1 s2 s3 :
    let s := run h (init l) in
    checkpoint id s = (s1, true) -> append c s1 = (s2, true) -> revert None s2 = (s3, true) ->
    root s3 = root s /\ append c s3 = (s3, true).
  Proof.
    cbv zeta. intros E1 E2 E3. split.
    - destruct (run_inv C F repr tr base unsat h [] (init l) (init_inv C F l)) as (ss & Hi).
      destruct (checkpoint_inv C F tr base unsat ss _ id s1 Hi E1) as (fr & _ & _ & _ & _ & Hi1 & _).
      apply (append_inv C F repr tr base unsat _ _ c) in Hi1. rewrite E2 in Hi1. destruct (revert_none C F _ _ _ _ _ Hi1) as (cs & E & _). simpl in E. rewrite E3 in E. injection E as ->. reflexivity.
    - apply append_cached. assert (H : cache s3 = cache s2).
      { pose proof (revert_cache C F s2 None (List.length (commits s2))) as H. unfold ConstraintDB.revert in E3. now rewrite E3 in H. }
      rewrite H. pose proof (append_in C F repr tr base unsat c s1) as G. rewrite E2 in G. now apply G.
  Qed.
  Theorem C38_removed_refuted s c s1 s2 : append c s = (s1, true) -> ConstraintDB.remove C F ceqb c s1 = (s2, true) -> append c s2 = (s2, true).
  Proof.
    intros E1 E2. apply append_cached. pose proof (append_in C F repr tr base unsat c s) as G. rewrite E1 in G. simpl in G.
    unfold ConstraintDB.remove in E2. destruct (remove_first C ceqb c (root s1)); [|discriminate]. injection E2 as <-. now apply G.
  Qed.

  (** A rejected constraint is not in the list, but its formula stays in the solver: from then
      on every constraint with a formula is rejected, until a checkpoint is reverted. *)
  Theorem C38_rejected_stays s c f fr : monotone F unsat -> tr c = Some f -> solver s = Some fr -> append c s = (fst (append c s), false) ->
    root (fst (append c s)) = root s /\
    forall cs d g, tr d = Some g -> smem (repr d) (cache (run (map OAppend cs) (fst (append c s)))) = false ->
      snd (append d (run (map OAppend cs) (fst (append c s)))) = false.
  Proof.
    intros Hm Tc Es Ef. assert (Ef' : snd (append c s) = false) by (rewrite Ef; reflexivity). split; [now apply (append_fail_root C F repr tr base unsat c s)|].
    assert (Hpost : forall x g, unsat (asserted F x) = true -> unsat (asserted F (post F g x)) = true).
    { intros x g Hx. destruct x as [|t x]; simpl.
      - unfold asserted in *. simpl in *. change [g] with ([] ++ [g] ++ []). now apply Hm.
      - unfold asserted in *. simpl in *. rewrite concat_app in *. simpl in *. rewrite app_nil_r in *. rewrite app_assoc.
        rewrite <- (app_nil_r ((concat (rev x) ++ t) ++ [g])), <- app_assoc. apply Hm. now rewrite app_nil_r. }
    assert (Hbad : forall s, (exists x, solver s = Some x /\ unsat (asserted F x) = true) -> forall d,
        (exists x, solver (fst (append d s)) = Some x /\ unsat (asserted F x) = true) /\
        forall g, tr d = Some g -> smem (repr d) (cache s) = false -> snd (append d s) = false).
    { intros s' (x & Ex & Hx) d. unfold ConstraintDB.append. destruct (smem (repr d) (cache s')); [split; [eauto|discriminate]|].
      destruct (tr d) as [g|]; [|split; [simpl; eauto|discriminate]]. unfold ConstraintDB.ensure. rewrite Ex. unfold verify_one. rewrite Ex. rewrite (Hpost x g Hx). simpl. split; eauto. }
    assert (H0 : exists x, solver (fst (append c s)) = Some x /\ unsat (asserted F x) = true).
    { clear - Ef' Tc Es. unfold ConstraintDB.append in *. destruct (smem (repr c) (cache s)); [discriminate|]. rewrite Tc in *. unfold ConstraintDB.ensure in *. rewrite Es in *. unfold verify_one in *. rewrite Es in *.
      destruct (unsat (asserted F (post F f fr))) eqn:E; [|discriminate]. simpl. eauto. }
    intros cs. revert H0. generalize (fst (append c s)). induction cs as [|e cs IH]; intros s' H0 d g Td Hd.
    - apply (proj2 (Hbad s' H0 d) g); assumption.
    - simpl in *. apply (IH _ (proj1 (Hbad s' H0 e)) d g); assumption.
  Qed.
End Props.

(** A database over numbers: the "formula" of [n] is [n]; odd numbers contradict everything. *)
Local Open Scope nat_scope.
Definition t_repr (n : nat) : string := String (Ascii.ascii_of_nat n) EmptyString.
Definition t_unsat (l : list nat) : bool := existsb Nat.odd l.
Definition t_run := run nat nat t_repr (fun n => Some n) [0] t_unsat.
Notation t_tr := (fun n : nat => Some n).
(** The failed additions of 7 and 10 disappear with checkpoint "c"; those of 6 and 12 with "b". *)
Example C37_nonvacuous :
  let s := t_run [OAppend 2; OCheckpoint "a"; OAppend 4]%string (init nat nat [8]) in
  let h' := [OAppend 6; OAppend 2; OCheckpoint "c"; OAppend 7; OAppend 10; ORevert None; OAppend 12]%string in
  exists s1, checkpoint nat nat t_tr [0] t_unsat "b" s = (s1, true) /\ ~ In "b"%string (map fst (commits s)) /\
  ConstraintDBSpec.fresh_names nat nat t_repr t_tr [0] t_unsat h' s1 /\
  ConstraintDBSpec.alive nat nat t_repr t_tr [0] t_unsat "b" h' s1 /\
  root (t_run h' s1) = [8; 2; 4; 6; 12] /\ fst (revert nat nat (Some "b"%string) (t_run h' s1)) = mkDb [8; 2; 4] [("a"%string, 2)] (cache (t_run h' s1)) (Some [[4]; [0; 8; 2]]).
Proof.
  cbv zeta. eexists. split; [vm_compute; reflexivity|]. split; [vm_compute; intuition discriminate|]. split; [vm_compute; intuition discriminate|]. split; [vm_compute; intuition|].
  split; vm_compute; reflexivity.
Qed.
Example C38_nonvacuous :
  exists s1 s2 s3, checkpoint nat nat t_tr [0] t_unsat "a" (init nat nat []) = (s1, true) /\ append nat nat t_repr t_tr [0] t_unsat 2 s1 = (s2, true) /\ root s2 = [2] /\
    revert nat nat None s2 = (s3, true) /\ smem (t_repr 2) [] = false /\ append nat nat t_repr t_tr [0] t_unsat 2 s3 = (s3, true) /\ root s3 = [].
Proof. do 3 eexists. repeat (split; [vm_compute; reflexivity|]). reflexivity. Qed.
Example C38_rejected_nonvacuous :
  monotone nat t_unsat /\ exists fr, solver (t_run [OAppend 2] (init nat nat [])) = Some fr /\
  snd (append nat nat t_repr t_tr [0] t_unsat 3 (t_run [OAppend 2] (init nat nat []))) = false.
Proof.
  split; [|eexists; split; vm_compute; reflexivity]. intros a b c. unfold t_unsat. rewrite !existsb_app. intros H. apply orb_true_iff in H as [->| ->]; [reflexivity|]. now rewrite !orb_true_r.
Qed.

Print Assumptions C37_revert.
Print Assumptions C37_latest.
Print Assumptions C37_unknown.
Print Assumptions C37_remove_refuted.
Print Assumptions C38_as_if_never_added.
Print Assumptions C38_again_refuted.
Print Assumptions C38_removed_refuted.
Print Assumptions C38_rejected_stays.
