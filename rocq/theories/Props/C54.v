(** C54: testing whether a primitive's constraints can be met does not disturb the circuit. *)
From Coq Require Import String.
From Verif Require Import Base.Prelude Model.ConstraintDB Spec.ConstraintDBSpec Proofs.ConstraintDBP.

Section Props.
  Variables (C F : Type) (repr : C -> string) (ceqb : C -> C -> bool) (tr : C -> option F) (base : list F) (unsat : list F -> bool).
  Hypothesis ceqb_ok : forall a b, ceqb a b = true <-> a = b.
  Notation append := (append C F repr tr base unsat).
  Notation try_constraints := (try_constraints C F repr ceqb tr base unsat).
  Notation try_matches := (try_matches C F repr ceqb tr base unsat).

  Lemma mem_ok x l : existsb (fun c => ceqb c x) l = true <-> In x l.
  Proof.
    rewrite existsb_exists. split.
    - intros (c & H & E). apply ceqb_ok in E. now subst.
    - intros H. exists x. split; [assumption|]. now apply ceqb_ok.
  Qed.
  Lemma mem_no x l : existsb (fun c => ceqb c x) l = false <-> ~ In x l.
  Proof. rewrite <- mem_ok. destruct (existsb _ l); intuition congruence. Qed.
  Lemma remove_last x l : ~ In x l -> remove_first C ceqb x (l ++ [x]) = Some l.
  Proof.
    induction l as [|y l IH]; simpl; intros H.
    - now rewrite (proj2 (ceqb_ok x x) eq_refl).
    - destruct (ceqb y x) eqn:E; [apply ceqb_ok in E; tauto|]. rewrite IH by tauto. reflexivity.
  Qed.
  Lemma one s x s' ok : ~ In x (root s) -> smem (repr x) (cache s) = false -> try_constraints [x] s = (s', ok) ->
    root s' = root s /\ commits s' = commits s /\ (ok = true -> smem (repr x) (cache s') = true).
  Proof.
    intros Hn Hc. simpl. rewrite (proj2 (mem_no x (root s)) Hn). destruct (append x s) as (s1, ok1) eqn:E.
    assert (Hk : commits s1 = commits s).
    { unfold ConstraintDB.append, ensure, verify_all, verify_one in E. rewrite Hc in E. destruct (tr x) as [f|]; [|now injection E as <- _]. destruct (solver s) as [fr|] eqn:Es; cbn [solver root commits cache] in E; rewrite ?Es in E.
      - destruct (negb (unsat (asserted F (post F f fr)))); injection E as <- <-; reflexivity.
      - destruct (negb (unsat (asserted F [base ++ formulas C F tr (root s)]))); [|injection E as <- <-; reflexivity].
        cbn [solver root commits cache] in E. destruct (negb (unsat (asserted F (post F f [base ++ formulas C F tr (root s)])))); injection E as <- <-; reflexivity. }
    destruct ok1.
    - destruct (append_ok C F repr tr base unsat x s) as (R & Q); [rewrite E; reflexivity|assumption|]. rewrite E in R, Q. simpl in R, Q.
      rewrite (proj2 (mem_ok x (root s1))) by (rewrite R; apply in_or_app; right; now left).
      unfold remove. rewrite R, remove_last by assumption. intros [= <- <-]. simpl. split; [reflexivity|]. split; [assumption|]. intros _. rewrite Q. unfold smem. simpl. now rewrite String.eqb_refl.
    - intros [= <- <-]. destruct (append_fail_root C F repr tr base unsat x s) as (R & _); [rewrite E; reflexivity|]. rewrite E in R. split; [assumption|]. split; [assumption|discriminate].
  Qed.

  (** A new constraint is tried and the list is as before, whether or not it can be met. *)
  Theorem C54_list_kept s x : ~ In x (root s) -> smem (repr x) (cache s) = false ->
    root (fst (try_constraints [x] s)) = root s /\ commits (fst (try_constraints [x] s)) = commits s.
  Proof. intros Hn Hc. destruct (try_constraints [x] s) as (s', ok) eqn:E. destruct (one s x s' ok Hn Hc E) as (A & B & _). auto. Qed.

  (** But a constraint the user gave is removed by the test. *)
  Theorem C54_user_constraint_refuted s x : NoDup (root s) -> In x (root s) ->
    snd (try_constraints [x] s) = true /\ ~ In x (root (fst (try_constraints [x] s))).
  Proof.
    intros Hnd Hin. simpl. rewrite (proj2 (mem_ok x (root s)) Hin). rewrite (proj2 (mem_ok x (root s)) Hin). unfold remove.
    assert (G : forall l, NoDup l -> In x l -> exists l', remove_first C ceqb x l = Some l' /\ ~ In x l' /\ (forall y, In y l' -> In y l)).
    { induction l as [|y l IH]; [intros _ []|]. intros N H. apply NoDup_cons_iff in N as (N1 & N2). simpl. destruct (ceqb y x) eqn:E.
      - apply ceqb_ok in E. subst y. exists l. split; [reflexivity|]. split; [assumption|]. intros y Hy. now right.
      - destruct H as [->|H]; [rewrite (proj2 (ceqb_ok x x) eq_refl) in E; discriminate|]. destruct (IH N2 H) as (l' & -> & A & B). exists (y :: l'). split; [reflexivity|]. split.
        + intros [->|]; [|contradiction]. rewrite (proj2 (ceqb_ok x x) eq_refl) in E. discriminate.
        + intros z [->|Hz]; [now left|right; auto]. }
    destruct (G (root s) Hnd Hin) as (l' & -> & A & _). simpl. auto.
  Qed.

  (** And a constraint that passed the test is refused when tested again. *)
  Theorem C54_second_test_refuted s x s' : ~ In x (root s) -> smem (repr x) (cache s) = false -> try_constraints [x] s = (s', true) ->
    snd (try_constraints [x] s') = false.
  Proof.
    intros Hn Hc E. destruct (one s x s' true Hn Hc E) as (R & _ & Q). specialize (Q eq_refl). simpl. rewrite R.
    rewrite (proj2 (mem_no x (root s)) Hn). rewrite (append_cached C F repr tr base unsat x s' Q). rewrite R, (proj2 (mem_no x (root s)) Hn). reflexivity.
  Qed.

  Lemma try_ok z h fr' t : ~ In z (root t) -> smem (repr z) (cache t) = false -> tr z = Some h -> solver t = Some fr' -> unsat (asserted F (post F h fr')) = false ->
    try_constraints [z] t = (mkDb (root t) (commits t) (repr z :: cache t) (Some (post F h fr')), true).
  Proof.
    intros Nz Cz Tz Et Uz. simpl. rewrite (proj2 (mem_no z (root t)) Nz). unfold ConstraintDB.append, ensure, verify_one. rewrite Cz, Tz, Et, Et, Uz.
    unfold push_item. cbn [negb root commits cache solver]. rewrite (proj2 (mem_ok z (root t ++ [z]))) by (apply in_or_app; right; now left).
    unfold remove, push_item. cbn [root commits cache solver]. now rewrite remove_last by assumption.
  Qed.
  (** The formula of every tested constraint stays in the solver. *)
  Theorem C54_formula_stays_refuted s x f fr s' : ~ In x (root s) -> smem (repr x) (cache s) = false -> tr x = Some f -> solver s = Some fr ->
    try_constraints [x] s = (s', true) -> solver s' = Some (post F f fr) /\ root s' = root s.
  Proof.
    intros Hn Hc Tx Es E. destruct (unsat (asserted F (post F f fr))) eqn:U.
    - exfalso. simpl in E. rewrite (proj2 (mem_no x (root s)) Hn) in E. unfold ConstraintDB.append, ensure, verify_one in E. rewrite Hc, Tx, Es, Es, U in E. discriminate.
    - rewrite (try_ok x f fr s Hn Hc Tx Es U) in E. injection E as <-. split; reflexivity.
  Qed.

  (** So two matches, each of which could be met alone, may exclude each other in the test: the
      second is refused although the first one is not in the list any more. *)
  Theorem C54_matches_interfere_refuted s fr x y f g :
    ~ In x (root s) -> ~ In y (root s) -> smem (repr x) (cache s) = false -> smem (repr y) (cache s) = false -> repr x <> repr y ->
    tr x = Some f -> tr y = Some g -> solver s = Some fr ->
    unsat (asserted F (post F f fr)) = false -> unsat (asserted F (post F g fr)) = false -> unsat (asserted F (post F g (post F f fr))) = true ->
    snd (try_matches [[x]] s) = [true] /\ snd (try_matches [[y]] s) = [true] /\ snd (try_matches [[x]; [y]] s) = [true; false] /\
    root (fst (try_matches [[x]; [y]] s)) = root s.
  Proof.
    intros Nx Ny Cx Cy Hr Tx Ty Es Ux Uy Uxy.
    assert (Hcut : forall fuel t, cut C F fuel (List.length (root t)) t = t).
    { intros fuel t. destruct fuel; [reflexivity|]. simpl. now rewrite Nat.ltb_irrefl. }
    unfold ConstraintDB.try_matches. cbn [fold_left]. rewrite (try_ok x f fr s) by assumption. rewrite (try_ok y g fr s) by assumption. cbn [snd fst app].
    split; [reflexivity|]. split; [reflexivity|].
    assert (E : try_constraints [y] (mkDb (root s) (commits s) (repr x :: cache s) (Some (post F f fr))) = (mkDb (root s) (commits s) (repr x :: cache s) (Some (post F g (post F f fr))), false)).
    { simpl. rewrite (proj2 (mem_no y (root s)) Ny). unfold ConstraintDB.append, ensure, verify_one. cbn [cache solver root commits].
      assert (Cy' : smem (repr y) (repr x :: cache s) = false). { unfold smem in *. simpl. rewrite Cy. destruct (String.eqb_spec (repr y) (repr x)); [congruence|reflexivity]. }
      rewrite Cy', Ty, Uxy. reflexivity. }
    rewrite E. cbn [snd fst app]. split; [reflexivity|]. exact (f_equal root (Hcut _ (mkDb (root s) (commits s) _ _))).
  Qed.
End Props.

(** Numbers as constraints: 1 and 2 exclude each other. *)
Definition u_unsat (l : list nat) : bool := existsb (Nat.eqb 1) l && existsb (Nat.eqb 2) l.
Definition u_repr (n : nat) : string := String (Ascii.ascii_of_nat n) EmptyString.
Example C54_nonvacuous :
  let s := mkDb (F := nat) [7%nat] [] [u_repr 7] (Some [[0%nat; 7%nat]]) in
  (forall a b, Nat.eqb a b = true <-> a = b) /\ ~ In 1%nat (root s) /\ smem (u_repr 1) (cache s) = false /\
  snd (try_constraints nat nat u_repr Nat.eqb (fun n => Some n) [0%nat] u_unsat [1%nat] s) = true /\
  snd (try_matches nat nat u_repr Nat.eqb (fun n => Some n) [0%nat] u_unsat [[1%nat]; [2%nat]] s) = [true; false] /\
  snd (try_matches nat nat u_repr Nat.eqb (fun n => Some n) [0%nat] u_unsat [[2%nat]] s) = [true] /\
  root (fst (try_matches nat nat u_repr Nat.eqb (fun n => Some n) [0%nat] u_unsat [[7%nat]] s)) = [].
Proof. cbv zeta. split; [apply Nat.eqb_eq|]. split; [simpl; intuition discriminate|]. repeat (split; [vm_compute; reflexivity|]). vm_compute. reflexivity. Qed.

Print Assumptions C54_list_kept.
Print Assumptions C54_user_constraint_refuted.
Print Assumptions C54_second_test_refuted.
Print Assumptions C54_formula_stays_refuted.
Print Assumptions C54_matches_interfere_refuted.
