(** C99: the path search of the detailed router. *)
From Coq Require Import ZArith QArith Lqa ZifyBool.
From Verif Require Import Base.Prelude Model.AStar Spec.AStarSpec Spec.AStarLabel Proofs.AStarP Proofs.AStarRunP Proofs.AStarPathP Proofs.AStarLabelP.
Local Open Scope Z_scope.

Lemma search_more f : forall j closed s l k, search f j closed s l <> Running -> search (f + k) j closed s l = search f j closed s l.
Proof.
  induction f as [|f IH]; intros j closed s l k H; [now destruct H|]. cbn [search Nat.add] in *. destruct l as [|[q u] l]; [reflexivity|].
  destruct (mem u (dest j)).
  - destruct (pre_trace j s u) as [[s' [|]]|]; try reflexivity. now apply IH.
  - destruct (expand j u (u :: closed) s l) as [[s' l']|]; [|reflexivity]. now apply IH.
Qed.
Lemma fresh_clean s : clean (fresh s).
Proof. intros u. now split. Qed.
Definition good (j : job) (f : nat) (s : state) : Prop :=
  (exists par u r s', A_star f j s = (Path (rev (u :: r)) (labels j (rev (u :: r))), s') /\ clean s' /\ chain j par (u :: r) /\ In u (dest j)) \/
  (exists s0 s' closed E, A_star f j s = (NoPath, s') /\ clean s' /\ inv j s0 [] closed E (fun _ _ => True)).
Lemma good_of j f s o : wf j -> has_vias j -> clean s -> (let '(s1, l) := initial_source j s in search f j (source j) s1 l) = o -> ends j o -> good j f s.
Proof.
  intros W HV Cl E H. unfold good, A_star. destruct (initial_source j s) as [s1 l]. rewrite E. destruct H as [(s' & par & u & r & -> & C & D & T)|(s' & closed & E' & -> & I)].
  - left. rewrite T. exists par, u, r, (fresh s'). split; [reflexivity|]. split; [apply fresh_clean|]. split; [exact C|exact D].
  - right. exists s', (fresh s'), closed, E'. split; [reflexivity|]. split; [apply fresh_clean|exact I].
Qed.
Lemma good_ends j s : wf j -> has_vias j -> clean s -> exists n, forall f, (n <= f)%nat -> good j f s.
Proof.
  intros W HV Cl. exists (fuel j). intros f Hf. pose proof (run_ok j W HV f s Cl Hf) as H. eapply good_of; eauto. destruct (initial_source j s); auto.
Qed.
Lemma good_any j s f : wf j -> has_vias j -> clean s -> fst (A_star f j s) <> Loops -> good j f s.
Proof.
  intros W HV Cl H. pose proof (run_ok j W HV (f + fuel j) s Cl ltac:(lia)) as R. eapply good_of; eauto. unfold A_star in H. destruct (initial_source j s) as [s1 l].
  rewrite <- (search_more f j (source j) s1 l (fuel j)); [exact R|]. intros E. rewrite E in H. now apply H.
Qed.

(** The search always ends, never leaves defined behaviour, and leaves costs and parents as they were. *)
Theorem C99_ends j s : wf j -> has_vias j -> clean s ->
  exists n, forall f, (n <= f)%nat -> ((exists p ls, fst (A_star f j s) = Path p ls) \/ fst (A_star f j s) = NoPath) /\ clean (snd (A_star f j s)).
Proof.
  intros W HV Cl. destruct (good_ends j s W HV Cl) as (n & H). exists n. intros f Hf. destruct (H f Hf) as [(par & u & r & s' & E & C & _)|(s0 & s' & cl & E' & E & C & _)]; rewrite E; cbn; eauto.
Qed.
(** A path goes from a source to a destination over free nodes, each at most once, and keeps the rules of lengths and vias. *)
Theorem C99_path j s f p ls : wf j -> has_vias j -> clean s -> fst (A_star f j s) = Path p ls -> legal j p.
Proof.
  intros W HV Cl H. destruct (good_any j s f W HV Cl ltac:(congruence)) as [(par & u & r & s' & E & _ & C & D)|(s0 & s' & cl & E' & E & _)]; rewrite E in H; cbn in H; [|discriminate].
  injection H as <- <-. change (rev r ++ [u]) with (rev (u :: r)). split; [now apply (chain_route j W par)|exact (chain_spaced j par (u :: r) C)].
Qed.
(** Its lines are the stretches on each metal: straight, and each meets the next one at a via; the labels tell for each line how it can be extended. *)
Theorem C99_lines j s f p ls : wf j -> has_vias j -> clean s -> fst (A_star f j s) = Path p ls ->
  exists rs, parts j p rs /\ physical j p = map (line_of j) rs /\ length ls = length rs /\ (forall z, In z ls -> 0 <= z <= 3) /\
    (forall r, In r rs -> straight j (line_of j r)) /\ (forall a r r' b, rs = a ++ r :: r' :: b -> meet (line_of j r) (line_of j r')) /\
    (forall i r z, nth_error rs i = Some r -> nth_error ls i = Some z -> label_tells j (0 < i /\ S i < length rs)%nat (hd O r) (last r O) z).
Proof.
  intros W HV Cl H. pose proof (C99_path j s f p ls W HV Cl H) as [R _]. destruct (good_any j s f W HV Cl ltac:(congruence)) as [(par & u & r & s' & E & _ & C & D)|(s0 & s' & cl & E' & E & _)]; rewrite E in H; cbn in H; [|discriminate].
  injection H as <- <-. change (rev r ++ [u]) with (rev (u :: r)) in *. exists (runs j (rev (u :: r))).
  assert (forall w, In w (rev (u :: r)) -> (w < size j)%nat) as Lt by (intros w Hw; apply in_rev in Hw; now apply (chain_lt j W par _ C)).
  split; [apply runs_parts|]. split; [apply physical_ok|]. split; [rewrite labels_len, physical_ok, map_length; reflexivity|]. split; [intros z Hz; now apply (chain_labels j par (u :: r))|].
  split; [intros q Hq; apply (run_straight j W (rev (u :: r)) q Lt (r_steps j _ R) Hq)|]. split; [intros a q q' b Eq; apply (runs_meet j W (rev (u :: r)) a q q' b Lt (r_steps j _ R) Eq)|]. intros i q z Hq Hz. now apply labels_tell.
Qed.
(** Without rules on lengths and vias a path is found whenever there is one. *)
Theorem C99_complete j s p : wf j -> has_vias j -> clean s -> free j -> route j p -> exists n, forall f, (n <= f)%nat -> exists p' ls, fst (A_star f j s) = Path p' ls /\ legal j p'.
Proof.
  intros W HV Cl F R. destruct (good_ends j s W HV Cl) as (n & H). exists n. intros f Hf. destruct (H f Hf) as [(par & u & r & s' & E & _ & C & D)|(s0 & s' & cl & E' & E & _ & I)].
  - exists (rev (u :: r)), (labels j (rev (u :: r))). rewrite E. split; [reflexivity|]. split; [now apply (chain_route j W par)|exact (chain_spaced j par (u :: r) C)].
  - exfalso. apply (fails_complete j W s0 cl E' p F I (r_steps j p R) (r_source j p R) (r_dest j p R)).
Qed.

(** *** Findings. *)
Definition blank : state := St (fun _ => None) (fun _ => 0%Q) (fun _ => None) (fun _ => None).
Lemma blank_clean : clean blank.
Proof. intros u. now split. Qed.
(** A grid is right if all its nodes are. *)
Definition node_ok (j : job) (u : nat) : bool :=
  let n := at_ j u in
  forallb (fun v => (v <? size j)%nat && (metal (at_ j v) =? metal n) &&
    (if horizontal (t j) (metal n) then (vy (at_ j v) =? vy n) && ((vx n <? vx (at_ j v)) && (v =? S u)%nat || (vx (at_ j v) <? vx n) && (u =? S v)%nat)
     else (vx (at_ j v) =? vx n) && ((vy n <? vy (at_ j v)) && (v =? S u)%nat || (vy (at_ j v) <? vy n) && (u =? S v)%nat))) (sides j u) &&
  match up n with None => true | Some v => (v <? size j)%nat && (metal (at_ j v) =? metal n + 1) && (vx (at_ j v) =? vx n) && (vy (at_ j v) =? vy n) end &&
  match down n with None => true | Some v => (v <? size j)%nat && (metal (at_ j v) =? metal n - 1) && (vx (at_ j v) =? vx n) && (vy (at_ j v) =? vy n) end.
Definition grid_ok (j : job) : bool := forallb (node_ok j) (seq 0 (size j)) && forallb (fun u => (u <? size j)%nat) (source j).
Lemma grid_ok_wf j : grid_ok j = true -> wf j.
Proof.
  unfold grid_ok. intros H. apply andb_prop in H. destruct H as [H Hs]. rewrite forallb_forall in H, Hs.
  assert (forall u, (u < size j)%nat -> node_ok j u = true) as K by (intros u Hu; apply H; apply in_seq; lia). clear H. constructor.
  - intros u v Hu Hv. specialize (K u Hu). unfold node_ok in K. apply andb_prop in K. destruct K as [K _]. apply andb_prop in K. destruct K as [K _]. rewrite forallb_forall in K. specialize (K v Hv). destruct (horizontal (t j) (metal (at_ j u))); lia.
  - intros u v Hu Hv. specialize (K u Hu). unfold node_ok in K. rewrite Hv in K. lia.
  - intros u v Hu Hv. specialize (K u Hu). unfold node_ok in K. rewrite Hv in K. lia.
  - intros u Hu. specialize (Hs u Hu). lia.
Qed.
Definition step_ok (j : job) (u v : nat) : bool :=
  active (at_ j u) && active (at_ j v) &&
  (existsb (Nat.eqb v) (sides j u) || match up (at_ j u) with Some w => (w =? v)%nat && via_up (at_ j u) && via_down (at_ j v) | None => false end ||
   match down (at_ j u) with Some w => (w =? v)%nat && via_down (at_ j u) && via_up (at_ j v) | None => false end).
Lemma step_ok_next j u v : step_ok j u v = true -> next j u v.
Proof.
  unfold step_ok, next. intros H. apply andb_prop in H. destruct H as [H H2]. apply andb_prop in H. destruct H as [H0 H1]. split; [exact H0|]. split; [exact H1|].
  apply orb_prop in H2. destruct H2 as [H2|H2]; [apply orb_prop in H2; destruct H2 as [H2|H2]|].
  - left. apply existsb_exists in H2. destruct H2 as (w & Hw & E). apply Nat.eqb_eq in E. now subst.
  - right. left. destruct (up (at_ j u)) as [w|]; [|discriminate]. apply andb_prop in H2. destruct H2 as [H2 H3]. apply andb_prop in H2. destruct H2 as [H2 H4]. apply Nat.eqb_eq in H2. now subst.
  - right. right. destruct (down (at_ j u)) as [w|]; [|discriminate]. apply andb_prop in H2. destruct H2 as [H2 H3]. apply andb_prop in H2. destruct H2 as [H2 H4]. apply Nat.eqb_eq in H2. now subst.
Qed.
Fixpoint steps_ok (j : job) (p : list nat) : bool := match p with u :: ((v :: _) as r) => step_ok j u v && negb (mem v (source j)) && negb (mem u (dest j)) && steps_ok j r | _ => true end.
Lemma steps_ok_all j p : steps_ok j p = true -> forall a u v b, p = a ++ u :: v :: b -> next j u v /\ ~ In v (source j) /\ ~ In u (dest j).
Proof.
  intros H a. revert p H. induction a as [|x a IH]; intros p H u v b E; subst p.
  - cbn [app steps_ok] in H. apply andb_prop in H. destruct H as [H _]. apply andb_prop in H. destruct H as [H H3]. apply andb_prop in H. destruct H as [H1 H2]. split; [now apply step_ok_next|]. split; apply mem_not; [now destruct (mem v _)|now destruct (mem u _)].
  - apply (IH (a ++ u :: v :: b)) with (b := b); [|reflexivity]. destruct a; cbn [app steps_ok] in H |- *; apply andb_prop in H; tauto.
Qed.
Definition route_ok (j : job) (p : list nat) : bool := match p with [] => false | u :: _ => mem u (source j) && mem (last p O) (dest j) end && steps_ok j p && (length (nodup Nat.eq_dec p) =? length p)%nat.
Lemma route_ok_route j p : NoDup p -> route_ok j p = true -> route j p.
Proof.
  intros Nd H. unfold route_ok in H. apply andb_prop in H. destruct H as [H _]. apply andb_prop in H. destruct H as [H H2]. destruct p as [|u p]; [discriminate|]. apply andb_prop in H. destruct H as [H0 H1]. constructor.
  - exists u. split; [reflexivity|now apply mem_spec].
  - exists (last (u :: p) O). split; [|now apply mem_spec]. rewrite <- (hd_rev (u :: p)). destruct (rev (u :: p)) eqn:E; [|reflexivity]. apply (f_equal (@length nat)) in E. rewrite rev_length in E. discriminate.
  - intros a x y b E. apply (steps_ok_all j _ H2 a x y b E).
  - exact Nd.
  - intros a x y b E. apply (steps_ok_all j _ H2 a x y b E).
Qed.

Definition tech0 (r : Z -> Q) (v : Z -> option Q) (sp : Z) : tech := Tech Z.odd r v (fun _ => 0) (fun _ => sp) (fun _ => sp).
(** A wire on the highest metal: the cost reads the via above it, with index -1. *)
Definition top_job : job := Job
  [V 0 0 1 true true true [] [] [1%nat] [] None None; V 1 0 1 true true true [] [] [] [0%nat] None None]
  (tech0 (fun _ => 1%Q) (fun m => if m =? 0 then Some 1%Q else None) 0) 0 0 [0%nat] [1%nat] [].
Theorem C99_top_refuted : exists j s p, wf j /\ clean s /\ legal j p /\ forall f, (2 <= f)%nat -> fst (A_star f j s) = Undef.
Proof.
  exists top_job, blank, [0%nat; 1%nat]. split; [apply grid_ok_wf; reflexivity|]. split; [apply blank_clean|]. split; [split|].
  - apply route_ok_route; [repeat constructor; cbn; intuition discriminate|reflexivity].
  - intros a q r v b E Hr. exfalso. apply (f_equal (@length nat)) in E. rewrite app_length in E. cbn in E. rewrite app_length in E. cbn in E. destruct r; [congruence|]. cbn in E. lia.
  - intros f Hf. destruct f as [|[|f]]; try lia. unfold A_star. reflexivity.
Qed.
(** A legal path is missed: the node before the destination was reached first from a via which is too near. *)
Definition near_job : job := Job
  [V 1 0 0 true true true [] [] [] [] (Some 3%nat) None; V 2 0 0 true true true [] [] [] [] (Some 4%nat) None; V 4 0 0 true true true [] [] [] [] (Some 6%nat) None;
   V 1 0 1 true true true [] [] [4%nat] [] None (Some 0%nat); V 2 0 1 true true true [] [] [5%nat] [3%nat] None (Some 1%nat);
   V 3 0 1 true true true [] [] [6%nat] [4%nat] None None; V 4 0 1 true true true [] [] [] [5%nat] None (Some 2%nat)]
  (tech0 (fun _ => 1%Q) (fun _ => Some 1%Q) 2) 0 0 [0%nat; 2%nat] [1%nat] [].
Theorem C99_complete_refuted : exists j s p, wf j /\ has_vias j /\ clean s /\ legal j p /\ forall f, (20 <= f)%nat -> fst (A_star f j s) = NoPath.
Proof.
  exists near_job, blank, [2; 6; 5; 4; 1]%nat. split; [apply grid_ok_wf; reflexivity|]. split; [intros u _; discriminate|]. split; [apply blank_clean|]. split; [split|].
  - apply route_ok_route; [repeat constructor; cbn; intuition discriminate|reflexivity].
  - intros a q r v b E Hr m Hm Hq Hv.
    assert (m = 1 /\ r = [6; 5; 4]%nat /\ v = 1%nat) as (-> & -> & ->).
    { destruct a as [|a0 [|a1 [|a2 [|a3 [|a4 a]]]]]; injection E; intros; subst; cbn [length app] in *; try discriminate;
      destruct r as [|r0 [|r1 [|r2 [|r3 r]]]]; cbn [app] in *; try congruence;
      repeat match goal with H : _ :: _ = _ :: _ |- _ => injection H; intros; subst; clear H end; try discriminate;
      repeat match goal with H : forall w, In w _ -> _ |- _ => pose proof (H _ (or_introl eq_refl)); clear H end; cbn in *; subst; try congruence; auto; exfalso; try lia. all: try (now apply Hv). all: try (now apply Hq). all: try discriminate. all: match goal with H : [] = _ ++ _ |- _ => symmetry in H; apply app_eq_nil in H; destruct H; discriminate | _ => idtac end. }
    cbn. split; intros; [lia|]. left. lia.
  - intros f Hf. pose proof (good_any near_job blank 20) as G. assert (fst (A_star 20 near_job blank) = NoPath) as E by (vm_compute; reflexivity).
    unfold A_star in *. destruct (initial_source near_job blank) as [s1 l] eqn:Ei. replace f with (20 + (f - 20))%nat by lia. rewrite search_more; [exact E|]. intros H. rewrite H in E. discriminate.
Qed.
(** The path with the least resistance is not the one that is found. *)
Definition far_job : job := Job
  [V 0 0 0 true true true [] [] [] [] (Some 1%nat) None; V 0 0 1 true true true [] [] [2%nat] [] None (Some 0%nat); V 10 0 1 true true true [] [] [] [1%nat] None None;
   V 0 100 2 true true true [4%nat] [] [] [] None None; V 0 105 2 true true true [] [3%nat] [] [] None None]
  (tech0 (fun m => if m =? 0 then 10%Q else if m =? 1 then 0%Q else 1%Q) (fun _ => Some 1%Q) 0) 0 0 [0%nat; 3%nat] [2%nat; 4%nat] [].
Theorem C99_best_refuted : exists j s f p ls q, wf j /\ has_vias j /\ clean s /\ free j /\ fst (A_star f j s) = Path p ls /\ legal j q /\ (resistance j q < resistance j p)%Q.
Proof.
  exists far_job, blank, 20%nat, [3; 4]%nat. eexists. exists [0; 1; 2]%nat. split; [apply grid_ok_wf; reflexivity|]. split; [intros u _; discriminate|]. split; [apply blank_clean|]. split; [intros m; cbn; lia|]. split; [vm_compute; reflexivity|]. split; [split|reflexivity].
  - apply route_ok_route; [repeat constructor; cbn; intuition discriminate|reflexivity].
  - intros a q r v b E Hr m Hm Hq Hv x y. pose proof (dist_nonneg far_job y x). cbn [t far_job tech0 minL two_vias via_x via_y]. unfold two_vias. cbn [t far_job tech0 horizontal via_x via_y]. split; [intros _; destruct (Z.odd m); assumption|left; assumption].
Qed.
(** The last check of a path accepts two vias which the first one refuses. *)
Theorem C99_check_refuted : exists j par, wf j /\ par 1%nat = Some 4%nat /\ prime j par (source j) 4 1 = Some false /\ Extention_check j par (source j) 1 = Some true.
Proof.
  exists near_job, (fun u => match u with 1 => Some 4 | 4 => Some 3 | 3 => Some 0 | _ => None end%nat). split; [apply grid_ok_wf; reflexivity|]. repeat split; vm_compute; reflexivity.
Qed.
(** For a shielded net the first and last node of a path and its first and last label are dropped; then there are fewer labels than lines. *)
Theorem C99_shield_refuted : exists j p, consecutive (next j) p /\ length (labels j p) = length (physical j p) /\ (length (shielding (labels j p)) < length (physical j (shielding p)))%nat.
Proof.
  exists near_job, [4; 5; 6; 2]%nat. split.
  - intros a x y b E. apply (steps_ok_all (Job (g near_job) (t near_job) 0 0 [] [] []) [4; 5; 6; 2]%nat ltac:(reflexivity) a x y b E).
  - split; [reflexivity|]. vm_compute. lia.
Qed.

Example C99_nonvacuous : exists j s p ls, wf j /\ has_vias j /\ clean s /\ free j /\ fst (A_star 50 j s) = Path p ls /\ p = [0; 3; 4; 5; 6; 2]%nat /\ ls = [0; 0; 0] /\
  physical j p = [Line 0 1 0 1 0; Line 1 1 0 4 0; Line 0 4 0 4 0].
Proof.
  exists (Job (g near_job) (tech0 (fun _ => 1%Q) (fun _ => Some 1%Q) 0) 0 0 [0%nat] [2%nat] []), blank. do 2 eexists. split; [apply grid_ok_wf; reflexivity|]. split; [intros u _; discriminate|]. split; [apply blank_clean|]. split; [intros m; cbn; lia|]. split; [vm_compute; reflexivity|]. repeat split.
Qed.

Print Assumptions C99_ends.
Print Assumptions C99_path.
Print Assumptions C99_lines.
Print Assumptions C99_complete.
Print Assumptions C99_top_refuted.
Print Assumptions C99_complete_refuted.
Print Assumptions C99_best_refuted.
Print Assumptions C99_check_refuted.
Print Assumptions C99_shield_refuted.
