(** C94: the placement constraints on their way to the placer and back. *)
From Coq Require Import String ZArith QArith Qround Lqa ZifyBool.
From Verif Require Import Base.Prelude Model.Transformation Model.SeqPair Model.ConstraintDB Model.Formulas Model.SeqEnum Model.SymmGroup
  Model.KeepOrder Model.SeqCheck Model.PlaceRows Model.ReadCon Spec.SeqEnumSpec Spec.SymmGroupSpec Spec.SeqCheckSpec Spec.PlaceRowsSpec
  Spec.ReadConSpec Proofs.SeqEnumP Proofs.SymmGroupP Proofs.KeepOrderP Proofs.PlaceRowsP Proofs.PlaceMainP Proofs.ReadConP Proofs.ReadConCpP
  Proofs.ReadConMainP Props.C92.
Local Open Scope Z_scope.

(** A design is built exactly if all directions and lines are among those that the placer knows ... *)
Theorem C94_written names scale d0 h0 cs : (exists d, build names scale d0 h0 cs = Some d) <-> forall c, In c cs -> supported c.
Proof.
  rewrite write_supported. unfold build. split.
  - intros [d H]. destruct (write cs) as [js|]; [eauto|discriminate].
  - intros [js ->]. cbn. eauto.
Qed.
(** ... and it is one to which C92 applies. *)
Theorem C94_sane names scale d0 h0 cs d : usable names scale d0 cs -> build names scale d0 h0 cs = Some d -> sane d.
Proof.
  intros [] H. eapply built_sane; eauto.
Qed.

(** The placement that a solution of the integer program gives meets, when it is checked in
    nanometres, the formula of each constraint of the user: of orders always, of alignments at an edge always and in the middle
    for even boxes, of spreads unless the blocks abut or a later spread has a smaller distance, of
    symmetric blocks for sizes that need no rounding, of a boundary if it is the last one and
    given in half nanometres. *)
Theorem C94_kept names scale d0 d h0 early c later pos neg flush snap prev cur a raw :
  let cs := early ++ UHard c :: later in
  usable names scale d0 cs -> build names scale d0 h0 cs = Some d ->
  sequences (length (i_blocks d)) pos neg -> (forall o, In o (i_orders d) -> keeps pos neg o) ->
  solution d pos neg flush snap prev cur a -> inside d (fp (solved d a)) -> seen names d (fp (solved d a)) raw ->
  fine cs later raw c -> ztranslate names c (checked raw).
Proof.
  intros cs U B Hs Ho Ha Hi Hr Hf. pose proof (C94_sane _ _ _ _ _ _ U B) as Hd. destruct U. eapply kept; eauto.
Qed.

(** Finding: 'horizontal' and 'vertical', which allow both directions, are read as 'left_to_right' and 'top_to_bottom'. *)
Theorem C94_direction names scale d0 h0 early later abut xs :
  build names scale d0 h0 (early ++ UHard (HOrder OHoriz abut xs) :: later) = build names scale d0 h0 (early ++ UHard (HOrder OLR abut xs) :: later) /\
  build names scale d0 h0 (early ++ UHard (HOrder OVert abut xs) :: later) = build names scale d0 h0 (early ++ UHard (HOrder OTB abut xs) :: later).
Proof.
  assert (forall u v, wr u = wr v -> write (early ++ u :: later) = write (early ++ v :: later)) as H.
  { intros u v E. induction early as [|e l IH]; cbn [app write]; [now rewrite E|now rewrite IH]. }
  unfold build. split; f_equal; now apply H.
Qed.

(** The orders that the placer adds exclude nothing: they follow from the given ones if the pairs have vertical
    axes and the aligned blocks the heights of their first variants. *)
Theorem C94_added P syms h0 als x a b :
  (forall g, In g syms -> g_pairs g <> [] -> g_axis g = DirV) -> (forall g, In g syms -> mirrored P g) ->
  (forall u, In u als -> (al_line u <= 2)%nat /\ in_line P u) -> (forall u i, In u als -> In i (al_blocks u) -> ph P i = h0 i) ->
  in_order P x a b -> forall a' b' x', In (a', b', x') (pair_orders (cp_of syms) h0 als x (a, b)) -> in_order P x' a' b'.
Proof. apply added_kept. Qed.

Lemma built_order names scale d0 d h0 cs dr abut xs x y z : build names scale d0 h0 cs = Some d -> NoDup names -> known names cs ->
  In (UHard (HOrder dr abut xs)) cs -> dr = OTB \/ dr = OVert -> In (x, y) (pairwise xs) ->
  exists i j, nth_error names i = Some x /\ nth_error names j = Some y /\
   (forall o, In o (pair_orders (cp_of (i_syms d)) h0 (i_aligns d) DirV (i, j)) -> In o (i_orders d)) /\
   (abut = z -> z = true -> In (i, j, DirV) (i_abuts d)).
Proof.
  intros B N K Hc Hd Hp. unfold build in B. destruct (write cs) as [js|] eqn:W; [|discriminate]. cbn [option_map] in B. injection B as <-.
  assert (In (JOrder false abut xs) js) as Hj by (apply (write_in cs js _ W); exists (UHard (HOrder dr abut xs)), [JOrder false abut xs]; split; [exact Hc|]; split; [destruct Hd as [->| ->]; reflexivity|now left]).
  destruct (pairwise_map2 _ _ _ _ _ (blocks_of_all names xs N (fun n h => K _ n Hc h)) Hp) as (i & j & Hij & Bi & Bj). exists i, j. split; [exact Bi|]. split; [exact Bj|].
  cbn [design_of i_orders i_abuts i_syms i_aligns]. split.
  - intros o Ho. apply in_flat_map. exists (blocks_of names xs, DirV). split.
    + rewrite read_orders. apply in_or_app. right. apply in_flat_map. exists (JOrder false abut xs). split; [exact Hj|now left].
    + apply in_flat_map. exists (i, j). auto.
  - intros -> ->. apply in_flat_map. exists (blocks_of names xs, DirV). split.
    + rewrite read_abuts. apply in_or_app. right. apply in_flat_map. exists (JOrder false true xs). split; [exact Hj|now left].
    + apply in_map_iff. exists (i, j). auto.
Qed.

(** Finding: the partner of a block is ordered like the block also if the axis is horizontal.
    A block that is ordered between the two blocks of a pair makes the program infeasible. *)
Theorem C94_between names scale d0 d h0 cs dr abut xs x y z i k : usable names scale d0 cs -> build names scale d0 h0 cs = Some d ->
  In (UHard (HOrder dr abut xs)) cs -> dr = OTB \/ dr = OVert -> In (x, y) (pairwise xs) -> In (y, z) (pairwise xs) -> x <> y -> x <> z ->
  nth_error names i = Some x -> nth_error names k = Some z -> cp_of (i_syms d) k = Some i ->
  forall pos neg flush snap prev cur a, ~ solution d pos neg flush snap prev cur a.
Proof.
  intros U B Hc Hdr Hp1 Hp2 Nxy Nxz Bi Bk Hcp pos neg flush snap prev cur a Ha. pose proof (C94_sane _ _ _ _ _ _ U B) as Hd. destruct U.
  destruct (built_order names scale d0 d h0 cs dr abut xs x y true B u_names u_known Hc Hdr Hp1) as (i1 & j1 & B1 & B2 & O1 & _).
  destruct (built_order names scale d0 d h0 cs dr abut xs y z true B u_names u_known Hc Hdr Hp2) as (j2 & k2 & B3 & B4 & O2 & _).
  assert (forall n p q, nth_error names p = Some n -> nth_error names q = Some n -> p = q) as Inj.
  { intros n p q H1 H2. apply find_block_nth in H1, H2; auto. congruence. }
  pose proof (Inj _ _ _ B1 Bi) as E1. pose proof (Inj _ _ _ B4 Bk) as E2. pose proof (Inj _ _ _ B3 B2) as E3. subst i1 k2 j2.
  assert (i <> j1) as N1 by (intros ->; congruence). assert (i <> k) as N2 by (intros ->; congruence).
  pose proof (sol_ordered d pos neg flush snap prev cur a Hd Ha) as Q.
  assert (In (i, j1, DirV) (i_orders d)) as Q1 by (apply O1; now left).
  assert (In (j1, i, DirV) (i_orders d)) as Q2.
  { apply O2. cbn [pair_orders]. right. rewrite Hcp. apply in_or_app. right. apply in_or_app. left.
    apply Nat.eqb_neq in N1, N2. rewrite N1, N2. now left. }
  pose proof (Q _ _ _ Q1) as R1. pose proof (Q _ _ _ Q2) as R2. cbn [solved fp px py pw ph] in R1, R2.
  destruct (s_orders d Hd _ _ _ Q1) as [L1 L2]. pose proof (s_size d Hd _ L1). pose proof (s_size d Hd _ L2). lia.
Qed.

Definition three (hb : Z) (box : Z) : idesign :=
  IDesign [square 4; IBlock 4 hb 0 0 1 [] 1 [] []; square 4] [] [] [] [] [] (fun _ _ _ => 0) 0 0 1 1 0 0 box box.
Definition abc : list string := ["A"; "B"; "C"]%string.
Lemma abc_usable hb box cs : 0 < hb -> known abc cs -> (forall h v z, In (UDist h v z) cs -> 0 <= z) ->
  (forall mw mh hh hv, In (UHard (HBoundary mw mh hh hv)) cs -> (0 <= hh /\ 0 <= hv)%Q) -> usable abc 1 (three hb box) cs.
Proof.
  intros H K D B. split; auto; try (cbn; lia).
  - repeat constructor; cbn; intuition discriminate.
  - intros i Hi. cbn in Hi. destruct i as [|[|[|]]]; cbn; lia.
Qed.
Definition stack_cs : list ucon := [UHard (HSymm false [["A"; "C"]]); UHard (HOrder OTB false ["A"; "B"; "C"])]%string.
Definition raw3 (a b c : Rect) (box : Z) : boxes := fun n =>
  if String.eqb n "A" then a else if String.eqb n "B" then b else if String.eqb n "C" then c else mkRect 0 0 box box.
Ltac in_abc := let i := fresh "i" in intros i ?; destruct i as [|[|[|i]]]; try discriminate.
Theorem C94_between_refuted : exists names scale d0 h0 cs d raw, usable names scale d0 cs /\ (forall i, h0 i = bh d0 i) /\ build names scale d0 h0 cs = Some d /\ acceptable names d cs raw /\
  forall pos neg flush snap prev cur a, ~ solution d pos neg flush snap prev cur a.
Proof.
  assert (usable abc 1 (three 4 12) stack_cs) as U.
  { apply abc_usable; [lia| | |]; unfold known; cbn; intuition; subst; cbn in *; try discriminate; tauto. }
  set (d := match build abc 1 (three 4 12) (bh (three 4 12)) stack_cs with Some d => d | None => three 4 12 end).
  exists abc, 1, (three 4 12), (bh (three 4 12)), stack_cs, d, (raw3 (mkRect 0 8 4 12) (mkRect 0 4 4 8) (mkRect 0 0 4 4) 12).
  split; [exact U|]. split; [reflexivity|]. split; [reflexivity|]. split.
  - split; [|split; [reflexivity|split; [|split]]].
    + intros [|[|[|i]]] n E; try (cbn in E; injection E as <-; vm_compute; auto). destruct i; discriminate.
    + intros n [<-|[<-|[<-|[]]]]; vm_compute; repeat split; discriminate.
    + intros n m Hnm. vm_compute in Hnm. unfold zapart. destruct Hnm as [E|[E|[E|[]]]]; injection E as <- <-; right; right; right; vm_compute; discriminate.
    + intros c [E|[E|[]]]; injection E as <-.
      * split; [|constructor]. constructor; [|constructor]. vm_compute; split; discriminate.
      * repeat constructor; vm_compute; discriminate.
  - apply (C94_between abc 1 (three 4 12) d (bh (three 4 12)) stack_cs OTB false ["A"; "B"; "C"]%string "A" "B" "C" 0%nat 2%nat U); try reflexivity; cbn; auto; discriminate.
Qed.

(** Finding: the heights that decide about the added orders are those of the first variants, not of the selected ones. *)
Definition variant_cs : list ucon := [UHard (HAlign HTop ["A"; "B"]); UHard (HOrder OTB false ["A"; "C"])]%string.
Theorem C94_variant_refuted : exists names scale d0 h0 cs d raw, usable names scale d0 cs /\ build names scale d0 h0 cs = Some d /\ acceptable names d cs raw /\
  forall pos neg flush snap prev cur a, solution d pos neg flush snap prev cur a -> ~ (forall i n, nth_error names i = Some n -> raw n = box_at (fp (solved d a)) i).
Proof.
  assert (usable abc 1 (three 12 12) variant_cs) as U.
  { apply abc_usable; [lia| | |]; unfold known; cbn; intuition; subst; cbn in *; try discriminate; tauto. }
  set (h0 := fun i : nat => nth i [8; 4; 8] 0).
  set (d := match build abc 1 (three 12 12) h0 variant_cs with Some d => d | None => three 12 12 end).
  exists abc, 1, (three 12 12), h0, variant_cs, d, (raw3 (mkRect 0 8 4 12) (mkRect 4 0 8 12) (mkRect 0 0 4 4) 12).
  split; [exact U|]. split; [reflexivity|]. split.
  - split; [|split; [reflexivity|split; [|split]]].
    + intros [|[|[|i]]] n E; try (cbn in E; injection E as <-; vm_compute; auto). destruct i; discriminate.
    + intros n [<-|[<-|[<-|[]]]]; vm_compute; repeat split; discriminate.
    + intros n m Hnm. vm_compute in Hnm. unfold zapart. destruct Hnm as [E|[E|[E|[]]]]; injection E as <- <-; [left|right; right; right|right; left]; vm_compute; discriminate.
    + intros c [E|[E|[]]]; injection E as <-.
      * repeat constructor.
      * repeat constructor; vm_compute; discriminate.
  - intros pos neg flush snap prev cur a Ha E. pose proof (C94_sane _ _ _ _ _ d U eq_refl) as Hd.
    pose proof (sol_ordered d pos neg flush snap prev cur a Hd Ha 1%nat 2%nat DirV) as Q.
    assert (In (1%nat, 2%nat, DirV) (i_orders d)) as Hin by (vm_compute; auto). specialize (Q Hin).
    pose proof (E 1%nat "B"%string eq_refl) as E1. pose proof (E 2%nat "C"%string eq_refl) as E2. unfold box_at in E1, E2.
    set (P := fp (solved d a)) in *. change (mkRect 4 0 8 12 = mkRect (px P 1) (py P 1) (px P 1 + pw P 1) (py P 1 + ph P 1)) in E1.
    change (mkRect 0 0 4 4 = mkRect (px P 2) (py P 2) (px P 2 + pw P 2) (py P 2 + ph P 2)) in E2. change (a_int a (VY 2) + bh d 2 <= a_int a (VY 1)) in Q. injection E1 as _ Y1 _ _. injection E2 as _ Y2 _ Z2. clear - Q Y1 Z2. lia.
Qed.

(** Finding: of two spreads for the same blocks and direction the last one stays, not the larger one. *)
Definition spread_cs : list ucon := [UHard (HSpread true 10 ["A"; "B"]); UHard (HSpread true 1 ["A"; "B"])]%string.
Theorem C94_spread_refuted : exists names scale d0 h0 cs d pos neg cur a raw c, usable names scale d0 cs /\ build names scale d0 h0 cs = Some d /\
  sequences (length (i_blocks d)) pos neg /\ solution d pos neg true false None cur a /\ seen names d (fp (solved d a)) raw /\
  In (UHard c) cs /\ ~ ztranslate names c (checked raw).
Proof.
  assert (usable abc 1 (three 4 40) spread_cs) as U.
  { apply abc_usable; [lia| | |]; unfold known; cbn; intuition; subst; cbn in *; try discriminate; tauto. }
  set (d := match build abc 1 (three 4 40) (bh (three 4 40)) spread_cs with Some d => d | None => three 4 40 end).
  exists abc, 1, (three 4 40), (bh (three 4 40)), spread_cs, d, [0; 1; 2]%nat, [0; 1; 2]%nat, (fun _ => (0, 0)).
  exists (Assign (fun v => match v with VX i => nth i [0; 6; 10] 0 | _ => 0 end) (fun _ => inject_Z 20)).
  exists (fun n => if String.eqb n "A" then mkRect 0 0 4 4 else if String.eqb n "B" then mkRect 6 0 10 4 else if String.eqb n "C" then mkRect 10 0 14 4 else mkRect 0 0 14 4).
  exists (HSpread true 10 ["A"; "B"]%string). split; [exact U|]. split; [reflexivity|].
  split. { split; [repeat constructor; cbn; lia|split; [repeat constructor; cbn; lia|]]. intros i Hi. cbn in Hi. cbn. lia. }
  split; [apply solution_check; vm_compute; reflexivity|]. split.
  - split.
    + intros [|[|[|i]]] n E; try (cbn in E; injection E as <-; reflexivity). destruct i; discriminate.
    + exists 14, 4. split; [reflexivity|]. split; (split; [intros i Hi; destruct i as [|[|[|]]]; cbn in Hi |- *; lia|]); [exists 2%nat|exists 0%nat]; split; cbn; try lia; reflexivity.
  - split; [now left|]. intros H. cbn [ztranslate combos app map] in H. apply Forall_inv in H. vm_compute in H.
    destruct (H ltac:(split; reflexivity)) as [_ H2]. apply H2. reflexivity.
Qed.

(** Finding: of a vertical order with abutment there is no solution, if there is a spacing. *)
Theorem C94_stack names scale d0 d h0 cs dr xs x y : usable names scale d0 cs -> build names scale d0 h0 cs = Some d ->
  In (UHard (HOrder dr true xs)) cs -> dr = OTB \/ dr = OVert -> In (x, y) (pairwise xs) -> 0 < i_bias_h d ->
  forall pos neg, sequences (length (i_blocks d)) pos neg -> (forall o, In o (i_orders d) -> keeps pos neg o) ->
  forall flush snap prev cur a, ~ solution d pos neg flush snap prev cur a.
Proof.
  intros U B Hc Hdr Hp Hb pos neg Hs Hk. pose proof (C94_sane _ _ _ _ _ _ U B) as Hd. destruct U.
  destruct (built_order names scale d0 d h0 cs dr true xs x y true B u_names u_known Hc Hdr Hp) as (i & j & B1 & B2 & O1 & A1).
  assert (In (i, j, DirV) (i_orders d)) as Q1 by (apply O1; now left). specialize (A1 eq_refl eq_refl).
  apply (C92_stack d pos neg i j Hd Hs Q1 A1); [|exact (Hk _ Q1)|now left].
  intros H. assert (incl (i_abuts d) (i_orders d)) as Inc.
  { unfold build in B. destruct (write cs) as [js|] eqn:W; [|discriminate]. cbn [option_map] in B. injection B as <-. intros o Hin.
    cbn [design_of i_abuts i_orders] in *. apply in_flat_map in Hin. destruct Hin as (u & Hu & Hin). apply in_map_iff in Hin. destruct Hin as ([p q] & <- & Hin).
    apply in_flat_map. exists u. split; [|apply in_flat_map; exists (p, q); split; [exact Hin|now left]].
    rewrite read_abuts in Hu. rewrite read_orders. cbn [start nd_abuts nd_orders app] in *. apply in_flat_map in Hu. destruct Hu as (jj & Hj & Hu). apply in_flat_map. exists jj. split; [exact Hj|].
    destruct jj as [h [] bs| | | | |]; try exact Hu. destruct Hu. }
  pose proof (Hk _ (Inc _ H)) as [K1 _]. pose proof (Hk _ Q1) as [K2 _]. destruct Hs as (N & _). apply precedes_at in K1, K2; auto. cbn in K1, K2. lia.
Qed.

Definition abut_cs : list ucon := [UDist true true 2; UHard (HOrder OTB true ["A"; "B"])]%string.
Example C94_stack_nonvacuous : exists d, usable abc 1 (three 4 40) abut_cs /\ build abc 1 (three 4 40) (bh (three 4 40)) abut_cs = Some d /\
  In ("A", "B")%string (pairwise ["A"; "B"]%string) /\ 0 < i_bias_h d /\ sequences (length (i_blocks d)) [0; 1; 2]%nat [1; 0; 2]%nat /\
  forall o, In o (i_orders d) -> keeps [0; 1; 2]%nat [1; 0; 2]%nat o.
Proof.
  eexists. split; [|split; [reflexivity|]].
  { apply abc_usable; [lia| | |].
    - unfold known; cbn; intuition; subst; cbn in *; tauto.
    - intros h v z [E|[E|[]]]; [injection E as <- <- <-; lia|discriminate].
    - intros ? ? ? ? [E|[E|[]]]; discriminate. }
  split; [now left|]. split; [reflexivity|]. split.
  { split; [repeat constructor; cbn; lia|split; [repeat constructor; cbn; lia|]]. intros i Hi. cbn in Hi. cbn. lia. }
  intros o Ho. vm_compute in Ho. destruct Ho as [<-|[]]; cbn; (split; apply at_precedes; [repeat constructor; cbn; lia|cbn; auto|cbn; auto|cbn; lia]).
Qed.

(** A pair with a self-symmetric block under it, ordered, aligned, spread and in a tight boundary: all the formulae hold. *)
Definition all_cs : list ucon :=
  [UHard (HSymm true [["A"; "C"]; ["B"]]); UHard (HOrder OTB false ["A"; "B"]); UHard (HAlign HBottom ["A"; "C"]); UHard (HSpread true 2 ["A"; "C"]);
   UHard (HBoundary (8 # 1000) (6 # 1000) 0 0); UDist true true 2]%string.
Definition all_d0 : idesign := IDesign [square 4; IBlock 8 4 0 0 1 [] 1 [] []; square 4] [] [] [] [] [] (fun _ _ _ => 0) 0 0 1 1 0 0 100 100.
Definition all_d : idesign := match build abc 1 all_d0 (bh all_d0) all_cs with Some d => d | None => all_d0 end.
Definition all_sol : assign :=
  Assign (fun v => match v with VX i => nth i [0; 4; 12] 0 | VY i => nth i [8; 0; 8] 0 | VH i => nth i [0; 0; 1] 0 | _ => 0 end) (fun _ => inject_Z 20).
Definition all_raw : boxes := fun n =>
  if String.eqb n "A" then mkRect 0 8 4 12 else if String.eqb n "B" then mkRect 4 0 12 4 else if String.eqb n "C" then mkRect 12 8 16 12 else mkRect 0 0 16 12.
Example C94_kept_nonvacuous : usable abc 1 all_d0 all_cs /\ build abc 1 all_d0 (bh all_d0) all_cs = Some all_d /\
  sequences (length (i_blocks all_d)) [0; 2; 1]%nat [1; 0; 2]%nat /\ (forall o, In o (i_orders all_d) -> keeps [0; 2; 1]%nat [1; 0; 2]%nat o) /\
  solution all_d [0; 2; 1]%nat [1; 0; 2]%nat true false None (fun _ => (0, 0)) all_sol /\ seen abc all_d (fp (solved all_d all_sol)) all_raw /\
  i_orders all_d = [(0, 1, DirV); (2, 1, DirV); (2, 1, DirV)]%nat /\
  forall c, In (UHard c) all_cs -> ztranslate abc c (checked all_raw).
Proof.
  assert (usable abc 1 all_d0 all_cs) as U.
  { split; try (cbn; lia); try reflexivity.
    - repeat constructor; cbn; intuition discriminate.
    - unfold known; cbn; intuition; subst; cbn in *; tauto.
    - intros i Hi. cbn in Hi. destruct i as [|[|[|]]]; cbn; lia.
    - intros h v z Hin. cbn in Hin. repeat (destruct Hin as [Hin|Hin]; [try discriminate Hin; try (injection Hin as <- <- <-; lia)|]). destruct Hin.
    - intros ? ? ? ? Hin. cbn in Hin. repeat (destruct Hin as [Hin|Hin]; [try discriminate Hin; try (injection Hin as <- <- <- <-; split; vm_compute; discriminate)|]). destruct Hin. }
  assert (sequences 3 [0; 2; 1]%nat [1; 0; 2]%nat) as S. { split; [repeat constructor; cbn; lia|split; [repeat constructor; cbn; lia|]]. intros i Hi. cbn. lia. }
  assert (forall o, In o (i_orders all_d) -> keeps [0; 2; 1]%nat [1; 0; 2]%nat o) as K.
  { intros o Ho. vm_compute in Ho. destruct Ho as [<-|[<-|[<-|[]]]]; cbn; (split; apply at_precedes; [repeat constructor; cbn; lia|cbn; auto|cbn; auto|cbn; lia]). }
  assert (solution all_d [0; 2; 1]%nat [1; 0; 2]%nat true false None (fun _ => (0, 0)) all_sol) as Sol by (apply solution_check; vm_compute; reflexivity).
  assert (seen abc all_d (fp (solved all_d all_sol)) all_raw) as See.
  { split.
    - intros [|[|[|i]]] n E; try (cbn in E; injection E as <-; reflexivity). destruct i; discriminate.
    - exists 16, 12. split; [reflexivity|]. split; (split; [intros i Hi; destruct i as [|[|[|]]]; cbn in Hi |- *; lia|]); [exists 2%nat|exists 0%nat]; split; cbn; try lia; reflexivity. }
  split; [exact U|]. split; [reflexivity|]. split; [exact S|]. split; [exact K|]. split; [exact Sol|]. split; [exact See|]. split; [reflexivity|].
  assert (forall early c later, all_cs = early ++ UHard c :: later -> fine all_cs later all_raw c -> ztranslate abc c (checked all_raw)) as Go.
  { intros early c later E Hf. eapply (C94_kept abc 1 all_d0 all_d (bh all_d0) early c later); [rewrite <- E; exact U|rewrite <- E; reflexivity|exact S|exact K|exact Sol|apply (C92_inside _ _ _ _ _ Sol)|exact See|rewrite <- E; exact Hf]. }
  intros c [E|[E|[E|[E|[E|[E|[]]]]]]]; try discriminate; injection E as <-.
  - apply (Go [] _ _ eq_refl). split; [|split; [|split]].
    + cbn. intuition; subst; intros []; vm_compute; auto.
    + cbn. intuition; subst; auto.
    + intros x y [Hin|[Hin|[]]]; try discriminate Hin. injection Hin as <- <-. reflexivity.
    + exists 0. split; [intros x y [Hin|[Hin|[]]]|intros x [Hin|[Hin|[]]]]; try discriminate Hin; [injection Hin as <- <-|injection Hin as <-]; reflexivity.
  - apply (Go [_] _ _ eq_refl). exact I.
  - apply (Go [_; _] _ _ eq_refl). exact I.
  - apply (Go [_; _; _] _ _ eq_refl). split; [repeat constructor; cbn; intuition discriminate|]. split.
    + intros x y _ _ (dr & xs & Hx & _). repeat (destruct Hx as [Hx|Hx]; [discriminate Hx|]); destruct Hx.
    + intros ? ? ? ? Hx. repeat (destruct Hx as [Hx|Hx]; [discriminate Hx|]); destruct Hx.
  - apply (Go [_; _; _; _] _ _ eq_refl). split.
    + intros ? ? ? ? Hx. repeat (destruct Hx as [Hx|Hx]; [discriminate Hx|]); destruct Hx.
    + repeat constructor; [exists 16|exists 12|exists 0|exists 0]; reflexivity.
Qed.

Example C94_added_nonvacuous : let P := fp (solved all_d all_sol) in
  (forall g, In g (i_syms all_d) -> mirrored P g) /\ (forall u, In u (i_aligns all_d) -> (al_line u <= 2)%nat /\ in_line P u) /\ in_order P DirV 0 1 /\
  pair_orders (cp_of (i_syms all_d)) (bh all_d0) (i_aligns all_d) DirV (0, 1)%nat = [(0, 1, DirV); (2, 1, DirV); (2, 1, DirV)]%nat.
Proof.
  intros P. split; [|split; [|split; [vm_compute; discriminate|reflexivity]]].
  - intros g [<-|[]]. exists 16. intros x [<-|[<-|[]]]; vm_compute; auto.
  - intros u [<-|[]]. split; [vm_compute; auto|]. intros p q Hp Hq. vm_compute in Hp, Hq. destruct Hp as [<-|[<-|[]]], Hq as [<-|[<-|[]]]; reflexivity.
Qed.

(** A general distance is kept: the last one of each direction, between blocks that do not abut. *)
Lemma read_bias names scale js : forall n,
  ((forall h v z, In (JBias h v z) js -> h = false) -> nd_bias_h (read names scale n js) = nd_bias_h n) /\
  ((forall h v z, In (JBias h v z) js -> v = false) -> nd_bias_v (read names scale n js) = nd_bias_v n).
Proof.
  induction js as [|j js IH]; intros n; [now split|]. cbn [read fold_left]. destruct (IH (read1 names scale n j)) as [A B]. split; intros H.
  - change (nd_bias_h (read names scale (read1 names scale n j) js) = nd_bias_h n). rewrite A by (intros h v z Hi; apply (H h v z); now right). destruct n, j as [| | | |h v z|]; try reflexivity. cbn. specialize (H h v z (or_introl eq_refl)). now subst h.
  - change (nd_bias_v (read names scale (read1 names scale n j) js) = nd_bias_v n). rewrite B by (intros h v z Hi; apply (H h v z); now right). destruct n, j as [| | | |h v z|]; try reflexivity. cbn. specialize (H h v z (or_introl eq_refl)). now subst v.
Qed.
Lemma write_bias cs js h v z : write cs = Some js -> In (JBias h v z) js -> In (UDist h v z) cs.
Proof.
  intros W H. apply (write_in cs js _ W) in H. destruct H as ([c|h' v' z'] & l & Hc & Wl & Hl).
  - exfalso. destruct c as [d ? ?|? ?|? ? ?| | |? ? ? ?|? ?|]; try destruct d; try discriminate; cbn in Wl;
    repeat match type of Wl with context [match ?x with _ => _ end] => destruct x; try discriminate end; injection Wl as <-; cbn in Hl; intuition discriminate.
  - injection Wl as <-. destruct Hl as [E|[]]. now injection E as -> -> ->.
Qed.
Theorem C94_distance names scale d0 d h0 early h v z later pos neg flush snap prev cur a x y :
  let cs := early ++ UDist h v z :: later in let P := fp (solved d a) in let need := Z.quot (2 * z) scale in
  usable names scale d0 cs -> build names scale d0 h0 cs = Some d -> sequences (length (i_blocks d)) pos neg -> solution d pos neg flush snap prev cur a ->
  (x < length (i_blocks d))%nat -> (y < length (i_blocks d))%nat ->
  (h = true -> (forall h' v' z', In (UDist h' v' z') later -> h' = false) -> left_of pos neg x y -> ~ In (x, y, DirH) (i_abuts d) -> need <= px P y - (px P x + pw P x)) /\
  (v = true -> (forall h' v' z', In (UDist h' v' z') later -> v' = false) -> above pos neg x y -> ~ In (x, y, DirV) (i_abuts d) -> need <= py P x - (py P y + ph P y)).
Proof.
  intros cs P need U B Hs Ha Hx Hy. pose proof (C94_sane _ _ _ _ _ _ U B) as Hd. destruct (C92_sound d pos neg flush snap prev cur a Hd Hs Ha) as (_ & A & _). destruct (A x y Hx Hy) as [AH AV].
  unfold build in B. destruct (write cs) as [js|] eqn:W; [|discriminate]. cbn in B. injection B as B. unfold cs in W. destruct (proj1 (write_app early (UDist h v z :: later) js) W) as (j1 & j2 & _ & Wl & ->). cbn [write wr] in Wl. destruct (write later) as [jl|] eqn:Wj; [|discriminate]. injection Wl as <-.
  assert (forall n js', read names scale n (j1 ++ js') = read names scale (read names scale n j1) js') as Ra by (intros; apply fold_left_app). rewrite Ra in B. set (n := read names scale (start d0) j1) in *. clearbody n. cbn [app read fold_left] in B. change (fold_left (read1 names scale) jl) with (fun n => read names scale n jl) in B. cbv beta in B.
  destruct (read_bias names scale jl (read1 names scale n (JBias h v z))) as [RH RV].
  split; intros E Hl Ho Hn.
  - assert (i_bias_h d = need) as Eb. { rewrite <- B. cbn [design_of i_bias_h]. rewrite RH by (intros h' v' z' Hi; apply (Hl h' v' z'), (write_bias _ _ _ _ _ Wj Hi)). destruct n. cbn. rewrite E. unfold need. f_equal. lia. }
    destruct (proj2 (AH Ho) Hn) as (_ & m & Hm). fold P in Hm. lia.
  - assert (i_bias_v d = need) as Eb. { rewrite <- B. cbn [design_of i_bias_v]. rewrite RV by (intros h' v' z' Hi; apply (Hl h' v' z'), (write_bias _ _ _ _ _ Wj Hi)). destruct n. cbn. rewrite E. unfold need. f_equal. lia. }
    destruct (proj2 (AV Ho) Hn) as (_ & m & Hm). fold P in Hm. lia.
Qed.

Example C94_distance_nonvacuous : let P := fp (solved all_d all_sol) in px P 2 - (px P 0 + pw P 0) = 8 /\ 4 <= py P 0 - (py P 1 + ph P 1).
Proof.
  destruct C94_kept_nonvacuous as (U & B & S & _ & Sol & _).
  pose proof (fun x y => C94_distance abc 1 all_d0 all_d (bh all_d0) (firstn 5 all_cs) true true 2 [] _ _ _ _ _ _ _ x y U B S Sol) as D. split; [reflexivity|].
  destruct (D 0%nat 1%nat) as [_ V]; [cbn; lia|cbn; lia|]. apply (V eq_refl).
  - intros ? ? ? [].
  - split; apply at_precedes; cbn; auto; repeat constructor; cbn; lia.
  - vm_compute. intuition discriminate.
Qed.

Print Assumptions C94_written.
Print Assumptions C94_sane.
Print Assumptions C94_kept.
Print Assumptions C94_distance.
Print Assumptions C94_direction.
Print Assumptions C94_added.
Print Assumptions C94_between.
Print Assumptions C94_between_refuted.
Print Assumptions C94_variant_refuted.
Print Assumptions C94_spread_refuted.
Print Assumptions C94_stack.
Print Assumptions C94_kept_nonvacuous.
