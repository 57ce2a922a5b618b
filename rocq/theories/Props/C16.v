(** C16, exact form: which vias the adjacent-via check of align/cell_fabric/drc.py:99-139 reports. *)
From Coq Require Import String Ascii.
From Verif Require Import Base.Prelude Base.PyDict Model.Transformation Model.PySort Model.Grid Model.RemoveDuplicates
  Model.Drc Spec.RemoveDuplicatesSpec Spec.GridSpec Spec.DrcSpec Proofs.PySortP Proofs.GridP Proofs.DrcP Proofs.DrcRunP
  Props.C06_C08 Props.C14 Props.C15_C16.
From Coq Require Import ZifyBool.
Local Open Scope Z_scope.

(** The length a run must exceed to be reported: the limit for a run that starts the line, one
    more for any other. *)
Definition reported_above {A} (before : list A) (max : Z) : Z := match before with [] => max | _ => max + 1 end.

(** The line [sl] has a run ending with [r] that is long enough to be reported. *)
Definition long_run (g : Grid) (centre2 : Rect -> Z) (max : Z) (sl : list Rect) (r : Rect) : Prop :=
  exists before seg rest ks, sl = before ++ seg ++ r :: rest /\
    positions g centre2 (seg ++ [r]) ks /\ consecutive ks /\
    reported_above before max < Z.of_nat (List.length (seg ++ [r])).

(** ** The counting loop *)

(** The state after some vias. *)
Fixpoint after {A} (st : option (Z * Z)) (l : list (Z * A)) : option (Z * Z) :=
  match l with
  | [] => st
  | (i, _) :: tl =>
      after (Some (i, match st with None => 1 | Some (p, c) => if i - p =? 1 then c + 1 else 0 end)) tl
  end.

Lemma after_app {A} st (l m : list (Z * A)) : after st (l ++ m) = after (after st l) m.
Proof. revert st; induction l as [|[i a] l IH]; intros st; [reflexivity|]. simpl. apply IH. Qed.

Lemma loop_app {A} max st (l m : list (Z * A)) : count_loop max st (l ++ m) = count_loop max st l ++ count_loop max (after st l) m.
Proof.
  revert st; induction l as [|[i a] l IH]; intros st; [reflexivity|]. cbn [app count_loop after]. rewrite IH, app_assoc. reflexivity.
Qed.

(** Reports in terms of the count at a via. *)
Lemma loop_in {A} max st (l : list (Z * A)) a :
  In a (count_loop max st l) <-> exists l0 q l1 c, l = l0 ++ (q, a) :: l1 /\ after st (l0 ++ [(q, a)]) = Some (q, c) /\ max < c.
Proof.
  split.
  - revert st; induction l as [|[i x] l IH]; intros st H; [destruct H|]. cbn [count_loop] in H.
    apply in_app_iff in H. destruct H as [H|H].
    + destruct (max <? _) eqn:E in H; [|destruct H]. destruct H as [<-|[]].
      exists [], i, l. eexists. split; [reflexivity|]. split; [reflexivity|lia].
    + apply IH in H. destruct H as (l0 & q & l1 & c & -> & E & Hc). exists ((i, x) :: l0), q, l1, c. auto.
  - intros (l0 & q & l1 & c & -> & E & Hc). rewrite loop_app, after_app in *. cbn [after] in E. cbn [count_loop].
    apply in_app_iff. right. apply in_app_iff. left. injection E as E. rewrite E. destruct (max <? c) eqn:Em; [now left|lia].
Qed.

(** The count after a via: its place in the longest run ending there, less one unless that run
    starts the line. *)
Lemma after_run {A} (l : list (Z * A)) q c :
  after None l = Some (q, c) -> 0 <= c /\
  exists l0 seg, l = l0 ++ seg /\ seg <> [] /\ consecutive (map fst seg) /\
    Z.of_nat (List.length seg) = match l0 with [] => c | _ => c + 1 end.
Proof.
  revert q c. induction l as [|[i x] l IH] using rev_ind; intros q c H; [discriminate|].
  rewrite after_app in H. cbn [after] in H. destruct (after None l) as [[p c0]|] eqn:E.
  - specialize (IH _ _ eq_refl). destruct IH as (H0 & l0 & seg & -> & Hne & Hc & Hl). injection H as <- <-.
    assert (Hp : exists s0 y, seg = s0 ++ [(p, y)]).
    { destruct (exists_last Hne) as (s0 & [p' y] & ->). exists s0, y. rewrite app_assoc, after_app in E. cbn [after] in E.
      injection E as E _. rewrite E. reflexivity. }
    destruct Hp as (s0 & y & ->). destruct (i - p =? 1) eqn:Ei.
    + split; [lia|]. exists l0, ((s0 ++ [(p, y)]) ++ [(i, x)]). split; [rewrite <- !app_assoc; reflexivity|]. split; [destruct s0; discriminate|]. split.
      * rewrite <- app_assoc. rewrite map_app. rewrite map_app in Hc. apply consecutive_snoc; [exact Hc|cbn [fst]; lia].
      * rewrite app_length. cbn [List.length]. destruct l0; lia.
    + split; [lia|]. exists (l0 ++ s0 ++ [(p, y)]), [(i, x)]. split; [reflexivity|]. split; [discriminate|]. split; [exact I|].
      destruct (l0 ++ s0 ++ [(p, y)]) eqn:En; [|reflexivity]. destruct l0, s0; discriminate.
  - injection H as <- <-. split; [lia|]. assert (l = []) as ->.
    { destruct l as [|[j y] l _] using rev_ind; [reflexivity|]. rewrite after_app in E. discriminate. }
    exists [], [(i, x)]. simpl. repeat split; auto. discriminate.
Qed.

(** A run of [n] vias brings the count to [n - 1] at least, to [n] if it starts the line. *)
Lemma run_after {A} (l0 seg : list (Z * A)) q a c :
  consecutive (map fst (seg ++ [(q, a)])) -> after None (l0 ++ seg ++ [(q, a)]) = Some (q, c) ->
  Z.of_nat (List.length (seg ++ [(q, a)])) <= match l0 with [] => c | _ => c + 1 end.
Proof.
  revert q a c. induction seg as [|[p y] seg IH] using rev_ind; intros q a c Hc H.
  - cbn [app] in *. destruct l0 as [|[i x] l0]; [injection H as <-; simpl; lia|].
    apply after_run in H. simpl. lia.
  - rewrite app_assoc, after_app in H. destruct (after None (l0 ++ seg ++ [(p, y)])) as [[p' c']|] eqn:E.
    + assert (p' = p). { rewrite app_assoc, after_app in E. cbn [after] in E. congruence. } subst p'.
      assert (Hq : q = p + 1 /\ consecutive (map fst (seg ++ [(p, y)]))).
      { clear - Hc. rewrite <- app_assoc in Hc. cbn [app] in Hc. induction seg as [|[i x] seg IH].
        - simpl in *. tauto.
        - cbn [app map] in *. pose proof (consecutive_tail _ _ Hc) as T. destruct (IH T) as [A1 A2]. split; [exact A1|].
          destruct seg as [|[j z] seg]; cbn [app map fst] in *; destruct Hc as [B1 B2]; split; auto. }
      destruct Hq as [-> Hc']. specialize (IH p y c' Hc' E). cbn [after] in H.
      replace (p + 1 - p =? 1) with true in H by lia. injection H as <-.
      rewrite !app_length in *. cbn [List.length] in *. destruct l0; lia.
    + rewrite app_assoc, after_app in E. discriminate.
Qed.

Lemma after_last {A} (l : list (Z * A)) q a : exists c, after None (l ++ [(q, a)]) = Some (q, c).
Proof. rewrite after_app. cbn [after]. eauto. Qed.

Lemma scan_exact g c2 max sl qs r :
  Forall2 (fun r (q : Z * Rect) => grid_q g (c2 r / 2) = Some (fst q) /\ snd q = r) sl qs ->
  (In r (count_loop max None qs) <-> long_run g c2 max sl r).
Proof.
  intros Hq. rewrite loop_in. split.
  - intros (l0 & q & l1 & c & -> & E & Hc). destruct (after_run _ _ _ E) as (H0 & m0 & seg & Es & Hne & Hcs & Hl).
    destruct (exists_last Hne) as (s0 & z & ->). rewrite app_assoc in Es. apply app_inj_tail in Es. destruct Es as [-> <-].
    rewrite <- app_assoc in Hq. cbn [app] in Hq.
    destruct (positions_of _ _ _ _ Hq) as [_ Es]. rewrite !map_app in Es. simpl in Es.
    exists (map snd m0), (map snd s0), (map snd l1), (map fst (s0 ++ [(q, r)])). split; [congruence|]. split; [|split].
    + apply Forall2_app_inv_r in Hq. destruct Hq as (a1 & a2 & A1 & A2 & E1).
      apply Forall2_app_inv_r in A2. destruct A2 as (b1 & b2 & B1 & B2 & E2).
      destruct b2 as [|x b2]; [inversion B2|]. assert (P : grid_q g (c2 x / 2) = Some q /\ r = x) by (inversion B2; assumption).
      destruct P as [P1 P2]. subst x.
      destruct (positions_of _ _ _ _ B1) as [_ B3]. rewrite B3.
      apply (positions_of g c2 (b1 ++ [r]) (s0 ++ [(q, r)])). apply Forall2_app; [exact B1|]. constructor; [auto|constructor].
    + exact Hcs.
    + rewrite app_length, map_length in *. cbn [List.length] in *. unfold reported_above. destruct m0; cbn [map]; lia.
  - intros (before & seg & rest & ks & -> & Hp & Hcs & Hl).
    apply F2_app_l in Hq. destruct Hq as (q0 & q' & -> & A0 & Hq).
    change (r :: rest) with ([r] ++ rest) in Hq. rewrite app_assoc in Hq.
    apply F2_app_l in Hq. destruct Hq as (q1 & q2 & -> & A1 & A2).
    pose proof (seg_positions _ _ _ _ _ Hp A1) as E. pose proof (F2_length _ _ _ A1) as EL. pose proof (F2_length _ _ _ A0) as EL0.
    apply F2_app_l in A1. destruct A1 as (s0 & s1 & -> & B0 & B1).
    inversion B1 as [|? z ? t [Ez Er] Ht]; subst. inversion Ht; subst. destruct z as [q r']. cbn [fst snd] in *.
    destruct (after_last (q0 ++ s0) q r') as (c & Ec). exists (q0 ++ s0), q, q2, c.
    split; [rewrite <- !app_assoc; reflexivity|]. split; [exact Ec|].
    rewrite <- app_assoc in Ec. pose proof (run_after q0 s0 q r' c Hcs Ec) as R. rewrite <- EL in R.
    unfold reported_above in Hl. destruct q0, before; cbn [List.length] in EL0; lia.
Qed.

(** ** Columns *)
Theorem C16_exact_column :
  forall env sto errs layer p vv max h v, drc_run env sto = Some errs -> via_lines env sto layer p vv ->
  dget String.eqb (en_clg env) layer = Some (h, v) -> p_maxy p = Some max ->
  forall r, In (EVAdjacent layer r) errs <->
            exists c sl, In (c, sl) vv /\ long_run h (fun r => lly r + ury r) max sl r.
Proof.
  intros env sto errs layer p vv max h v Hrun Hvia Hclg Hmax r.
  rewrite (vadj_in env sto errs layer p vv max h v Hrun Hvia Hclg Hmax). split.
  - intros (c & sl & qs & Hin & Hq & Hr). exists c, sl. split; [exact Hin|]. eapply scan_exact; eauto.
  - intros (c & sl & Hin & Hl).
    assert (Hq : exists qs, Forall2 (fun r (q : Z * Rect) => grid_q h ((lly r + ury r) / 2) = Some (fst q) /\ snd q = r) sl qs).
    { pose proof Hvia as (H1 & H2 & H3 & H4 & H5).
      destruct (run_via env sto errs layer vv p Hrun H1 H2 H3 H4 H5) as (ea & eb & Ea & _ & _).
      apply via_rules_in in Ea. destruct Ea as (e3 & e4 & _ & E3 & _). rewrite Hmax in E3. destruct E3 as (h' & v' & Eg & E3).
      rewrite Hclg in Eg. injection Eg as <- <-. apply flat_mapM_in in E3. destruct E3 as [_ E3]. specialize (E3 _ Hin). cbn [snd] in E3.
      destruct (mapM _ sl) as [qs|] eqn:Eq; [|congruence]. exists qs. apply mapM_map in Eq. revert Eq.
      generalize sl qs. clear. induction 1 as [|a b sl qs E _ IH]; constructor; auto.
      destruct (grid_q h ((lly a + ury a) / 2)); [|discriminate]. injection E as <-. auto. }
    destruct Hq as (qs & Hq). exists c, sl, qs. split; [exact Hin|]. split; [exact Hq|].
    apply (scan_exact h (fun r => lly r + ury r) max sl qs r Hq). exact Hl.
Qed.
Print Assumptions C16_exact_column.

(** ** Rows *)

(** No two vias of a row share their left edge. *)
Definition lefts_differ (vv : list (Z * list Rect)) : Prop :=
  forall a b, In a (concat (map snd vv)) -> In b (concat (map snd vv)) -> lly a + ury a = lly b + ury b -> llx a = llx b -> a = b.

Lemma rows_row_of vv c sl : NoDup (concat (map snd vv)) -> lefts_differ vv -> In (c, sl) (rows vv) -> row_of vv c sl.
Proof.
  intros Hnd Hld Hin. split.
  - assert (N : NoDup sl).
    { unfold rows in Hin. apply in_map_iff in Hin. destruct Hin as ((k, b) & E & Hb). cbn [fst snd] in E. injection E as <- <-.
      eapply Permutation_NoDup; [apply sort_by_perm|]. apply (group_by_in _ _ Z.eqb_eq) in Hb. destruct Hb as [-> _].
      apply NoDup_filter. exact Hnd. }
    assert (D : forall a b, In a sl -> In b sl -> llx a = llx b -> a = b).
    { intros a b Ha Hb E. destruct (rows_mem _ _ _ _ Hin Ha) as (Ea & ca & sa & A1 & A2).
      destruct (rows_mem _ _ _ _ Hin Hb) as (Eb & cb & sb & B1 & B2).
      apply Hld; [| |lia|exact E]; apply in_concat; [exists sa|exists sb]; (split; [|assumption]).
      - exact (in_map snd _ _ A1).
      - exact (in_map snd _ _ B1). }
    pose proof (rows_sorted _ _ _ Hin) as S. clear - N D S. unfold key_sorted in S.
    induction S as [|a l S IH F]; constructor.
    + apply IH; [now inversion N|]. intros x y Hx Hy. apply D; now right.
    + rewrite Forall_forall in *. intros x Hx. specialize (F x Hx). cbn beta in F.
      destruct (Z.eq_dec (llx a) (llx x)) as [E|]; [|lia]. exfalso.
      assert (a = x) by (apply D; simpl; auto). subst. inversion N. contradiction.
  - intros r. split.
    + intros Hr. destruct (rows_mem _ _ _ _ Hin Hr) as (E & c' & sl' & A1 & A2). split; [eauto|exact E].
    + intros ((c' & sl' & A1 & A2) & E). destruct (rows_find _ _ _ _ A1 A2) as (s3 & Hs3 & Hx). rewrite E in Hs3.
      rewrite (rows_unique _ _ _ _ Hin Hs3). exact Hx.
Qed.

(** A row check reports something iff some row has a run that is long enough. *)
Theorem C16_exact_row :
  forall env sto errs layer p vv max h v, drc_run env sto = Some errs -> via_lines env sto layer p vv ->
  dget String.eqb (en_clg env) layer = Some (h, v) -> p_maxx p = Some max ->
  NoDup (concat (map snd vv)) -> lefts_differ vv ->
  (exists r, In (EHAdjacent layer r) errs) <->
  exists c sl r, row_of vv c sl /\ long_run v (fun r => llx r + urx r) max sl r.
Proof.
  intros env sto errs layer p vv max h v Hrun Hvia Hclg Hmax Hnd Hld.
  rewrite (hadj_in env sto errs layer p vv max h v Hrun Hvia Hclg Hmax). split.
  - intros (c & sl & qs & r & Hin & Hq & Hr). exists c, sl, r. split; [apply rows_row_of; auto|]. eapply scan_exact; eauto.
  - intros (c & sl & r & Hrow & Hl).
    assert (Hin : In (c, sl) (rows vv)).
    { apply row_of_rows; auto. destruct Hl as (be & seg & rest & ks & -> & _). destruct be, seg; discriminate. }
    destruct (row_positions _ _ _ _ _ _ _ _ _ _ _ Hrun Hvia Hclg Hmax Hin) as (qs & Hq).
    exists c, sl, qs, r. split; [exact Hin|]. split; [exact Hq|].
    apply (scan_exact v (fun r => llx r + urx r) max sl qs r Hq). exact Hl.
Qed.
Print Assumptions C16_exact_row.

(** One column with a run of two at its start, then a run of two and a run of three further up,
    limit one: the middle run is long enough for the rule but not for the check. *)
Example C16_exact_nonvacuous :
  let g := UncoloredCenterLineGrid 10 4 0 1 in
  let sl := [via_at 0; via_at 1; via_at 5; via_at 6; via_at 9; via_at 10; via_at 11] in
  let vv := [(0, sl)] in
  let env := mkEnv [("V1"%string, adj_rules)] [("V1"%string, DStar)] [("V1"%string, (g, g))] [] in
  via_lines env [("V1"%string, vv)] "V1" adj_rules vv /\ NoDup (concat (map snd vv)) /\ lefts_differ vv /\
  drc_run env [("V1"%string, vv)] = Some [EVAdjacent "V1" (via_at 1); EVAdjacent "V1" (via_at 11)] /\
  long_run g (fun r => lly r + ury r) 1 sl (via_at 11) /\ ~ long_run g (fun r => lly r + ury r) 1 sl (via_at 6).
Proof.
  intros g sl vv env. assert (V : via_lines env [("V1"%string, vv)] "V1" adj_rules vv).
  { repeat split; simpl; auto; try (exists "1"%string; auto). repeat constructor; simpl; intuition. }
  split; [exact V|]. split; [|split; [|split; [reflexivity|split]]].
  - unfold vv, sl, via_at. simpl. repeat constructor; simpl; intuition discriminate.
  - intros a b Ha Hb E _. unfold vv, sl in Ha, Hb. simpl in Ha, Hb.
    repeat (destruct Ha as [<-|Ha]; [repeat (destruct Hb as [<-|Hb]; [try reflexivity; vm_compute in E; discriminate|]); destruct Hb|]). destruct Ha.
  - exists [via_at 0; via_at 1; via_at 5; via_at 6], [via_at 9; via_at 10], [], [9; 10; 11]. split; [reflexivity|].
    split; [|split; [simpl; lia|simpl; lia]].
    constructor; [|constructor; [|constructor; [|constructor]]]; unfold via_at; cbn; eauto.
  - intros Hl. assert (H : exists c sl', In (c, sl') vv /\ long_run g (fun r => lly r + ury r) 1 sl' (via_at 6)).
    { exists 0, sl. split; [now left|exact Hl]. }
    apply (C16_exact_column env [("V1"%string, vv)] _ "V1" adj_rules vv 1 g g eq_refl V eq_refl eq_refl) in H.
    destruct H as [H|[H|[]]]; discriminate.
Qed.
