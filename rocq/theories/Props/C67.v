(** C67: user level constraints mean what their documentation says. *)
From Coq Require Import String QArith ZifyBool.
From Verif Require Import Base.Prelude Model.Transformation Model.RemoveDuplicates Model.PlaceGrid Model.SeqPair Model.Formulas Model.UserCon Spec.FormulaSpec Spec.FloorplanSpec Proofs.UserConP Props.C39.
Local Open Scope Z_scope. Local Open Scope string_scope. Local Open Scope list_scope.

(** * AlignInOrder *)

(** The coordinate that the instances share. *)
Definition line_of (l : ioline) (hor : bool) : Rect -> Z :=
  match l with ITop => ury | IBottom => lly | ILeft => llx | IRight => urx | ICenter => centre (negb hor) end.
(** A line that contradicts the direction is rejected, as is a centre line without a direction; otherwise the constraint expands whenever it has two instances. *)
Theorem C67_direction : forall l dir abut xs,
  (exists ys, align_in_order l dir abut xs = Some ys) <->
  (2 <= length xs)%nat /\ match l with ITop | IBottom => dir <> Some false | ILeft | IRight => dir <> Some true | ICenter => dir <> None end.
Proof.
  intros l dir abut xs. unfold align_in_order, two. destruct (Nat.leb_spec 2 (length xs)) as [L|L];
    (destruct l; destruct dir as [[]|]; cbn; (split; [intros (ys & H)|intros [H1 H2]]); try discriminate; try (split; [lia|discriminate]); try (eexists; reflexivity); try lia; now destruct H2).
Qed.
Print Assumptions C67_direction.
(** The formulae hold iff the instances share the line and lie in order: from left to right, or from top to bottom. *)
Theorem C67_align_in_order : forall names l dir hor abut xs ys bx, check_dir l dir = Some hor -> align_in_order l dir abut xs = Some ys -> (forall n, In n xs -> solid (bx n)) ->
  Forall (holds names bx) ys <->
  common (line_of l hor) (map bx xs) /\ (if abut then touching else in_order) hor (if hor then map bx xs else rev (map bx xs)).
Proof.
  intros names l dir hor abut xs ys bx Hd E Hs. unfold align_in_order in E. rewrite Hd in E. destruct (io_line l hor) as [al|] eqn:El; [|discriminate]. destruct (two xs); [|discriminate]. injection E as <-.
  rewrite !Forall_cons_iff. cbn [holds].
  assert (A : ztranslate names (HAlign al xs) bx <-> common (line_of l hor) (map bx xs)).
  { destruct hor, l; try discriminate; injection El as <-; cbn [line_of negb].
    - exact (C39_align_edges names HTop (high false) xs bx eq_refl).
    - exact (C39_align_edges names HBottom (low false) xs bx eq_refl).
    - exact (C39_align_center names false xs bx).
    - exact (C39_align_edges names VLeft (low true) xs bx eq_refl).
    - exact (C39_align_edges names VRight (high true) xs bx eq_refl).
    - exact (C39_align_center names true xs bx). }
  assert (O : ztranslate names (HOrder (if hor then OLR else OTB) abut xs) bx <-> (if abut then touching else in_order) hor (if hor then map bx xs else rev (map bx xs))).
  { destruct hor, abut; [apply (C39_order_abut names OLR xs bx true true eq_refl Hs)|apply (C39_order names OLR xs bx true true eq_refl Hs)|apply (C39_order_abut names OTB xs bx false false eq_refl Hs)|apply (C39_order names OTB xs bx false false eq_refl Hs)]. }
  rewrite A, O. split; [intros (H1 & H2 & _)|intros [H1 H2]]; auto.
Qed.
Print Assumptions C67_align_in_order.
(** The documentation has 'vertical' as bottom to top.  The formulae never allow that order. *)
Theorem C67_vertical_refuted : forall names l dir abut xs ys bx, check_dir l dir = Some false -> align_in_order l dir abut xs = Some ys -> (forall n, In n xs -> solid (bx n)) ->
  Forall (holds names bx) ys -> ~ in_order false (map bx xs).
Proof.
  intros names l dir abut xs ys bx Hd E Hs H Hbt. assert (L : two xs = true). { unfold align_in_order in E. rewrite Hd in E. destruct (io_line l false); [|discriminate]. now destruct (two xs). }
  assert (O : in_order false (rev (map bx xs))).
  { unfold align_in_order in E. rewrite Hd in E. destruct (io_line l false) as [al|]; [|discriminate]. rewrite L in E. injection E as <-. rewrite !Forall_cons_iff in H. cbn [holds] in H. destruct H as (_ & H & _).
    apply (C39_order names OTB xs bx false false eq_refl Hs). destruct abut; [|exact H]. now apply (C39_order_abut names OTB xs bx false false eq_refl Hs). }
  unfold two in L. apply Nat.leb_le in L. destruct xs as [|a [|b xs]]; cbn in L; try lia. unfold in_order in *. cbn [map] in *. rewrite <- ordpairs_rev in Hbt.
  assert (G : before false (bx a) (bx b) /\ before false (bx b) (bx a)).
  { split.
    - rewrite ordpairs_rev in Hbt. inversion Hbt as [|? ? F _]; subst. now inversion F.
    - apply (ordpairs_rev (fun p q => before false q p)) in O. inversion O as [|? ? F _]; subst. now inversion F. }
  destruct G as [G1 G2]. unfold before, low, high in *. destruct (Hs a (or_introl eq_refl)), (Hs b (or_intror (or_introl eq_refl))). lia.
Qed.
Print Assumptions C67_vertical_refuted.

(** * Floorplan *)

(** With no empty region: the rows are stacked from top to bottom; if asked for, each row is in order from left to right and all rows are balanced about one vertical line. *)
Theorem C67_floorplan : forall same names rs order symm ys bx, floorplan same rs order symm = Some ys -> (forall r, In r rs -> r <> []) -> (forall r n, In r rs -> In n r -> solid (bx n)) ->
  Forall (holds names bx) ys <->
  stacked bx rs /\ (order = true -> Forall (left_to_right bx) rs) /\ (symm = true -> exists s, Forall (balanced bx s) rs).
Proof.
  intros same names rs order symm ys bx E Hne Hs. unfold floorplan in E. destruct (stack [] (stack_pairs rs)) as [rows|] eqn:Er; [|discriminate]. apply stack_yields in Er. subst rows.
  destruct (symm && _); [discriminate|]. injection E as <-. rewrite !Forall_app, (rows_mean names bx rs Hne Hs).
  assert (O : Forall (holds names bx) (if order then map (fun r => YHard (HOrder OLR false r)) (filter (fun r => (1 <? length r)%nat) rs) else []) <-> (order = true -> Forall (left_to_right bx) rs)).
  { destruct order; [|split; [discriminate|constructor]]. rewrite (row_order_mean names bx rs Hs). split; auto. }
  assert (S1 : Forall (holds names bx) (if symm then [YHard (HSymm true (flat_map region_pairs rs))] else []) <-> (symm = true -> exists s, Forall (balanced bx s) rs)).
  { destruct symm; [|split; [discriminate|constructor]]. rewrite Forall_cons_iff. cbn [holds]. rewrite (regions_mean names bx rs Hne). split; [intros [H _] _; exact H|intros H; split; auto]. }
  assert (K : Forall (holds names bx) (if symm && order then [YKeep (concat rs)] else [])) by (destruct (symm && order); repeat constructor).
  rewrite O, S1. tauto.
Qed.
Print Assumptions C67_floorplan.
(** It expands when no instance occurs twice and, for symmetry, the pairs are legal; *)
Theorem C67_floorplan_expands : forall same rs order symm, NoDup (concat rs) ->
  (symm = true -> (forall r, In r rs -> r <> []) /\ (length (concat rs) <> 1)%nat /\ forall r i a b, In r rs -> nth_error r i = Some a -> nth_error (rev r) i = Some b -> same a b = true) ->
  exists ys, floorplan same rs order symm = Some ys.
Proof.
  intros same rs order symm Hn Hsym. unfold floorplan.
  assert (G : exists rows, stack [] (stack_pairs rs) = Some rows).
  { apply stack_ok. split; [intros; easy|].
    (* a pair and its converse would put one instance into two rows *)
    assert (K : forall a b, In (a, b) (stack_pairs rs) -> exists i j, (i < j)%nat /\ nth_error (concat rs) i = Some a /\ nth_error (concat rs) j = Some b).
    { clear. induction rs as [|r0 [|r1 rs] IH]; intros a b H; [contradiction..|]. cbn [stack_pairs] in H. apply in_app_iff in H. destruct H as [H|H].
      - apply in_prod_iff in H. destruct H as [Ha Hb]. apply In_nth_error in Ha, Hb. destruct Ha as (i & Ha), Hb as (j & Hb). exists i, (length r0 + j)%nat. assert (i < length r0)%nat by (apply nth_error_Some; congruence).
        assert (j < length r1)%nat by (apply nth_error_Some; congruence). cbn [concat]. split; [lia|]. split; [now rewrite nth_error_app1|]. rewrite nth_error_app2 by lia. replace (length r0 + j - length r0)%nat with j by lia. now rewrite nth_error_app1.
      - destruct (IH _ _ H) as (i & j & L & Hi & Hj). exists (length r0 + i)%nat, (length r0 + j)%nat. split; [lia|]. change (concat (r0 :: r1 :: rs)) with (r0 ++ concat (r1 :: rs)). rewrite !nth_error_app2 by lia.
        replace (length r0 + i - length r0)%nat with i by lia. replace (length r0 + j - length r0)%nat with j by lia. auto. }
    assert (U : forall i j x, nth_error (concat rs) i = Some x -> nth_error (concat rs) j = Some x -> i = j).
    { intros i j x Hi Hj. apply (proj1 (NoDup_nth_error (concat rs)) Hn); [apply nth_error_Some; congruence|congruence]. }
    intros l1 a b l2 E. assert (Hab : In (a, b) (stack_pairs rs)) by (rewrite E; apply in_or_app; right; now left). destruct (K _ _ Hab) as (i & j & L & Hi & Hj). split.
    - intros Hba. assert (Hba' : In (b, a) (stack_pairs rs)) by (rewrite E; apply in_or_app; now left). destruct (K _ _ Hba') as (i' & j' & L' & Hi' & Hj'). pose proof (U _ _ _ Hi Hj'). pose proof (U _ _ _ Hj Hi'). lia.
    - intros ->. pose proof (U _ _ _ Hi Hj). lia. }
  destruct G as (rows & ->). destruct symm; [|now eexists]. destruct (Hsym eq_refl) as (H1 & H2 & H3).
  assert (V : pairs_valid same (flat_map region_pairs rs) = true).
  { assert (P : forall r p, In r rs -> In p (region_pairs r) -> (exists a, p = [a]) \/ (exists a b i, p = [a; b] /\ nth_error r i = Some a /\ nth_error (rev r) i = Some b)).
    { intros r p Hr Hp. unfold region_pairs in Hp. destruct (Nat.leb_spec (length r) 2) as [L|L].
      - destruct Hp as [<-|[]]. destruct r as [|a [|b [|c r]]]; [now apply H1 in Hr|left; now exists a|right; now exists a, b, 0%nat|cbn in L; lia].
      - apply in_app_iff in Hp. pose proof (Nat.div_mod (length r) 2 ltac:(lia)) as D. destruct Hp as [Hp|Hp].
        + apply in_map_iff in Hp. destruct Hp as (i & <- & Hi). apply in_seq in Hi. right. eexists _, _, i. split; [reflexivity|]. rewrite nth_error_rev' by lia. split; apply nth_error_nth'; lia.
        + destruct (Nat.odd (length r)); [|contradiction]. destruct Hp as [<-|[]]. left. now eexists. }
    unfold pairs_valid. apply andb_true_iff. split; [apply andb_true_iff; split|].
    - destruct (Nat.eqb_spec (length (flat_map region_pairs rs)) 1) as [E1|E1]; [|easy].
      assert (Hlen : forall r, r <> [] -> ((length r + 1) / 2)%nat = length (region_pairs r)).
      { intros r Hr. unfold region_pairs. destruct (Nat.leb_spec (length r) 2) as [L|L]; [destruct r as [|a [|b [|c r]]]; first [easy|cbn in L; lia]|].
        rewrite app_length, map_length, seq_length. pose proof (Nat.div_mod (length r) 2 ltac:(lia)) as D. pose proof (Nat.mod_upper_bound (length r) 2 ltac:(lia)) as M.
        pose proof (Nat.div_mod (length r + 1) 2 ltac:(lia)) as D2. pose proof (Nat.mod_upper_bound (length r + 1) 2 ltac:(lia)) as M2.
        destruct (Nat.odd (length r)) eqn:O; cbn [length]; [apply Nat.odd_spec in O; destruct O as (k & O); lia|]. rewrite <- Nat.negb_even in O. apply negb_false_iff, Nat.even_spec in O. destruct O as (k & O). lia. }
      destruct rs as [|r rs]; [discriminate|]. cbn [flat_map] in E1 |- *. rewrite app_length in E1. rewrite <- (Hlen r (H1 r (or_introl eq_refl))) in E1.
      assert (Hr0 : (1 <= length r)%nat) by (destruct r; [now destruct (H1 [] (or_introl eq_refl))|cbn; lia]). pose proof (Nat.div_mod (length r + 1) 2 ltac:(lia)) as D2. pose proof (Nat.mod_upper_bound (length r + 1) 2 ltac:(lia)) as M2.
      destruct rs as [|r' rs].
      + cbn [flat_map]. rewrite app_nil_r. assert (L2 : (length r <= 2)%nat) by (cbn [flat_map length] in E1; lia). unfold region_pairs. destruct (Nat.leb_spec (length r) 2); [|lia]. cbn [concat] in H2. rewrite app_nil_r in H2. apply Nat.eqb_eq. lia.
      + exfalso. cbn [flat_map] in E1. rewrite app_length in E1. rewrite <- (Hlen r' (H1 r' (or_intror (or_introl eq_refl)))) in E1.
        assert (Hr1 : (1 <= length r')%nat) by (destruct r'; [now destruct (H1 [] (or_intror (or_introl eq_refl)))|cbn; lia]). pose proof (Nat.div_mod (length r' + 1) 2 ltac:(lia)). pose proof (Nat.mod_upper_bound (length r' + 1) 2 ltac:(lia)). lia.
    - apply forallb_forall. intros p Hp. apply in_flat_map in Hp. destruct Hp as (r & Hr & Hp). destruct (P _ _ Hr Hp) as [(a & ->)|(a & b & i & -> & _)]; reflexivity.
    - apply forallb_forall. intros p Hp. apply in_flat_map in Hp. destruct Hp as (r & Hr & Hp). destruct (P _ _ Hr Hp) as [(a & ->)|(a & b & i & -> & Ha & Hb)]; [reflexivity|]. exact (H3 _ _ _ _ Hr Ha Hb). }
  rewrite V. cbn. now eexists.
Qed.
Print Assumptions C67_floorplan_expands.
(** and an accepted one has no instance in two adjacent regions. *)
Theorem C67_floorplan_adjacent : forall same rs order symm ys r s n, floorplan same rs order symm = Some ys -> In (r, s) (pairwise rs) -> In n r -> ~ In n s.
Proof.
  intros same rs order symm ys r s n E Hp Hr Hs. unfold floorplan in E. destruct (stack [] (stack_pairs rs)) as [rows|] eqn:Er; [|discriminate].
  assert (G : exists rows, stack [] (stack_pairs rs) = Some rows) by eauto. apply stack_ok in G. destruct G as [_ G].
  assert (H : In (n, n) (stack_pairs rs)) by (apply stack_pairs_in; eauto). apply in_split in H. destruct H as (l1 & l2 & H). now destruct (G _ _ _ _ H).
Qed.
Print Assumptions C67_floorplan_adjacent.
(** An empty region is accepted and separates its neighbours: nothing is posted for the rows above and below it. *)
Theorem C67_empty_region_refuted : forall same r s, floorplan same [r; []; s] false false = Some [].
Proof. intros same r s. unfold floorplan. cbn [stack_pairs]. rewrite app_nil_r. replace (list_prod r (@nil string)) with (@nil (string * string)) by (induction r; [reflexivity|assumption]). reflexivity. Qed.
Print Assumptions C67_empty_region_refuted.

(** * Expansion *)

(** The expanded constraints together demand exactly what was posted for the constraints when they were added. *)
Theorem C67_expand : forall same names cs ys bx, expand_cons same cs = Some ys -> Forall (holds names bx) ys <-> Forall (fun c => posted same names c bx) cs.
Proof.
  intros same names cs ys bx E. unfold expand_cons in E. destruct (mapM (expand_con same) cs) as [l|] eqn:El; [|discriminate]. injection E as <-.
  apply (mapM_concat (expand_con same) _ (fun c => posted same names c bx)) with (2 := El). intros c y Ey. destruct c as [h|l' dir abut xs|rs order symm|xs|xs|xs|]; cbn [expand_con posted] in *.
  - injection Ey as <-. rewrite Forall_app, Forall_cons_iff. cbn [holds]. assert (K : Forall (holds names bx) (keeps h)) by (destruct h; repeat constructor). split; [tauto|]. intros H. repeat split; auto.
  - now rewrite Ey.
  - now rewrite Ey.
  - injection Ey as <-. split; [auto|repeat constructor].
  - injection Ey as <-. split; [auto|repeat constructor].
  - injection Ey as <-. split; [auto|repeat constructor].
  - injection Ey as <-. split; [auto|repeat constructor].
Qed.
Print Assumptions C67_expand.
(** The instances of a constraint that are not to be grouped. *)
Definition protects (c : con) : list string :=
  match c with
  | GHard (HOrder _ _ xs) | GHard (HAlign _ xs) | GHard (HSpread _ _ xs) => xs
  | GHard (HSymm _ ps) => concat ps
  | GAlignInOrder _ _ _ xs | GKeep xs | GCloser xs | GOnBoundary xs => xs
  | GFloorplan rs true true => concat rs
  | _ => []
  end.
(** Exactly these are skipped when primitives are matched. *)
Theorem C67_skipped : forall same cs ys n, expand_cons same cs = Some ys -> In n (skipped ys) <-> exists c, In c cs /\ In n (protects c).
Proof.
  intros same cs ys n E. unfold expand_cons in E. destruct (mapM (expand_con same) cs) as [l|] eqn:El; [|discriminate]. injection E as <-.
  assert (F : forall c y, expand_con same c = Some y -> skipped y = protects c).
  { intros c y Ey. destruct c as [h|l' dir abut xs|rs order symm|xs|xs|xs|]; cbn [expand_con] in Ey.
    - injection Ey as <-. destruct h; cbn; rewrite ?app_nil_r; reflexivity.
    - unfold align_in_order in Ey. destruct (check_dir l' dir); [|discriminate]. destruct (io_line _ _); [|discriminate]. destruct (two xs); [|discriminate]. injection Ey as <-. cbn. now rewrite app_nil_r.
    - unfold floorplan in Ey. destruct (stack _ _) as [rows|] eqn:Er; [|discriminate]. apply stack_yields in Er. subst rows. destruct (symm && _); [discriminate|]. injection Ey as <-. unfold skipped. rewrite !flat_map_app.
      assert (K : forall A (f : A -> Formulas.hcon) q, flat_map (fun y => match y with YKeep xs => xs | _ => [] end) (map (fun x => YHard (f x)) q) = []) by (intros A f q; induction q; [reflexivity|assumption]).
      rewrite (K _ (fun p : string * string => HOrder OTB false [fst p; snd p])). destruct order, symm; cbn [andb flat_map app protects]; rewrite ?(K _ (fun r => HOrder OLR false r)), ?app_nil_r; reflexivity.
    - injection Ey as <-. cbn. now rewrite app_nil_r.
    - injection Ey as <-. cbn. now rewrite app_nil_r.
    - injection Ey as <-. cbn. now rewrite app_nil_r.
    - injection Ey as <-. reflexivity. }
  revert l El. induction cs as [|c cs IH]; intros l El; cbn in El; [injection El as <-; cbn; split; [easy|intros (? & [] & _)]|].
  destruct (expand_con same c) as [y|] eqn:Ey; [|discriminate]. destruct (mapM _ cs) as [l'|]; [|discriminate]. injection El as <-. cbn [concat]. unfold skipped. rewrite flat_map_app, in_app_iff. fold (skipped y) (skipped (concat l')). rewrite (F _ _ Ey), (IH _ eq_refl). split.
  - intros [H|(c' & H1 & H2)]; [exists c|exists c']; cbn; auto.
  - intros (c' & [<-|H1] & H2); [now left|right; eauto].
Qed.
Print Assumptions C67_skipped.
(** The constraints without formulae for the placement are kept, each once. *)
Definition softs (ys : list yielded) : nat := length (filter (fun y => match y with YSoft => true | _ => false end) ys).
Theorem C67_soft : forall same cs ys, expand_cons same cs = Some ys -> softs ys = length (filter (fun c => match c with GCloser _ | GOnBoundary _ | GSoft => true | _ => false end) cs).
Proof.
  intros same cs ys E. unfold expand_cons in E. destruct (mapM (expand_con same) cs) as [l|] eqn:El; [|discriminate]. injection E as <-.
  assert (A : forall a b, softs (a ++ b) = (softs a + softs b)%nat) by (intros a b; unfold softs; now rewrite filter_app, app_length).
  assert (F : forall c y, expand_con same c = Some y -> softs y = if match c with GCloser _ | GOnBoundary _ | GSoft => true | _ => false end then 1%nat else 0%nat).
  { intros c y Ey. destruct c as [h|l' dir abut xs|rs order symm|xs|xs|xs|]; cbn [expand_con] in Ey; try (injection Ey as <-; now try destruct h).
    - unfold align_in_order in Ey. destruct (check_dir l' dir); [|discriminate]. destruct (io_line _ _); [|discriminate]. destruct (two xs); [|discriminate]. now injection Ey as <-.
    - unfold floorplan in Ey. destruct (stack _ _) as [rows|] eqn:Er; [|discriminate]. apply stack_yields in Er. subst rows. destruct (symm && _); [discriminate|]. injection Ey as <-. rewrite !A.
      assert (K : forall X (f : X -> Formulas.hcon) q, softs (map (fun x => YHard (f x)) q) = 0%nat) by (intros X f q; unfold softs; induction q; [reflexivity|assumption]).
      rewrite (K _ (fun p : string * string => HOrder OTB false [fst p; snd p])). destruct order, symm; cbn [andb]; rewrite ?(K _ (fun r => HOrder OLR false r)); reflexivity. }
  revert l El. induction cs as [|c cs IH]; intros l El; cbn in El; [now injection El as <-|]. destruct (expand_con same c) as [y|] eqn:Ey; [|discriminate]. destruct (mapM _ cs) as [l'|]; [|discriminate]. injection El as <-.
  cbn [concat filter]. rewrite A, (F _ _ Ey), (IH _ eq_refl). now destruct (match c with GCloser _ | GOnBoundary _ | GSoft => true | _ => false end).
Qed.
Print Assumptions C67_soft.
(** A floorplan protects its instances only if it is ordered and symmetric, although each of the orders it expands to would protect them when given directly. *)
Theorem C67_floorplan_unprotected_refuted : forall same rs order symm ys, order = false \/ symm = false -> expand_cons same [GFloorplan rs order symm] = Some ys -> skipped ys = [] /\
  (forall p, In (YHard (HOrder OTB false p)) ys -> protects (GHard (HOrder OTB false p)) = p).
Proof.
  intros same rs order symm ys Ho E. split; [|easy]. assert (H : forall n, ~ In n (skipped ys)).
  { intros n Hn. apply (C67_skipped _ _ _ n E) in Hn. destruct Hn as (c & [<-|[]] & Hn). destruct order, symm; cbn in Hn; try contradiction. destruct Ho; discriminate. }
  destruct (skipped ys) as [|x l]; [easy|]. exfalso. apply (H x). now left.
Qed.
Print Assumptions C67_floorplan_unprotected_refuted.

(** * Examples *)
Definition demo_rows : list (list string) := [["A"; "B"; "C"]; ["D"; "E"]; ["G"]].
Definition demo_boxes (n : string) : Rect :=
  if String.eqb n "A" then mkRect 0 20 10 30 else if String.eqb n "B" then mkRect 12 20 18 30 else if String.eqb n "C" then mkRect 20 20 30 30
  else if String.eqb n "D" then mkRect 2 10 8 20 else if String.eqb n "E" then mkRect 22 10 28 20 else mkRect 5 0 25 10.
Example C67_nonvacuous : exists ys, floorplan (fun _ _ => true) demo_rows true true = Some ys /\ length ys = 12%nat /\ (forall r, In r demo_rows -> r <> []) /\ (forall r n, In r demo_rows -> In n r -> solid (demo_boxes n)) /\
  stacked demo_boxes demo_rows /\ Forall (left_to_right demo_boxes) demo_rows /\ Forall (balanced demo_boxes 60) demo_rows /\ NoDup (concat demo_rows).
Proof.
  eexists. split; [reflexivity|]. split; [reflexivity|].
  assert (D : forall r n, In r demo_rows -> In n r -> solid (demo_boxes n)) by (intros r n Hr Hn; cbn in Hr; repeat destruct Hr as [<-|Hr]; try contradiction; cbn in Hn; repeat destruct Hn as [<-|Hn]; try contradiction; cbv; split; reflexivity).
  split; [intros r Hr; cbn in Hr; repeat destruct Hr as [<-|Hr]; try contradiction; discriminate|]. split; [exact D|].
  assert (N : NoDup (concat demo_rows)) by (cbn; repeat (constructor; [intros H; cbn in H; repeat (destruct H as [H|H]; [discriminate|]); exact H|]); constructor).
  assert (S1 : stacked demo_boxes demo_rows).
  { unfold stacked. repeat constructor; intros a b Ha Hb; cbn in Ha, Hb; repeat destruct Ha as [<-|Ha]; try contradiction; repeat destruct Hb as [<-|Hb]; try contradiction; cbv; discriminate. }
  assert (S2 : Forall (left_to_right demo_boxes) demo_rows) by (repeat constructor; cbv; discriminate).
  assert (S3 : Forall (balanced demo_boxes 60) demo_rows).
  { assert (G : forall r, (forall i, (i < length r)%nat -> match nth_error r i, nth_error (rev r) i with Some a, Some b => mid2 true (demo_boxes a) + mid2 true (demo_boxes b) = 60 /\ level false (demo_boxes a) (demo_boxes b) | _, _ => True end) -> balanced demo_boxes 60 r).
    { intros r H i a b Ha Hb. specialize (H i ltac:(apply nth_error_Some; congruence)). rewrite Ha, Hb in H. tauto. }
    apply Forall_cons; [|apply Forall_cons; [|apply Forall_cons; [|apply Forall_nil]]]; apply G; intros i Hi; cbn [length] in Hi; do 3 (destruct i as [|i]; [cbn; first [exact I|unfold mid2, level, mid2; cbn; lia]|]); lia. }
  auto.
Qed.
(** A vertical AlignInOrder of two instances: accepted with the first on top. *)
Example C67_vertical_nonvacuous : exists ys, align_in_order ILeft None false ["A"; "D"] = Some ys /\ check_dir ILeft None = Some false /\
  Forall (holds [] (fun n => if String.eqb n "A" then mkRect 0 20 10 30 else mkRect 0 0 10 10)) ys.
Proof. eexists. split; [reflexivity|]. split; [reflexivity|]. repeat constructor; cbv; first [discriminate|reflexivity]. Qed.
