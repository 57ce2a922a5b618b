(** C92: the rows of the integer program that places a sequence pair. *)
From Coq Require Import ZArith QArith Lqa ZifyBool.
From Verif Require Import Base.Prelude Model.SeqEnum Model.SymmGroup Model.KeepOrder Model.SeqCheck Model.PlaceRows
  Spec.SeqEnumSpec Spec.SymmGroupSpec Spec.SeqCheckSpec Spec.PlaceRowsSpec Proofs.KeepOrderP Proofs.SeqCheckP
  Proofs.PlaceRowsP Proofs.PlaceSymP Proofs.PlaceMainP Props.C91.
Local Open Scope Z_scope.

(** Every solution puts the blocks as the sequence pair says, at their distances and without
    overlaps, with allowed and mirrored flips, on the offsets of their grids, in the order of the
    ordering constraints, and the variables of a net enclose its pins. *)
Theorem C92_sound d pos neg flush snap prev cur a : sane d -> sequences (length (i_blocks d)) pos neg ->
  solution d pos neg flush snap prev cur a ->
  let F := solved d a in
  realizes (length (i_blocks d)) pos neg (fp F) /\ apart d pos neg (fp F) /\
  (forall x y, (x < length (i_blocks d))%nat -> (y < length (i_blocks d))%nat -> x <> y -> ~ overlap (fp F) x y) /\
  flips_ok d F /\ on_offsets d F /\ ordered d (fp F) /\ within_box d F a.
Proof.
  intros Hd Hs Ha F. split; [|split; [|split; [|split; [|split; [|split]]]]].
  - eapply sol_realizes; eauto.
  - eapply sol_apart; eauto.
  - eapply sol_disjoint; eauto.
  - eapply sol_flips; eauto.
  - eapply sol_offsets; eauto.
  - eapply sol_ordered; eauto.
  - eapply sol_nets; eauto.
Qed.

(** In a solution, a group is mirrored exactly if the blocks of its pairs are equally long along
    the axis and the sizes across it leave the same rests by four (and two). *)
Theorem C92_mirrored d pos neg flush snap prev cur a g : sane d -> solution d pos neg flush snap prev cur a -> In g (i_syms d) ->
  (mirrored (fp (solved d a)) g <-> twins d g /\ balanced (across d g) g).
Proof. intros. eapply sol_mirrored; eauto. Qed.
(** An alignment is kept exactly if it is at an edge, or the sizes are all even or all odd. *)
Theorem C92_in_line d pos neg flush snap prev cur a u : sane d -> solution d pos neg flush snap prev cur a -> In u (i_aligns d) ->
  (in_line (fp (solved d a)) u <-> same_rest d u).
Proof. intros. eapply sol_line; eauto. Qed.
(** The first solution towards the lower left is inside the box, but for the halo. *)
Theorem C92_inside d pos neg cur a : solution d pos neg true false None cur a -> inside d (fp (solved d a)).
Proof. intros H. eapply sol_inside; eauto. Qed.

(** The program is complete: it has exactly the legal placements as solutions, if the sizes
    leave no rests, the sequence pair keeps the orderings, no vertical ordering is an abutment
    and the vertical spacing is not below the horizontal one. *)
Theorem C92_exact d pos neg F cur : sane d -> sequences (length (i_blocks d)) pos neg ->
  (forall i, pw (fp F) i = bw d i /\ ph (fp F) i = bh d i) ->
  pins_on d -> (forall net c, In net (i_nets d) -> In c (n_conn net) -> (fst c < length (i_blocks d))%nat) ->
  (forall g, In g (i_syms d) -> twins d g /\ balanced (across d g) g) -> (forall u, In u (i_aligns d) -> same_rest d u) ->
  (forall o, In o (i_orders d) -> keeps pos neg o) -> incl (i_abuts d) (i_orders d) ->
  (forall x y, In (x, y, DirV) (i_orders d) -> ~ In (x, y, DirV) (i_abuts d)) ->
  (forall g, (exists m, i_bias_v d <= m * i_yp d <= g) -> exists m, i_bias_h d <= m * i_xp d <= g) ->
  (legal d pos neg F <->
   exists a, solution d pos neg true false None cur a /\
     forall i, px (fp (solved d a)) i = px (fp F) i /\ py (fp (solved d a)) i = py (fp F) i /\
               fh (solved d a) i = fh F i /\ fv (solved d a) i = fv F i).
Proof.
  intros Hd Hs Hsz Hp Hn Hg Hu Hk Hi Hab Hb. split.
  - intros Hl. apply complete; auto.
    + intros g H. now apply Hg.
    + intros x y Ho. split; [auto|]. intros Hx. apply Hi in Hx. apply Hk in Hx, Ho. destruct Hx as [X _], Ho as [Y _].
      destruct Hs as (N & _). apply precedes_at in X, Y; auto. cbn in X, Y. lia.
  - intros (a & Ha & E).
    assert (X : forall i, px (fp (solved d a)) i = px (fp F) i) by apply E. assert (Y : forall i, py (fp (solved d a)) i = py (fp F) i) by apply E.
    assert (W : forall i, pw (fp (solved d a)) i = pw (fp F) i) by (intros; symmetry; apply Hsz). assert (H : forall i, ph (fp (solved d a)) i = ph (fp F) i) by (intros; symmetry; apply Hsz).
    assert (A : forall i, fh (solved d a) i = fh F i) by apply E. assert (B : forall i, fv (solved d a) i = fv F i) by apply E.
    destruct (C92_sound d pos neg true false None cur a Hd Hs Ha) as (_ & S1 & _ & (S2 & S3) & S4 & _).
    pose proof (C92_inside d pos neg cur a Ha) as S5. split; [|split; [|split; [|split; [|split]]]].
    + intros i Hi'. specialize (S5 i Hi'). rewrite X, Y, W, H in S5. exact S5.
    + split; [intros i Hi'; specialize (S2 i Hi'); rewrite A, B in S2; exact S2|].
      intros g x y Hg' Hp'. specialize (S3 g x y Hg' Hp'). rewrite !A, !B in S3. exact S3.
    + intros i Hi'. specialize (S4 i Hi'). rewrite A, B, X, Y, W, H in S4. exact S4.
    + intros x y Hx Hy. specialize (S1 x y Hx Hy). unfold apart_h, apart_v in *. rewrite !X, !Y, !W, !H in S1. exact S1.
    + intros g Hg'. pose proof (proj2 (C92_mirrored d pos neg true false None cur a g Hd Ha Hg') (Hg g Hg')) as (ax & M). exists ax.
      intros x Hx. specialize (M x Hx). unfold cx, cy in *. destruct (g_axis g), x as [[x y]|[x m]]; rewrite ?X, ?Y, ?W, ?H in M; exact M.
    + intros u Hu'. pose proof (proj2 (C92_in_line d pos neg true false None cur a u Hd Ha Hu') (Hu u Hu')) as M.
      intros x y Hx Hy. specialize (M x y Hx Hy). unfold on_line, cx, cy in *. rewrite !X, !Y, !W, !H in M. exact M.
Qed.

(** A sequence pair for which there is a solution is not thrown away by the tests of C91. *)
Theorem C92_checked d pos neg flush snap prev cur a cp : sane d -> sequences (length (i_blocks d)) pos neg ->
  solution d pos neg flush snap prev cur a ->
  (forall g, In g (i_syms d) -> twins d g /\ balanced (across d g) g) -> (forall u, In u (i_aligns d) -> same_rest d u) ->
  no_repeats (i_syms d) ->
  (forall c c' x y, In c (i_syms d) -> In c' (i_syms d) -> In x (elems c) -> In y (elems c') -> linked (i_syms d) x y -> g_axis c = g_axis c') ->
  within (as_checked d cp) ->
  check_align (as_checked d cp) pos neg = true /\
  (abut_even (as_checked d cp) -> none_nested (as_checked d cp) pos neg -> check_symm (as_checked d cp) pos neg = true).
Proof.
  intros Hd Hs Ha Hg Hu Hr Hx Hw.
  assert (forall g, In g (i_syms d) -> mirrored (fp (solved d a)) g) as M by (intros g H; apply (C92_mirrored d pos neg flush snap prev cur a g Hd Ha H); auto).
  assert (fits (as_checked d cp) pos neg (fp (solved d a))) as Hf.
  { split; [apply (C92_sound d pos neg flush snap prev cur a Hd Hs Ha)|]. split; [apply (C91_groups (i_syms d)); auto|]. split; [exact M|].
    intros u H. apply (C92_in_line d pos neg flush snap prev cur a u Hd Ha H). auto. }
  split; [now apply (C91_align _ pos neg (fp (solved d a)))|]. intros He Hn. now apply (C91_symm _ pos neg (fp (solved d a))).
Qed.

(** Finding: the ordering rows look for a vertical abutment with the two blocks the other way
    round.  With any spacing, an ordered vertical abutment makes the program infeasible. *)
Theorem C92_stack d pos neg u l : sane d -> sequences (length (i_blocks d)) pos neg ->
  In (u, l, DirV) (i_orders d) -> In (u, l, DirV) (i_abuts d) -> ~ In (l, u, DirV) (i_abuts d) -> above pos neg u l ->
  0 < i_bias_h d \/ 0 < i_spread d l u false ->
  forall flush snap prev cur a, ~ solution d pos neg flush snap prev cur a.
Proof.
  intros Hd Hs Ho Ha Hn Hab Hb flush snap prev cur a H. destruct (s_orders d Hd _ _ _ Ho) as [Hu Hl].
  destruct (C92_sound d pos neg flush snap prev cur a Hd Hs H) as (_ & A & _). destruct (A u l Hu Hl) as [_ B]. destruct (B Hab) as [C _]. specialize (C Ha).
  destruct H as (R & _). apply all_rows_iff in R. destruct R as (_ & _ & _ & _ & _ & _ & R & _). specialize (R _ Ho).
  unfold order_row, o_first, o_second in R. cbn [fst snd] in R.
  replace (abutted d l u DirV) with false in R by (symmetry; apply not_true_is_false; intros E; apply abutted_iff in E; contradiction).
  apply meets_irow in R. cbn [cmp isum fold_right fst snd] in R. cbn [solved fp px py pw ph] in C.
  assert (0 <= i_bias_h d) as B0 by apply (s_bias d Hd).
  destruct (round_up_far (i_bias_h d) (i_xp d) (i_spread d l u false) (Z.max (round_up (i_bias_h d) (i_xp d)) (i_spread d l u false)) B0 (proj1 (s_pitch d Hd))) as [F _].
  destruct (F ltac:(lia)) as (F1 & m & F2). lia.
Qed.

Definition square (n : Z) : iblock := IBlock n n 0 0 1 [] 1 [] [].
Definition upper_lower (sh sv : Z) (abuts : list ordering) : idesign :=
  IDesign [square 4; square 4] [] [] [] [(0%nat, 1%nat, DirV)] abuts (fun _ _ _ => 0) sh sv 2 2 0 0 20 20.
(** The first block on the second one, with a gap. *)
Definition tower (d : idesign) (gap : Z) : flipped :=
  Flipped (Placement (fun _ => 0) (fun i => if (i =? 0)%nat then 4 + gap else 0) (bw d) (bh d)) (fun _ => 0) (fun _ => 0).
Lemma two_squares i : (i < 2)%nat -> i = 0%nat \/ i = 1%nat. Proof. lia. Qed.
Lemma upper_lower_sane sh sv abuts : 0 <= sh -> 0 <= sv -> sane (upper_lower sh sv abuts).
Proof.
  intros H1 H2. split; cbn [upper_lower i_blocks i_nets i_syms i_aligns i_orders i_abuts i_spread i_bias_h i_bias_v i_xp i_yp i_halo_h i_halo_v i_box_w i_box_h]; try lia; try (intros; contradiction).
  - intros i Hi. cbn in Hi. apply two_squares in Hi. destruct Hi as [->| ->]; cbn; lia.
  - intros a b x [E|[]]. injection E as <- <- <-. cbn. lia.
Qed.
Lemma two_sequences : sequences 2 [0; 1]%nat [1; 0]%nat.
Proof. split; [|split]; [repeat constructor; cbn; lia|repeat constructor; cbn; lia|]. intros a Ha. apply two_squares in Ha. destruct Ha as [->| ->]; cbn; tauto. Qed.
Lemma tower_legal sh sv abuts gap : 0 <= sh -> 0 <= sv -> 0 <= gap <= 12 ->
  (if abutted (upper_lower sh sv abuts) 0 1 DirV then gap =? 0 else round_up sv 2 <=? gap) = true ->
  legal (upper_lower sh sv abuts) [0; 1]%nat [1; 0]%nat (tower (upper_lower sh sv abuts) gap).
Proof.
  intros H1 H2 Hg Hc. pose proof (upper_lower_sane sh sv abuts H1 H2) as Hd. split; [|split; [|split; [|split; [|split]]]].
  - intros i Hi. apply two_squares in Hi. destruct Hi as [->| ->]; cbn -[Z.add]; lia.
  - split; [|intros g a b []]. intros i Hi. apply two_squares in Hi. destruct Hi as [->| ->]; cbn; repeat split; lia.
  - intros i Hi. apply two_squares in Hi. destruct Hi as [->| ->]; split; left; reflexivity.
  - intros a b Ha Hb. destruct two_sequences as (N1 & N2 & _).
    assert (forall x y, left_of [0; 1]%nat [1; 0]%nat x y -> False) as NL.
    { intros x y [A B]. apply precedes_at in A, B; auto. destruct A as (A & [<-|[<-|[]]] & [<-|[<-|[]]]), B as (B & _); cbn in A, B; lia. }
    split; [intros K; destruct (NL _ _ K)|]. intros [A B].
    assert (a = 0 /\ b = 1)%nat as [-> ->].
    { apply precedes_at in A, B; auto. destruct A as (A & [<-|[<-|[]]] & [<-|[<-|[]]]), B as (B & _); cbn in A, B; lia. }
    clear A B. unfold apart_v. cbn [tower fp py ph Nat.eqb]. change (bh (upper_lower sh sv abuts) 1%nat) with 4. cbv zeta.
    destruct (abutted (upper_lower sh sv abuts) 0 1 DirV) eqn:E.
    + apply abutted_iff in E. split; [lia|contradiction].
    + assert (~ In (0%nat, 1%nat, DirV) (i_abuts (upper_lower sh sv abuts))) as N by (rewrite <- abutted_iff, E; discriminate).
      split; [contradiction|]. intros _. apply round_up_far; [exact H2|reflexivity|]. change (i_spread (upper_lower sh sv abuts) 0 1 false) with 0.
      change (i_bias_v (upper_lower sh sv abuts)) with sv. change (i_yp (upper_lower sh sv abuts)) with 2. lia.
  - intros g [].
  - intros u [].
Qed.
(** ... so of two blocks that touch, one on the other, there is a legal placement but none is found. *)
Theorem C92_stack_refuted : exists d pos neg F, sane d /\ sequences (length (i_blocks d)) pos neg /\ legal d pos neg F /\ ordered d (fp F) /\
  (forall o, In o (i_orders d) -> keeps pos neg o) /\ incl (i_abuts d) (i_orders d) /\
  forall flush snap prev cur a, ~ solution d pos neg flush snap prev cur a.
Proof.
  set (d := upper_lower 2 2 [(0%nat, 1%nat, DirV)]). exists d, [0; 1]%nat, [1; 0]%nat, (tower d 0).
  assert (above [0; 1]%nat [1; 0]%nat 0 1) as A by (split; exists [], [], []; reflexivity).
  split; [apply upper_lower_sane; lia|]. split; [exact two_sequences|]. split; [apply tower_legal; [lia|lia|lia|reflexivity]|].
  split; [intros a b x [E|[]]; injection E as <- <- <-; vm_compute; discriminate|].
  split; [intros o [<-|[]]; exact A|]. split; [intros o H; exact H|].
  apply (C92_stack d _ _ 0%nat 1%nat); [apply upper_lower_sane; lia|exact two_sequences|now left|now left| |exact A|left; reflexivity].
  intros [E|[]]. discriminate.
Qed.
(** Finding: the vertical ordering rows take the horizontal spacing. *)
Theorem C92_order_gap_refuted : exists d pos neg F, sane d /\ sequences (length (i_blocks d)) pos neg /\ legal d pos neg F /\ ordered d (fp F) /\
  (forall o, In o (i_orders d) -> keeps pos neg o) /\ i_abuts d = [] /\
  forall flush snap prev cur a, solution d pos neg flush snap prev cur a -> ~ (forall i, py (fp (solved d a)) i = py (fp F) i).
Proof.
  set (d := upper_lower 10 2 []). exists d, [0; 1]%nat, [1; 0]%nat, (tower d 2).
  assert (above [0; 1]%nat [1; 0]%nat 0 1) as A by (split; exists [], [], []; reflexivity).
  split; [apply upper_lower_sane; lia|]. split; [exact two_sequences|]. split; [apply tower_legal; [lia|lia|lia|reflexivity]|].
  split; [intros a b x [E|[]]; injection E as <- <- <-; vm_compute; discriminate|].
  split; [intros o [<-|[]]; exact A|]. split; [reflexivity|].
  intros flush snap prev cur a (R & _) E. apply all_rows_iff in R. destruct R as (_ & _ & _ & _ & _ & _ & R & _). specialize (R _ (or_introl eq_refl)).
  pose proof (E 0%nat) as E0. pose proof (E 1%nat) as E1. cbn in E0, E1.
  change (order_row d (0%nat, 1%nat, DirV)) with (irow [(VY 1, 1); (VY 0, -1)] SL (-14)) in R. apply meets_irow in R. cbn [cmp isum fold_right fst snd] in R. lia.
Qed.

(** Finding: the sizes across the axis are divided by four.  Two pairs of widths 2 and 4 get
    different axes in every solution, though they can be mirrored. *)
Definition two_pairs : idesign :=
  IDesign [square 2; square 2; square 4; square 4] [] [Group [(0, 1); (2, 3)]%nat [] DirV] [] [] [] (fun _ _ _ => 0) 0 0 1 1 0 0 20 20.
Definition mirrored_pairs : flipped :=
  Flipped (Placement (fun i => nth i [2; 6; 1; 5] 0) (fun i => nth i [10; 10; 0; 0] 0) (bw two_pairs) (bh two_pairs)) (fun i => nth i [0; 1; 0; 1] 0) (fun _ => 0).
Lemma lt4 (Q : nat -> Prop) : Q 0%nat -> Q 1%nat -> Q 2%nat -> Q 3%nat -> forall i, (i < 4)%nat -> Q i.
Proof. intros H0 H1 H2 H3 i Hi. destruct i as [|[|[|[|i]]]]; auto. lia. Qed.
Ltac four := let i := fresh in let H := fresh in intros i H; change (i < 4)%nat in H; revert i H; refine (lt4 _ _ _ _ _).
Lemma two_pairs_sane : sane two_pairs.
Proof.
  split; cbn [two_pairs i_blocks i_nets i_syms i_aligns i_orders i_abuts i_spread i_bias_h i_bias_v i_xp i_yp i_halo_h i_halo_v i_box_w i_box_h]; try lia; try (intros; contradiction).
  - apply (lt4 (fun i => 0 < bw two_pairs i /\ 0 < bh two_pairs i)); cbn; lia.
  - intros g x a [<-|[]]. cbn. intuition; subst; cbn in *; lia.
Qed.
Theorem C92_axis_refuted : exists d pos neg F, sane d /\ sequences (length (i_blocks d)) pos neg /\ legal d pos neg F /\
  (exists a, solution d pos neg true false None (fun _ => (0, 0)) a) /\
  forall flush snap prev cur a, solution d pos neg flush snap prev cur a -> exists g, In g (i_syms d) /\ twins d g /\ ~ mirrored (fp (solved d a)) g.
Proof.
  exists two_pairs, [0; 1; 2; 3]%nat, [2; 3; 0; 1]%nat, mirrored_pairs. split; [exact two_pairs_sane|].
  assert (NoDup [0; 1; 2; 3]%nat /\ NoDup [2; 3; 0; 1]%nat) as [N1 N2] by (split; repeat constructor; cbn; intuition lia).
  split; [split; [exact N1|split; [exact N2|]]; intros a H; cbn in H; cbn; lia|]. split; [|split].
  - split; [|split; [|split; [|split; [|split]]]].
    + four; cbn; lia.
    + split; [four; unfold flip_ok; cbn; lia|]. intros g a b [<-|[]] [E|[E|[]]]; injection E as <- <-; cbn; lia.
    + four; split; left; reflexivity.
    + apply apart_check; auto using two_pairs_sane.
    + intros g [<-|[]]. exists 10. intros x [<-|[<-|[]]]; cbn; lia.
    + intros u [].
  - exists (Assign (fun v => match v with VX i => nth i [4; 6; 1; 5] 0 | VY i => nth i [10; 10; 0; 0] 0 | VH i => nth i [0; 1; 0; 1] 0 | _ => 0 end) (fun _ => inject_Z 20)).
    apply solution_check; vm_compute; reflexivity.
  - intros flush snap prev cur a Ha. set (g := Group [(0, 1); (2, 3)]%nat [] DirV). exists g. split; [now left|].
    split; [intros x y [E|[E|[]]]; injection E as <- <-; reflexivity|].
    rewrite (C92_mirrored _ _ _ _ _ _ _ _ g two_pairs_sane Ha (or_introl eq_refl)). intros [_ (r & B & _)].
    pose proof (B 0%nat 1%nat (or_introl eq_refl)) as B1. pose proof (B 2%nat 3%nat (or_intror (or_introl eq_refl))) as B2. cbn in B1, B2. lia.
Qed.

(** Finding: the pass that snaps to the grid replaces the bounds by two pitches around the last
    coordinates; it may leave the halo and the box. *)
Theorem C92_snap_refuted : exists d pos neg cur a, sane d /\ sequences (length (i_blocks d)) pos neg /\
  solution d pos neg true true None cur a /\
  (forall i, (i < length (i_blocks d))%nat -> i_halo_h d <= fst (cur i) /\ fst (cur i) + bw d i <= i_box_w d - i_halo_h d /\
     i_halo_v d <= snd (cur i) /\ snd (cur i) + bh d i <= i_box_h d - i_halo_v d) /\
  ~ inside d (fp (solved d a)).
Proof.
  set (d := IDesign [square 4] [] [] [] [] [] (fun _ _ _ => 0) 0 0 2 2 3 3 10 10).
  exists d, [0%nat], [0%nat], (fun _ => (3, 3)), (Assign (fun v => match v with VX _ | VY _ => 2 | VSnapX _ | VSnapY _ => 1 | _ => 0 end) (fun _ => inject_Z 6)).
  split. { split; cbn; try lia; try (intros; contradiction). intros i Hi. assert (i = 0%nat) as -> by lia. cbn. lia. }
  split. { split; [|split]; [repeat constructor; intros []|repeat constructor; intros []|]. intros a Ha. cbn in Ha. assert (a = 0%nat) as -> by lia. cbn. tauto. }
  split; [apply solution_check; vm_compute; reflexivity|]. split.
  - intros i Hi. cbn in Hi. assert (i = 0%nat) as -> by lia. cbn. lia.
  - intros H. specialize (H 0%nat ltac:(cbn; lia)). cbn in H. lia.
Qed.

(** A design with a pair, a self-symmetric block, a block on a grid, an alignment, an ordering,
    spacings and a net meets the hypotheses of the theorem and has a legal placement. *)
Definition sample : idesign :=
  IDesign [IBlock 8 8 0 0 1 [] 1 [] [PBox 1 1 2 2]; square 8; IBlock 12 8 0 1 1 [] 1 [] []; IBlock 8 8 1 0 10 [1; 3] 1 [] [PBox 0 4 8 5]]
    [INet false [(0, 0); (3, 0)]%nat] [Group [(0, 1)]%nat [(2%nat, DirH)] DirV] [Align true 0 [2; 3]%nat] [(0%nat, 1%nat, DirH)] []
    (fun a b h => if h && (((a =? 0)%nat && (b =? 1)%nat) || ((a =? 1)%nat && (b =? 0)%nat)) then 4 else 0) 1 1 2 2 2 2 60 40.
Definition sample_placed : flipped :=
  Flipped (Placement (fun i => nth i [2; 14; 6; 31] 0) (fun i => nth i [12; 12; 2; 2] 0) (bw sample) (bh sample)) (fun i => nth i [1; 0; 0; 0] 0) (fun _ => 0).
Lemma sample_sane : sane sample.
Proof.
  split; cbn [sample i_blocks i_nets i_syms i_aligns i_orders i_abuts i_spread i_bias_h i_bias_v i_xp i_yp i_halo_h i_halo_v i_box_w i_box_h]; try lia.
  - apply (lt4 (fun i => 0 < bw sample i /\ 0 < bh sample i)); cbn; lia.
  - intros a b []; cbn [andb]; [|reflexivity]. destruct (a =? 0)%nat eqn:?, (b =? 1)%nat eqn:?, (a =? 1)%nat eqn:?, (b =? 0)%nat eqn:?; cbn; lia.
  - intros g x a [<-|[]]. cbn. intuition; subst; cbn in *; lia.
  - intros u a [<-|[]]. cbn. lia.
  - intros u [<-|[]]. cbn. lia.
  - intros a b x [E|[]]. injection E as <- <- <-. cbn. lia.
Qed.
Example C92_exact_nonvacuous : exists a, solution sample [0; 1; 2; 3]%nat [2; 0; 1; 3]%nat true false None (fun _ => (0, 0)) a /\ a_int a (VX 3) = 31.
Proof.
  assert (NoDup [0; 1; 2; 3]%nat /\ NoDup [2; 0; 1; 3]%nat) as [N1 N2] by (split; repeat constructor; cbn; intuition lia).
  destruct (proj1 (C92_exact sample [0; 1; 2; 3]%nat [2; 0; 1; 3]%nat sample_placed (fun _ => (0, 0)) sample_sane
    ltac:(split; [exact N1|split; [exact N2|]]; intros a H; cbn in H; cbn; lia) ltac:(intros i; split; reflexivity)
    ltac:(intros i p Hi; revert p; revert i Hi; apply (lt4 (fun i => forall p, In p (b_pins (blk sample i)) -> 0 <= llx p /\ urx p <= bw sample i /\ 0 <= lly p /\ ury p <= bh sample i)); cbn; intros p; intuition; subst; cbn; lia)
    ltac:(intros net c [<-|[]]; cbn; intuition; subst; cbn; lia)
    ltac:(intros g [<-|[]]; split; [intros x y [E|[]]; injection E as <- <-; reflexivity|exists 0; split; [intros x y [E|[]]; injection E as <- <-; reflexivity|intros x [<-|[]]; reflexivity]])
    ltac:(intros u [<-|[]] E; discriminate E)
    ltac:(intros o [<-|[]]; split; [exists [], [], [2; 3]%nat|exists [2%nat], [], [3%nat]]; reflexivity)
    ltac:(intros o []) ltac:(intros x y [E|[]]; discriminate E) ltac:(intros g H; exact H))) as (a & Ha & E).
  - split; [|split; [|split; [|split; [|split]]]].
    + four; cbn; lia.
    + split; [four; unfold flip_ok; cbn; lia|]. intros g a b [<-|[]] [E|[]]; injection E as <- <-; cbn; lia.
    + four; (split; [|left; reflexivity]); try (left; reflexivity). right. exists 3, 1. cbn. lia.
    + apply apart_check; auto using sample_sane.
    + intros g [<-|[]]. exists 24. intros x [<-|[<-|[]]]; cbn; lia.
    + intros u [<-|[]] a b Ha Hb. cbn in Ha, Hb. destruct Ha as [<-|[<-|[]]], Hb as [<-|[<-|[]]]; reflexivity.
  - exists a. split; [exact Ha|]. exact (proj1 (E 3%nat)).
Qed.

Print Assumptions C92_sound.
Print Assumptions C92_mirrored.
Print Assumptions C92_in_line.
Print Assumptions C92_inside.
Print Assumptions C92_exact.
Print Assumptions C92_checked.
Print Assumptions C92_stack.
Print Assumptions C92_stack_refuted.
Print Assumptions C92_order_gap_refuted.
Print Assumptions C92_axis_refuted.
Print Assumptions C92_snap_refuted.
