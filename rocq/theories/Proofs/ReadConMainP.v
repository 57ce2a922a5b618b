From Coq Require Import String ZArith QArith Qround Lqa ZifyBool.
From Verif Require Import Base.Prelude Model.Transformation Model.SeqPair Model.ConstraintDB Model.Formulas Model.SeqEnum Model.SymmGroup
  Model.KeepOrder Model.SeqCheck Model.PlaceRows Model.ReadCon Spec.SeqEnumSpec Spec.SymmGroupSpec Spec.SeqCheckSpec Spec.PlaceRowsSpec
  Spec.ReadConSpec Proofs.SeqEnumP Proofs.SymmGroupP Proofs.PlaceRowsP Proofs.PlaceMainP Proofs.ReadConP.
Local Open Scope Z_scope.

Section Kept.
Variables (names : list string) (scale : Z) (d0 d : idesign) (h0 : nat -> Z) (early later : list ucon) (c : hcon).
Let cs := early ++ UHard c :: later.
Variables (pos neg : list nat) (flush snap : bool) (prev : option (nat -> Z * Z)) (cur : nat -> Z * Z) (a : assign) (raw : boxes).
Hypothesis Hb : build names scale d0 h0 cs = Some d.
Hypothesis Hn : NoDup names.
Hypothesis Hl : length names = length (i_blocks d0).
Hypothesis Hk : known names cs.
Hypothesis Hd : sane d.
Hypothesis Hs : sequences (length (i_blocks d)) pos neg.
Hypothesis Ho : forall o, In o (i_orders d) -> keeps pos neg o.
Hypothesis Ha : solution d pos neg flush snap prev cur a.
Let P := fp (solved d a).
Hypothesis Hi : inside d P.
Hypothesis Hr : seen names d P raw.

Lemma build_eq : exists js j1 jc j2, write cs = Some js /\ js = j1 ++ jc ++ j2 /\ wr (UHard c) = Some jc /\ write later = Some j2 /\
  d = design_of d0 h0 (read names scale (start d0) js).
Proof.
  unfold build in Hb. destruct (write cs) as [js|] eqn:W; [|discriminate]. cbn in Hb.
  destruct (proj1 (write_app early (UHard c :: later) js) W) as (j1 & j2 & _ & B & ->). cbn [write] in B.
  destruct (wr (UHard c)) as [jc|] eqn:Wc; [|discriminate]. destruct (write later) as [jl|] eqn:Wl; [|discriminate]. injection B as <-.
  exists (j1 ++ jc ++ jl), j1, jc, jl. split; [reflexivity|]. split; [reflexivity|]. split; [reflexivity|]. split; [reflexivity|]. congruence.
Qed.
Lemma blocks_same : i_blocks d = i_blocks d0.
Proof. destruct build_eq as (js & _ & _ & _ & _ & _ & _ & _ & E). rewrite E. reflexivity. Qed.
Lemma name_block n i : is_block names n i -> (i < length (i_blocks d))%nat /\ raw n = box_at P i.
Proof.
  intros H. rewrite blocks_same, <- Hl. split; [apply nth_error_Some; congruence|]. now apply (proj1 Hr).
Qed.
Lemma coords i : (i < length (i_blocks d))%nat -> 0 <= px P i /\ 0 < pw P i /\ 0 <= py P i /\ 0 < ph P i.
Proof.
  intros H. specialize (Hi i H). destruct (s_halo d Hd), (s_size d Hd i H). unfold P in *. cbn [solved fp pw ph px py] in *. lia.
Qed.
Lemma c_names n : In n (names_in (UHard c)) -> In n names.
Proof. intros H. apply (Hk (UHard c) n); [|exact H]. apply in_or_app. right. now left. Qed.

Lemma order_in h abut xs : (exists dr, c = HOrder dr abut xs /\ wr (UHard c) = Some [JOrder h abut xs]) -> forall x y, In (x, y) (pairwise xs) ->
  exists i j, is_block names x i /\ is_block names y j /\ In (i, j, to_dir h) (i_orders d) /\ (abut = true -> In (i, j, to_dir h) (i_abuts d)).
Proof.
  intros (dr & Ec & W) x y Hp. destruct build_eq as (js & j1 & jc & j2 & _ & Ejs & W' & _ & E).
  assert (jc = [JOrder h abut xs]) by congruence. subst jc.
  assert (forall n, In n xs -> In n names) as Kx by (intros n H; apply c_names; rewrite Ec; exact H).
  destruct (pairwise_map2 _ _ _ _ _ (blocks_of_all names xs Hn Kx) Hp) as (i & j & Hij & Bi & Bj). exists i, j. split; [exact Bi|]. split; [exact Bj|].
  rewrite E. cbn [design_of i_orders i_abuts]. split.
  - apply in_flat_map. exists (blocks_of names xs, to_dir h). split.
    + rewrite read_orders. apply in_or_app. right. apply in_flat_map. exists (JOrder h abut xs). split; [rewrite Ejs; apply in_or_app; right; now left|now left].
    + apply in_flat_map. exists (i, j). split; [exact Hij|]. now left.
  - intros ->. apply in_flat_map. exists (blocks_of names xs, to_dir h). split.
    + rewrite read_abuts. apply in_or_app. right. apply in_flat_map. exists (JOrder h true xs). split; [rewrite Ejs; apply in_or_app; right; now left|now left].
    + apply in_map_iff. exists (i, j). auto.
Qed.

Lemma half_lo x r : lo x (scaled 2 r) = Z.quot (lo x r) 2. Proof. destruct x; reflexivity. Qed.
Lemma half_hi x r : hi x (scaled 2 r) = Z.quot (hi x r) 2. Proof. destruct x; reflexivity. Qed.
Lemma lo_at x i : lo x (box_at P i) = if x then px P i else py P i. Proof. destruct x; reflexivity. Qed.
Lemma hi_at x i : hi x (box_at P i) = if x then px P i + pw P i else py P i + ph P i. Proof. destruct x; reflexivity. Qed.

Lemma kept_order dr abut xs : c = HOrder dr abut xs -> ztranslate names c (checked raw).
Proof.
  intros Ec. destruct build_eq as (_ & _ & jc & _ & _ & _ & W & _).
  assert (exists h, wr (UHard c) = Some [JOrder h abut xs] /\
    forall b1 b2 : Rect, (if h then zorder_cc abut true b1 b2 else zorder_cc abut false b2 b1) -> zorder dr abut b1 b2) as (h & W' & Z).
  { rewrite Ec in *. cbn [wr] in *. destruct dr; try discriminate; [exists true|exists false|exists true|exists false]; (split; [reflexivity|]); intros b1 b2; cbn [zorder]; tauto. }
  rewrite Ec. cbn [ztranslate]. apply Forall_forall. intros [x y] Hp. cbn [fst snd]. apply Z.
  destruct (order_in h abut xs (ex_intro _ dr (conj Ec W')) x y Hp) as (i & j & Bi & Bj & Io & Iab).
  destruct (name_block x i Bi) as [Li Ri], (name_block y j Bj) as [Lj Rj]. pose proof (sol_ordered d pos neg flush snap prev cur a Hd Ha i j _ Io) as Q.
  pose proof (sol_apart d pos neg flush snap prev cur a Hd Hs Ha i j Li Lj) as [A1 A2]. pose proof (Ho _ Io) as K. unfold keeps in K. cbn [fst snd] in K.
  pose proof (coords i Li) as Ci. pose proof (coords j Lj) as Cj. fold P in Q.
  unfold checked, zorder_cc. rewrite Ri, Rj. destruct h; cbn [to_dir] in *; rewrite !half_lo, !half_hi, !lo_at, !hi_at; cbv iota; destruct abut.
  - specialize (A1 K). destruct A1 as [A1 _]. specialize (A1 (Iab eq_refl)). fold P in A1. cbv zeta in A1. f_equal. lia.
  - apply Z.quot_le_mono; lia.
  - specialize (A2 K). destruct A2 as [A2 _]. specialize (A2 (Iab eq_refl)). fold P in A2. cbv zeta in A2. f_equal. lia.
  - apply Z.quot_le_mono; lia.
Qed.

Lemma kept_align l xs : c = HAlign l xs -> fine cs later raw c -> ztranslate names c (checked raw).
Proof.
  intros Ec Hf. destruct build_eq as (js & j1 & jc & j2 & _ & Ejs & W & _ & E).
  assert (forall n, In n xs -> In n names) as Kx by (intros n H; apply c_names; rewrite Ec; exact H).
  pose proof (blocks_of_all names xs Hn Kx) as F2.
  assert (forall h line, wr (UHard c) = Some [JAlign h line xs] -> In (Align h line (blocks_of names xs)) (i_aligns d)) as Hin.
  { intros h line W'. assert (jc = [JAlign h line xs]) by congruence. subst jc. rewrite E. cbn [design_of i_aligns]. rewrite read_aligns. apply in_or_app. right.
    apply in_flat_map. exists (JAlign h line xs). split; [rewrite Ejs; apply in_or_app; right; now left|now left]. }
  rewrite Ec. cbn [ztranslate]. apply Forall_forall. intros [x y] Hp. cbn [fst snd].
  destruct (pairwise_map2 _ _ _ _ _ F2 Hp) as (i & j & Hij & Bi & Bj). apply pairwise_in in Hij. destruct Hij as [Ii Ij]. apply pairwise_in in Hp. destruct Hp as [Ix Iy].
  destruct (name_block x i Bi) as [Li Ri], (name_block y j Bj) as [Lj Rj].
  pose proof (coords i Li) as Ci. pose proof (coords j Lj) as Cj.
  assert (forall h line, wr (UHard c) = Some [JAlign h line xs] -> (line = 1%nat -> forall z, In z xs -> zsize (negb h) (raw x) mod 2 = zsize (negb h) (raw z) mod 2) ->
    on_line P (Align h line (blocks_of names xs)) i = on_line P (Align h line (blocks_of names xs)) j) as Q.
  { intros h line W' S. apply (sol_line d pos neg flush snap prev cur a Hd Ha _ (Hin h line W')); [|exact Ii|exact Ij].
    intros El u v Hu Hv. cbn [al_line] in El. specialize (S El). cbn [al_blocks al_hor] in *.
    destruct (forall2_in' _ _ _ _ F2 Hu) as (nu & Nu & Bu), (forall2_in' _ _ _ _ F2 Hv) as (nv & Nv & Bv).
    pose proof (S nu Nu) as S1. pose proof (S nv Nv) as S2. destruct (name_block nu u Bu) as [_ Ru], (name_block nv v Bv) as [_ Rv].
    assert (zsize (negb h) (raw nu) mod 2 = zsize (negb h) (raw nv) mod 2) as S3 by congruence. rewrite Ru, Rv in S3. unfold zsize in S3.
    rewrite !lo_at, !hi_at in S3. destruct h; cbn [negb] in S3; unfold P in S3; cbn [solved fp px py pw ph] in S3.
    - replace (a_int a (VY u) + bh d u - a_int a (VY u)) with (bh d u) in S3 by lia. replace (a_int a (VY v) + bh d v - a_int a (VY v)) with (bh d v) in S3 by lia. exact S3.
    - replace (a_int a (VX u) + bw d u - a_int a (VX u)) with (bw d u) in S3 by lia. replace (a_int a (VX v) + bw d v - a_int a (VX v)) with (bw d v) in S3 by lia. exact S3. }
  rewrite Ec in Hf, W, Q. unfold checked. destruct l; cbn [wr] in W, Q; try discriminate; cbn [fine] in Hf; cbn [zalign];
    rewrite ?half_lo, ?half_hi; rewrite Ri, Rj; rewrite ?lo_at, ?hi_at; cbv iota.
  - specialize (Q _ _ eq_refl ltac:(discriminate)). unfold on_line, cx, cy in Q. cbn [al_hor al_line] in Q. f_equal. lia.
  - specialize (Q _ _ eq_refl ltac:(discriminate)). unfold on_line, cx, cy in Q. cbn [al_hor al_line] in Q. f_equal. lia.
  - destruct Hf as [E1 E2]. specialize (Q _ _ eq_refl (fun _ z Hz => E2 x z Ix Hz)). unfold on_line, cx, cy in Q. cbn [al_hor al_line] in Q.
    pose proof (E1 x Ix false) as X. pose proof (E1 y Iy false) as Y. rewrite Ri in X. rewrite Rj in Y. rewrite lo_at, hi_at in X, Y. cbv iota in X, Y. lia.
  - specialize (Q _ _ eq_refl ltac:(discriminate)). unfold on_line, cx, cy in Q. cbn [al_hor al_line] in Q. f_equal. lia.
  - specialize (Q _ _ eq_refl ltac:(discriminate)). unfold on_line, cx, cy in Q. cbn [al_hor al_line] in Q. f_equal. lia.
  - destruct Hf as [E1 E2]. specialize (Q _ _ eq_refl (fun _ z Hz => E2 x z Ix Hz)). unfold on_line, cx, cy in Q. cbn [al_hor al_line] in Q.
    pose proof (E1 x Ix true) as X. pose proof (E1 y Iy true) as Y. rewrite Ri in X. rewrite Rj in Y. rewrite lo_at, hi_at in X, Y. cbv iota in X, Y. lia.
Qed.

(** ** Spread *)
Lemma spread_app s1 s2 i j h : spread_of (s1 ++ s2) i j h = fold_left (fun v s => let '(h', dist, bs) := s in
    if Bool.eqb h' h && has i bs && has j bs && negb (i =? j)%nat then dist else v) s2 (spread_of s1 i j h).
Proof. unfold spread_of. now rewrite fold_left_app. Qed.
Lemma abut_touching i j h x y : is_block names x i -> is_block names y j -> In (i, j, to_dir h) (i_abuts d) -> touching cs h x y.
Proof.
  intros Bi Bj Hab. destruct build_eq as (js & j1 & jc & j2 & Wj & Ejs & W & _ & E). rewrite E in Hab. cbn [design_of i_abuts] in Hab.
  apply in_flat_map in Hab. destruct Hab as ([bs dr] & H1 & H2). apply in_map_iff in H2. destruct H2 as ([i' j'] & E2 & H2). cbn [fst snd] in *. injection E2 as -> -> ->.
  rewrite read_abuts in H1. apply in_app_iff in H1. destruct H1 as [[]|H1]. apply in_flat_map in H1. destruct H1 as (jj & J1 & J2).
  destruct jj as [h' [] bs'| | | | |]; try destruct J2 as []. injection H as <- Eh. 2: contradiction.
  assert (h' = h) as -> by (destruct h', h; cbn in Eh; congruence). clear Eh.
  apply (write_in cs js _ Wj) in J1. destruct J1 as (u & lu & Hu & Wu & Ju).
  destruct u as [u|]; [|injection Wu as <-; destruct Ju as [Ju|[]]; discriminate].
  destruct u as [dr' ab xs|ll xs|h' ds xs| | | |vt ps|]; cbn [wr] in Wu.
  - assert (lu = [JOrder h true bs'] /\ ab = true /\ xs = bs' /\ if h then dr' = OLR \/ dr' = OHoriz else dr' = OTB \/ dr' = OVert) as (_ & -> & -> & Hdr).
    { destruct dr'; try discriminate; injection Wu as <-; destruct Ju as [Ju|[]]; injection Ju as <- <- <-; auto. }
    assert (forall n, In n bs' -> In n names) as Kx by (intros n H; exact (Hk _ n Hu H)).
    destruct (pairwise_map2' _ _ _ _ _ (blocks_of_all names bs' Hn Kx) H2) as (x' & y' & Hp & Bx & By). unfold is_block in *.
    exists dr', bs'. split; [exact Hu|]. split; [congruence|exact Hdr].
  - destruct ll; try discriminate; injection Wu as <-; destruct Ju as [Ju|[]]; discriminate.
  - injection Wu as <-; destruct Ju as [Ju|[]]; discriminate.
  - injection Wu as <-; destruct Ju.
  - injection Wu as <-; destruct Ju.
  - injection Wu as <-; destruct Ju as [Ju|[]]; discriminate.
  - injection Wu as <-; destruct Ju as [Ju|[]]; discriminate.
  - injection Wu as <-; destruct Ju.
Qed.
Lemma spread_read h dist xs x y i j : c = HSpread h dist xs -> fine cs later raw c -> In x xs -> In y xs -> x <> y -> is_block names x i -> is_block names y j ->
  2 * dist <= i_spread d i j h.
Proof.
  intros Ec Hf Ix Iy Nxy Bi Bj. destruct build_eq as (js & j1 & jc & j2 & _ & Ejs & W & Wl & E). rewrite Ec in W. cbn [wr] in W. injection W as <-.
  rewrite E. cbn [design_of i_spread]. rewrite read_spreads, Ejs, !flat_map_app, !app_assoc. cbn [start nd_spreads app]. rewrite spread_app.
  assert (forall x' i' ys, (forall n, In n ys -> In n names) -> is_block names x' i' -> (has i' (blocks_of names ys) = true <-> In x' ys)) as HB.
  { intros x' i' ys Ky Bx. rewrite has_iff. pose proof (blocks_of_all names ys Hn Ky) as F2. split; intros H.
    - destruct (forall2_in' _ _ _ _ F2 H) as (x2 & X2 & B2). unfold is_block in *. congruence.
    - destruct (forall2_in _ _ _ _ F2 H) as (i2 & X2 & B2). assert (i2 = i') as ->; [|exact X2].
      apply find_block_nth in B2; [|exact Hn]. apply find_block_nth in Bx; [|exact Hn]. congruence. }
  assert (i <> j) as Nij by (intros ->; unfold is_block in *; congruence).
  assert (spread_of (flat_map (jspreads names) j1 ++ flat_map (jspreads names) [JSpread h dist xs]) i j h = dist * 2) as S0.
  { rewrite spread_app. cbn [flat_map jspreads app fold_left].
    assert (forall n, In n xs -> In n names) as Kx by (intros n H; apply c_names; rewrite Ec; exact H).
    rewrite (proj2 (HB x i xs Kx Bi) Ix), (proj2 (HB y j xs Kx Bj) Iy), Bool.eqb_reflx. apply Nat.eqb_neq in Nij. rewrite Nij. reflexivity. }
  rewrite S0. rewrite Ec in Hf. cbn [fine] in Hf. destruct Hf as (_ & _ & Hlat).
  assert (forall js' v, 2 * dist <= v -> (forall dist' ys, In (JSpread h dist' ys) js' -> In (UHard (HSpread h dist' ys)) later) ->
     2 * dist <= fold_left (fun v s => let '(h', dist', bs) := s in if Bool.eqb h' h && has i bs && has j bs && negb (i =? j)%nat then dist' else v)
       (flat_map (jspreads names) js') v) as G.
  { induction js' as [|jj js' IH]; intros v Hv Hj; cbn [flat_map fold_left]; [exact Hv|].
    rewrite fold_left_app. apply IH; [|intros d' ys H; apply Hj; now right].
    destruct jj as [| | |h' dist' ys| |]; cbn [jspreads fold_left]; try exact Hv.
    destruct (Bool.eqb h' h) eqn:Eh; [|exact Hv]. apply Bool.eqb_prop in Eh. subst h'. specialize (Hj dist' ys (or_introl eq_refl)).
    assert (forall n, In n ys -> In n names) as Ky by (intros n H; apply (Hk (UHard (HSpread h dist' ys)) n); [apply in_or_app; right; now right|exact H]).
    destruct (has i (blocks_of names ys)) eqn:E1; [|exact Hv]. destruct (has j (blocks_of names ys)) eqn:E2; [|exact Hv].
    apply (HB x i ys Ky Bi) in E1. apply (HB y j ys Ky Bj) in E2. cbn [andb]. destruct (negb (i =? j)%nat); [|exact Hv].
    pose proof (Hlat dist' ys x y Hj Ix Iy Nxy E1 E2). lia. }
  apply G; [lia|]. intros dist' ys H. apply (write_in later j2 _ Wl) in H. destruct H as (u & lu & Hu & Wu & Ju).
  destruct u as [u|]; [|injection Wu as <-; destruct Ju as [Ju|[]]; discriminate].
  destruct u as [dr' ab zs|ll zs|h' ds zs| | | |vt ps|]; cbn [wr] in Wu.
  - destruct dr'; try discriminate; injection Wu as <-; destruct Ju as [Ju|[]]; discriminate.
  - destruct ll; try discriminate; injection Wu as <-; destruct Ju as [Ju|[]]; discriminate.
  - injection Wu as <-; destruct Ju as [Ju|[]]. injection Ju as -> -> ->. exact Hu.
  - injection Wu as <-; destruct Ju.
  - injection Wu as <-; destruct Ju.
  - injection Wu as <-; destruct Ju as [Ju|[]]; discriminate.
  - injection Wu as <-; destruct Ju as [Ju|[]]; discriminate.
  - injection Wu as <-; destruct Ju.
Qed.
Lemma four_ways i j : (i < length (i_blocks d))%nat -> (j < length (i_blocks d))%nat -> i <> j ->
  left_of pos neg i j \/ left_of pos neg j i \/ above pos neg i j \/ above pos neg j i.
Proof.
  intros Hx Hy N. destruct Hs as (N1 & N2 & Hin). set (n := length (i_blocks d)) in *.
  destruct (precedes_total n pos i j N1 (fun z h => proj1 (Hin z h)) Hx Hy N) as [P1 D1].
  destruct (precedes_total n pos j i N1 (fun z h => proj1 (Hin z h)) Hy Hx (not_eq_sym N)) as [P2 _].
  destruct (precedes_total n neg i j N2 (fun z h => proj2 (Hin z h)) Hx Hy N) as [P3 D2].
  destruct (precedes_total n neg j i N2 (fun z h => proj2 (Hin z h)) Hy Hx (not_eq_sym N)) as [P4 _].
  unfold left_of, above in *. rewrite P1, P2, P3, P4. lia.
Qed.
Lemma kept_spread h dist xs : c = HSpread h dist xs -> fine cs later raw c -> ztranslate names c (checked raw).
Proof.
  intros Ec Hf. pose proof Hf as Hf'. rewrite Ec. cbn [ztranslate]. rewrite Ec in Hf'. cbn [fine] in Hf'. destruct Hf' as (Nd & Nt & _).
  apply Forall_forall. intros [x y] Hp. cbn [fst snd]. apply combos_in in Hp. destruct Hp as (Ix & Iy & Nxy). specialize (Nxy Nd).
  assert (forall n, In n xs -> In n names) as Kx by (intros n H; apply c_names; rewrite Ec; exact H).
  destruct (In_nth_error _ _ (Kx x Ix)) as [i Bi], (In_nth_error _ _ (Kx y Iy)) as [j Bj].
  destruct (name_block x i Bi) as [Li Ri], (name_block y j Bj) as [Lj Rj].
  assert (i <> j) as Nij by (intros ->; congruence).
  pose proof (spread_read h dist xs x y i j Ec Hf Ix Iy Nxy Bi Bj) as S1. pose proof (spread_read h dist xs y x j i Ec Hf Iy Ix (not_eq_sym Nxy) Bj Bi) as S2.
  assert (~ In (i, j, to_dir h) (i_abuts d)) as T1 by (intros H; exact (Nt x y Ix Iy (abut_touching i j h x y Bi Bj H))).
  assert (~ In (j, i, to_dir h) (i_abuts d)) as T2 by (intros H; exact (Nt y x Iy Ix (abut_touching j i h y x Bj Bi H))).
  pose proof (coords i Li) as Ci. pose proof (coords j Lj) as Cj.
  pose proof (sol_apart d pos neg flush snap prev cur a Hd Hs Ha) as Ap.
  pose proof (sol_realizes d pos neg flush snap prev cur a Hd Hs Ha) as Re. fold P in Ap, Re.
  unfold checked, zspread. rewrite Ri, Rj, !half_lo, !half_hi, !lo_at, !hi_at.
  destruct (Ap i j Li Lj) as [A1 A2], (Ap j i Lj Li) as [A3 A4]. destruct (Re i j Li Lj) as (_ & _ & R1 & R2), (Re j i Lj Li) as (_ & _ & R3 & R4).
  unfold apart_h, apart_v, far_enough in *. destruct h; cbn [negb to_dir] in *; intros [O1 O2].
  - destruct (four_ways i j Li Lj Nij) as [K|[K|[K|K]]].
    + destruct (A1 K) as [_ Q]. destruct (Q T1) as [Q1 _]. clear - Q1 S1 Ci Cj. lia.
    + destruct (A3 K) as [_ Q]. destruct (Q T2) as [Q1 _]. clear - Q1 S2 Ci Cj. lia.
    + specialize (R2 K). clear - R2 O1 O2 Ci Cj. lia.
    + specialize (R4 K). clear - R4 O1 O2 Ci Cj. lia.
  - destruct (four_ways i j Li Lj Nij) as [K|[K|[K|K]]].
    + specialize (R1 K). clear - R1 O1 O2 Ci Cj. lia.
    + specialize (R3 K). clear - R3 O1 O2 Ci Cj. lia.
    + destruct (A2 K) as [_ Q]. destruct (Q T1) as [Q1 _]. clear - Q1 S1 Ci Cj. lia.
    + destruct (A4 K) as [_ Q]. destruct (Q T2) as [Q1 _]. clear - Q1 S2 Ci Cj. lia.
Qed.

(** ** Symmetry *)
Lemma kept_symm vert ps : c = HSymm vert ps -> fine cs later raw c -> ztranslate names c (checked raw).
Proof.
  intros Ec Hf. destruct build_eq as (js & j1 & jc & j2 & _ & Ejs & W & _ & E). rewrite Ec in W. cbn [wr] in W. injection W as <-.
  rewrite Ec in Hf. cbn [fine] in Hf. destruct Hf as (Ev & Hlen & Htw & r & Hpr & Hsr).
  set (js0 := flat_map wr_pair ps) in *.
  set (g := Group (sym_pairs names js0) (map (fun i => (i, to_dir (negb vert))) (sym_selfs names js0)) (to_dir (negb vert))).
  assert (In g (i_syms d)) as Hg.
  { rewrite E. cbn [design_of i_syms]. rewrite read_syms. apply in_or_app. right. apply in_flat_map. exists (JSymm (negb vert) js0).
    split; [rewrite Ejs; apply in_or_app; right; now left|now left]. }
  assert (forall p, In p ps -> forall n, In n p -> In n names /\ even_box (raw n)) as Kp.
  { intros p Hp n Hin. assert (In n (concat ps)) as Q by (apply in_concat; eauto). split; [apply c_names; rewrite Ec; exact Q|now apply Ev]. }
  assert (forall x y, In [x; y] ps -> exists i j, is_block names x i /\ is_block names y j /\ (In (i, j) (g_pairs g) \/ In (j, i) (g_pairs g))) as Gp.
  { intros x y Hp. destruct (In_nth_error _ _ (proj1 (Kp _ Hp x (or_introl eq_refl)))) as [i Bi], (In_nth_error _ _ (proj1 (Kp _ Hp y (or_intror (or_introl eq_refl))))) as [j Bj].
    exists i, j. split; [exact Bi|]. split; [exact Bj|].
    assert (In (if (j <? i)%nat then (j, i) else (i, j)) (g_pairs g)) as Q.
    { cbn [g g_pairs]. apply in_flat_map. exists (JPair x y). split; [apply in_flat_map; exists [x; y]; split; [exact Hp|now left]|].
      rewrite (proj2 (find_block_nth names x i Hn) Bi), (proj2 (find_block_nth names y j Hn) Bj). now left. }
    destruct (j <? i)%nat; [now right|now left]. }
  assert (forall x, In [x] ps -> exists i, is_block names x i /\ In (i, to_dir (negb vert)) (g_self g)) as Gs.
  { intros x Hp. destruct (In_nth_error _ _ (proj1 (Kp _ Hp x (or_introl eq_refl)))) as [i Bi]. exists i. split; [exact Bi|]. cbn [g g_self].
    apply in_map_iff. exists i. split; [reflexivity|]. apply in_flat_map. exists (JSelf x). split; [apply in_flat_map; exists [x]; split; [exact Hp|now left]|].
    cbn [blocks_of flat_map]. rewrite (proj2 (find_block_nth names x i Hn) Bi). now left. }
  assert (forall i j, In (i, j) (g_pairs g) -> exists x y, (In [x; y] ps \/ In [y; x] ps) /\ is_block names x i /\ is_block names y j) as Gp'.
  { intros i j H. cbn [g g_pairs] in H. apply in_flat_map in H. destruct H as (jp & Hjp & H). apply in_flat_map in Hjp. destruct Hjp as (p & Hp & Hw).
    destruct (Hlen p Hp) as [L|L]; [destruct p as [|x [|]]; try discriminate; destruct Hw as [<-|[]]; destruct H|].
    destruct p as [|x [|y [|]]]; try discriminate. destruct Hw as [<-|[]].
    destruct (find_block names x) as [ix|] eqn:Ex; [|destruct H]. destruct (find_block names y) as [iy|] eqn:Ey; [|destruct H].
    apply find_block_nth in Ex, Ey; try exact Hn. destruct H as [H|[]]. destruct (iy <? ix)%nat; injection H as <- <-; [exists y, x|exists x, y]; auto. }
  assert (forall i, In i (map fst (g_self g)) -> exists x, In [x] ps /\ is_block names x i) as Gs'.
  { intros i H. cbn [g g_self] in H. rewrite map_map, map_id in H. apply in_flat_map in H. destruct H as (jp & Hjp & H). apply in_flat_map in Hjp. destruct Hjp as (p & Hp & Hw).
    destruct (Hlen p Hp) as [L|L].
    - destruct p as [|x [|]]; try discriminate. destruct Hw as [<-|[]]. cbn [blocks_of flat_map] in H. destruct (find_block names x) as [ix|] eqn:Ex; [|destruct H].
      destruct H as [<-|[]]. exists x. split; [exact Hp|now apply find_block_nth in Ex].
    - destruct p as [|x [|y [|]]]; try discriminate. destruct Hw as [<-|[]]. destruct H. }
  assert (forall x i, is_block names x i -> forall hor, zsize hor (raw x) = if hor then bw d i else bh d i) as Sz.
  { intros x i B hor. destruct (name_block x i B) as [_ R]. rewrite R. unfold zsize. rewrite lo_at, hi_at. destruct hor; unfold P; cbn [solved fp px py pw ph]; lia. }
  assert (mirrored P g) as (ax & M).
  { apply (sol_mirrored d pos neg flush snap prev cur a Hd Ha g Hg). split.
    - intros i j H. destruct (Gp' i j H) as (x & y & Hp & Bi & Bj). pose proof (Sz x i Bi (negb vert)) as Sx. pose proof (Sz y j Bj (negb vert)) as Sy.
      assert (zsize (negb vert) (raw x) = zsize (negb vert) (raw y)) as Q by (destruct Hp as [Hp|Hp]; [now apply Htw|symmetry; now apply Htw]).
      unfold along. cbn [g g_axis]. destruct vert; cbn [negb to_dir] in *; congruence.
    - exists r. split.
      + intros i j H. destruct (Gp' i j H) as (x & y & Hp & Bi & Bj). pose proof (Sz x i Bi vert) as Sx. pose proof (Sz y j Bj vert) as Sy.
        assert (zsize vert (raw x) mod 4 + zsize vert (raw y) mod 4 = 2 * r) as Q by (destruct Hp as [Hp|Hp]; [now apply Hpr|rewrite Z.add_comm; now apply Hpr]).
        unfold across. cbn [g g_axis]. destruct vert; cbn [negb to_dir] in *; congruence.
      + intros i H. destruct (Gs' i H) as (x & Hp & B). pose proof (Sz x i B vert) as Sx. pose proof (Hsr x Hp) as Q. unfold across. cbn [g g_axis]. destruct vert; cbn [negb to_dir] in *; congruence. }
  assert (forall x i, is_block names x i -> even_box (raw x) -> forall hor, 2 * zsum hor (checked raw x) = if hor then cx P i else cy P i) as Zs.
  { intros x i B He hor. destruct (name_block x i B) as [_ R]. specialize (He hor). rewrite R, lo_at, hi_at in He. unfold zsum, checked. rewrite R, half_lo, half_hi, lo_at, hi_at.
    unfold cx, cy. destruct hor; clear - He; lia. }
  assert (forall x y i j, In [x; y] ps -> is_block names x i -> is_block names y j -> (In (i, j) (g_pairs g) \/ In (j, i) (g_pairs g)) ->
     if vert then py P i = py P j /\ ph P i = ph P j /\ cx P i + cx P j = 2 * ax else px P i = px P j /\ pw P i = pw P j /\ cy P i + cy P j = 2 * ax) as Mp.
  { intros x y i j Hp Bi Bj [H|H].
    - specialize (M (EPair (i, j))). cbn [g g_axis] in M. assert (In (EPair (i, j)) (elems g)) as Q by (apply in_or_app; left; now apply in_map). specialize (M Q).
      destruct vert; cbn [negb to_dir] in M; exact M.
    - specialize (M (EPair (j, i))). cbn [g g_axis] in M. assert (In (EPair (j, i)) (elems g)) as Q by (apply in_or_app; left; now apply in_map). specialize (M Q).
      destruct vert; cbn [negb to_dir] in M; destruct M as (M1 & M2 & M3); repeat split; congruence || lia. }
  assert (forall p, In p ps -> zsymm_expr vert (checked raw) p = ax) as X.
  { intros p Hp. destruct (Hlen p Hp) as [L|L].
    - destruct p as [|x [|]]; try discriminate. destruct (Gs x Hp) as (i & B & H). cbn [zsymm_expr].
      pose proof (Zs x i B (proj2 (Kp _ Hp x (or_introl eq_refl))) vert) as Z1.
      specialize (M (ESelf (i, to_dir (negb vert)))). assert (In (ESelf (i, to_dir (negb vert))) (elems g)) as Q by (apply in_or_app; right; now apply in_map).
      specialize (M Q). cbn [g g_axis] in M. destruct vert; cbn [negb to_dir] in M; clear - Z1 M; lia.
    - destruct p as [|x [|y [|]]]; try discriminate. destruct (Gp x y Hp) as (i & j & Bi & Bj & H). cbn [zsymm_expr].
      pose proof (Zs x i Bi (proj2 (Kp _ Hp x (or_introl eq_refl))) vert) as Z1. pose proof (Zs y j Bj (proj2 (Kp _ Hp y (or_intror (or_introl eq_refl)))) vert) as Z2.
      pose proof (Mp x y i j Hp Bi Bj H) as Q. destruct vert; clear - Q Z1 Z2; lia. }
  rewrite Ec. cbn [ztranslate]. split.
  - apply Forall_forall. intros p Hp. destruct (Hlen p Hp) as [L|L]; [destruct p as [|x [|]]; try discriminate; exact I|].
    destruct p as [|x [|y [|]]]; try discriminate. cbn [zsymm_pair]. destruct (Gp x y Hp) as (i & j & Bi & Bj & H).
    pose proof (Zs x i Bi (proj2 (Kp _ Hp x (or_introl eq_refl))) (negb vert)) as Z1. pose proof (Zs y j Bj (proj2 (Kp _ Hp y (or_intror (or_introl eq_refl)))) (negb vert)) as Z2.
    pose proof (Mp x y i j Hp Bi Bj H) as Q.
    assert (2 * zsum (negb vert) (checked raw x) = 2 * zsum (negb vert) (checked raw y)) as Q2 by (rewrite Z1, Z2; unfold cx, cy; destruct vert; cbn [negb]; clear - Q; lia).
    destruct (name_block x i Bi) as [Li Ri], (name_block y j Bj) as [Lj Rj]. pose proof (coords i Li) as Ci. pose proof (coords j Lj) as Cj.
    assert (forall n k, is_block names n k -> raw n = box_at P k -> 0 <= px P k /\ 0 < pw P k /\ 0 <= py P k /\ 0 < ph P k -> 0 <= hi (negb vert) (checked raw n) - lo (negb vert) (checked raw n)) as Pos.
    { intros n k _ R C. unfold checked. rewrite R, half_lo, half_hi, lo_at, hi_at. destruct (negb vert); clear - C; lia. }
    rewrite Q2, Z.sub_diag. split; [exact (Pos x i Bi Ri Ci)|exact (Pos y j Bj Rj Cj)].
  - destruct ps as [|p0 tl]; [exact I|]. apply Forall_forall. intros p Hp. rewrite (X p0 (or_introl eq_refl)), (X p (or_intror Hp)). reflexivity.
Qed.

(** ** Boundary *)
Lemma whole_exact q z : (inject_Z z == 2000 * q)%Q -> whole q = z.
Proof.
  intros H. unfold whole. change (inject_Z unit_scale) with 2000%Q. rewrite Qmult_comm, <- H. apply Qfloor_Z.
Qed.
Lemma int_half q z : (inject_Z z == 2000 * q)%Q -> 0 <= z -> q_int (1000 * q) = Z.quot z 2.
Proof.
  intros H L. assert ((1000 * q == inject_Z z * (1 # 2))%Q) as E by lra.
  assert ((inject_Z z * (1 # 2) == z # 2)%Q) as E2 by (unfold Qeq; cbn; lia). rewrite E2 in E.
  unfold q_int. assert (0 <= 1000 * q)%Q as L2 by (rewrite E; unfold Qle; cbn; lia). apply Qle_bool_iff in L2. rewrite L2.
  rewrite Z.quot_div_nonneg by lia. rewrite E. reflexivity.
Qed.
Lemma kept_boundary mw mh hh hv : c = HBoundary mw mh hh hv -> fine cs later raw c -> ztranslate names c (checked raw).
Proof.
  intros Ec Hf. destruct build_eq as (js & j1 & jc & j2 & _ & Ejs & W & Wl & E). rewrite Ec in W. cbn [wr] in W. injection W as <-.
  rewrite Ec in Hf. cbn [fine] in Hf. destruct Hf as (Nl & Hq). rewrite Ec. cbn [ztranslate]. unfold zboundary.
  repeat match type of Hq with Forall _ (_ :: _) => let z := fresh "z" in let Hz := fresh "Hz" in destruct (Forall_inv Hq) as [z Hz]; apply Forall_inv_tail in Hq end.
  assert ((i_box_w d, i_box_h d, i_halo_h d, i_halo_v d) = (z, z0, z1, z2)) as Q.
  { rewrite <- (whole_exact _ _ Hz), <- (whole_exact _ _ Hz0), <- (whole_exact _ _ Hz1), <- (whole_exact _ _ Hz2).
    rewrite E. cbn [design_of i_box_w i_box_h i_halo_h i_halo_v]. rewrite Ejs, !read_app.
    match goal with |- (nd_box_w ?n, _, _, _) = _ => change (bounds n = (whole mw, whole mh, whole hh, whole hv)) end.
    rewrite read_bounds.
    - cbn [read fold_left]. destruct (read names scale (start d0) j1). reflexivity.
    - intros x y u v H. apply (write_in later j2 _ Wl) in H. destruct H as (t & lu & Hu & Wu & Ju).
      destruct t as [t|]; [|injection Wu as <-; destruct Ju as [Ju|[]]; discriminate].
      destruct t as [dr' ab zs|ll zs|h' ds zs| | |m1 m2 m3 m4|vt ps|]; cbn [wr] in Wu.
      + destruct dr'; try discriminate; injection Wu as <-; destruct Ju as [Ju|[]]; discriminate.
      + destruct ll; try discriminate; injection Wu as <-; destruct Ju as [Ju|[]]; discriminate.
      + injection Wu as <-; destruct Ju as [Ju|[]]; discriminate.
      + injection Wu as <-; destruct Ju.
      + injection Wu as <-; destruct Ju.
      + exact (Nl _ _ _ _ Hu).
      + injection Wu as <-; destruct Ju as [Ju|[]]; discriminate.
      + injection Wu as <-; destruct Ju. }
  injection Q as Q1 Q2 Q3 Q4. destruct (s_halo d Hd) as [Lh Lv]. rewrite Q3 in Lh. rewrite Q4 in Lv.
  rewrite (int_half _ _ Hz1 Lh), (int_half _ _ Hz2 Lv).
  destruct Hr as (_ & w & h & Et & (W1 & iw & Liw & W2) & (H1 & ih & Lih & H2)). rewrite Q3 in W1, W2. rewrite Q4 in H1, H2.
  assert (length names = length (i_blocks d)) as Ln by (rewrite blocks_same; exact Hl). rewrite Ln in Liw, Lih, W1, H1.
  pose proof (Hi iw Liw) as (_ & Bw & _). pose proof (Hi ih Lih) as (_ & _ & _ & Bh). pose proof (coords iw Liw) as Cw. pose proof (coords ih Lih) as Ch.
  rewrite Q1, Q3 in Bw. rewrite Q2, Q4 in Bh. cbv beta in W2, H2.
  unfold checked at 1 2. rewrite Et. unfold zsize. rewrite !half_lo, !half_hi. cbn [lo hi Transformation.llx Transformation.lly Transformation.urx Transformation.ury].
  split; [|split].
  - assert (2 * (Z.quot w 2 - Z.quot 0 2) <= z) as G by (clear - Bw W2 Cw Lh; lia).
    assert ((2 * inject_Z (Z.quot w 2 - Z.quot 0 2) <= inject_Z z)%Q) as G2 by (change 2%Q with (inject_Z 2); rewrite <- inject_Z_mult, <- Zle_Qle; exact G). lra.
  - assert (2 * (Z.quot h 2 - Z.quot 0 2) <= z0) as G by (clear - Bh H2 Ch Lv; lia).
    assert ((2 * inject_Z (Z.quot h 2 - Z.quot 0 2) <= inject_Z z0)%Q) as G2 by (change 2%Q with (inject_Z 2); rewrite <- inject_Z_mult, <- Zle_Qle; exact G). lra.
  - apply Forall_forall. intros b Hb'. apply in_map_iff in Hb'. destruct Hb' as (n & <- & Hin). destruct (In_nth_error _ _ Hin) as [i Bi].
    destruct (name_block n i Bi) as [Li Ri]. pose proof (Hi i Li) as I1. pose proof (W1 i Li) as I2. pose proof (H1 i Li) as I3. pose proof (coords i Li) as Ci. cbv beta in I2, I3.
    rewrite Q3, Q4 in I1. unfold checked, scaled. rewrite Ri, Et. cbn [box_at Transformation.llx Transformation.lly Transformation.urx Transformation.ury].
    clear - I1 I2 I3 Ci Lh Lv. lia.
Qed.

Lemma kept : fine cs later raw c -> ztranslate names c (checked raw).
Proof.
  intros Hf. assert (exists k, c = k) as [k Ec] by eauto. destruct k as [dr ab xs|l xs|h ds xs| | |mw mh hh hv|vt ps|]; try (rewrite Ec in Hf; now destruct Hf).
  - now apply (kept_order dr ab xs).
  - now apply (kept_align l xs).
  - now apply (kept_spread h ds xs).
  - now apply (kept_boundary mw mh hh hv).
  - now apply (kept_symm vt ps).
Qed.
End Kept.
