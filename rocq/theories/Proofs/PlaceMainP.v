(** Proofs for C92: the solutions are the legal placements. *)
From Coq Require Import ZArith QArith Lqa ZifyBool.
From Verif Require Import Base.Prelude Model.SeqEnum Model.SymmGroup Model.KeepOrder Model.SeqCheck Model.PlaceRows
  Spec.SeqEnumSpec Spec.SymmGroupSpec Spec.SeqCheckSpec Spec.PlaceRowsSpec Proofs.KeepOrderP Proofs.SeqCheckP Proofs.PlaceRowsP Proofs.PlaceSymP.
Local Open Scope Z_scope.

Lemma between_int b x : between b (inject_Z x) <-> match b_lo b with Some l => l <= x | None => True end /\ match b_hi b with Some h => x <= h | None => True end.
Proof. unfold between. destruct (b_lo b), (b_hi b); rewrite <- ?Zle_Qle; tauto. Qed.

Section Sound.
Variables (d : idesign) (pos neg : list nat) (flush snap : bool) (prev : option (nat -> Z * Z)) (cur : nat -> Z * Z) (a : assign).
Hypothesis Hd : sane d.
Hypothesis Hs : sequences (length (i_blocks d)) pos neg.
Hypothesis Ha : solution d pos neg flush snap prev cur a.
Let F := solved d a.
Let P := fp F.
Let n := length (i_blocks d).

Lemma sol_flip i : (i < n)%nat -> (a_int a (VH i) = 0 \/ a_int a (VH i) = 1) /\ (a_int a (VV i) = 0 \/ a_int a (VV i) = 1).
Proof.
  intros Hi. destruct Ha as (_ & B & _). pose proof (B (VH i) Hi) as B1. pose proof (B (VV i) Hi) as B2.
  apply between_int in B1, B2. cbn [int_bnd b_lo b_hi] in B1, B2. lia.
Qed.
Lemma sol_apart : apart d pos neg P.
Proof.
  destruct Ha as (R & _). apply all_rows_iff in R. destruct R as (_ & _ & _ & R & _). intros x y Hx Hy.
  destruct (Nat.lt_trichotomy x y) as [L|[E|L]].
  - specialize (R x y (conj L Hy)). apply over_iff in R; auto. fold F P in R. tauto.
  - subst y. destruct Hs as (N1 & N2 & _). split; intros [A _]; apply precedes_at in A; auto; lia.
  - specialize (R y x (conj L Hx)). apply over_iff in R; auto. fold F P in R. tauto.
Qed.
Lemma far_nonneg s b p g : 0 <= b -> far_enough s b p g -> 0 <= g.
Proof. intros Hb (_ & m & H). lia. Qed.
Lemma apart_h_le x y : apart_h d P x y -> px P x + pw P x <= px P y.
Proof.
  intros [H1 H2]. destruct (abutted d x y DirH) eqn:E.
  - apply abutted_iff in E. specialize (H1 E). lia.
  - assert (~ In (x, y, DirH) (i_abuts d)) as N by (rewrite <- abutted_iff, E; discriminate). specialize (H2 N).
    apply far_nonneg in H2; [lia|apply (s_bias d Hd)].
Qed.
Lemma apart_v_le x y : apart_v d P x y -> py P y + ph P y <= py P x.
Proof.
  intros [H1 H2]. destruct (abutted d x y DirV) eqn:E.
  - apply abutted_iff in E. specialize (H1 E). lia.
  - assert (~ In (x, y, DirV) (i_abuts d)) as N by (rewrite <- abutted_iff, E; discriminate). specialize (H2 N).
    apply far_nonneg in H2; [lia|apply (s_bias d Hd)].
Qed.
Lemma sol_realizes : realizes n pos neg P.
Proof.
  intros x y Hx Hy. destruct (sol_apart x y Hx Hy) as [A B]. destruct (s_size d Hd x Hx). split; [auto|]. split; [auto|].
  split; intros H1; [now apply apart_h_le, A|now apply apart_v_le, B].
Qed.
Lemma sol_disjoint x y : (x < n)%nat -> (y < n)%nat -> x <> y -> ~ overlap P x y.
Proof.
  intros Hx Hy N (O1 & O2 & O3 & O4). destruct Hs as (N1 & N2 & Hin).
  destruct (precedes_total n pos x y N1 (fun z h => proj1 (Hin z h)) Hx Hy N) as [P1 D1].
  destruct (precedes_total n pos y x N1 (fun z h => proj1 (Hin z h)) Hy Hx (not_eq_sym N)) as [P2 _].
  destruct (precedes_total n neg x y N2 (fun z h => proj2 (Hin z h)) Hx Hy N) as [P3 D2].
  destruct (precedes_total n neg y x N2 (fun z h => proj2 (Hin z h)) Hy Hx (not_eq_sym N)) as [P4 _].
  destruct (sol_realizes x y Hx Hy) as (_ & _ & A & B). destruct (sol_realizes y x Hy Hx) as (_ & _ & C & D). unfold left_of, above in *.
  rewrite P1, P2, P3, P4 in *. lia.
Qed.
Lemma sol_flips : flips_ok d F.
Proof.
  pose proof Ha as (R & _). apply all_rows_iff in R. destruct R as (R1 & _ & _ & _ & R5 & _). split.
  - intros i Hi. destruct (sol_flip i Hi) as [B1 B2]. specialize (R1 i Hi).
    assert (forall r, In r (flip_row (VH i) (b_xflip (blk d i))) -> meets a r) as A1 by auto.
    assert (forall r, In r (flip_row (VV i) (b_yflip (blk d i))) -> meets a r) as A2 by auto.
    apply flip_row_iff in A1, A2. split; split; auto.
  - intros g x y Hg Hp. destruct (sym_sound d a g Hd Hg (fun r => R5 g r Hg)) as [K _]. exact (K x y Hp).
Qed.
Lemma sol_offsets : on_offsets d F.
Proof.
  pose proof Ha as (R & B & _). apply all_rows_iff in R. destruct R as (_ & _ & R & _). intros i Hi. destruct (R i Hi) as [R1 R2].
  destruct (sol_flip i Hi) as [F1 F2]. split.
  - apply (grid_sound a _ _ _ _ _ _ _ R1); auto.
    + intros H. pose proof (B (VNx i) (conj Hi H)) as K. apply between_int in K. cbn in K. lia.
    + intros j Hj. pose proof (B (VSelX i j) (conj Hi Hj)) as K. apply between_int in K. cbn in K. lia.
  - apply (grid_sound a _ _ _ _ _ _ _ R2); auto.
    + intros H. pose proof (B (VNy i) (conj Hi H)) as K. apply between_int in K. cbn in K. lia.
    + intros j Hj. pose proof (B (VSelY i j) (conj Hi Hj)) as K. apply between_int in K. cbn in K. lia.
Qed.
Lemma sol_ordered : ordered d P.
Proof.
  pose proof Ha as (R & _). apply all_rows_iff in R. destruct R as (_ & _ & _ & _ & _ & _ & R & _). intros x y m Ho. specialize (R _ Ho).
  pose proof (round_up_nonneg (i_bias_h d) (i_xp d) (proj1 (s_bias d Hd)) (proj1 (s_pitch d Hd))) as RU.
  unfold order_row, o_first, o_second, h_gap in R. cbn [fst snd] in R. unfold P, F. cbn [solved fp px py pw ph].
  destruct m; match type of R with context [if ?c then _ else _] => destruct c end;
    apply meets_irow in R; cbn [cmp isum fold_right fst snd] in R; lia.
Qed.
Lemma sol_mirrored g : In g (i_syms d) -> (mirrored P g <-> twins d g /\ balanced (across d g) g).
Proof.
  intros Hg. pose proof Ha as (R & _). apply all_rows_iff in R. destruct R as (_ & _ & _ & _ & R & _).
  exact (proj2 (sym_sound d a g Hd Hg (fun r => R g r Hg))).
Qed.
Lemma sol_line u : In u (i_aligns d) -> (in_line P u <-> same_rest d u).
Proof.
  intros Hu. pose proof Ha as (R & _). apply all_rows_iff in R. destruct R as (_ & _ & _ & _ & _ & R & _).
  exact (align_sound d a u Hd Hu (fun r => R u r Hu)).
Qed.
Lemma in_enum_nth {A} (l : list A) k x : In (k, x) (combine (seq 0 (length l)) l) <-> nth_error l k = Some x.
Proof.
  enough (forall m, In (k, x) (combine (seq m (length l)) l) <-> (m <= k)%nat /\ nth_error l (k - m) = Some x) as H.
  { rewrite H, Nat.sub_0_r. intuition lia. }
  induction l as [|y l IH]; intros m; cbn [length seq combine].
  - split; [intros []|]. intros [_ H]. destruct (k - m)%nat; discriminate.
  - cbn [In]. rewrite IH. split.
    + intros [E|[L H]]; [injection E as -> ->; rewrite Nat.sub_diag; split; [lia|reflexivity]|].
      split; [lia|]. replace (k - m)%nat with (Datatypes.S (k - Datatypes.S m)) by lia. exact H.
    + intros [L H]. destruct (Nat.eq_dec m k) as [->|N]; [rewrite Nat.sub_diag in H; cbn in H; left; congruence|].
      right. split; [lia|]. replace (k - m)%nat with (Datatypes.S (k - Datatypes.S m)) in H by lia. exact H.
Qed.
Lemma sol_nets : within_box d F a.
Proof.
  pose proof Ha as (R & _). apply all_rows_iff in R. destruct R as (_ & _ & _ & _ & _ & _ & _ & R & _).
  intros k net i pin p Hk Hf Hc Hi Hp Hx Hy. destruct (sol_flip i Hi) as [F1 F2].
  apply (pin_iff a d k i pin p Hp Hx Hy F1 F2). intros r Hr. apply R. unfold net_rows. apply in_flat_map. exists (k, net).
  split; [now apply in_enum_nth|]. cbn [fst snd]. rewrite Hf. apply in_flat_map. eauto.
Qed.
Lemma sol_inside : flush = true -> snapping d snap = false -> prev = None -> inside d P.
Proof.
  intros Ef En Ep i Hi. pose proof Ha as (_ & B & _). pose proof (B (VX i) Hi) as B1. pose proof (B (VY i) Hi) as B2. apply between_int in B1, B2.
  cbn [int_bnd] in B1, B2. rewrite En, Ef, Ep in B1, B2. cbn [coord_bnd b_lo b_hi option_map] in B1, B2. unfold P, F. cbn [solved fp px py pw ph]. lia.
Qed.
End Sound.

Lemma finite_choice {B} (b0 : B) (R : nat -> B -> Prop) n : (forall i, (i < n)%nat -> exists y, R i y) -> exists f, forall i, (i < n)%nat -> R i (f i).
Proof.
  induction n as [|n IH]; intros H; [exists (fun _ => b0); intros; lia|].
  destruct IH as (f & Hf); [auto|]. destruct (H n ltac:(lia)) as (y & Hy).
  exists (fun i => if (i =? n)%nat then y else f i). intros i Hi. destruct (i =? n)%nat eqn:E.
  - apply Nat.eqb_eq in E. now subst.
  - apply Hf. apply Nat.eqb_neq in E. lia.
Qed.

Lemma grid_complete a v f n sel size pitch off k m :
  (a_int a f = 0 \/ a_int a f = 1) -> (off <> [] -> (k < length off)%nat /\ (if a_int a f =? 1 then a_int a v + size else a_int a v) = pitch * m + nth k off 0) ->
  a_int a n = m -> (forall j, a_int a (sel j) = if (j =? k)%nat then 1 else 0) ->
  forall r, In r (grid_row v f n sel size pitch off) -> meets a r.
Proof.
  intros Hf Hk Hm Hsel. destruct off as [|o off]; [intros r []|]. destruct (Hk ltac:(discriminate)) as [Hlt Hv]. clear Hk. set (l := o :: off) in *.
  unfold grid_row. fold l. replace (match l with [] => [] | _ :: _ => _ end) with
    [irow ((v, 1) :: (f, size) :: (n, - pitch) :: map (fun j => (sel j, - nth j l 0)) (seq 0 (length l))) SE 0;
     irow (map (fun j => (sel j, 1)) (seq 0 (length l))) SE 1] by reflexivity.
  assert (In k (seq 0 (length l))) as Hin by (apply in_seq; lia).
  assert (forall j, In j (seq 0 (length l)) -> j <> k -> a_int a (sel j) = 0) as Hz.
  { intros j _ N. rewrite Hsel. apply Nat.eqb_neq in N. now rewrite N. }
  assert (a_int a (sel k) = 1) as H1 by (rewrite Hsel, Nat.eqb_refl; reflexivity).
  intros r [<-|[<-|[]]]; apply meets_irow; cbn [cmp].
  - change (1 * a_int a v + (size * a_int a f + (- pitch * a_int a n + isum a (map (fun j => (sel j, - nth j l 0)) (seq 0 (length l))))) = 0).
    rewrite (isum_sel a sel (fun j => - nth j l 0)), (sum_pick (fun j => a_int a (sel j)) (fun j => - nth j l 0) _ k) by auto using seq_NoDup.
    rewrite Hm. destruct Hf as [E|E]; rewrite E in *; cbn [Z.eqb Pos.eqb] in Hv; lia.
  - rewrite (isum_sel a sel (fun _ => 1)), (sum_pick (fun j => a_int a (sel j)) (fun _ => 1) _ k) by auto using seq_NoDup. reflexivity.
Qed.

Section Complete.
Variables (d : idesign) (pos neg : list nat) (F : flipped) (cur : nat -> Z * Z).
Let P := fp F.
Let n := length (i_blocks d).
Hypothesis Hd : sane d.
Hypothesis Hs : sequences n pos neg.
Hypothesis Hsz : forall i, pw P i = bw d i /\ ph P i = bh d i.
Hypothesis Hl : legal d pos neg F.
Hypothesis Hpins : pins_on d.
Hypothesis Hnets : forall net c, In net (i_nets d) -> In c (n_conn net) -> (fst c < n)%nat.
Hypothesis Hbal : forall g, In g (i_syms d) -> balanced (across d g) g.
Hypothesis Hrest : forall u, In u (i_aligns d) -> same_rest d u.
Hypothesis Hkeep : forall o, In o (i_orders d) -> keeps pos neg o.
Hypothesis Habut : forall x y, In (x, y, DirV) (i_orders d) -> ~ In (x, y, DirV) (i_abuts d) /\ ~ In (y, x, DirV) (i_abuts d).
Hypothesis Hbias : forall g, (exists m, i_bias_v d <= m * i_yp d <= g) -> exists m, i_bias_h d <= m * i_xp d <= g.

Lemma complete : exists a, solution d pos neg true false None cur a /\
  (forall i, px (fp (solved d a)) i = px P i /\ py (fp (solved d a)) i = py P i /\ fh (solved d a) i = fh F i /\ fv (solved d a) i = fv F i).
Proof.
  destruct Hl as (L1 & L2 & L3 & L4 & L5 & L6). change (fp F) with P in L1, L4, L5, L6.
  destruct (finite_choice (0%nat, 0, (0%nat, 0)) (fun i y => let '(kx, nx, (ky, ny)) := y in
     (b_xoff (blk d i) <> [] -> (kx < length (b_xoff (blk d i)))%nat /\ 0 <= nx /\
        (if fh F i =? 1 then px P i + pw P i else px P i) = b_xpitch (blk d i) * nx + nth kx (b_xoff (blk d i)) 0) /\
     (b_yoff (blk d i) <> [] -> (ky < length (b_yoff (blk d i)))%nat /\ 0 <= ny /\
        (if fv F i =? 1 then py P i + ph P i else py P i) = b_ypitch (blk d i) * ny + nth ky (b_yoff (blk d i)) 0)) n) as (ch & Hch).
  { intros i Hi. destruct (L3 i Hi) as [O1 O2].
    assert (forall pitch off x, on_offset pitch off x -> exists k m, off <> [] -> (k < length off)%nat /\ 0 <= m /\ x = pitch * m + nth k off 0) as K.
    { intros pitch off x [->|(m & o & Hm & Ho & E)]; [exists 0%nat, 0; congruence|].
      apply (In_nth _ _ 0) in Ho. destruct Ho as (k & Hk & <-). exists k, m. auto. }
    destruct (K _ _ _ O1) as (kx & nx & K1). destruct (K _ _ _ O2) as (ky & ny & K2). exists (kx, nx, (ky, ny)). split; auto. }
  set (a := Assign
    (fun v => match v with
       | VX i => px P i | VY i => py P i | VH i => fh F i | VV i => fv F i
       | VSelX i j => if (j =? fst (fst (ch i)))%nat then 1 else 0
       | VSelY i j => if (j =? fst (snd (ch i)))%nat then 1 else 0
       | VNx i => snd (fst (ch i)) | VNy i => snd (snd (ch i))
       | VSnapX _ | VSnapY _ => 0 end)
    (fun v => inject_Z match v with VNet _ 0 | VNet _ 1 => 0 | VNet _ 2 => Z.max 0 (i_box_w d) | VNet _ _ => Z.max 0 (i_box_h d)
               | VAreaX => Z.max 0 (i_box_w d) | VAreaY => Z.max 0 (i_box_h d) end)).
  assert (forall x, px (fp (solved d a)) x = px P x) as X by reflexivity. assert (forall x, py (fp (solved d a)) x = py P x) as Y by reflexivity.
  assert (forall x, pw (fp (solved d a)) x = pw P x) as W by (intros x; symmetry; apply Hsz). assert (forall x, ph (fp (solved d a)) x = ph P x) as H by (intros x; symmetry; apply Hsz).
  assert (FL : forall i, (i < n)%nat -> flip_ok (b_xflip (blk d i)) (fh F i) /\ flip_ok (b_yflip (blk d i)) (fv F i)) by apply L2.
  assert (FX : forall i, (i < n)%nat -> (a_int a (VH i) = 0 \/ a_int a (VH i) = 1) /\ (a_int a (VV i) = 0 \/ a_int a (VV i) = 1)).
  { intros i Hi. destruct (FL i Hi) as [[A _] [B _]]. auto. }
  assert (OV : forall x y, (left_of pos neg x y -> apart_h d P x y -> apart_h d (fp (solved d a)) x y) /\ (above pos neg x y -> apart_v d P x y -> apart_v d (fp (solved d a)) x y)).
  { intros x y. unfold apart_h, apart_v. rewrite !X, !Y, !W, !H. tauto. }
  assert (MR : forall g, mirrored P g -> mirrored (fp (solved d a)) g).
  { intros g (ax & M). exists ax. intros x Hx. specialize (M x Hx). unfold cx, cy in *. destruct (g_axis g), x as [[x y]|[x m]]; rewrite ?X, ?Y, ?W, ?H; exact M. }
  assert (LN : forall u, in_line P u -> in_line (fp (solved d a)) u).
  { intros u I x y Hx Hy. specialize (I x y Hx Hy). unfold on_line, cx, cy in *. rewrite !X, !Y, !W, !H. exact I. }
  exists a. split; [|intros i; repeat split; reflexivity].
  split; [|split].
  - apply all_rows_iff. split; [|split; [|split; [|split; [|split; [|split; [|split; [|split]]]]]]].
    + intros i Hi r [Hr|Hr]; destruct (FL i Hi) as [(_ & A1 & A2) (_ & B1 & B2)]; revert r Hr; apply flip_row_iff; split; auto.
    + intros r []. 
    + intros i Hi. cbv zeta. specialize (Hch i Hi). destruct (ch i) as [[kx nx] [ky ny]] eqn:Ec. destruct Hch as [C1 C2]. destruct (FX i Hi) as [F1 F2].
      destruct (Hsz i) as [Z1 Z2]. split.
      * apply (grid_complete a (VX i) (VH i) (VNx i) (VSelX i) _ _ _ kx nx F1).
        -- intros Ne. destruct (C1 Ne) as (A & _ & B). split; [exact A|]. cbn [a_int a]. rewrite <- B. rewrite Z1. reflexivity.
        -- cbn. now rewrite Ec.
        -- intros j. cbn [a_int a]. now rewrite Ec.
      * apply (grid_complete a (VY i) (VV i) (VNy i) (VSelY i) _ _ _ ky ny F2).
        -- intros Ne. destruct (C2 Ne) as (A & _ & B). split; [exact A|]. cbn [a_int a]. rewrite <- B. rewrite Z2. reflexivity.
        -- cbn. now rewrite Ec.
        -- intros j. cbn [a_int a]. now rewrite Ec.
    + intros i j Hij. apply over_iff; auto. assert (i < n)%nat as Hi by (unfold n; lia). assert (j < n)%nat as Hj by (unfold n; lia).
      destruct (L4 i j Hi Hj) as [A1 A2]. destruct (L4 j i Hj Hi) as [A3 A4]. pose proof (OV i j). pose proof (OV j i). tauto.
    + intros g r Hg. apply sym_complete; auto. intros x y Hp. destruct L2 as [_ L2]. exact (L2 g x y Hg Hp).
    + intros u r Hu. apply align_complete; auto.
    + intros ((x, y), m) Ho. pose proof (Hkeep _ Ho) as K. unfold keeps in K. cbn [fst snd] in K.
      destruct (s_orders d Hd x y m Ho) as [Hx Hy]. destruct (L4 x y Hx Hy) as [A1 A2].
      unfold order_row, o_first, o_second. cbn [fst snd]. destruct m.
      * destruct (A1 K) as [B1 B2]. destruct (Hsz x) as [Z1 _]. rewrite Z1 in B1, B2. destruct (abutted d x y DirH) eqn:E.
        -- apply abutted_iff in E. apply meets_irow. cbn [cmp isum fold_right fst snd a_int a]. specialize (B1 E). lia.
        -- assert (~ In (x, y, DirH) (i_abuts d)) as N by (rewrite <- abutted_iff, E; discriminate). specialize (B2 N).
           apply round_up_far in B2; [|apply (s_bias d Hd)|apply (s_pitch d Hd)]. apply meets_irow. unfold h_gap. cbn [cmp isum fold_right fst snd a_int a]. lia.
      * destruct (A2 K) as [B1 B2]. destruct (Hsz y) as [_ Z1]. rewrite Z1 in B1, B2. destruct (Habut x y Ho) as [N1 N2].
        replace (abutted d y x DirV) with false by (symmetry; apply not_true_is_false; intros E; apply abutted_iff in E; contradiction).
        specialize (B2 N1). destruct B2 as [S1 S2]. apply Hbias in S2.
        assert (far_enough (i_spread d y x false) (i_bias_h d) (i_xp d) (py P x - (py P y + bh d y))) as Q by (split; [rewrite (s_spread d Hd); exact S1|exact S2]).
        apply round_up_far in Q; [|apply (s_bias d Hd)|apply (s_pitch d Hd)]. apply meets_irow. cbn [cmp isum fold_right fst snd a_int a]. lia.
    + intros r Hr. unfold net_rows in Hr. apply in_flat_map in Hr. destruct Hr as ((k, net) & Hk & Hr). cbn [fst snd] in Hr.
      destruct (n_float net); [contradiction|]. apply in_flat_map in Hr. destruct Hr as ((i, pin) & Hc & Hr).
      apply in_combine_r in Hk. pose proof (Hnets net (i, pin) Hk Hc) as Hi. cbn in Hi.
      destruct (nth_error (b_pins (blk d i)) pin) as [p|] eqn:Ep.
      2: { unfold pin_rows in Hr. rewrite Ep in Hr. contradiction. }
      destruct ((llx p <=? urx p) && (lly p <=? ury p)) eqn:Eb.
      2: { unfold pin_rows in Hr. rewrite Ep, Eb in Hr. contradiction. }
      destruct (FX i Hi) as [F1 F2]. revert r Hr. apply (pin_iff a d k i pin p Ep ltac:(lia) ltac:(lia) F1 F2).
      apply nth_error_In in Ep. destruct (Hpins i p Hi Ep) as (Q1 & Q2 & Q3 & Q4). destruct (L1 i Hi) as (I1 & I2 & I3 & I4). destruct (Hsz i) as [Z1 Z2].
      pose proof (s_halo d Hd) as [HH HV]. rewrite Z1 in I2. rewrite Z2 in I4.
      unfold span. destruct F1 as [F1|F1], F2 as [F2|F2]; rewrite F1, F2; cbn [Z.eqb Pos.eqb]; cbn [a_real a]; rewrite <- !Zle_Qle; cbn [a_int a]; lia.
    + intros r Hr. unfold area_rows in Hr. apply in_flat_map in Hr. destruct Hr as (i & Hi & Hr). apply in_seq in Hi.
      destruct (L1 i ltac:(lia)) as (I1 & I2 & I3 & I4). destruct (Hsz i) as [Z1 Z2]. rewrite Z1 in I2. rewrite Z2 in I4. pose proof (s_halo d Hd) as [HH HV].
      destruct Hr as [<-|[<-|[]]]; apply meets_real; cbv zeta; cbn [int_sum fold_right fst snd a_real a a_int]; rewrite <- inject_Z_mult; rewrite <- Zle_Qle; lia.
  - intros v Hv. apply between_int. destruct v as [i|i|i|i|i j|i|i j|i|i|i]; cbn [int_bnd snapping andb coord_bnd option_map b_lo b_hi a_int a] in *.
    + destruct (L1 i Hv) as (I1 & I2 & I3 & I4). destruct (Hsz i) as [Z1 Z2]. lia.
    + destruct (L1 i Hv) as (I1 & I2 & I3 & I4). destruct (Hsz i) as [Z1 Z2]. lia.
    + destruct (FX i Hv) as [F1 _]. cbn [a_int a] in F1. lia.
    + destruct (FX i Hv) as [_ F1]. cbn [a_int a] in F1. lia.
    + destruct (j =? fst (fst (ch i)))%nat; lia.
    + destruct Hv as [Hi Ne]. specialize (Hch i Hi). destruct (ch i) as [[kx nx] [ky ny]]. cbn [fst snd]. destruct Hch as [C1 _]. specialize (C1 Ne). lia.
    + destruct (j =? fst (snd (ch i)))%nat; lia.
    + destruct Hv as [Hi Ne]. specialize (Hch i Hi). destruct (ch i) as [[kx nx] [ky ny]]. cbn [fst snd]. destruct Hch as [_ C1]. specialize (C1 Ne). lia.
    + destruct Hv as [_ Hv]. discriminate.
    + destruct Hv as [_ Hv]. discriminate.
  - intros v Hv. cbn [real_bnd]. apply between_int. cbn [b_lo b_hi]. split; [|exact Coq.Init.Logic.I].
    destruct v as [i [|[|[|k]]]| |]; lia.
Qed.
End Complete.

(** Checks for concrete cases. *)
Definition meets_b (a : assign) (r : row) : bool :=
  let s := (inject_Z (int_sum a (r_int r)) + real_sum a (r_real r))%Q in
  let t := inject_Z (2 * r_rhs r) in
  match r_sense r with SE => Qeq_bool s t | SL => Qle_bool s t | SG => Qle_bool t s end.
Lemma meets_b_ok a r : meets_b a r = true -> meets a r.
Proof. unfold meets_b, meets. destruct (r_sense r); intros H; [now apply Qeq_bool_iff|now apply Qle_bool_iff|now apply Qle_bool_iff]. Qed.
Definition between_b (b : bnd) (x : Q) : bool :=
  match b_lo b with Some l => Qle_bool (inject_Z l) x | None => true end && match b_hi b with Some h => Qle_bool x (inject_Z h) | None => true end.
Lemma between_b_ok b x : between_b b x = true -> between b x.
Proof. unfold between_b, between. intros H. apply andb_true_iff in H. destruct H as [A B]. split; [destruct (b_lo b)|destruct (b_hi b)]; auto; now apply Qle_bool_iff. Qed.
Lemma solution_check d pos neg flush snap prev cur a : no_offsets d = true ->
  forallb (meets_b a) (all_rows d pos neg flush snap) = true ->
  forallb (fun i => forallb (fun v => between_b (int_bnd d flush snap prev cur v) (inject_Z (a_int a v))) [VX i; VY i; VH i; VV i] &&
                    (negb snap || forallb (fun v => between_b (int_bnd d flush snap prev cur v) (inject_Z (a_int a v))) [VSnapX i; VSnapY i])) (ids d) = true ->
  forallb (fun v => between_b (real_bnd flush) (a_real a v)) (VAreaX :: VAreaY :: flat_map (fun k => map (VNet k) [0; 1; 2; 3]%nat) (seq 0 (length (i_nets d)))) = true ->
  solution d pos neg flush snap prev cur a.
Proof.
  intros Hn H1 H2 H3. rewrite forallb_forall in H1, H2, H3. split; [intros r Hr; apply meets_b_ok; auto|]. split.
  - assert (forall i, (i < length (i_blocks d))%nat -> b_xoff (blk d i) = [] /\ b_yoff (blk d i) = []) as Z.
    { intros i Hi. unfold no_offsets in Hn. rewrite forallb_forall in Hn. specialize (Hn (blk d i) (nth_In _ _ Hi)). destruct (b_xoff (blk d i)), (b_yoff (blk d i)); auto; discriminate. }
    assert (forall i, (i < length (i_blocks d))%nat -> forall v, In v [VX i; VY i; VH i; VV i] -> between (int_bnd d flush snap prev cur v) (inject_Z (a_int a v))) as K.
    { intros i Hi v Hv. specialize (H2 i ltac:(apply in_seq; lia)). apply andb_true_iff in H2. destruct H2 as [H2 _]. rewrite forallb_forall in H2. apply between_b_ok. auto. }
    assert (snap = true -> forall i, (i < length (i_blocks d))%nat -> forall v, In v [VSnapX i; VSnapY i] -> between (int_bnd d flush snap prev cur v) (inject_Z (a_int a v))) as K2.
    { intros -> i Hi v Hv. specialize (H2 i ltac:(apply in_seq; lia)). apply andb_true_iff in H2. destruct H2 as [_ H2]. cbn [negb orb] in H2. rewrite forallb_forall in H2. apply between_b_ok. auto. }
    intros v Hv. destruct v as [i|i|i|i|i j|i|i j|i|i|i]; cbn [has_var] in Hv; try (apply (K i Hv); cbn; tauto).
    + destruct Hv as [Hi Hj]. rewrite (proj1 (Z i Hi)) in Hj. cbn in Hj. lia.
    + destruct Hv as [Hi Hj]. now rewrite (proj1 (Z i Hi)) in Hj.
    + destruct Hv as [Hi Hj]. rewrite (proj2 (Z i Hi)) in Hj. cbn in Hj. lia.
    + destruct Hv as [Hi Hj]. now rewrite (proj2 (Z i Hi)) in Hj.
    + destruct Hv as [Hi Hj]. destruct snap; [|discriminate]. apply (K2 eq_refl i Hi). cbn. tauto.
    + destruct Hv as [Hi Hj]. destruct snap; [|discriminate]. apply (K2 eq_refl i Hi). cbn. tauto.
  - intros v Hv. apply between_b_ok. apply H3. destruct v as [k j| |]; [|now left|right; now left].
    right; right. apply in_flat_map. destruct Hv as [Hk Hj]. exists k. split; [apply in_seq; lia|]. apply in_map. cbn. lia.
Qed.

Lemma apart_check d pos neg P : sane d -> NoDup pos -> NoDup neg ->
  forallb (fun a => forallb (fun b =>
     (negb (lef (at_ pos) (at_ neg) a b) || (let g := px P b - (px P a + pw P a) in if abutted d a b DirH then g =? 0 else h_gap d a b <=? g)) &&
     (negb (abv (at_ pos) (at_ neg) a b) || (let g := py P a - (py P b + ph P b) in if abutted d a b DirV then g =? 0 else v_gap d a b <=? g))) (ids d)) (ids d) = true ->
  apart d pos neg P.
Proof.
  intros Hd N1 N2 H x y Hx Hy. rewrite forallb_forall in H. specialize (H x ltac:(apply in_seq; lia)). rewrite forallb_forall in H. specialize (H y ltac:(apply in_seq; lia)).
  apply andb_true_iff in H. destruct H as [A B]. split; intros [L1 L2]; apply precedes_at in L1; auto; apply precedes_at in L2; auto.
  - replace (lef (at_ pos) (at_ neg) x y) with true in A by (unfold lef; lia). cbn [negb orb] in A. unfold apart_h. cbv zeta in *. destruct (abutted d x y DirH) eqn:E.
    + apply abutted_iff in E. split; [lia|contradiction].
    + assert (~ In (x, y, DirH) (i_abuts d)) as N by (rewrite <- abutted_iff, E; discriminate). split; [contradiction|].
      intros _. apply round_up_far; [apply (s_bias d Hd)|apply (s_pitch d Hd)|]. unfold h_gap in A. lia.
  - replace (abv (at_ pos) (at_ neg) x y) with true in B by (unfold abv; lia). cbn [negb orb] in B. unfold apart_v. cbv zeta in *. destruct (abutted d x y DirV) eqn:E.
    + apply abutted_iff in E. split; [lia|contradiction].
    + assert (~ In (x, y, DirV) (i_abuts d)) as N by (rewrite <- abutted_iff, E; discriminate). split; [contradiction|].
      intros _. apply round_up_far; [apply (s_bias d Hd)|apply (s_pitch d Hd)|]. unfold v_gap in B. lia.
Qed.
