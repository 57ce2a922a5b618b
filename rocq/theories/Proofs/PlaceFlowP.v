(** Proofs for C93. *)
From Coq Require Import ZArith QArith Lqa ZifyBool.
From Verif Require Import Base.Prelude Model.SeqEnum Model.SymmGroup Model.KeepOrder Model.SeqCheck Model.PlaceRows Model.PlaceFlow
  Spec.SeqEnumSpec Spec.SymmGroupSpec Spec.SeqCheckSpec Spec.PlaceRowsSpec Spec.PlaceFlowSpec Proofs.PlaceRowsP Proofs.PlaceSymP Proofs.PlaceMainP.
Local Open Scope Z_scope.

(** Rounding. *)
Lemma round_up_grid p k : 0 < p -> 0 <= k -> round_up (p * k) p = p * k.
Proof.
  intros Hp Hk. unfold round_up. rewrite Z.quot_div_nonneg by nia. replace (p * k + p - 1) with (k * p + (p - 1)) by lia.
  rewrite Z.div_add_l by lia. rewrite Z.div_small by lia. lia.
Qed.
Lemma round_down_grid p k : 0 < p -> round_down (p * k) p = p * k.
Proof. intros Hp. unfold round_down. rewrite (Z.mul_comm p k) at 1. rewrite Z.quot_mul by lia. reflexivity. Qed.

Definition snapped (d : idesign) (s : pstate) : Prop := forall i, (i < length (i_blocks d))%nat -> exists k, 0 <= k /\ st_x s i = i_xp d * k.
Lemma round_pair_snapped d s p : sane d -> (fst p < length (i_blocks d))%nat -> (snd p < length (i_blocks d))%nat -> snapped d s -> same_state (round_pair d s p) s.
Proof.
  intros Hd Ha Hb Hs. destruct p as [a b]. cbn [fst snd] in *. pose proof (proj1 (s_pitch d Hd)) as Hp.
  destruct (Hs a Ha) as (ka & K1 & E1). destruct (Hs b Hb) as (kb & K2 & E2).
  assert (forall s', same_state s' s -> forall x v, st_x s x = v -> same_state (set_x s' x v) s) as K.
  { intros s' H x v E i. destruct (H i) as (H1 & H2 & H3 & H4). cbn. destruct (i =? x)%nat eqn:Q; [|tauto]. apply Nat.eqb_eq in Q. subst. auto. }
  assert (same_state s s) as R by (intros i; auto).
  unfold round_pair. destruct (st_x s b <? st_x s a).
  - rewrite E1, round_up_grid by auto. pose proof (K s R a _ E1) as R1. rewrite (proj1 (R1 b)), E2, round_down_grid by auto. now apply K.
  - rewrite E1, round_down_grid by auto. pose proof (K s R a _ E1) as R1. rewrite (proj1 (R1 b)), E2, round_up_grid by auto. now apply K.
Qed.
Lemma same_trans s t u : same_state s t -> same_state t u -> same_state s u.
Proof. intros A B i. destruct (A i) as (-> & -> & -> & ->). apply B. Qed.
Lemma same_snapped d s t : same_state s t -> snapped d t -> snapped d s.
Proof. intros A B i Hi. destruct (A i) as (-> & _). auto. Qed.
Lemma round_group_snapped d s g : sane d -> In g (i_syms d) -> snapped d s -> same_state (round_group d s g) s.
Proof.
  intros Hd Hg Hs. unfold round_group. destruct (g_pairs g) as [|p0 ps] eqn:E; [intros i; auto|]. rewrite <- E. destruct (Z.rem _ _ =? 0); [intros i; auto|].
  assert (forall p, In p (g_pairs g) -> (fst p < length (i_blocks d))%nat /\ (snd p < length (i_blocks d))%nat) as W.
  { intros [a b] Hp. assert (In (EPair (a, b)) (elems g)) as He by (apply in_app_iff; left; now apply in_map).
    split; apply (s_syms d Hd g (EPair (a, b))); cbn; auto. }
  clear E. revert s Hs W. induction (g_pairs g) as [|p l IH]; intros s Hs W; cbn [fold_left]; [intros i; auto|].
  destruct (W p (or_introl eq_refl)) as [W1 W2]. pose proof (round_pair_snapped d s p Hd W1 W2 Hs) as R.
  apply (same_trans _ (round_pair d s p)); [|exact R]. apply IH; [now apply (same_snapped d _ s)|]. intros q Hq. apply W. now right.
Qed.
Lemma round_all_snapped f s : sane (f_d f) -> snapped (f_d f) s -> same_state (round_all f s) s.
Proof.
  intros Hd. unfold round_all. destruct (f_black f); [intros _ i; auto|].
  assert (incl (i_syms (f_d f)) (i_syms (f_d f))) as I by apply incl_refl. revert I. generalize (i_syms (f_d f)) at 1 3. intros l. revert s.
  induction l as [|g l IH]; intros s I Hs; cbn [fold_left]; [intros i; auto|].
  pose proof (round_group_snapped (f_d f) s g Hd (I g (or_introl eq_refl)) Hs) as R.
  apply (same_trans _ (round_group (f_d f) s g)); [|exact R]. apply IH; [intros x Hx; apply I; now right|now apply (same_snapped _ _ s)].
Qed.
Lemma round_all_pairless f s : f_black f = true \/ pairless (f_d f) -> round_all f s = s.
Proof.
  unfold round_all. destruct (f_black f); [reflexivity|]. intros [H|H]; [discriminate|]. unfold pairless in H.
  induction (i_syms (f_d f)) as [|g l IH]; cbn [fold_left]; [reflexivity|]. unfold round_group at 2. rewrite (H g (or_introl eq_refl)). apply IH. intros x Hx. apply H. now right.
Qed.

Section Flow.
Variable solve : bool -> bool -> option (nat -> Z * Z) -> (nat -> Z * Z) -> option assign.
Variables (f : fdesign) (pos neg : list nat).
Let d := f_d f.
Hypothesis Hd : sane d.
Hypothesis Hv : sound_solver solve d pos neg.

Lemma frame_sol s flush snap t : frame solve s flush snap None = Some t -> exists a, solution d pos neg flush snap None (pts s) a /\ t = read a.
Proof. unfold frame. destruct (solve flush snap None (pts s)) as [a|] eqn:E; [|discriminate]. intros H. injection H as <-. exists a. split; auto. Qed.
Lemma sol_snapped flush cur a : no_offsets d = true -> solution d pos neg flush true None cur a ->
  snapped d (read a) /\ all_on_grid d (read a).
Proof.
  intros Hn (R & B & _). apply all_rows_iff in R. destruct R as (_ & R & _).
  assert (forall i, (i < length (i_blocks d))%nat -> 0 <= a_int a (VX i) /\ a_int a (VX i) = i_xp d * a_int a (VSnapX i) /\ a_int a (VY i) = i_yp d * a_int a (VSnapY i)) as K.
  { intros i Hi. pose proof (B (VX i) Hi) as B1. apply between_int in B1. cbn [int_bnd] in B1. unfold snapping in B1. rewrite Hn in B1. cbn [andb snap_bnd b_lo b_hi] in B1.
    unfold snap_rows, snapping in R. rewrite Hn in R. cbn [andb] in R.
    assert (forall r, In r [irow [(VX i, 1); (VSnapX i, - i_xp d)] SE 0; irow [(VY i, 1); (VSnapY i, - i_yp d)] SE 0] -> meets a r) as R'.
    { intros r Hr. apply R. apply in_flat_map. exists i. split; [apply in_seq; lia|exact Hr]. }
    pose proof (R' _ (or_introl eq_refl)) as R1. pose proof (R' _ (or_intror (or_introl eq_refl))) as R2. apply meets_irow in R1, R2.
    cbn [cmp isum fold_right fst snd] in R1, R2. lia. }
  pose proof (proj1 (s_pitch d Hd)) as Hp. split.
  - intros i Hi. destruct (K i Hi) as (K1 & K2 & K3). exists (a_int a (VSnapX i)). cbn. split; [nia|exact K2].
  - intros i Hi. destruct (K i Hi) as (K1 & K2 & K3). split; eexists; eassumption.
Qed.

(** A step of any style gives a solution. *)
Lemma style_sol s snap t : by_style solve f s snap = Some t -> exists flush snap' cur a, solution d pos neg flush snap' None cur a /\ t = read a /\
  (snap = true -> snap' = true).
Proof.
  unfold by_style. destruct (f_style f).
  - intros H. apply frame_sol in H. destruct H as (a & H & ->). exists true, snap, (pts s), a. auto.
  - intros H. apply frame_sol in H. destruct H as (a & H & ->). exists false, snap, (pts s), a. auto.
  - destruct (frame solve s true snap None) as [l|] eqn:E; [|discriminate]. apply frame_sol in E. destruct E as (a & Ha & ->).
    assert (exists flush snap' cur a0, solution d pos neg flush snap' None cur a0 /\ read a = read a0 /\ (snap = true -> snap' = true)) as L by (exists true, snap, (pts s), a; auto).
    destruct (frame solve (read a) false snap None) as [r|] eqn:E2; [|intros H; injection H as <-; exact L].
    destruct (move_slack solve (f_d f) r (read a)) as [m|] eqn:E3; intros H; injection H as <-; [|exact L].
    unfold move_slack in E3. match type of E3 with (if ?c then _ else _) = _ => destruct c end; [|discriminate].
    apply frame_sol in E3. destruct E3 as (b & Hb & ->). exists true, true, (pts r), b. auto.
Qed.
Lemma center_left s : length (i_blocks d) <> 0%nat ->
  f_style f = StyleC -> by_style solve f s false = frame solve s true false None.
Proof.
  intros Hn E. unfold by_style. rewrite E. destruct (frame solve s true false None) as [l|] eqn:E1; [|reflexivity].
  destruct (frame solve l false false None) as [r|] eqn:E2; [|reflexivity].
  apply frame_sol in E1, E2. destruct E1 as (a & (_ & A & _) & ->), E2 as (b & (_ & B & _) & ->).
  assert (0 < length (i_blocks d))%nat as H0 by lia. pose proof (A (VX 0%nat) H0) as A1. pose proof (B (VX 0%nat) H0) as B1. apply between_int in A1, B1.
  cbn [int_bnd snapping andb coord_bnd option_map b_lo b_hi] in A1, B1. destruct (s_size d Hd 0%nat H0) as [S1 _]. pose proof (proj1 (s_halo d Hd)) as S2.
  unfold move_slack. match goal with |- context [forallb ?p ?l] => destruct (forallb p l) eqn:Ef end; [|reflexivity]. exfalso.
  rewrite forallb_forall in Ef. specialize (Ef 0%nat ltac:(apply in_seq; fold d; lia)). cbn [read st_x] in Ef. lia.
Qed.

Lemma core_many snap s : (1 < length (i_blocks d))%nat -> gen_core solve f s snap = option_map (round_all f) (by_style solve f s snap).
Proof.
  intros Hn. unfold gen_core. fold d. destruct (length (i_blocks d)) as [|[|n]] eqn:E; [lia|lia|]. reflexivity.
Qed.
Lemma core_snap s t : no_offsets d = true -> (1 < length (i_blocks d))%nat -> gen_core solve f s true = Some t ->
  all_on_grid d t /\ exists flush cur a, solution d pos neg flush true None cur a /\ same_state t (read a).
Proof.
  intros Hn Hl. rewrite core_many by exact Hl. destruct (by_style solve f s true) as [u|] eqn:E; [|discriminate]. intros H. injection H as <-.
  apply style_sol in E. destruct E as (flush & snap' & cur & a & Ha & -> & Es). rewrite (Es eq_refl) in Ha.
  destruct (sol_snapped flush cur a Hn Ha) as [S1 S2]. pose proof (round_all_snapped f (read a) Hd S1) as R. split.
  - intros i Hi. destruct (R i) as (-> & -> & _). now apply S2.
  - exists flush, cur, a. split; auto.
Qed.
Lemma off_grid_false s : off_grid d s = false -> all_on_grid d s.
Proof.
  intros H i Hi. unfold off_grid in H. assert (forall j, In j (ids d) -> negb (Z.rem (st_x s j) (i_xp d) =? 0) || negb (Z.rem (st_y s j) (i_yp d) =? 0) = false) as K.
  { intros j Hj. destruct (negb (Z.rem (st_x s j) (i_xp d) =? 0) || negb (Z.rem (st_y s j) (i_yp d) =? 0)) eqn:E; [|reflexivity].
    exfalso. assert (existsb (fun i => negb (Z.rem (st_x s i) (i_xp d) =? 0) || negb (Z.rem (st_y s i) (i_yp d) =? 0)) (ids d) = true) by (apply existsb_exists; eauto). congruence. }
  specialize (K i ltac:(apply in_seq; lia)). pose proof (s_pitch d Hd) as [P1 P2].
  assert (Z.rem (st_x s i) (i_xp d) = 0 /\ Z.rem (st_y s i) (i_yp d) = 0) as [K1 K2] by lia.
  apply Z.rem_divide in K1, K2; try lia. destruct K1 as (k1 & E1), K2 as (k2 & E2). split; [exists k1|exists k2]; lia.
Qed.
Lemma place_on_grid s t : f_black f = false -> no_offsets d = true -> (1 < length (i_blocks d))%nat -> place_all solve f s = Some t -> all_on_grid d t.
Proof.
  intros Hb Hn Hl H. unfold place_all in H. destruct (gen_core solve f s false) as [u|]; [|discriminate].
  rewrite Hb in H. cbn [negb andb] in H. unfold wants_snap in H. fold d in H. rewrite Hn in H. replace (1 <? length (i_blocks d))%nat with true in H by lia. cbn [andb] in H.
  destruct (off_grid d u) eqn:E.
  - now apply (core_snap u t Hn Hl).
  - injection H as <-. now apply off_grid_false.
Qed.
Lemma place_solution s t : (1 < length (i_blocks d))%nat -> place_all solve f s = Some t ->
  (exists flush snap cur a, solution d pos neg flush snap None cur a /\ same_state t (read a)) \/
  (exists flush snap cur a, solution d pos neg flush snap None cur a /\ t = round_all f (read a)).
Proof.
  intros Hl H. unfold place_all in H. destruct (gen_core solve f s false) as [u|] eqn:E; [|discriminate].
  destruct (negb (f_black f) && wants_snap f u) eqn:W.
  - left. apply andb_true_iff in W. destruct W as [_ W]. unfold wants_snap in W. fold d in W. apply andb_true_iff in W. destruct W as [W _]. apply andb_true_iff in W. destruct W as [W _].
    destruct (core_snap u t W Hl H) as (_ & flush & cur & a & Ha & S). exists flush, true, cur, a. auto.
  - injection H as <-. right. rewrite core_many in E by exact Hl. destruct (by_style solve f s false) as [v|] eqn:B; [|discriminate]. injection E as <-.
    apply style_sol in B. destruct B as (flush & snap' & cur & a & Ha & -> & _). exists flush, snap', cur, a. auto.
Qed.
Lemma place_right s t : (1 < length (i_blocks d))%nat -> f_style f = StyleR -> pairless d -> place_all solve f s = Some t ->
  (forall i, (i < length (i_blocks d))%nat -> st_x t i + bw d i <= 0 /\ st_y t i + bh d i <= 0) \/
  (forall i, (i < length (i_blocks d))%nat -> bw d i <= 2 * i_xp d /\ bh d i <= 2 * i_yp d).
Proof.
  intros Hl Es Hp H. unfold place_all in H. destruct (gen_core solve f s false) as [u|] eqn:E; [|discriminate].
  rewrite core_many in E by exact Hl. unfold by_style in E. rewrite Es in E. destruct (frame solve s false false None) as [v|] eqn:B; [|discriminate].
  cbn [option_map] in E. rewrite round_all_pairless in E by (right; exact Hp). injection E as <-. apply frame_sol in B. destruct B as (a & (_ & A & _) & ->).
  assert (forall i, (i < length (i_blocks d))%nat -> a_int a (VX i) + bw d i <= 0 /\ a_int a (VY i) + bh d i <= 0) as K.
  { intros i Hi. pose proof (A (VX i) Hi) as A1. pose proof (A (VY i) Hi) as A2. apply between_int in A1, A2. cbn [int_bnd snapping andb coord_bnd option_map b_lo b_hi] in A1, A2. lia. }
  destruct (negb (f_black f) && wants_snap f (read a)) eqn:W.
  - right. apply andb_true_iff in W. destruct W as [_ W]. unfold wants_snap in W. fold d in W. apply andb_true_iff in W. destruct W as [W _]. apply andb_true_iff in W. destruct W as [W _].
    rewrite core_many in H by exact Hl. unfold by_style in H. rewrite Es in H. destruct (frame solve (read a) false true None) as [v|] eqn:B; [|discriminate].
    apply frame_sol in B. destruct B as (b & (_ & B & _) & ->).
    intros i Hi. pose proof (B (VX i) Hi) as B1. pose proof (B (VY i) Hi) as B2. apply between_int in B1, B2. cbn [int_bnd] in B1, B2. unfold snapping in B1, B2. rewrite W in B1, B2.
    cbn [andb snap_bnd b_lo b_hi pts fst snd read st_x st_y] in B1, B2. specialize (K i Hi). lia.
  - left. injection H as <-. exact K.
Qed.
End Flow.

(** Only solvers without points are called. *)
Lemma frame_ext solve solve' s flush snap : (forall fl sn cur, solve fl sn None cur = solve' fl sn None cur) -> frame solve s flush snap None = frame solve' s flush snap None.
Proof. intros H. unfold frame. now rewrite H. Qed.
Lemma style_ext solve solve' f s snap : (forall fl sn cur, solve fl sn None cur = solve' fl sn None cur) -> by_style solve f s snap = by_style solve' f s snap.
Proof.
  intros H. unfold by_style, move_slack. rewrite !(frame_ext solve solve') by exact H. destruct (f_style f); try reflexivity.
  destruct (frame solve' s true snap None) as [l|]; [|reflexivity]. rewrite (frame_ext solve solve' l) by exact H. destruct (frame solve' l false snap None) as [r|]; [|reflexivity].
  rewrite (frame_ext solve solve' r) by exact H. reflexivity.
Qed.
Lemma generate_ext solve solve' f s : (forall fl sn cur, solve fl sn None cur = solve' fl sn None cur) -> generate solve f s = generate solve' f s.
Proof.
  intros H. unfold generate. enough (place_all solve f s = place_all solve' f s) as -> by reflexivity. unfold place_all.
  assert (forall s snap, gen_core solve f s snap = gen_core solve' f s snap) as K by (intros; unfold gen_core; now rewrite (style_ext solve solve') by exact H).
  rewrite K. destruct (gen_core solve' f s false); [|reflexivity]. now rewrite K.
Qed.

(** Wire length. *)
Section Hpwl.
Variables (d : idesign) (s : pstate).
Let X0 (b : nat * pbox) := fst (shape_x d s b).
Let X1 (b : nat * pbox) := snd (shape_x d s b).
Let Y0 (b : nat * pbox) := fst (shape_y d s b).
Let Y1 (b : nat * pbox) := snd (shape_y d s b).
Lemma grow_eq e b : grow d s e b = Ext (Z.min (e_x0 e) (X0 b)) (Z.max (e_x1 e) (X1 b)) (Z.min (e_y0 e) (Y0 b)) (Z.max (e_y1 e) (Y1 b)).
Proof.
  destruct b as [i b]. unfold grow, X0, X1, Y0, Y1, shape_x, shape_y, lower, upper. destruct (st_h s i =? 0), (st_v s i =? 0); cbn [negb fst snd]; f_equal; f_equal; lia.
Qed.
Lemma grow_fold l e :
  let r := fold_left (grow d s) l e in
  e_x0 r = fold_left Z.min (map X0 l) (e_x0 e) /\ e_x1 r = fold_left Z.max (map X1 l) (e_x1 e) /\
  e_y0 r = fold_left Z.min (map Y0 l) (e_y0 e) /\ e_y1 r = fold_left Z.max (map Y1 l) (e_y1 e).
Proof.
  cbv zeta. revert e. induction l as [|b l IH]; intros e; cbn [fold_left map]; [auto|]. rewrite grow_eq. destruct (IH (Ext (Z.min (e_x0 e) (X0 b)) (Z.max (e_x1 e) (X1 b)) (Z.min (e_y0 e) (Y0 b)) (Z.max (e_y1 e) (Y1 b)))) as (A & B & C & D).
  cbn [e_x0 e_x1 e_y0 e_y1] in *. auto.
Qed.
End Hpwl.
Lemma fold_min_least l m : l <> [] -> (forall x, In x l -> x <= m) -> least l (fold_left Z.min l m).
Proof.
  intros Hn Hm. assert (forall l m, (fold_left Z.min l m = m \/ In (fold_left Z.min l m) l) /\ fold_left Z.min l m <= m /\ forall x, In x l -> fold_left Z.min l m <= x) as K.
  { clear. induction l as [|y l IH]; intros m; cbn [fold_left]; [split; [auto|split; [lia|intros x []]]|].
    destruct (IH (Z.min m y)) as (A & B & C). split; [|split].
    - destruct A as [A|A]; [|right; now right]. rewrite A. destruct (Z.min_spec m y) as [[_ E]|[_ E]]; rewrite E; [now left|right; now left].
    - lia.
    - intros x [->|Hx]; [lia|auto]. }
  destruct (K l m) as (A & B & C). split; [|exact C]. destruct A as [A|A]; [|exact A].
  destruct l as [|y l]; [congruence|]. pose proof (Hm y (or_introl eq_refl)). pose proof (C y (or_introl eq_refl)). left. lia.
Qed.
Lemma fold_max_greatest l m : l <> [] -> (forall x, In x l -> m <= x) -> greatest l (fold_left Z.max l m).
Proof.
  intros Hn Hm. assert (forall l m, (fold_left Z.max l m = m \/ In (fold_left Z.max l m) l) /\ m <= fold_left Z.max l m /\ forall x, In x l -> x <= fold_left Z.max l m) as K.
  { clear. induction l as [|y l IH]; intros m; cbn [fold_left]; [split; [auto|split; [lia|intros x []]]|].
    destruct (IH (Z.max m y)) as (A & B & C). split; [|split].
    - destruct A as [A|A]; [|right; now right]. rewrite A. destruct (Z.max_spec m y) as [[_ E]|[_ E]]; rewrite E; [right; now left|now left].
    - lia.
    - intros x [->|Hx]; [lia|auto]. }
  destruct (K l m) as (A & B & C). split; [|exact C]. destruct A as [A|A]; [|exact A].
  destruct l as [|y l]; [congruence|]. pose proof (Hm y (or_introl eq_refl)). pose proof (C y (or_introl eq_refl)). left. lia.
Qed.
Lemma fold_max_ge (g : nat -> Z) l m i : In i l -> g i <= fold_left (fun m i => Z.max m (g i)) l m.
Proof.
  assert (forall l m, m <= fold_left (fun m i => Z.max m (g i)) l m) as K.
  { clear. induction l as [|y l IH]; intros m; cbn [fold_left]; [lia|]. specialize (IH (Z.max m (g y))). lia. }
  revert m. induction l as [|y l IH]; intros m H; cbn [fold_left]; [contradiction|]. destruct H as [->|H]; [|auto]. specialize (K l (Z.max m (g i))). lia.
Qed.
Lemma hpwl_exact f s net : shapes_of f net <> [] -> on_blocks (f_d f) (shapes_of f net) ->
  (forall i, (i < length (i_blocks (f_d f)))%nat -> 0 <= st_x s i /\ 0 <= st_y s i) -> half_perimeter (f_d f) s (shapes_of f net) (net_hpwl f s net).
Proof.
  intros Hn Hon Hpos. unfold net_hpwl. set (d := f_d f) in *. set (l := shapes_of f net) in *.
  destruct (grow_fold d s l (Ext (ur_x d s) 0 (ur_y d s) 0)) as (A & B & C & D). cbn [e_x0 e_x1 e_y0 e_y1] in A, B, C, D.
  assert (forall b, In b l -> 0 <= snd (shape_x d s b) /\ fst (shape_x d s b) <= ur_x d s /\ 0 <= snd (shape_y d s b) /\ fst (shape_y d s b) <= ur_y d s) as K.
  { intros [i b] Hb. destruct (Hon i b Hb) as (Hi & H1 & H2 & H3 & H4 & H5 & H6). destruct (Hpos i Hi) as [P1 P2].
    assert (In i (ids d)) as Hin by (apply in_seq; fold d; lia).
    pose proof (fold_max_ge (fun i => st_x s i + bw d i) (ids d) int_min i Hin) as U1. pose proof (fold_max_ge (fun i => st_y s i + bh d i) (ids d) int_min i Hin) as U2.
    cbn beta in U1, U2. fold (ur_x d s) in U1. fold (ur_y d s) in U2. unfold shape_x, shape_y. destruct (st_h s i =? 0), (st_v s i =? 0); cbn [fst snd]; lia. }
  exists (e_x0 (fold_left (grow d s) l (Ext (ur_x d s) 0 (ur_y d s) 0))), (e_x1 (fold_left (grow d s) l (Ext (ur_x d s) 0 (ur_y d s) 0))),
         (e_y0 (fold_left (grow d s) l (Ext (ur_x d s) 0 (ur_y d s) 0))), (e_y1 (fold_left (grow d s) l (Ext (ur_x d s) 0 (ur_y d s) 0))).
  assert (forall g : nat * pbox -> Z, map g l <> []) as NE by (intros g; destruct l; [congruence|discriminate]).
  split; [|split; [|split; [|split]]].
  - rewrite A. apply fold_min_least; auto. intros x Hx. apply in_map_iff in Hx. destruct Hx as (b & <- & Hb). now apply K.
  - rewrite B. apply fold_max_greatest; auto. intros x Hx. apply in_map_iff in Hx. destruct Hx as (b & <- & Hb). now apply K.
  - rewrite C. apply fold_min_least; auto. intros x Hx. apply in_map_iff in Hx. destruct Hx as (b & <- & Hb). now apply K.
  - rewrite D. apply fold_max_greatest; auto. intros x Hx. apply in_map_iff in Hx. destruct Hx as (b & <- & Hb). now apply K.
  - lia.
Qed.
