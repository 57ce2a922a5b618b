(** Proofs for C92: what the rows say. *)
From Coq Require Import ZArith QArith Lqa ZifyBool.
From Verif Require Import Base.Prelude Model.SeqEnum Model.SymmGroup Model.KeepOrder Model.SeqCheck Model.PlaceRows
  Spec.SeqEnumSpec Spec.SymmGroupSpec Spec.SeqCheckSpec Spec.PlaceRowsSpec Proofs.KeepOrderP.
Local Open Scope Z_scope.

Definition cmp (s : sense) (x y : Z) : Prop := match s with SE => x = y | SL => x <= y | SG => y <= x end.
Definition isum (a : assign) (l : list (ivar * Z)) : Z := fold_right (fun t s => snd t * a_int a (fst t) + s) 0 l.

Lemma meets_int a l s r : meets a (Row l [] s r) <-> cmp s (int_sum a l) (2 * r).
Proof.
  unfold meets, cmp. cbn [r_int r_real r_sense r_rhs real_sum fold_right].
  destruct s; unfold Qeq, Qle; cbn [Qnum Qden inject_Z Qplus]; lia.
Qed.
Lemma meets_irow a l s r : meets a (irow l s r) <-> cmp s (isum a l) r.
Proof.
  unfold irow. rewrite meets_int.
  assert (int_sum a (map (fun t => (fst t, 2 * snd t)) l) = 2 * isum a l) as E.
  { induction l as [|t l IH]; [reflexivity|]. cbn [map int_sum isum fold_right fst snd]. unfold int_sum in IH. rewrite IH. unfold isum. lia. }
  rewrite E. unfold cmp. destruct s; lia.
Qed.
Lemma meets_real a l v c s r : meets a (Row l [(v, c)] s r) <->
  let x := (inject_Z c * a_real a v)%Q in let t := inject_Z (2 * r - int_sum a l) in
  match s with SE => (x == t)%Q | SL => (x <= t)%Q | SG => (t <= x)%Q end.
Proof.
  unfold meets. cbn [r_int r_real r_sense r_rhs real_sum fold_right fst snd]. cbv zeta.
  unfold Z.sub. rewrite inject_Z_plus, inject_Z_opp. destruct s; split; intros; lra.
Qed.

Lemma twos_iff {A} (l : list A) (p q : A) : In (p, q) (twos l) <-> two_of l p q.
Proof.
  induction l as [|x l IH]; cbn [twos].
  - split; [intros []|]. intros (l1 & l2 & l3 & E). destruct l1; discriminate.
  - rewrite in_app_iff, in_map_iff, IH. split.
    + intros [(y & E & H)|(l1 & l2 & l3 & E)].
      * injection E as -> ->. apply in_split in H. destruct H as (l2 & l3 & ->). now exists [], l2, l3.
      * exists (x :: l1), l2, l3. now rewrite E.
    + intros ([|y l1] & l2 & l3 & E); cbn in E; injection E as -> ->.
      * left. exists q. split; [reflexivity|]. apply in_app_iff. right. now left.
      * right. now exists l1, l2, l3.
Qed.
Lemma two_of_seq n a b : two_of (seq 0 n) a b <-> (a < b < n)%nat.
Proof.
  rewrite <- twos_iff. enough (forall m, In (a, b) (twos (seq m n)) <-> (m <= a < b /\ b < m + n)%nat) as H by (rewrite H; lia).
  induction n as [|n IH]; intros m; cbn [seq twos]; [split; [intros []|lia]|].
  rewrite in_app_iff, in_map_iff, IH. split.
  - intros [(y & E & H)|H]; [|lia]. injection E as -> ->. apply in_seq in H. lia.
  - intros H. destruct (Nat.eq_dec a m) as [->|N]; [|right; lia]. left. exists b. split; [reflexivity|]. apply in_seq. lia.
Qed.
Lemma two_of_cases {A} (l : list A) p q : In p l -> In q l -> p = q \/ two_of l p q \/ two_of l q p.
Proof.
  intros Hp Hq. apply in_split in Hp. destruct Hp as (l1 & l2 & ->). rewrite in_app_iff in Hq. cbn in Hq. destruct Hq as [H|[H|H]].
  - right; right. apply in_split in H. destruct H as (m1 & m2 & ->). exists m1, m2, l2. now rewrite <- app_assoc.
  - now left.
  - right; left. apply in_split in H. destruct H as (m1 & m2 & ->). now exists l1, m1, m2.
Qed.

(** All rows, part by part. *)
Lemma all_rows_iff a d pos neg flush snap :
  (forall r, In r (all_rows d pos neg flush snap) -> meets a r) <->
  (forall i, (i < length (i_blocks d))%nat ->
     (forall r, In r (flip_row (VH i) (b_xflip (blk d i))) \/ In r (flip_row (VV i) (b_yflip (blk d i))) -> meets a r)) /\
  (forall r, In r (snap_rows d snap) -> meets a r) /\
  (forall i, (i < length (i_blocks d))%nat -> let b := blk d i in
     (forall r, In r (grid_row (VX i) (VH i) (VNx i) (VSelX i) (b_w b) (b_xpitch b) (b_xoff b)) -> meets a r) /\
     (forall r, In r (grid_row (VY i) (VV i) (VNy i) (VSelY i) (b_h b) (b_ypitch b) (b_yoff b)) -> meets a r)) /\
  (forall i j, (i < j < length (i_blocks d))%nat -> meets a (over_row d pos neg i j)) /\
  (forall g r, In g (i_syms d) -> In r (sym_rows d g) -> meets a r) /\
  (forall u r, In u (i_aligns d) -> In r (align_rows d u) -> meets a r) /\
  (forall o, In o (i_orders d) -> meets a (order_row d o)) /\
  (forall r, In r (net_rows d) -> meets a r) /\
  (forall r, In r (area_rows d flush) -> meets a r).
Proof.
  unfold all_rows. split.
  - intros H.
    split; [intros i Hi r Hr; apply H, in_app_iff; left; unfold flip_rows; apply in_flat_map; exists i; split; [apply in_seq; lia|now apply in_app_iff]|].
    split; [intros r Hr; apply H; rewrite !in_app_iff; tauto|].
    split; [intros i Hi; split; intros r Hr; apply H; rewrite !in_app_iff; right; right; left; unfold grid_rows; apply in_flat_map; exists i;
            (split; [apply in_seq; lia|apply in_app_iff; tauto])|].
    split; [intros i j Hij; apply H; rewrite !in_app_iff; do 3 right; left; unfold over_rows; apply in_map_iff; exists (i, j);
            (split; [reflexivity|]); apply twos_iff, two_of_seq; exact Hij|].
    split; [intros g r Hg Hr; apply H; rewrite !in_app_iff; do 4 right; left; apply in_flat_map; eauto|].
    split; [intros g r Hg Hr; apply H; rewrite !in_app_iff; do 5 right; left; apply in_flat_map; eauto|].
    split; [intros o Ho; apply H; rewrite !in_app_iff; do 6 right; left; now apply in_map|].
    split; intros r Hr; apply H; rewrite !in_app_iff; tauto.
  - intros (H1 & H2 & H3 & H4 & H5 & H6 & H7 & H8 & H9) r Hr. rewrite !in_app_iff in Hr.
    destruct Hr as [Hr|[Hr|[Hr|[Hr|[Hr|[Hr|[Hr|[Hr|Hr]]]]]]]]; auto.
    + unfold flip_rows in Hr. apply in_flat_map in Hr. destruct Hr as (i & Hi & Hr). apply in_seq in Hi. apply (H1 i); [lia|]. now apply in_app_iff.
    + unfold grid_rows in Hr. apply in_flat_map in Hr. destruct Hr as (i & Hi & Hr). apply in_seq in Hi. apply in_app_iff in Hr.
      destruct (H3 i ltac:(lia)) as [A B]. destruct Hr; auto.
    + unfold over_rows in Hr. apply in_map_iff in Hr. destruct Hr as ([i j] & <- & Hr). apply H4. apply twos_iff in Hr. now apply two_of_seq in Hr.
    + apply in_flat_map in Hr. destruct Hr as (g & Hg & Hr). eauto.
    + apply in_flat_map in Hr. destruct Hr as (g & Hg & Hr). eauto.
    + apply in_map_iff in Hr. destruct Hr as (o & <- & Hr). auto.
Qed.

(** The flips. *)
Lemma flip_row_iff a v f : (forall r, In r (flip_row v f) -> meets a r) <-> (f = 1 -> a_int a v = 0) /\ (f = -1 -> a_int a v = 1).
Proof.
  unfold flip_row. destruct (f =? 1) eqn:E1; [|destruct (f =? -1) eqn:E2].
  - split; [intros H|intros [H _] r [<-|[]]]; [|apply meets_irow; cbn [cmp isum fold_right fst snd]; lia].
    specialize (H _ (or_introl eq_refl)). apply meets_irow in H. cbn [cmp isum fold_right fst snd] in H. lia.
  - split; [intros H|intros [_ H] r [<-|[]]]; [|apply meets_irow; cbn [cmp isum fold_right fst snd]; lia].
    specialize (H _ (or_introl eq_refl)). apply meets_irow in H. cbn [cmp isum fold_right fst snd] in H. lia.
  - split; [intros _; lia|intros _ r []].
Qed.

(** The offsets. *)
Lemma isum_sel a sel c n : isum a (map (fun j => (sel j, c j)) (seq 0 n)) = fold_right Z.add 0 (map (fun j => c j * a_int a (sel j)) (seq 0 n)).
Proof. generalize (seq 0 n). induction l as [|x l IH]; cbn; [reflexivity|]. unfold isum in IH. rewrite IH. reflexivity. Qed.
Lemma sum_zero (f : nat -> Z) l : (forall j, In j l -> f j = 0) -> fold_right Z.add 0 (map f l) = 0.
Proof. induction l as [|x l IH]; cbn; intros H; [reflexivity|]. rewrite (H x), IH; auto. Qed.
Lemma sum_nonneg (f : nat -> Z) l : (forall j, In j l -> 0 <= f j) -> 0 <= fold_right Z.add 0 (map f l).
Proof. induction l as [|x l IH]; cbn; intros H; [lia|]. pose proof (H x (or_introl eq_refl)). assert (0 <= fold_right Z.add 0 (map f l)) by auto. lia. Qed.
Lemma sum_one (f : nat -> Z) l : NoDup l -> (forall j, In j l -> 0 <= f j <= 1) -> fold_right Z.add 0 (map f l) = 1 ->
  exists k, In k l /\ f k = 1 /\ forall j, In j l -> j <> k -> f j = 0.
Proof.
  induction l as [|x l IH]; cbn; intros Hn H E; [lia|]. apply NoDup_cons_iff in Hn. destruct Hn as [Hx Hn].
  pose proof (H x (or_introl eq_refl)) as Hfx. destruct (Z.eq_dec (f x) 1) as [E1|E1].
  - exists x. split; [now left|]. split; [exact E1|]. intros j [->|Hj] N; [congruence|].
    assert (fold_right Z.add 0 (map f l) = 0) as Z0 by lia.
    assert (forall m, (forall i, In i m -> 0 <= f i) -> fold_right Z.add 0 (map f m) = 0 -> forall i, In i m -> f i = 0) as K.
    { clear. induction m as [|y m IH]; cbn; intros H E i Hi; [contradiction|].
      pose proof (H y (or_introl eq_refl)). assert (0 <= fold_right Z.add 0 (map f m)) by (apply sum_nonneg; auto).
      destruct Hi as [->|Hi]; [lia|]. apply IH; auto; lia. }
    apply (K l); auto. intros i Hi. specialize (H i (or_intror Hi)). lia.
  - destruct IH as (k & Hk & F & R); [exact Hn|intros j Hj; apply H; now right|lia|].
    exists k. split; [now right|]. split; [exact F|]. intros j [->|Hj] N; [lia|auto].
Qed.
Lemma sum_pick (f c : nat -> Z) l k : NoDup l -> In k l -> f k = 1 -> (forall j, In j l -> j <> k -> f j = 0) ->
  fold_right Z.add 0 (map (fun j => c j * f j) l) = c k.
Proof.
  induction l as [|x l IH]; cbn; intros Hn Hk F R; [contradiction|]. apply NoDup_cons_iff in Hn. destruct Hn as [Hx Hn].
  destruct Hk as [->|Hk].
  - rewrite F. rewrite sum_zero; [lia|]. intros j Hj. rewrite R; [lia|now right|]. intros ->. contradiction.
  - rewrite (R x); [|now left|intros ->; contradiction]. rewrite IH; auto. lia.
Qed.

Lemma grid_sound a v f n sel size pitch off :
  (forall r, In r (grid_row v f n sel size pitch off) -> meets a r) ->
  (off <> [] -> 0 <= a_int a n) -> (forall j, (j < length off)%nat -> 0 <= a_int a (sel j) <= 1) ->
  (a_int a f = 0 \/ a_int a f = 1) ->
  on_offset pitch off (if a_int a f =? 1 then a_int a v + size else a_int a v).
Proof.
  intros H Hn Hs Hf. destruct off as [|o off]; [now left|]. right. set (l := o :: off) in *.
  assert (Hl : l <> []) by discriminate. unfold grid_row in H. fold l in H. replace (match l with [] => [] | _ :: _ => _ end) with
    [irow ((v, 1) :: (f, size) :: (n, - pitch) :: map (fun j => (sel j, - nth j l 0)) (seq 0 (length l))) SE 0;
     irow (map (fun j => (sel j, 1)) (seq 0 (length l))) SE 1] in H by reflexivity.
  pose proof (H _ (or_introl eq_refl)) as A. pose proof (H _ (or_intror (or_introl eq_refl))) as B.
  apply meets_irow in A, B. cbn [cmp] in A, B.
  change (1 * a_int a v + (size * a_int a f + (- pitch * a_int a n + isum a (map (fun j => (sel j, - nth j l 0)) (seq 0 (length l))))) = 0) in A.
  rewrite (isum_sel a sel (fun j => - nth j l 0)) in A. rewrite (isum_sel a sel (fun _ => 1)) in B.
  destruct (sum_one (fun j => 1 * a_int a (sel j)) (seq 0 (length l))) as (k & Hk & F & R).
  - apply seq_NoDup.
  - intros j Hj. apply in_seq in Hj. specialize (Hs j). lia.
  - exact B.
  - apply in_seq in Hk as Hk'. rewrite (sum_pick (fun j => a_int a (sel j)) (fun j => - nth j l 0) _ k) in A; auto using seq_NoDup; [| lia |].
    + exists (a_int a n), (nth k l 0). split; [auto|]. split; [apply nth_In; lia|]. destruct Hf as [E|E]; rewrite E in *; cbn [Z.eqb Pos.eqb]; lia.
    + intros j Hj N. specialize (R j Hj N). lia.
Qed.

(** Overlap rows. *)
Lemma abutted_iff d i j x : abutted d i j x = true <-> In (i, j, x) (i_abuts d).
Proof.
  unfold abutted. rewrite existsb_exists. split.
  - intros (((a, b), y) & Hi & E). unfold o_first, o_second in E. cbn in E. assert (a = i) as -> by lia. assert (b = j) as -> by lia.
    replace x with y; [exact Hi|]. destruct x, y; cbn in E; auto; lia.
  - intros H. exists (i, j, x). split; [exact H|]. unfold o_first, o_second. cbn. rewrite !Nat.eqb_refl. now destruct x.
Qed.
Lemma round_up_far bias pitch spread g : 0 <= bias -> 0 < pitch ->
  (Z.max (round_up bias pitch) spread <= g <-> far_enough spread bias pitch g).
Proof.
  intros Hb Hp. unfold round_up, far_enough. rewrite Z.quot_div_nonneg by lia.
  pose proof (Z.div_mod (bias + pitch - 1) pitch ltac:(lia)) as E. pose proof (Z.mod_pos_bound (bias + pitch - 1) pitch Hp) as M.
  set (q := (bias + pitch - 1) / pitch) in *. set (r := (bias + pitch - 1) mod pitch) in *. split.
  - intros H. split; [lia|]. exists q. nia.
  - intros (H1 & m & H2). assert (q <= m) by nia. nia.
Qed.
Lemma round_up_nonneg bias pitch : 0 <= bias -> 0 < pitch -> 0 <= round_up bias pitch.
Proof. intros. unfold round_up. rewrite Z.quot_div_nonneg by lia. assert (0 <= (bias + pitch - 1) / pitch) by (apply Z.div_pos; lia). nia. Qed.

Lemma precedes_total n l a b : NoDup l -> (forall x, (x < n)%nat -> In x l) -> (a < n)%nat -> (b < n)%nat -> a <> b ->
  (precedes l a b <-> (at_ l a < at_ l b)%nat) /\ (at_ l a <> at_ l b).
Proof.
  intros N H Ha Hb E. split; [split|].
  - now apply precedes_at.
  - intros L. apply at_precedes; auto.
  - intros Q. apply E. destruct (at_in l a (H a Ha)) as [_ A], (at_in l b (H b Hb)) as [_ B]. congruence.
Qed.

Section Over.
Variables (d : idesign) (pos neg : list nat) (a : assign).
Hypothesis Hd : sane d.
Hypothesis Hs : sequences (length (i_blocks d)) pos neg.
Let n := length (i_blocks d).
Let P := fp (solved d a).

Lemma over_iff i j : (i < j < n)%nat ->
  meets a (over_row d pos neg i j) <->
  (left_of pos neg i j -> apart_h d P i j) /\ (above pos neg i j -> apart_v d P i j) /\
  (left_of pos neg j i -> apart_h d P j i) /\ (above pos neg j i -> apart_v d P j i).
Proof.
  intros Hij. destruct Hs as (N1 & N2 & Hin).
  destruct (precedes_total n pos i j N1 (fun x h => proj1 (Hin x h)) ltac:(lia) ltac:(lia) ltac:(lia)) as [P1 D1]. destruct (precedes_total n pos j i N1 (fun x h => proj1 (Hin x h)) ltac:(lia) ltac:(lia) ltac:(lia)) as [P2 _].
  destruct (precedes_total n neg i j N2 (fun x h => proj2 (Hin x h)) ltac:(lia) ltac:(lia) ltac:(lia)) as [P3 D2]. destruct (precedes_total n neg j i N2 (fun x h => proj2 (Hin x h)) ltac:(lia) ltac:(lia) ltac:(lia)) as [P4 _].
  pose proof (round_up_far (i_bias_h d) (i_xp d)) as RH. pose proof (round_up_far (i_bias_v d) (i_yp d)) as RV.
  assert (B1 := proj1 (s_bias d Hd)). assert (B2 := proj2 (s_bias d Hd)). assert (Q1 := proj1 (s_pitch d Hd)). assert (Q2 := proj2 (s_pitch d Hd)).
  pose proof (s_spread d Hd) as SS.
  unfold over_row, left_of, above, apart_h, apart_v, h_gap, v_gap. rewrite P1, P2, P3, P4.
  assert (forall x y z, abutted d x y z = true \/ abutted d x y z = false) as AB by (intros; destruct (abutted d x y z); auto).
  destruct (at_ pos i <? at_ pos j)%nat eqn:E1, (at_ neg i <? at_ neg j)%nat eqn:E2.
  - destruct (abutted d i j DirH) eqn:A; rewrite meets_irow; cbn [cmp isum fold_right fst snd].
    + apply abutted_iff in A. unfold P; cbn [solved fp px py pw ph]. split; [intros H|intros (K & _); destruct K as [H _]; [lia|]]; [|specialize (H A); lia].
      split; [intros _; split; [lia|contradiction]|]. repeat split; intros; lia.
    + assert (~ In (i, j, DirH) (i_abuts d)) as A' by (rewrite <- abutted_iff, A; discriminate).
      specialize (RH (i_spread d i j true) (px P j - (px P i + pw P i)) B1 Q1). unfold P in *; cbn [solved fp px py pw ph] in *. split; [intros H|intros (K & _); destruct K as [_ H]; [lia|]]; [|specialize (H A'); apply RH in H; lia].
      split; [intros _; split; [contradiction|intros _; apply RH; lia]|]. repeat split; intros; lia.
  - destruct (abutted d i j DirV) eqn:A; rewrite meets_irow; cbn [cmp isum fold_right fst snd].
    + apply abutted_iff in A. unfold P; cbn [solved fp px py pw ph]. split; [intros H|intros (_ & K & _); destruct K as [H _]; [lia|]]; [|specialize (H A); lia].
      split; [intros; lia|]. split; [intros _; split; [lia|contradiction]|]. repeat split; intros; lia.
    + assert (~ In (i, j, DirV) (i_abuts d)) as A' by (rewrite <- abutted_iff, A; discriminate).
      specialize (RV (i_spread d i j false) (py P i - (py P j + ph P j)) B2 Q2). unfold P in *; cbn [solved fp px py pw ph] in *. split; [intros H|intros (_ & K & _); destruct K as [_ H]; [lia|]]; [|specialize (H A'); apply RV in H; lia].
      split; [intros; lia|]. split; [intros _; split; [contradiction|intros _; apply RV; lia]|]. repeat split; intros; lia.
  - destruct (abutted d j i DirV) eqn:A; rewrite meets_irow; cbn [cmp isum fold_right fst snd].
    + apply abutted_iff in A. unfold P; cbn [solved fp px py pw ph]. split; [intros H|intros (_ & _ & _ & K); destruct K as [H _]; [lia|]]; [|specialize (H A); lia].
      split; [intros; lia|]. split; [intros; lia|]. split; [intros; lia|]. intros _; split; [lia|contradiction].
    + assert (~ In (j, i, DirV) (i_abuts d)) as A' by (rewrite <- abutted_iff, A; discriminate). rewrite (SS i j false).
      specialize (RV (i_spread d j i false) (py P j - (py P i + ph P i)) B2 Q2). unfold P in *; cbn [solved fp px py pw ph] in *. split; [intros H|intros (_ & _ & _ & K); destruct K as [_ H]; [lia|]]; [|specialize (H A'); apply RV in H; lia].
      split; [intros; lia|]. split; [intros; lia|]. split; [intros; lia|]. intros _; split; [contradiction|intros _; apply RV; lia].
  - destruct (abutted d j i DirH) eqn:A; rewrite meets_irow; cbn [cmp isum fold_right fst snd].
    + apply abutted_iff in A. unfold P; cbn [solved fp px py pw ph]. split; [intros H|intros (_ & _ & K & _); destruct K as [H _]; [lia|]]; [|specialize (H A); lia].
      split; [intros; lia|]. split; [intros; lia|]. split; [|intros; lia]. intros _; split; [lia|contradiction].
    + assert (~ In (j, i, DirH) (i_abuts d)) as A' by (rewrite <- abutted_iff, A; discriminate). rewrite (SS i j true).
      specialize (RH (i_spread d j i true) (px P j - (px P i + pw P i)) B1 Q1).
      specialize (round_up_far (i_bias_h d) (i_xp d) (i_spread d j i true) (px P i - (px P j + pw P j)) B1 Q1) as RH'.
      unfold P in *; cbn [solved fp px py pw ph] in *. split; [intros H|intros (_ & _ & K & _); destruct K as [_ H]; [lia|]]; [|specialize (H A'); apply RH' in H; lia].
      split; [intros; lia|]. split; [intros; lia|]. split; [|intros; lia]. intros _; split; [contradiction|intros _; apply RH'; lia].
Qed.
End Over.
