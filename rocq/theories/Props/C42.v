(** C42: arrays of unit transistors. *)
From Coq Require Import String Ascii ZifyBool.
From Verif Require Import Base.Prelude Model.Transformation Model.TransistorArray Spec.ArraySpec.
Local Open Scope Z_scope.

(** * Shapes *)
Lemma search_spec m : 0 < m -> forall y, (0 < y)%nat -> exists r, shape_search m y = Some (r, m / r) /\ 0 < r <= Z.of_nat y /\ (r | m) /\ forall d, 0 < d <= Z.of_nat y -> (d | m) -> d <= r.
Proof.
  intros Hm y. induction y as [|y IH]; intros Hy; [lia|]. cbn [shape_search]. destruct (Z.eqb_spec (Z.of_nat (Datatypes.S y)) 1) as [E|E].
  - exists 1. rewrite Z.div_1_r. split; [reflexivity|]. split; [lia|]. split; [apply Z.divide_1_l|]. intros d Hd _. lia.
  - destruct (Z.eqb_spec (m mod Z.of_nat (Datatypes.S y)) 0) as [E2|E2].
    + eexists. split; [reflexivity|]. split; [lia|]. split; [apply Z.mod_divide; [lia|assumption]|]. intros d Hd _. lia.
    + destruct IH as (r & H1 & H2 & H3 & H4); [lia|]. exists r. split; [assumption|]. split; [lia|]. split; [assumption|]. intros d Hd Hdiv.
      destruct (Z.eq_dec d (Z.of_nat (Datatypes.S y))) as [->|Hne]; [apply Z.mod_divide in Hdiv; lia|]. apply H4; [lia|assumption].
Qed.
(** The shape requested is kept if it fits; otherwise the shape closest to a square with at most
    as many rows as columns is taken.  Both have exactly [m] cells. *)
Theorem C42_shape m n_row n_col : 0 < m -> exists r c, validate_array m n_row n_col = Some (r, c) /\ r * c = m /\
  (n_row * n_col = m -> r = n_row /\ c = n_col) /\
  (n_row * n_col <> m -> 0 < r <= c /\ forall r' c', r' * c' = m -> 0 < r' <= c' -> r' <= r).
Proof.
  intros Hm. unfold validate_array. destruct (Z.eqb_spec (n_row * n_col) m) as [E|E].
  - exists n_row, n_col. split; [reflexivity|]. split; [assumption|]. split; [auto|]. intros H. contradiction.
  - pose proof (Z.sqrt_spec m ltac:(lia)) as S; cbv zeta in S. pose proof (Z.sqrt_pos m) as Hp. assert (0 < Z.sqrt m) by nia.
    destruct (search_spec m Hm (Z.to_nat (Z.sqrt m))) as (r & H1 & H2 & H3 & H4); [lia|]. rewrite Z2Nat.id in H2, H4 by lia. destruct H3 as (q & Hq). exists r, (m / r).
    assert (Hc : m / r = q) by (rewrite Hq, Z.div_mul; lia). rewrite Hc in H1 |- *. split; [assumption|]. split; [lia|]. split; [intros H'; contradiction|]. intros _. split; [split; [lia|]; assert (r * r <= Z.sqrt m * Z.sqrt m) by (apply Z.mul_le_mono_nonneg; lia); assert (r * r <= q * r) by lia; apply Z.mul_le_mono_pos_r with r; lia|].
    intros r' c' Hrc Hr'. apply H4; [|exists c'; lia]. split; [lia|]. apply Z.sqrt_le_square; nia.
Qed.

Lemma variants_in m : 0 < m -> forall y a b, In (a, b) (variants_from m y) <-> a * b = m /\ (0 < a <= Z.of_nat y \/ 0 < b <= Z.of_nat y).
Proof.
  intros Hm. induction y as [|y IH]; intros a b; [simpl; split; [intros []|lia]|]. cbn [variants_from]. rewrite in_app_iff, IH. set (z := Z.of_nat (Datatypes.S y)) in *.
  assert (Hz : 0 < z) by (unfold z; lia). split.
  - intros [H|H]; [|unfold z; lia]. destruct (Z.eqb_spec (m mod z) 0) as [E|E]; [|destruct H]. pose proof (Z.div_mod m z). destruct H as [H|[H|[]]]; injection H as <- <-; lia.
  - intros (E & H). assert (D : forall u v, u * v = m -> 0 < u -> u = z -> In (a, b) [(u, v); (v, u)] -> In (a, b) (if m mod z =? 0 then [(z, m / z); (m / z, z)] else [])).
    { intros u v Euv Hu -> Hi. rewrite <- Euv. rewrite (Z.mul_comm z v), Z.mod_mul, Z.div_mul by lia. exact Hi. }
    destruct (Z.eq_dec a z) as [Ea|Ea]; [left; apply (D a b); [lia|lia|assumption|now left]|].
    destruct (Z.eq_dec b z) as [Eb|Eb]; [left; apply (D b a); [lia|lia|assumption|right; now left]|]. right. unfold z in *. lia.
Qed.
(** The variants offered to the placer are exactly the factorisations of the number of cells. *)
Theorem C42_variants m a b : 0 < m -> In (a, b) (variants m) <-> a * b = m /\ 0 < a /\ 0 < b.
Proof.
  intros Hm. unfold variants. rewrite variants_in by assumption. pose proof (Z.sqrt_pos m). rewrite Z2Nat.id by lia. split; [intros (E & H1); split; [assumption|nia]|]. intros (E & Ha & Hb). split; [assumption|].
  destruct (Z.le_ge_cases a b); [left|right]; (split; [assumption|]); apply Z.sqrt_le_square; nia.
Qed.

(** * Interleaving *)
Lemma cycled_nth {A} (l : list A) n x d : l <> [] -> (x < n)%nat -> nth_error (cycled l n) x = Some (nth (Nat.modulo x (List.length l)) l d).
Proof.
  intros Hl Hx. unfold cycled. destruct l as [|a l]; [contradiction|]. rewrite nth_error_map, (nth_error_nth' _ 0%nat) by (rewrite seq_length; assumption). rewrite seq_nth by assumption. cbn [option_map plus]. f_equal. apply nth_indep. apply Nat.mod_upper_bound. discriminate.
Qed.
Definition parity_letter (y x : nat) : ascii := if Nat.even (y + x) then "A"%char else "B"%char.
Lemma mod2 n : Nat.modulo n 2 = if Nat.even n then 0%nat else 1%nat.
Proof. pose proof (Nat.div_mod n 2 ltac:(lia)). pose proof (Nat.mod_upper_bound n 2 ltac:(lia)). destruct (Nat.even n) eqn:E; [apply Nat.even_spec in E as (k & ->); lia|]. rewrite <- Nat.negb_odd in E. apply negb_false_iff in E. apply Nat.odd_spec in E as (k & ->). lia. Qed.
Lemma default_at r c g y x : interleave_pattern r c AB = Some g -> (y < r)%nat -> (x < c)%nat -> at_pos g y x = Some (parity_letter y x).
Proof.
  intros E Hy Hx. assert (g = map (fun y => cycled (nth (Nat.modulo y 2) AB ["A"; "B"]%char) c) (seq 0 r)) as -> by (change (interleave_pattern r c AB) with (Some (map (fun y => cycled (nth (Nat.modulo y 2) AB ["A"; "B"]%char) c) (seq 0 r))) in E; congruence). unfold at_pos. rewrite nth_error_map, (nth_error_nth' _ 0%nat) by (rewrite seq_length; assumption). rewrite seq_nth by assumption. cbn [option_map plus].
  rewrite mod2. unfold parity_letter. rewrite Nat.even_add. destruct (Nat.even y); cbn [nth AB]; rewrite (cycled_nth _ _ _ "A"%char) by (assumption || discriminate); cbn [List.length]; rewrite mod2; destruct (Nat.even x); reflexivity.
Qed.
Lemma single_at r c g y x : interleave_pattern r c only_A = Some g -> (y < r)%nat -> (x < c)%nat -> at_pos g y x = Some "A"%char.
Proof.
  intros E Hy Hx. assert (g = map (fun y => cycled (nth (Nat.modulo y 1) only_A ["A"]%char) c) (seq 0 r)) as -> by (change (interleave_pattern r c only_A) with (Some (map (fun y => cycled (nth (Nat.modulo y 1) only_A ["A"]%char) c) (seq 0 r))) in E; congruence). unfold at_pos. rewrite nth_error_map, (nth_error_nth' _ 0%nat) by (rewrite seq_length; assumption). rewrite seq_nth by assumption. cbn [option_map plus].
  rewrite Nat.mod_1_r. cbn [nth only_A]. rewrite (cycled_nth _ _ _ "A"%char) by (assumption || discriminate). cbn [List.length]. now rewrite Nat.mod_1_r.
Qed.

Lemma sum_ext n f g : (forall i, (i < n)%nat -> f i = g i) -> sum_below n f = sum_below n g.
Proof. induction n as [|n IH]; intros H; [reflexivity|]. simpl. rewrite IH, H by (intros; try apply H; lia). reflexivity. Qed.
Lemma sum_add n f g : sum_below n (fun i => f i + g i) = sum_below n f + sum_below n g.
Proof. induction n as [|n IH]; [reflexivity|]. simpl. rewrite IH. lia. Qed.
Lemma sum_const n k : sum_below n (fun _ => k) = Z.of_nat n * k.
Proof. induction n as [|n IH]; [reflexivity|]. simpl sum_below. rewrite IH. lia. Qed.
Lemma sum_opp n f : sum_below n (fun i => - f i) = - sum_below n f.
Proof. induction n as [|n IH]; [reflexivity|]. simpl. rewrite IH. lia. Qed.
Lemma sum_rev n : forall f, sum_below n f = sum_below n (fun i => f (n - 1 - i)%nat).
Proof.
  induction n as [|n IH]; intros f; [reflexivity|].
  assert (F : forall m g, sum_below (Datatypes.S m) g = g 0%nat + sum_below m (fun i => g (Datatypes.S i))).
  { induction m as [|m IHm]; intros g; [simpl; lia|]. change (sum_below (Datatypes.S (Datatypes.S m)) g) with (sum_below (Datatypes.S m) g + g (Datatypes.S m)). rewrite IHm. simpl. lia. }
  rewrite (F n (fun i => f (Datatypes.S n - 1 - i)%nat)). simpl sum_below at 1. rewrite (IH f). replace (Datatypes.S n - 1 - 0)%nat with n by lia.
  rewrite (sum_ext n (fun i => f (Datatypes.S n - 1 - Datatypes.S i)%nat) (fun i => f (n - 1 - i)%nat)); [lia|]. intros i Hi. f_equal. lia.
Qed.
Lemma alt_sum k b : forall n, (n = 2 * k)%nat -> forall y, sum_below n (fun x => one_if (Bool.eqb b (Nat.even (y + x)))) = Z.of_nat k.
Proof.
  induction k as [|k IH]; intros n -> y; [reflexivity|]. replace (2 * Datatypes.S k)%nat with (Datatypes.S (Datatypes.S (2 * k))) by lia. cbn [sum_below]. rewrite IH by reflexivity.
  replace (y + Datatypes.S (2 * k))%nat with (Datatypes.S (y + 2 * k)) by lia. rewrite Nat.even_succ, <- Nat.negb_even. destruct b, (Nat.even (y + 2 * k)); cbn [Bool.eqb negb one_if]; lia.
Qed.
Definition letter_of (b : bool) : ascii := if b then "A"%char else "B"%char.
Lemma letter_at r c g b y x : interleave_pattern r c AB = Some g -> (y < r)%nat -> (x < c)%nat -> is_letter (letter_of b) (at_pos g y x) = Bool.eqb b (Nat.even (y + x)).
Proof. intros E Hy Hx. rewrite (default_at _ _ _ _ _ E Hy Hx). unfold parity_letter. destruct b, (Nat.even (y + x)); reflexivity. Qed.

(** With an even number of columns every row is balanced, with an even number of rows every column,
    and in both cases the two devices get half of the cells each. *)
Theorem C42_rows r k g b y : interleave_pattern r (2 * k) AB = Some g -> (y < r)%nat -> row_units g (letter_of b) y (2 * k) = Z.of_nat k.
Proof.
  intros E Hy. unfold row_units. rewrite (sum_ext _ _ (fun x => one_if (Bool.eqb b (Nat.even (y + x))))); [now apply alt_sum|]. intros x Hx. now rewrite (letter_at _ _ _ _ _ _ E).
Qed.
Theorem C42_columns k c g b x : interleave_pattern (2 * k) c AB = Some g -> (x < c)%nat -> col_units g (letter_of b) (2 * k) x = Z.of_nat k.
Proof.
  intros E Hx. unfold col_units. rewrite (sum_ext _ _ (fun y => one_if (Bool.eqb b (Nat.even (x + y))))); [now apply alt_sum|]. intros y Hy. rewrite (letter_at _ _ _ _ _ _ E) by assumption. now rewrite Nat.add_comm.
Qed.
Lemma swap_sums f n m : sum_below n (fun y => sum_below m (fun x => f y x)) = sum_below m (fun x => sum_below n (fun y => f y x)).
Proof. induction n as [|n IH]; [simpl; rewrite sum_const; lia|]. simpl. rewrite IH, <- sum_add. reflexivity. Qed.
Theorem C42_halves r c g b : interleave_pattern r c AB = Some g -> Nat.even (r * c) = true -> 2 * units g (letter_of b) r c = Z.of_nat r * Z.of_nat c.
Proof.
  intros E He. rewrite Nat.even_mul in He. apply orb_true_iff in He as [He|He]; apply Nat.even_spec in He as (k & ->).
  - unfold units. rewrite swap_sums. rewrite (sum_ext _ _ (fun _ => Z.of_nat k)); [rewrite sum_const; lia|]. intros x Hx. exact (C42_columns k c g b x E Hx).
  - unfold units. rewrite (sum_ext _ _ (fun _ => Z.of_nat k)); [rewrite sum_const; lia|]. intros y Hy. exact (C42_rows r k g b y E Hy).
Qed.
(** If both numbers are even the centroid of each device is the centre of the array. *)
Theorem C42_centroid r c g b : interleave_pattern r c AB = Some g -> Nat.even r = true -> Nat.even c = true -> centred g (letter_of b) r c.
Proof.
  intros E Hr Hc.
  assert (P : forall y x, (y < r)%nat -> (x < c)%nat -> is_letter (letter_of b) (at_pos g (r - 1 - y) (c - 1 - x)) = is_letter (letter_of b) (at_pos g y x)).
  { intros y x Hy Hx. rewrite !(letter_at _ _ _ _ _ _ E) by lia. f_equal. replace (r - 1 - y + (c - 1 - x))%nat with (r + c - (2 * 1 + (y + x)))%nat by lia. rewrite Nat.even_sub by lia. rewrite !Nat.even_add, Hr, Hc, Nat.even_mul. simpl. destruct (Nat.even y), (Nat.even x); reflexivity. }
  assert (Z0 : forall w, (forall y x, (y < r)%nat -> (x < c)%nat -> w (r - 1 - y)%nat (c - 1 - x)%nat = - w y x) ->
    sum_below r (fun y => sum_below c (fun x => one_if (is_letter (letter_of b) (at_pos g y x)) * w y x)) = 0).
  { intros w Hw. set (S := sum_below r _). assert (S = - S); [|lia]. unfold S at 1. rewrite sum_rev. rewrite (sum_ext r _ (fun y => - sum_below c (fun x => one_if (is_letter (letter_of b) (at_pos g y x)) * w y x))); [apply sum_opp|].
    intros y Hy. rewrite sum_rev. rewrite <- sum_opp. apply sum_ext. intros x Hx. rewrite P, Hw by assumption. lia. }
  split; unfold moment_x, moment_y; [apply (Z0 (fun y x => 2 * Z.of_nat x - (Z.of_nat c - 1)))|apply (Z0 (fun y x => 2 * Z.of_nat y - (Z.of_nat r - 1)))]; intros y x Hy Hx; lia.
Qed.

(** * The whole array *)
Lemma omap_app {A B} (f : A -> option B) l1 l2 : omap f (l1 ++ l2) = match omap f l1, omap f l2 with Some a, Some b => Some (a ++ b) | _, _ => None end.
Proof. induction l1 as [|x l1 IH]; [simpl; now destruct (omap f l2)|]. simpl. destruct (f x); [|reflexivity]. rewrite IH. destruct (omap f l1), (omap f l2); reflexivity. Qed.
Lemma omap_seq {B} (f : nat -> option B) (p : B -> Z) n l : omap f (seq 0 n) = Some l -> fold_right Z.add 0 (map p l) = sum_below n (fun i => match f i with Some b => p b | None => 0 end).
Proof.
  revert l. induction n as [|n IH]; intros l E; [injection E as <-; reflexivity|]. rewrite seq_S, omap_app in E. destruct (omap f (seq 0 n)) as [l'|] eqn:E1; [|discriminate]. simpl in E. destruct (f n) as [b|] eqn:Ef; [|discriminate]. injection E as <-.
  simpl. rewrite <- (IH l' eq_refl), Ef. rewrite map_app, fold_right_app. simpl. rewrite Z.add_0_r. clear. induction l' as [|a l' IH]; simpl; [lia|rewrite IH; lia].
Qed.
Lemma omap_some {A B} (f : A -> option B) l : (forall x, In x l -> f x <> None) -> exists l', omap f l = Some l'.
Proof. induction l as [|x l IH]; intros H; [exists []; reflexivity|]. destruct IH as (l' & E); [intros y Hy; apply H; now right|]. simpl. destruct (f x) as [b|] eqn:Ef; [|destruct (H x (or_introl eq_refl) Ef)]. rewrite E. eauto. Qed.
Lemma filter_count {A} (p : A -> bool) l : Z.of_nat (List.length (filter p l)) = fold_right Z.add 0 (map (fun a => one_if (p a)) l).
Proof. induction l as [|a l IH]; [reflexivity|]. simpl. destruct (p a); simpl one_if; simpl List.length; lia. Qed.
Lemma concat_count {A} (p : A -> bool) ls : Z.of_nat (List.length (filter p (concat ls))) = fold_right Z.add 0 (map (fun l => Z.of_nat (List.length (filter p l))) ls).
Proof. induction ls as [|l ls IH]; [reflexivity|]. simpl. rewrite filter_app, app_length. lia. Qed.

Lemma array_rows_units tap n r c g : List.length g = r -> (forall y x, (y < r)%nat -> (x < c)%nat -> exists l d f, at_pos g y x = Some l /\ letter l = Some (d, f) /\ (d <= n)%nat) ->
  exists rows, array_rows tap n r c g = Some rows /\
    forall d, dev_units d rows = sum_below r (fun y => sum_below c (fun x => one_if (match at_pos g y x with Some l => match letter l with Some (d', _) => Nat.eqb d d' | None => false end | None => false end))).
Proof.
  intros Hl Hg. set (F := fun y => match nth_error g y with Some row => tx_row n c row | None => None end).
  assert (Hrow : forall y, (y < r)%nat -> exists row l, nth_error g y = Some row /\ omap (tx_cell n row) (seq 0 c) = Some l /\ F y = Some ([Fill] ++ l ++ [Fill])).
  { intros y Hy. destruct (nth_error g y) as [row|] eqn:E; [|apply nth_error_None in E; lia]. destruct (omap_some (tx_cell n row) (seq 0 c)) as (l & El).
    - intros x Hx. apply in_seq in Hx. destruct (Hg y x Hy) as (a & d & f & E1 & E2 & E3); [lia|]. unfold at_pos in E1. rewrite E in E1. unfold tx_cell. rewrite E1, E2. destruct (Nat.leb_spec d n); [discriminate|lia].
    - exists row, l. split; [reflexivity|]. split; [assumption|]. unfold F. rewrite E. unfold tx_row. now rewrite El. }
  destruct (omap_some F (seq 0 r)) as (ls & Els).
  { intros y Hy. apply in_seq in Hy. destruct (Hrow y) as (row & l & _ & _ & E); [lia|]. congruence. }
  unfold array_rows. fold F. rewrite Els. eexists. split; [reflexivity|]. intros d. unfold dev_units. rewrite concat_app, filter_app, app_length, Nat2Z.inj_add.
  assert (T : List.length (filter (is_dev d) (concat (if tap then [[Fill] ++ repeat Tap c ++ [Fill]] else []))) = 0%nat).
  { destruct tap; [|reflexivity]. simpl. rewrite app_nil_r, filter_app. simpl. rewrite app_nil_r. clear. induction c as [|c IH]; [reflexivity|]. exact IH. }
  rewrite T, concat_count, (omap_seq F _ r ls Els). simpl (Z.of_nat 0 + _). apply sum_ext. intros y Hy. destruct (Hrow y Hy) as (row & l & E1 & E2 & E3). rewrite E3.
  cbn [app filter is_dev]. rewrite filter_app. cbn [filter is_dev]. rewrite app_nil_r, filter_count, (omap_seq _ _ c l E2). apply sum_ext. intros x Hx. unfold at_pos. rewrite E1.
  destruct (Hg y x Hy Hx) as (a & d' & f & A1 & A2 & A3). unfold at_pos in A1. rewrite E1 in A1. unfold tx_cell. rewrite A1, A2. destruct (Nat.leb_spec d' n); [reflexivity|lia].
Qed.

Lemma pattern_length r c t g : interleave_pattern r c t = Some g -> List.length g = r.
Proof. unfold interleave_pattern. destruct t; [discriminate|]. intros E. injection E as <-. now rewrite map_length, seq_length. Qed.
Lemma shape_cells pattern m y x : 0 < m -> 0 < y -> In pattern [0; 1; 2] -> exists r c, array_shape pattern m y x = Some (r, c) /\ 0 < r /\ 0 < c /\ r * c = (if 0 <? pattern then 2 * m else m) /\ (y * x = (if 0 <? pattern then 2 * m else m) -> r = y /\ c = x).
Proof.
  intros Hm Hy Hp. unfold array_shape. replace ((pattern =? 0) || (pattern =? 1) || (pattern =? 2)) with true by (destruct Hp as [<-|[<-|[<-|[]]]]; reflexivity). set (m' := if 0 <? pattern then 2 * m else m). assert (Hm' : 0 < m') by (unfold m'; destruct (0 <? pattern); lia).
  destruct (C42_shape m' y x Hm') as (r & c & E & Hrc & H1 & H2). rewrite E, Hrc, Z.eqb_refl. exists r, c. split; [reflexivity|]. destruct (Z.eq_dec (y * x) m') as [Eq|Ne].
  - destruct (H1 Eq) as (-> & ->). split; [assumption|]. split; [nia|auto].
  - destruct (H2 Ne) as (H3 & _). split; [lia|]. split; [lia|]. split; [assumption|]. intros H. contradiction.
Qed.
(** Two devices of [m] units each: the array has exactly [m] transistors of each; taps and fillers apart,
    there is nothing else. *)
Theorem C42_two tap e1 e2 pattern m y x : 0 < m -> 0 < y -> pattern = 1 \/ pattern = 2 ->
  exists rows, mos_array tap [e1; e2] None pattern m y x = Some rows /\ dev_units 1 rows = m /\ dev_units 2 rows = m /\ forall d, d <> 1%nat -> d <> 2%nat -> dev_units d rows = 0.
Proof.
  intros Hm Hy Hp. destruct (shape_cells pattern m y x Hm Hy) as (r & c & E & Hr & Hc & Hrc & _); [destruct Hp as [-> | ->]; simpl; auto|]. unfold mos_array. rewrite E. cbn [known_devices List.length Nat.min Nat.eqb].
  assert (Hrc' : r * c = 2 * m) by (destruct Hp as [-> | ->]; exact Hrc). clear Hrc. set (R := Z.to_nat r). set (C := Z.to_nat c). destruct (interleave_pattern R C AB) as [g|] eqn:Eg; [|discriminate].
  destruct (array_rows_units tap 2 R C g) as (rows & Er & Hu).
  - exact (pattern_length _ _ _ _ Eg).
  - intros i j Hi Hj. rewrite (default_at _ _ _ _ _ Eg Hi Hj). unfold parity_letter. destruct (Nat.even (i + j)); eexists _, _, _; split; [reflexivity|split; [reflexivity|lia]|reflexivity|split; [reflexivity|lia]].
  - exists rows. split; [assumption|].
    assert (Hb : forall b : bool, dev_units (if b then 1 else 2)%nat rows = units g (letter_of b) R C).
    { intros b. rewrite Hu. unfold units. apply sum_ext. intros i Hi. apply sum_ext. intros j Hj. rewrite (default_at _ _ _ _ _ Eg Hi Hj). unfold parity_letter. destruct b, (Nat.even (i + j)); reflexivity. }
    assert (Hev : Nat.even (R * C) = true) by (apply Nat.even_spec; exists (Z.to_nat m); unfold R, C; nia).
    assert (HRC : Z.of_nat R * Z.of_nat C = 2 * m) by (unfold R, C; lia).
    split; [|split].
    + rewrite (Hb true). pose proof (C42_halves _ _ _ true Eg Hev). lia.
    + rewrite (Hb false). pose proof (C42_halves _ _ _ false Eg Hev). lia.
    + intros d H1 H2. rewrite Hu. rewrite (sum_ext _ _ (fun _ => 0)); [rewrite sum_const; lia|]. intros i Hi. rewrite (sum_ext _ _ (fun _ => 0)); [rewrite sum_const; lia|]. intros j Hj. rewrite (default_at _ _ _ _ _ Eg Hi Hj). unfold parity_letter.
      destruct (Nat.even (i + j)); cbn [letter Ascii.eqb]; simpl; [destruct (Nat.eqb_spec d 1)|destruct (Nat.eqb_spec d 2)]; (contradiction || reflexivity).
Qed.
Theorem C42_one tap e1 m y x : 0 < m -> 0 < y -> exists rows, mos_array tap [e1] None 0 m y x = Some rows /\ dev_units 1 rows = m /\ forall d, d <> 1%nat -> dev_units d rows = 0.
Proof.
  intros Hm Hy. destruct (shape_cells 0 m y x Hm Hy) as (r & c & E & Hr & Hc & Hrc & _); [simpl; auto|]. unfold mos_array. rewrite E. cbn [known_devices List.length Nat.min Nat.eqb]. cbn [Z.ltb Z.compare] in Hrc.
  set (R := Z.to_nat r). set (C := Z.to_nat c). destruct (interleave_pattern R C only_A) as [g|] eqn:Eg; [|discriminate].
  destruct (array_rows_units tap 1 R C g) as (rows & Er & Hu).
  - exact (pattern_length _ _ _ _ Eg).
  - intros i j Hi Hj. rewrite (single_at _ _ _ _ _ Eg Hi Hj). eexists _, _, _. split; [reflexivity|]. split; [reflexivity|lia].
  - exists rows. split; [assumption|]. split.
    + rewrite Hu. rewrite (sum_ext _ _ (fun _ => Z.of_nat C)); [rewrite sum_const; unfold R, C; lia|]. intros i Hi. rewrite (sum_ext _ _ (fun _ => 1)); [rewrite sum_const; lia|]. intros j Hj. rewrite (single_at _ _ _ _ _ Eg Hi Hj). reflexivity.
    + intros d Hd. rewrite Hu. rewrite (sum_ext _ _ (fun _ => 0)); [rewrite sum_const; lia|]. intros i Hi. rewrite (sum_ext _ _ (fun _ => 0)); [rewrite sum_const; lia|]. intros j Hj. rewrite (single_at _ _ _ _ _ Eg Hi Hj). simpl. destruct (Nat.eqb_spec d 1); [contradiction|reflexivity].
Qed.
(** The flow: any variant offered for one or two equal elements, without user pattern, gives every
    element its [m] units in the shape of the variant. *)
Theorem C42_flow tap els m x y x' p : (List.length els = 1 \/ List.length els = 2)%nat -> 0 < m -> In (x, y) (variants m) -> choose_pattern (List.length els) true None x = (x', p) ->
  array_shape p m y x' = Some (y, x') /\ exists rows, mos_array tap els None p m y x' = Some rows /\ forall d, (1 <= d <= List.length els)%nat -> dev_units d rows = m.
Proof.
  intros Hl Hm Hv E. apply C42_variants in Hv as (Hxy & Hx & Hy); [|assumption]. destruct els as [|e1 [|e2 [|e3 els]]]; cbn [List.length] in *; try lia.
  - injection E as <- <-. split.
    + destruct (shape_cells 0 m y x Hm Hy) as (r & c & Es & _ & _ & _ & K); [simpl; auto|]. destruct K as (-> & ->); [simpl; lia|]. assumption.
    + destruct (C42_one tap e1 m y x Hm Hy) as (rows & Er & Hu & _). exists rows. split; [assumption|]. intros d Hd. replace d with 1%nat by lia. assumption.
  - cbn [choose_pattern pattern_map] in E. set (q := if negb ((2 * x) mod 4 =? 0) then 2 else 1) in *. assert (Hq : q = 1 \/ q = 2) by (unfold q; destruct (negb _); auto). injection E as <- <-. split.
    + destruct (shape_cells q m y (2 * x) Hm Hy) as (r & c & Es & _ & _ & _ & K); [destruct Hq as [-> | ->]; simpl; auto|]. destruct K as (-> & ->); [replace (0 <? q) with true by lia; lia|]. assumption.
    + destruct (C42_two tap e1 e2 q m y (2 * x) Hm Hy Hq) as (rows & Er & Hu1 & Hu2 & _). exists rows. split; [assumption|]. intros d Hd. assert (d = 1 \/ d = 2)%nat as [-> | ->] by lia; assumption.
Qed.

(** Findings.  A third element gets no transistor, and no error is raised. *)
Theorem C42_third_refuted : exists els m x y x' p rows, In (x, y) (variants m) /\ choose_pattern (List.length els) true None x = (x', p) /\ mos_array true els None p m y x' = Some rows /\
  (3 <= List.length els)%nat /\ dev_units 3 rows = 0 /\ dev_units 1 rows = m.
Proof. exists ["m0"; "m1"; "m2"]%string, 2, 1, 2, 1, 1. eexists. split; [left; reflexivity|]. split; [reflexivity|]. split; [reflexivity|]. split; [simpl; lia|]. split; reflexivity. Qed.
(** A pattern chosen by the user is not checked against the number of devices: one device gets twice
    its units, two devices half of them. *)
Theorem C42_pattern_refuted :
  (exists m x y x' p rows, choose_pattern 1 true (Some cc) x = (x', p) /\ In (x, y) (variants m) /\ mos_array true ["m0"]%string None p m y x' = Some rows /\ dev_units 1 rows = 2 * m) /\
  (exists m x y x' p rows, choose_pattern 2 true (Some single_device) x = (x', p) /\ In (x, y) (variants m) /\ mos_array true ["m0"; "m1"]%string None p m y x' = Some rows /\ 2 * dev_units 1 rows = m).
Proof.
  split.
  - exists 2, 2, 1, 2, 1. eexists. split; [reflexivity|]. split; [right; left; reflexivity|]. split; reflexivity.
  - exists 2, 2, 1, 4, 0. eexists. split; [reflexivity|]. split; [right; left; reflexivity|]. split; reflexivity.
Qed.
(** A user's template may leave a device out. *)
Theorem C42_template_refuted : exists m y x rows, mos_array true ["m0"; "m1"]%string (Some [["A"; "a"]]%char) 1 m y x = Some rows /\ 0 < m /\ dev_units 2 rows = 0.
Proof. exists 2, 1, 4. eexists. split; [reflexivity|]. split; [lia|reflexivity]. Qed.
(** The common-centroid pattern is chosen for an odd number of rows, where the devices have different
    centroids. *)
Theorem C42_centroid_refuted : exists m x y x' g, In (x, y) (variants m) /\ choose_pattern 2 true None x = (x', pattern_map cc) /\ array_shape 1 m y x' = Some (y, x') /\
  interleave_pattern (Z.to_nat y) (Z.to_nat x') AB = Some g /\ ~ centred g "A"%char (Z.to_nat y) (Z.to_nat x') /\ moment_x g "A"%char (Z.to_nat y) (Z.to_nat x') <> moment_x g "B"%char (Z.to_nat y) (Z.to_nat x').
Proof. exists 6, 2, 3, 4. eexists. split; [left; reflexivity|]. split; [reflexivity|]. split; [reflexivity|]. split; [reflexivity|]. split; [intros (E & _); vm_compute in E; discriminate|vm_compute; discriminate]. Qed.

Example C42_nonvacuous : validate_array 12 5 3 = Some (3, 4) /\ variants 12 = [(3, 4); (4, 3); (2, 6); (6, 2); (1, 12); (12, 1)] /\ choose_pattern 2 true None 2 = (4, 1) /\
  interleave_pattern 2 4 AB = Some [["A"; "B"; "A"; "B"]; ["B"; "A"; "B"; "A"]]%char /\ exists rows, mos_array true ["m0"; "m1"]%string None 1 4 2 4 = Some rows /\ dev_units 1 rows = 4.
Proof. repeat (split; [reflexivity|]). eexists. split; reflexivity. Qed.

Print Assumptions C42_shape.
Print Assumptions C42_variants.
Print Assumptions C42_rows.
Print Assumptions C42_columns.
Print Assumptions C42_halves.
Print Assumptions C42_centroid.
Print Assumptions C42_two.
Print Assumptions C42_one.
Print Assumptions C42_flow.
Print Assumptions C42_third_refuted.
Print Assumptions C42_pattern_refuted.
Print Assumptions C42_template_refuted.
Print Assumptions C42_centroid_refuted.
