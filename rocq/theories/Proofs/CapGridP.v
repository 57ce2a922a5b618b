(** Cells of the capacitor grid, their order and their pairs. *)
From Coq Require Import ZArith ZifyBool.
From Verif Require Import Base.Prelude Model.CapPlace Spec.CapPlaceSpec.
Local Open Scope Z_scope.

Lemma nth_rows (row : list Z) (w : nat) : length row = w -> (0 < w)%nat -> forall (l : list Z) c, (c < length l * w)%nat ->
  nth c (flat_map (fun i => map (fun j => (i, j)) row) l) (0, 0) = (nth (c / w) l 0, nth (c mod w) row 0).
Proof.
  intros Hr Hw. induction l as [|i l IH]; intros c Hc; [cbn in Hc; lia|]. cbn [flat_map]. cbn [length] in Hc. destruct (Nat.lt_ge_cases c w) as [H|H].
  - rewrite app_nth1 by (rewrite map_length; lia). rewrite Nat.div_small, Nat.mod_small by lia. cbn [nth].
    rewrite (nth_indep _ (0, 0) (i, 0)) by (rewrite map_length; lia). now rewrite (map_nth (fun j => (i, j))).
  - rewrite app_nth2 by (rewrite map_length; lia). rewrite map_length, Hr, IH by lia.
    replace c with ((c - w) + 1 * w)%nat at 3 4 by lia. rewrite Nat.div_add, Nat.mod_add by lia. replace ((c - w) / w + 1)%nat with (S ((c - w) / w)) by lia. reflexivity.
Qed.
Lemma zrange_len n : length (zrange n) = Z.to_nat n.
Proof. unfold zrange. now rewrite map_length, seq_length. Qed.
Lemma zrange_nth n k : (k < Z.to_nat n)%nat -> nth k (zrange n) 0 = Z.of_nat k.
Proof. intros H. unfold zrange. rewrite (nth_indep _ 0 (Z.of_nat 0)) by (rewrite map_length, seq_length; lia). rewrite map_nth, seq_nth by lia. reflexivity. Qed.
Lemma caps_len r s : length (caps r s) = (Z.to_nat r * Z.to_nat s)%nat.
Proof. unfold caps. rewrite <- (zrange_len r). induction (zrange r) as [|i l IH]; [reflexivity|]. cbn [flat_map length]. rewrite app_length, map_length, zrange_len, IH. lia. Qed.

Section Grid.
Variables r s : Z.
Hypotheses (Hr : 0 < r) (Hs : 0 < s).
Let w := Z.to_nat s. Let n := length (caps r s).
Definition opp (c : nat) : nat := (length (caps r s) - 1 - c)%nat.
Lemma n_is : Z.of_nat n = r * s.
Proof. unfold n. rewrite caps_len. nia. Qed.
Lemma n_pos : (0 < n)%nat.
Proof. pose proof n_is. nia. Qed.
Lemma pos_div c : (c < n)%nat -> pos r s c = (Z.of_nat (c / w), Z.of_nat (c mod w)).
Proof.
  intros H. unfold n in H. rewrite caps_len in H. unfold pos, caps. rewrite (nth_rows (zrange s) w); [|apply zrange_len|unfold w; lia|rewrite zrange_len; unfold w; lia].
  assert (0 < w)%nat as W by (unfold w; lia). assert (c / w < Z.to_nat r)%nat by (apply Nat.div_lt_upper_bound; unfold w in *; nia). pose proof (Nat.mod_upper_bound c w ltac:(lia)).
  now rewrite !zrange_nth by (unfold w in *; lia).
Qed.
Lemma pos_split c : (c < n)%nat -> Z.of_nat c = fst (pos r s c) * s + snd (pos r s c) /\ in_grid r s (pos r s c).
Proof.
  intros H. rewrite pos_div by exact H. cbn. assert (0 < w)%nat as W by (unfold w; lia). pose proof (Nat.div_mod c w ltac:(lia)) as D. pose proof (Nat.mod_upper_bound c w ltac:(lia)).
  pose proof n_is as N. assert (Z.of_nat w = s) as Ew by (unfold w; lia). set (q := (c / w)%nat) in *. set (m := (c mod w)%nat) in *. clearbody q m.
  assert (Z.of_nat c = Z.of_nat q * s + Z.of_nat m) as E by (rewrite D, Nat2Z.inj_add, Nat2Z.inj_mul, Ew; ring). assert (Z.of_nat c < r * s) as L by lia.
  unfold in_grid. cbn. split; [exact E|]. clear - E L Ew H0 Hs. split; [|lia]. split; [lia|]. nia.
Qed.
Lemma pos_inj c c' : (c < n)%nat -> (c' < n)%nat -> pos r s c = pos r s c' -> c = c'.
Proof. intros H H' E. destruct (pos_split c H) as [A _], (pos_split c' H') as [B _]. rewrite E in A. lia. Qed.
Lemma pos_onto p : in_grid r s p -> exists c, (c < n)%nat /\ pos r s c = p.
Proof.
  destruct p as [x y]. intros [Hx Hy]. cbn in *. exists (Z.to_nat (x * s + y)). assert (Z.to_nat (x * s + y) < n)%nat as H by (pose proof n_is; nia). split; [exact H|].
  destruct (pos_split _ H) as (A & Bx & By). destruct (pos r s _) as [x' y']. cbn in *. assert (x = x') by nia. subst x'. f_equal. nia.
Qed.
Lemma opp_lt c : (c < n)%nat -> (opp c < n)%nat.
Proof. unfold opp. fold n. lia. Qed.
Lemma opp_opp c : (c < n)%nat -> opp (opp c) = c.
Proof. unfold opp. fold n. lia. Qed.
Lemma facing_opp a b : (a < n)%nat -> (b < n)%nat -> facing r s (pos r s a) (pos r s b) <-> b = opp a.
Proof.
  intros Ha Hb. destruct (pos_split a Ha) as (A & A1 & A2), (pos_split b Hb) as (B & B1 & B2). pose proof n_is as N. unfold facing, opp. fold n. split.
  - intros [E1 E2]. nia.
  - intros E. assert (Z.of_nat a + Z.of_nat b = r * s - 1) as Eq by lia. rewrite A, B in Eq.
    set (x := fst (pos r s a)) in *. set (y := snd (pos r s a)) in *. set (x' := fst (pos r s b)) in *. set (y' := snd (pos r s b)) in *. clearbody x y x' y'. clear - Eq A1 A2 B1 B2 Hr Hs.
    assert (x + x' = r - 1) as Q. { assert (x + x' < r) by nia. assert (r - 2 < x + x') by nia. lia. } split; [exact Q|]. nia.
Qed.
Lemma opposite_opp a b : (a < n)%nat -> (b < n)%nat -> opposite r s a b = true <-> b = opp a.
Proof. intros Ha Hb. rewrite <- (facing_opp a b Ha Hb). unfold opposite, facing. lia. Qed.
Lemma dis_middle c : dis r s c = from_middle r s (pos r s c).
Proof. unfold dis, from_middle. destruct (pos r s c). cbn [fst snd]. ring. Qed.
Lemma opp_facing c : (c < n)%nat -> facing r s (pos r s c) (pos r s (opp c)).
Proof. intros H. apply facing_opp; auto. now apply opp_lt. Qed.
Lemma dis_opp c : (c < n)%nat -> dis r s (opp c) = dis r s c.
Proof. intros H. destruct (opp_facing c H) as [E1 E2]. unfold dis. destruct (pos r s c) as [x y], (pos r s (opp c)) as [x' y']. cbn [fst snd] in *. replace x' with (r - 1 - x) by lia. replace y' with (s - 1 - y) by lia. ring. Qed.
Lemma dis_pos c : 0 <= dis r s c.
Proof. unfold dis. destruct (pos r s c) as [x y]. pose proof (Z.square_nonneg (2 * x - (r - 1))). pose proof (Z.square_nonneg (2 * y - (s - 1))). lia. Qed.
Lemma dis_zero c : (c < n)%nat -> dis r s c = 0 <-> opp c = c.
Proof.
  intros H. transitivity (facing r s (pos r s c) (pos r s c)).
  - unfold facing, dis. destruct (pos r s c) as [x y]. cbn [fst snd]. split; [|intros [E1 E2]]; [|replace (2 * x - (r - 1)) with 0 by lia; replace (2 * y - (s - 1)) with 0 by lia; reflexivity].
    set (u := 2 * x - (r - 1)). set (v := 2 * y - (s - 1)). intros E. pose proof (Z.square_nonneg u). pose proof (Z.square_nonneg v). assert (u = 0) by nia. assert (v = 0) by nia. subst u v. lia.
  - rewrite (facing_opp c c H H). split; congruence.
Qed.
Lemma border_opp c : (c < n)%nat -> not_on_border r s (opp c) = not_on_border r s c.
Proof. intros H. destruct (opp_facing c H) as [E1 E2]. unfold not_on_border. destruct (pos r s c) as [x y], (pos r s (opp c)) as [x' y']. cbn [fst snd] in *. lia. Qed.
Lemma border_is c : (c < n)%nat -> not_on_border r s c = true <-> inside_border r s (pos r s c).
Proof. intros H. destruct (pos_split c H) as (_ & A & B). unfold not_on_border, inside_border. destruct (pos r s c) as [x y]. cbn [fst snd] in *. lia. Qed.

(** Sorting by exchange. *)
Definition sorted (l : list nat) : Prop := StronglySorted (fun a b => dis r s a <= dis r s b) l.
Lemma sweep_ok l : forall x m t, sweep (dis r s) x l = (m, t) -> Permutation (x :: l) (m :: t) /\ dis r s m <= dis r s x /\ forall y, In y t -> dis r s m <= dis r s y.
Proof.
  induction l as [|y l IH]; intros x m t E; cbn in E.
  - injection E as <- <-. repeat split; auto; [lia|intros ? []].
  - destruct (dis r s y <? dis r s x) eqn:L.
    + destruct (sweep (dis r s) y l) as [m' t'] eqn:Q. injection E as <- <-. destruct (IH _ _ _ Q) as (P & A & B). split; [|split; [lia|]].
      * rewrite P. apply perm_swap.
      * intros z [<-|Hz]; [lia|auto].
    + destruct (sweep (dis r s) x l) as [m' t'] eqn:Q. injection E as <- <-. destruct (IH _ _ _ Q) as (P & A & B). split; [|split; [lia|]].
      * rewrite perm_swap, P. apply perm_swap.
      * intros z [<-|Hz]; [lia|auto].
Qed.
Lemma exchange_ok k : forall l, (length l <= k)%nat -> Permutation l (exchange k (dis r s) l) /\ sorted (exchange k (dis r s) l).
Proof.
  induction k as [|k IH]; intros [|x l] H; cbn in *; try lia; try (split; [reflexivity|constructor]).
  destruct (sweep (dis r s) x l) as [m t] eqn:Q. destruct (sweep_ok l x m t Q) as (P & A & B). pose proof (Permutation_length P) as L. cbn in L. destruct (IH t) as [P' S']; [lia|]. split.
  - rewrite P. now constructor.
  - constructor; [exact S'|]. apply Forall_forall. intros y Hy. apply B. now apply (Permutation_in _ (Permutation_sym P')).
Qed.

(** Pairs of cells. *)
Definition cells_of (p : pair) : list nat := match snd p with Some y => [fst p; y] | None => [fst p] end.
Definition all_cells (l : list pair) : list nat := flat_map cells_of l.
Definition faced (p : pair) : Prop := (fst p < n)%nat /\ snd p = Some (opp (fst p)) /\ (fst p < opp (fst p))%nat.
Definition nearer (p q : pair) : Prop := dis r s (fst p) <= dis r s (fst q).
Lemma mate_is x l : (x < n)%nat -> Forall (fun y => (y < n)%nat) l -> sorted (x :: l) -> ~ In x l ->
  (In (opp x) l -> mate r s x l = Some (Nat.min x (opp x), Some (Nat.max x (opp x)))) /\ (~ In (opp x) l -> mate r s x l = None).
Proof.
  intros Hx. induction l as [|y l IH]; intros F S N.
  - split; [intros []|reflexivity].
  - inversion F as [|? ? Fy Fl]; subst. inversion S as [|? ? Sl Sx]; subst. inversion Sl as [|? ? Sl' Sy]; subst. inversion Sx as [|? ? Sxy Sxl]; subst.
    destruct (IH Fl) as [I1 I2]; [constructor; auto|intros H; apply N; now right|]. cbn [mate]. destruct (opposite r s x y) eqn:O.
    + apply opposite_opp in O; auto. subst y. rewrite dis_opp, Z.eqb_refl by exact Hx. split; [reflexivity|]. intros H. exfalso. apply H. now left.
    + assert (y <> opp x) as Ne. { intros E. apply (opposite_opp x y) in E; auto. congruence. } split.
      * intros [E|H]; [contradiction|]. rewrite Forall_forall in Sy. pose proof (Sy _ H) as Q. rewrite dis_opp in Q by exact Hx. replace (dis r s x =? dis r s y) with true by lia. now apply I1.
      * intros H. destruct (dis r s x =? dis r s y); [|reflexivity]. apply I2. intros H'. apply H. now right.
Qed.
Lemma mates_ok l : Forall (fun y => (y < n)%nat) l -> sorted l -> NoDup l ->
  (forall z, In z (all_cells (mates r s l)) <-> In z l /\ In (opp z) l /\ opp z <> z) /\ NoDup (all_cells (mates r s l)) /\ Forall faced (mates r s l) /\
  StronglySorted nearer (mates r s l).
Proof.
  induction l as [|x l IH]; intros F S N; [cbn; split; [tauto|repeat constructor]|].
  inversion F as [|? ? Fx Fl]; subst. inversion S as [|? ? Sl Sx]; subst. inversion N as [|? ? Nx Nl]; subst. destruct (IH Fl Sl Nl) as (I1 & I2 & I3 & I4). destruct (mate_is x l Fx Fl S Nx) as [M1 M2]. cbn [mates].
  destruct (in_dec Nat.eq_dec (opp x) l) as [H|H].
  - rewrite (M1 H). set (p := (Nat.min x (opp x), Some (Nat.max x (opp x)))). assert (opp x <> x) as Ne by (intros E; rewrite E in H; contradiction). pose proof (opp_opp x Fx) as Oo. pose proof (opp_lt x Fx) as Ol.
    assert (faced p) as Fp. { unfold faced, p. cbn. destruct (Nat.min_spec x (opp x)) as [[? ->]|[? ->]]; [rewrite Nat.max_r by lia|rewrite Nat.max_l by lia; rewrite Oo]; repeat split; auto; lia. }
    assert (forall z, In z (cells_of p) <-> z = x \/ z = opp x) as Cp. { intros z. unfold cells_of, p. cbn. destruct (Nat.min_spec x (opp x)) as [[? ->]|[? ->]]; [rewrite Nat.max_r by lia|rewrite Nat.max_l by lia]; intuition. }
    split; [|split; [|split]].
    + intros z. cbn [all_cells flat_map]. rewrite in_app_iff, Cp. fold (all_cells (mates r s l)). rewrite I1. split.
      * intros [[->| ->]|(A & B & C)].
        -- repeat split; [now left|now right|exact Ne].
        -- rewrite Oo. repeat split; [now right|now left|auto].
        -- repeat split; [now right|now right|exact C].
      * intros ([<-|A] & B & C); [now left; left|]. destruct B as [B|B]; [|right; auto]. left. right. rewrite B. rewrite Forall_forall in Fl. now rewrite opp_opp by auto.
    + cbn [all_cells flat_map]. fold (all_cells (mates r s l)). assert (~ In x (all_cells (mates r s l))) as A1 by (rewrite I1; tauto). assert (~ In (opp x) (all_cells (mates r s l))) as A2 by (rewrite I1, Oo; tauto).
      unfold cells_of, p. cbn [fst snd app]. destruct (Nat.min_spec x (opp x)) as [[? ->]|[? ->]]; [rewrite Nat.max_r by lia|rewrite Nat.max_l by lia]; (constructor; [intros [E|E]; [congruence|contradiction]|constructor; auto]).
    + constructor; auto.
    + constructor; auto. apply Forall_forall. intros q Hq. unfold nearer. assert (In (fst q) l) as Q. { apply (proj1 (I1 (fst q))). unfold all_cells. apply in_flat_map. exists q. split; [exact Hq|]. unfold cells_of. destruct (snd q); now left. }
      rewrite Forall_forall in Sx. specialize (Sx _ Q). unfold p. cbn [fst]. destruct (Nat.min_spec x (opp x)) as [[? ->]|[? ->]]; [exact Sx|]. now rewrite dis_opp.
  - rewrite (M2 H). split; [|auto]. intros z. rewrite I1. split.
    + intros (A & B & C). repeat split; [now right|now right|exact C].
    + intros ([E|A] & B & C).
      * subst z. destruct B as [B|B]; [now rewrite <- B in C|contradiction].
      * destruct B as [B|B]; [|auto]. exfalso. apply H. rewrite B. rewrite Forall_forall in Fl. now rewrite opp_opp by auto.
Qed.
End Grid.
