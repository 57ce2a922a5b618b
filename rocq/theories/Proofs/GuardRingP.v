From Coq Require Import ZArith ZifyBool.
From Verif Require Import Base.Prelude Model.GuardRing Spec.GuardRingSpec.
Local Open Scope Z_scope.

Lemma range_in a b i : In i (range a b) <-> a <= i < b.
Proof.
  unfold range. rewrite in_map_iff. split.
  - intros (k & <- & H). apply in_seq in H. lia.
  - intros H. exists (Z.to_nat (i - a)). split; [lia|]. apply in_seq. lia.
Qed.
Lemma range_len a b : length (range a b) = Z.to_nat (b - a).
Proof. unfold range. now rewrite map_length, seq_length. Qed.
Lemma range_cons a b : a < b -> range a b = a :: range (a + 1) b.
Proof.
  intros H. unfold range. replace (Z.to_nat (b - a)) with (S (Z.to_nat (b - (a + 1)))) by lia. cbn [seq map]. f_equal; [lia|]. rewrite <- seq_shift, map_map. apply map_ext. intros k. lia.
Qed.
Lemma range_nil a b : b <= a -> range a b = [].
Proof. intros H. unfold range. now replace (Z.to_nat (b - a)) with O by lia. Qed.
Lemma range_snoc a b : a < b -> range a b = range a (b - 1) ++ [b - 1].
Proof. intros H. unfold range. replace (Z.to_nat (b - a)) with (S (Z.to_nat (b - 1 - a))) by lia. rewrite seq_S, map_app. cbn. f_equal. f_equal. lia. Qed.
Lemma range_last {A} (f : Z -> A) a b d : a < b -> last (map f (range a b)) d = f (b - 1).
Proof. intros H. rewrite range_snoc, map_app by exact H. cbn. apply last_last. Qed.
Lemma range_nodup a b : NoDup (range a b).
Proof. unfold range. apply FinFun.Injective_map_NoDup; [intros x y H; lia|apply seq_NoDup]. Qed.
Lemma nodup_app {A} (l l' : list A) : NoDup l -> NoDup l' -> (forall a, In a l -> In a l' -> False) -> NoDup (l ++ l').
Proof. induction l as [|a l IH]; intros N N' D; [exact N'|]. inversion_clear N as [|? ? N1 N2]. cbn. constructor; [rewrite in_app_iff; intros [H|H]; [contradiction|]; apply (D a); [now left|exact H]|]. apply IH; auto. intros b Hb. apply D. now right. Qed.
Lemma nodup_map {A B} (f : A -> B) l : NoDup l -> (forall a b, In a l -> In b l -> f a = f b -> a = b) -> NoDup (map f l).
Proof.
  induction l as [|a l IH]; intros N D; [constructor|]. inversion_clear N as [|? ? N1 N2]. cbn. constructor.
  - intros H. apply in_map_iff in H. destruct H as (b & E & Hb). apply N1. rewrite <- (D b a); auto; [now right|now left].
  - apply IH; auto. intros; apply D; auto; now right.
Qed.

(** *** One direction. *)
Section Dir.
Variables (size : Z) (c : cell_rules).
Hypotheses (F : fit c) (H0 : 0 <= size).
Let d := side_of size c.
Lemma metal_pos : 0 < metal_size d.
Proof. destruct F. unfold metal_size. cbn. lia. Qed.
Lemma number_enough : enough size c (number d).
Proof.
  pose proof metal_pos as M. unfold enough, number, ceil_div, minimal, minimal_PC in *. cbn [d side_of g_size g_lo g_hi g_cell g_space g_grid] in *. change (metal_size d) with (c_hi c - c_lo c) in *.
  set (m := c_hi c - c_lo c) in *. set (s := size + 2 * (c_space c + (c_cell c - c_hi c)) + c_grid c). clearbody m s. pose proof (Z.div_mod (- s) m ltac:(lia)). pose proof (Z.mod_pos_bound (- s) m M). nia.
Qed.
Lemma number_pos : 1 <= number d.
Proof.
  pose proof number_enough as [E _]. pose proof metal_pos as M. destruct F as [F1 F2 F3 F4 F5]. change (metal_size d) with (c_hi c - c_lo c) in M. set (k := number d) in *. clearbody k.
  assert (0 < k * (c_hi c - c_lo c)) by lia. nia.
Qed.
(** The exact distances. *)
Definition slack : Z := number d * metal_size d - (size + 2 * minimal d).
Definition rest : Z := shift d - wcell_shift d.
Lemma slack_bounds : c_grid c <= slack < c_grid c + metal_size d.
Proof. pose proof number_enough as E. unfold enough in E. unfold slack, minimal, minimal_PC. cbn in *. change (metal_size d) with (c_hi c - c_lo c). lia. Qed.
Lemma shift_eq : shift d = minimal d + metal_size d + slack / 2 + c_lo c.
Proof. unfold shift, southwest. cbn [d side_of g_lo g_size]. fold d. pose proof slack_bounds as S. destruct F. change (number d * metal_size d - (size + 2 * minimal d)) with slack. rewrite Z.quot_div_nonneg by lia. lia. Qed.
Lemma minimal_nonneg : 0 <= minimal d.
Proof. destruct F. unfold minimal, minimal_PC. cbn. lia. Qed.
Lemma shift_pos : 0 <= shift d.
Proof. rewrite shift_eq. pose proof slack_bounds. pose proof metal_pos. pose proof minimal_nonneg. destruct F. lia. Qed.
Lemma rest_bounds : 0 <= rest < c_grid c.
Proof. unfold rest, wcell_shift. pose proof shift_pos as S. destruct F. cbn [d side_of g_grid]. fold d. rewrite Z.quot_div_nonneg by lia. pose proof (Z.div_mod (shift d) (c_grid c) ltac:(lia)). pose proof (Z.mod_pos_bound (shift d) (c_grid c) ltac:(lia)). lia. Qed.
Lemma gaps : let dx := wcell_shift d in (exists k, dx = k * c_grid c) /\
  dx - (c_lo c + metal_size d) = minimal d + slack / 2 - rest /\
  c_lo c + (number d + 1) * metal_size d - (dx + size) = minimal d + (slack - slack / 2) + rest.
Proof.
  cbv zeta. split; [exists (Z.quot (shift d) (c_grid c)); reflexivity|]. unfold rest. rewrite shift_eq. split; [lia|]. assert (slack = number d * metal_size d - (size + 2 * minimal d)) as E by reflexivity. lia.
Qed.
End Dir.

(** *** The frame. *)
Section Frame.
Variables (w h : Z) (cx cy : cell_rules).
Hypotheses (Fx : fit cx) (Fy : fit cy) (Hw : 0 <= w) (Hh : 0 <= h).
Let X := side_of w cx.
Let Y := side_of h cy.
Let mx := metal_size X.
Let my := metal_size Y.
Let a := number X + 2.
Let b := number Y + 2.
Definition south := map (fun i => (i * mx, 0)) (range 0 a).
Definition east := map (fun i => ((a - 1) * mx, i * my)) (range 1 b).
Definition north := map (fun i => ((a - 1 - i) * mx, (b - 1) * my)) (range 1 a).
Definition west := map (fun i => (0, (b - 1 - i) * my)) (range 1 (b - 1)).
Lemma a_pos : 3 <= a. Proof. unfold a. pose proof (number_pos w cx Fx Hw). fold X in H. lia. Qed.
Lemma b_pos : 3 <= b. Proof. unfold b. pose proof (number_pos h cy Fy Hh). fold Y in H. lia. Qed.
Lemma mx_pos : 0 < mx. Proof. exact (metal_pos w cx Fx). Qed.
Lemma my_pos : 0 < my. Proof. exact (metal_pos h cy Fy). Qed.
Lemma stored_eq : stored_ll X Y = south ++ east ++ north ++ west.
Proof.
  pose proof a_pos as A. pose proof b_pos as B. unfold stored_ll, cells. fold a. cbv zeta. cbn [fst snd]. rewrite range_last by lia. cbn [fst snd].
  replace (number Y + 2) with b by reflexivity. replace (number Y + 1) with (b - 1) by (unfold b; lia). rewrite range_last by lia. cbn [fst snd]. rewrite range_last by lia. cbn [fst snd].
  rewrite !map_app, !map_map. cbn [map fst snd]. rewrite map_map. cbn [fst snd]. f_equal; [|f_equal; [|f_equal]].
  - unfold south. rewrite (range_cons 0 a) by lia. cbn [map]. f_equal; [f_equal; lia|]. apply map_ext. intros i. f_equal; unfold mx; lia.
  - unfold east. apply map_ext. intros i. f_equal; unfold mx, my; lia.
  - unfold north. apply map_ext. intros i. f_equal; unfold mx, my; lia.
  - unfold west. apply map_ext. intros i. f_equal; unfold mx, my; lia.
Qed.
Lemma stored_in p : In p (stored_ll X Y) <-> exists i j, on_frame a b i j /\ p = (i * mx, j * my).
Proof.
  pose proof a_pos as A. pose proof b_pos as B. rewrite stored_eq, !in_app_iff. unfold south, east, north, west, on_frame. rewrite !in_map_iff. setoid_rewrite range_in. split.
  - intros [(i & <- & H)|[(i & <- & H)|[(i & <- & H)|(i & <- & H)]]].
    + exists i, 0. split; [lia|]. f_equal; lia.
    + exists (a - 1), i. split; [lia|]. f_equal; lia.
    + exists (a - 1 - i), (b - 1). split; [lia|]. f_equal; lia.
    + exists 0, (b - 1 - i). split; [lia|]. f_equal; lia.
  - intros (i & j & (Hi & Hj & Hf) & ->). destruct (Z.eq_dec j 0) as [->|N0]; [left; exists i; split; [f_equal; lia|lia]|]. right.
    destruct (Z.eq_dec i (a - 1)) as [->|N1]; [left; exists j; split; [f_equal; lia|lia]|]. right.
    destruct (Z.eq_dec j (b - 1)) as [->|N2]; [left; exists (a - 1 - i); split; [f_equal; lia|lia]|]. right. exists (b - 1 - j). split; [f_equal; [nia|lia]|lia].
Qed.
Lemma stored_nodup : NoDup (stored_ll X Y).
Proof.
  pose proof a_pos as A. pose proof b_pos as B. pose proof mx_pos as MX. pose proof my_pos as MY. rewrite stored_eq. unfold south, east, north, west.
  repeat apply nodup_app; try (apply nodup_map; [apply range_nodup|intros u v Hu Hv E; injection E; intros; nia]);
    intros p; rewrite ?in_app_iff, ?in_map_iff; setoid_rewrite range_in; intros (i & <- & Hi) H.
  - destruct H as (k & E & Hk). injection E as E1 E2. nia.
  - destruct H as [(k & E & Hk)|(k & E & Hk)]; injection E as E1 E2; nia.
  - destruct H as [(k & E & Hk)|[(k & E & Hk)|(k & E & Hk)]]; injection E as E1 E2; nia.
Qed.
Lemma stored_len : Z.of_nat (length (stored_ll X Y)) = 2 * (a + b) - 4.
Proof. pose proof a_pos. pose proof b_pos. rewrite stored_eq, !app_length. unfold south, east, north, west. rewrite !map_length, !range_len. lia. Qed.

Definition step (p q : pt) : Prop := abut (pin_box X Y p) (pin_box X Y q).
Inductive chain {A} (R : A -> A -> Prop) : list A -> Prop := ch0 : chain R [] | ch1 p : chain R [p] | ch2 p q l : R p q -> chain R (q :: l) -> chain R (p :: q :: l).
Lemma chain_range {A} (R : A -> A -> Prop) (f : Z -> A) u v : (forall i, u <= i -> i + 1 < v -> R (f i) (f (i + 1))) -> chain R (map f (range u v)).
Proof.
  intros H. destruct (Z_lt_le_dec u v) as [L|L]; [|rewrite range_nil by lia; constructor]. remember (Z.to_nat (v - u)) as n eqn:En. revert u H L En. induction n as [|n IH]; intros u H L En; [lia|]. rewrite range_cons by lia. destruct (Z_lt_le_dec (u + 1) v) as [L'|L'].
  - pose proof (IH (u + 1)) as Q. rewrite range_cons in * by lia. cbn [map] in *. constructor; [apply H; lia|]. apply Q; [intros; apply H; lia|lia|lia].
  - rewrite range_nil by lia. constructor.
Qed.
Lemma chain_app {A} (R : A -> A -> Prop) l p q l' : chain R (l ++ [p]) -> chain R (q :: l') -> R p q -> chain R ((l ++ [p]) ++ q :: l').
Proof. intros H1 H2 H3. induction l as [|u l IH]; [cbn; now constructor|]. destruct l as [|v l]; cbn in *; inversion_clear H1 as [| |? ? ? Q1 Q2]; constructor; auto. Qed.
Lemma chain_cyclic {A} (R : A -> A -> Prop) l : chain R l -> forall l1 p q l2, l = l1 ++ p :: q :: l2 -> R p q.
Proof.
  induction 1 as [|p|p q l H1 H2 IH]; intros l1 u v l2 E.
  - destruct l1; discriminate.
  - destruct l1 as [|? [|? ?]]; discriminate.
  - destruct l1 as [|z l1]; cbn in E; [now injection E as -> -> _|]. injection E as _ E. eapply IH; eauto.
Qed.
Lemma chain_ranges {A} (R : A -> A -> Prop) (f : Z -> A) u v l' d : u < v -> chain R (map f (range u v)) -> chain R l' -> l' <> [] -> R (f (v - 1)) (hd d l') -> chain R (map f (range u v) ++ l').
Proof. intros H C C' N Q. rewrite range_snoc, map_app in C |- * by exact H. cbn [map] in *. destruct l' as [|q l']; [contradiction|]. now apply chain_app. Qed.
Lemma snoc_map {A} (f : Z -> A) u v : u < v -> map f (range u v) = map f (range u (v - 1)) ++ [f (v - 1)].
Proof. intros H. rewrite range_snoc, map_app by exact H. reflexivity. Qed.
Lemma cons_map {A} (f : Z -> A) u v : u < v -> map f (range u v) = f u :: map f (range (u + 1) v).
Proof. intros H. rewrite range_cons by exact H. reflexivity. Qed.
Lemma stored_cyclic : cyclic step (stored_ll X Y).
Proof.
  pose proof a_pos as A. pose proof b_pos as B. split.
  - apply chain_cyclic. rewrite stored_eq.
    assert (chain step south) as C1 by (apply chain_range; intros i _ _; unfold step, abut, pin_box; cbn [x0 x1 y0 y1 fst snd]; fold mx my; lia).
    assert (chain step east) as C2 by (apply chain_range; intros i _ _; unfold step, abut, pin_box; cbn [x0 x1 y0 y1 fst snd]; fold mx my; lia).
    assert (chain step north) as C3 by (apply chain_range; intros i _ _; unfold step, abut, pin_box; cbn [x0 x1 y0 y1 fst snd]; fold mx my; lia).
    assert (chain step west) as C4 by (apply chain_range; intros i _ _; unfold step, abut, pin_box; cbn [x0 x1 y0 y1 fst snd]; fold mx my; lia).
    assert (chain step (north ++ west)) as C34.
    { apply (chain_ranges _ _ _ _ _ (0, 0)); [lia|exact C3|exact C4|unfold west; rewrite cons_map by lia; discriminate|]. unfold west. rewrite cons_map by lia. cbn [hd]. unfold step, abut, pin_box; cbn [x0 x1 y0 y1 fst snd]; fold mx my; lia. }
    assert (chain step (east ++ north ++ west)) as C234.
    { apply (chain_ranges _ _ _ _ _ (0, 0)); [lia|exact C2|exact C34|unfold north; rewrite cons_map by lia; discriminate|]. unfold north. rewrite cons_map by lia. cbn [hd app]. unfold step, abut, pin_box; cbn [x0 x1 y0 y1 fst snd]; fold mx my; lia. }
    apply (chain_ranges _ _ _ _ _ (0, 0)); [lia|exact C1|exact C234|unfold east; rewrite cons_map by lia; discriminate|]. unfold east. rewrite cons_map by lia. cbn [hd app]. unfold step, abut, pin_box; cbn [x0 x1 y0 y1 fst snd]; fold mx my; lia.
  - intros p l q E. rewrite stored_eq in E. unfold south, west in E. rewrite (cons_map _ 0 a) in E by lia. rewrite (snoc_map _ 1 (b - 1)) in E by lia. cbn [app] in E. injection E as <- E.
    rewrite !app_assoc in E. apply app_inj_tail in E. destruct E as [_ <-]. unfold step, abut, pin_box; cbn [x0 x1 y0 y1 fst snd]; fold mx my. lia.
Qed.
End Frame.

(** *** What is stored. *)
Lemma store_nth X Y : forall ps cs pins ms k r, nth_error (store X Y cs pins ms ps) k = Some r -> exists p, nth_error ps k = Some p /\ r_box r = cell_box X Y p /\
  r_metals r = ms ++ map (pin_box X Y) (firstn (S k) ps) /\ r_pins r = pins ++ map (fun i => cs ++ map (pin_box X Y) (firstn (S i) ps)) (seq 0 (S k)).
Proof.
  induction ps as [|p ps IH]; intros cs pins ms k r H; [destruct k; discriminate|]. destruct k as [|k].
  - injection H as <-. exists p. repeat split.
  - cbn [store nth_error] in H. destruct (IH _ _ _ _ _ H) as (q & Hq & E1 & E2 & E3). exists q. split; [exact Hq|]. split; [exact E1|]. split.
    + rewrite E2. cbn [firstn map]. now rewrite <- app_assoc.
    + rewrite E3. rewrite <- app_assoc. f_equal. change (seq 0 (S (S k))) with (O :: seq 1 (S k)). rewrite <- seq_shift. cbn [map]. rewrite map_map. cbn [app]. f_equal. apply map_ext. intros i. cbn [firstn map]. now rewrite <- app_assoc.
Qed.
Lemma store_boxes X Y : forall ps cs pins ms, map r_box (store X Y cs pins ms ps) = map (cell_box X Y) ps.
Proof. induction ps as [|p ps IH]; intros; [reflexivity|]. cbn. now rewrite IH. Qed.
Lemma store_last X Y dflt : forall ps cs pins ms, map (fun r => last (r_metals r) dflt) (store X Y cs pins ms ps) = map (pin_box X Y) ps.
Proof. induction ps as [|p ps IH]; intros; [reflexivity|]. cbn. now rewrite last_last, IH. Qed.
