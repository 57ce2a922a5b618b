(** Proofs about the charge flow computation. *)
From Coq Require Import String QArith Qminmax Qabs Lqa.
From Verif Require Import Base.Prelude Base.PyDict Model.PlaceGrid Model.UpdateConst Model.ChargeFlow Spec.ChargeSpec Proofs.SymNetP.
Local Open Scope Q_scope.

Lemma pair_eqb_ok a b : pair_eqb a b = true <-> a = b.
Proof.
  destruct a as [a1 a2], b as [b1 b2]. unfold pair_eqb. simpl. rewrite andb_true_iff, !String.eqb_eq.
  split; [intros [-> ->]; reflexivity|intros [= -> ->]; auto].
Qed.
Notation PE := pair_eqb_ok.

Lemma Qleb_false a b : Qle_bool a b = false <-> b < a.
Proof.
  split; intros H.
  - apply Qnot_le_lt. intros C. apply Qle_bool_iff in C. congruence.
  - destruct (Qle_bool a b) eqn:E; [|reflexivity]. apply Qle_bool_iff in E. lra.
Qed.

Lemma set_at_length i v l : length (set_at i v l) = length l.
Proof. revert i; induction l as [|x l IH]; intros [|i]; simpl; auto. Qed.

Lemma set_at_nth i v l j : (i < length l)%nat -> nth j (set_at i v l) 0 = if (j =? i)%nat then v else nth j l 0.
Proof.
  revert i j; induction l as [|x l IH]; intros i j H; simpl in H; [lia|].
  destruct i as [|i], j as [|j]; simpl; auto. apply IH. lia.
Qed.

Lemma nth_repeat0 n j : nth j (repeat 0 n) 0 = 0.
Proof. revert j; induction n as [|n IH]; intros [|j]; simpl; auto. Qed.

(** ** The table of pair currents *)
Notation tab := (list ((pin * pin) * list Q)).
(** The current between two pins, whichever way round the pair is stored. *)
Definition val (pp : tab) (a b : pin) (i : nat) : Q :=
  match dget pair_eqb pp (a, b) with
  | Some l => nth i l 0
  | None => match dget pair_eqb pp (b, a) with Some l => nth i l 0 | None => 0 end
  end.
Definition linked (pp : tab) (a b : pin) : Prop := In (a, b) (map fst pp) \/ In (b, a) (map fst pp).
Definition tab_ok (n : nat) (pp : tab) : Prop :=
  NoDup (map fst pp) /\ (forall k l, In (k, l) pp -> length l = n) /\
  (forall a b, In (a, b) (map fst pp) -> ~ In (b, a) (map fst pp)).

Lemma val_sym n pp a b i : tab_ok n pp -> val pp a b i = val pp b a i.
Proof.
  intros (_ & _ & HA). unfold val.
  destruct (dget pair_eqb pp (a, b)) as [l|] eqn:E1, (dget pair_eqb pp (b, a)) as [m|] eqn:E2; auto.
  exfalso. apply (dget_in _ PE) in E1, E2. apply (HA a b); [exact (in_map fst _ _ E1)|exact (in_map fst _ _ E2)].
Qed.

Lemma dmem_in (pp : tab) k : dmem pair_eqb pp k = true <-> In k (map fst pp).
Proof.
  unfold dmem. destruct (dget pair_eqb pp k) as [l|] eqn:E.
  - apply (dget_in _ PE) in E. split; auto. intros _. exact (in_map fst _ _ E).
  - apply (dget_none _ PE) in E. split; [discriminate|contradiction].
Qed.

(** Overwriting one entry of an existing pair. *)
Lemma upd_spec n i a b v pp : tab_ok n pp -> (i < n)%nat -> In (a, b) (map fst pp) ->
  let pp' := dupd pair_eqb pp (a, b) (fun o => match o with Some l => set_at i v l | None => [] end) in
  tab_ok n pp' /\ map fst pp' = map fst pp /\
  (forall x y j, val pp' x y j = if (pair_eqb (x, y) (a, b) || pair_eqb (y, x) (a, b)) && (j =? i)%nat then v else val pp x y j).
Proof.
  intros (H1 & H2 & H3) Hi Hin pp'.
  assert (Hk : map fst pp' = map fst pp).
  { unfold pp'. rewrite dupd_keys. apply dmem_in in Hin. now rewrite Hin. }
  destruct (dget_some_in _ PE _ _ Hin) as (l & El). assert (Hl : length l = n) by (eapply H2, dget_in, El; apply PE).
  assert (G1 : dget pair_eqb pp' (a, b) = Some (set_at i v l)).
  { unfold pp'. rewrite (dget_dupd_same _ PE), El. reflexivity. }
  assert (G2 : forall k, k <> (a, b) -> dget pair_eqb pp' k = dget pair_eqb pp k).
  { intros k Hk'. unfold pp'. now apply (dget_dupd_other _ PE). }
  assert (Hok : tab_ok n pp').
  { split; [rewrite Hk; exact H1|]. split; [|rewrite Hk; exact H3].
    intros k m Hm. apply (in_dget _ PE) in Hm; [|rewrite Hk; exact H1].
    destruct (pair_eqb k (a, b)) eqn:E; [apply PE in E as ->|].
    - rewrite G1 in Hm. injection Hm as <-. now rewrite set_at_length.
    - rewrite G2 in Hm by (intros ->; rewrite (proj2 (PE _ _) eq_refl) in E; discriminate). eapply H2, dget_in, Hm. apply PE. }
  split; [exact Hok|]. split; [exact Hk|].
  assert (V1 : forall j, val pp' a b j = if (j =? i)%nat then v else val pp a b j).
  { intros j. unfold val. rewrite G1, El. apply set_at_nth. lia. }
  intros x y j. destruct (pair_eqb (x, y) (a, b)) eqn:E1; [apply PE in E1; injection E1 as -> ->|]; cbn [orb andb].
  - rewrite V1. reflexivity.
  - destruct (pair_eqb (y, x) (a, b)) eqn:E2; [apply PE in E2; injection E2 as -> ->|]; cbn [andb].
    + rewrite (val_sym n pp' b a j Hok), V1, (val_sym n pp b a j) by (repeat split; auto). reflexivity.
    + unfold val. rewrite !G2; [reflexivity| |]; intros C; rewrite (proj2 (PE _ _) C) in *; discriminate.
Qed.

Lemma put_spec n i a b v pp : tab_ok n pp -> (i < n)%nat -> a <> b ->
  tab_ok n (put n i a b v pp) /\
  (forall x y, linked (put n i a b v pp) x y <-> linked pp x y \/ (x, y) = (a, b) \/ (y, x) = (a, b)) /\
  (forall x y j, val (put n i a b v pp) x y j =
                 if (pair_eqb (x, y) (a, b) || pair_eqb (y, x) (a, b)) && (j =? i)%nat then v else val pp x y j).
Proof.
  intros Hok Hi Hne. unfold put. cbv zeta.
  match goal with |- context [dupd pair_eqb ?P _ _] => set (pp1 := P) end.
  assert (P1 : tab_ok n pp1 /\ (forall x y, linked pp1 x y <-> linked pp x y \/ (x, y) = (a, b) \/ (y, x) = (a, b)) /\
               (forall x y j, val pp1 x y j = val pp x y j)).
  { unfold pp1. destruct (dmem pair_eqb pp (a, b)) eqn:E1; [|destruct (dmem pair_eqb pp (b, a)) eqn:E2]; cbn [orb].
    - apply dmem_in in E1. split; [exact Hok|]. split; [|reflexivity]. intros x y. unfold linked. split; [tauto|].
      intros [H|[[= -> ->]|[= -> ->]]]; auto.
    - apply dmem_in in E2. split; [exact Hok|]. split; [|reflexivity]. intros x y. unfold linked. split; [tauto|].
      intros [H|[[= -> ->]|[= -> ->]]]; auto.
    - destruct Hok as (H1 & H2 & H3).
      assert (N1 : ~ In (a, b) (map fst pp)) by (rewrite <- dmem_in; congruence).
      assert (N2 : ~ In (b, a) (map fst pp)) by (rewrite <- dmem_in; congruence).
      assert (D : dset pair_eqb pp (a, b) (repeat 0 n) = pp ++ [((a, b), repeat 0 n)]).
      { unfold dset. clear - N1. induction pp as [|[k l] pp IH]; simpl; [reflexivity|].
        destruct (pair_eqb (a, b) k) eqn:E; [apply PE in E; subst; simpl in N1; tauto|]. f_equal. apply IH. simpl in N1. tauto. }
      rewrite D. assert (HK : forall k, In k (map fst (pp ++ [((a, b), repeat 0 n)])) <-> In k (map fst pp) \/ k = (a, b)).
      { intros k. rewrite map_app, in_app_iff. simpl. intuition. }
      assert (G : forall k, k <> (a, b) -> dget pair_eqb (pp ++ [((a, b), repeat 0 n)]) k = dget pair_eqb pp k).
      { intros k Hk. rewrite <- D. unfold dset. now apply (dget_dupd_other _ PE). }
      assert (G1 : dget pair_eqb (pp ++ [((a, b), repeat 0 n)]) (a, b) = Some (repeat 0 n)).
      { rewrite <- D. unfold dset. now rewrite (dget_dupd_same _ PE). }
      assert (Hok1 : tab_ok n (pp ++ [((a, b), repeat 0 n)])).
      { split; [rewrite <- D; now apply (dupd_nodup _ PE)|]. split.
        - intros k l Hl. apply in_app_iff in Hl. destruct Hl as [Hl|[[= <- <-]|[]]]; [eauto|apply repeat_length].
        - intros x y Hx Hy. apply HK in Hx, Hy. destruct Hx as [Hx|Ex], Hy as [Hy|Ey].
          + exact (H3 _ _ Hx Hy).
          + injection Ey as -> ->. contradiction.
          + injection Ex as -> ->. contradiction.
          + injection Ex as -> ->. injection Ey as -> _. congruence. }
      split; [exact Hok1|]. split.
      + intros x y. unfold linked. rewrite !HK. intuition congruence.
      + intros x y j. unfold val. destruct (pair_eqb (x, y) (a, b)) eqn:E3; [apply PE in E3; injection E3 as -> ->|].
        * rewrite G1, nth_repeat0. apply (dget_none _ PE) in N1, N2. rewrite N1, N2. reflexivity.
        * assert ((x, y) <> (a, b)) by (intros C; rewrite (proj2 (PE _ _) C) in E3; discriminate). rewrite (G (x, y)) by assumption.
          destruct (dget pair_eqb pp (x, y)) as [l|]; [reflexivity|].
          destruct (pair_eqb (y, x) (a, b)) eqn:E4; [apply PE in E4; injection E4 as -> ->|].
          -- rewrite G1, nth_repeat0. apply (dget_none _ PE) in N1. now rewrite N1.
          -- rewrite G; [reflexivity|]. intros C; rewrite (proj2 (PE _ _) C) in E4; discriminate. }
  destruct P1 as (Q1 & Q2 & Q3).
  destruct (dmem pair_eqb pp1 (a, b)) eqn:E.
  - apply dmem_in in E. destruct (upd_spec n i a b v pp1 Q1 Hi E) as (R1 & R2 & R3). split; [exact R1|]. split.
    + intros x y. unfold linked. rewrite R2. apply Q2.
    + intros x y j. rewrite R3, Q3. reflexivity.
  - assert (E' : In (b, a) (map fst pp1)).
    { destruct (proj2 (Q2 a b) (or_intror (or_introl eq_refl))) as [H|H]; [apply dmem_in in H; congruence|exact H]. }
    destruct (upd_spec n i b a v pp1 Q1 Hi E') as (R1 & R2 & R3). split; [exact R1|]. split.
    + intros x y. unfold linked. rewrite R2. apply Q2.
    + intros x y j. rewrite R3, Q3.
      replace (pair_eqb (x, y) (b, a) || pair_eqb (y, x) (b, a)) with (pair_eqb (x, y) (a, b) || pair_eqb (y, x) (a, b)); [reflexivity|].
      unfold pair_eqb. simpl. destruct (String.eqb x a), (String.eqb x b), (String.eqb y a), (String.eqb y b); reflexivity.
Qed.

(** A run of [put]s at one time whose values depend on the pins only. *)
Section puts.
Variables (n i : nat) (V : pin -> pin -> Q).
Hypothesis Hi : (i < n)%nat.
Definition named (ps : list (pin * pin)) (x y : pin) : bool := existsb (pair_eqb (x, y)) ps.
Definition puts (ps : list (pin * pin)) (pp : tab) : tab := fold_left (fun pp sk => put n i (fst sk) (snd sk) (V (fst sk) (snd sk)) pp) ps pp.

Lemma named_in ps x y : named ps x y = true <-> In (x, y) ps.
Proof.
  unfold named. rewrite existsb_exists. split; [intros (k & H & E); apply PE in E; congruence|]. intros H. exists (x, y). split; [exact H|]. now apply PE.
Qed.

Lemma puts_spec ps : (forall a b, In (a, b) ps -> a <> b /\ ~ In (b, a) ps) -> forall pp, tab_ok n pp ->
  tab_ok n (puts ps pp) /\
  (forall x y, linked (puts ps pp) x y <-> linked pp x y \/ In (x, y) ps \/ In (y, x) ps) /\
  (forall x y j, val (puts ps pp) x y j =
     if (j =? i)%nat then (if named ps x y then V x y else if named ps y x then V y x else val pp x y j) else val pp x y j).
Proof.
  intros H. induction ps as [|[a b] ps IH] using rev_ind; intros pp Hok.
  - split; [exact Hok|]. split; [simpl; tauto|]. intros x y j. simpl. destruct (j =? i)%nat; reflexivity.
  - assert (H' : forall a b, In (a, b) ps -> a <> b /\ ~ In (b, a) ps).
    { intros x y Hx. destruct (H x y) as [A1 A2]; [apply in_app_iff; auto|]. split; [exact A1|]. intros C. apply A2. apply in_app_iff. auto. }
    destruct (IH H' pp Hok) as (I1 & I2 & I3). unfold puts. rewrite fold_left_app. fold (puts ps pp). cbn [fold_left fst snd].
    destruct (H a b) as [Hne Hnr]; [apply in_app_iff; simpl; auto|].
    destruct (put_spec n i a b (V a b) (puts ps pp) I1 Hi Hne) as (J1 & J2 & J3). split; [exact J1|]. split.
    + intros x y. rewrite J2, I2, !in_app_iff. simpl. intuition congruence.
    + intros x y j. rewrite J3, I3. destruct (j =? i)%nat; [|rewrite andb_false_r; reflexivity]. rewrite andb_true_r.
      unfold named. rewrite !existsb_app. cbn [existsb]. rewrite !orb_false_r.
      fold (named ps x y). fold (named ps y x).
      destruct (pair_eqb (x, y) (a, b)) eqn:E1; [apply PE in E1; injection E1 as -> ->|]; cbn [orb].
      * rewrite orb_true_r. reflexivity.
      * rewrite orb_false_r. destruct (pair_eqb (y, x) (a, b)) eqn:E2; [apply PE in E2; injection E2 as -> ->|].
        -- rewrite orb_true_r. destruct (named ps b a) eqn:E3; [|reflexivity].
           exfalso. apply Hnr. apply in_app_iff. left. now apply named_in.
        -- rewrite orb_false_r. reflexivity.
Qed.
End puts.

(** ** One time step *)
Lemma total_app l m : total (l ++ m) == total l + total m.
Proof. induction l as [|x l IH]; simpl; [lra|]. rewrite IH. lra. Qed.
Lemma qsum_total l : qsum l = total l.
Proof. induction l as [|x l IH]; simpl; [reflexivity|]. now rewrite <- IH. Qed.
Lemma total_scale {A} (f : A -> Q) c l : total (map (fun x => c * f x) l) == c * total (map f l).
Proof. induction l as [|x l IH]; simpl; [lra|]. rewrite IH. lra. Qed.
Lemma total_ext {A} (f g : A -> Q) l : (forall x, In x l -> f x == g x) -> total (map f l) == total (map g l).
Proof.
  induction l as [|x l IH]; intros H; simpl; [lra|]. rewrite IH; [|intros; apply H; now right]. rewrite (H x) by now left. lra.
Qed.
Lemma total_if {A} (p : A -> bool) (f : A -> Q) l : total (map (fun x => if p x then f x else 0) l) == total (map f (filter p l)).
Proof. induction l as [|x l IH]; simpl; [lra|]. destruct (p x); simpl; rewrite IH; lra. Qed.
Lemma total_parts {A} (p : A -> bool) (f : A -> Q) l :
  total (map f l) == total (map f (filter p l)) + total (map f (filter (fun x => negb (p x)) l)).
Proof. induction l as [|x l IH]; simpl; [lra|]. rewrite IH. destruct (p x); simpl; lra. Qed.
Lemma total_nonneg l : (forall x, In x l -> 0 <= x) -> 0 <= total l.
Proof.
  induction l as [|x l IH]; intros H; simpl; [lra|]. specialize (IH (fun y Hy => H y (or_intror Hy))).
  specialize (H x (or_introl eq_refl)). lra.
Qed.
Lemma total_ge l x : (forall y, In y l -> 0 <= y) -> In x l -> x <= total l.
Proof.
  induction l as [|y l IH]; intros H Hx; simpl in *; [tauto|].
  assert (0 <= total l) by (apply total_nonneg; auto). assert (0 <= y) by auto.
  destruct Hx as [<-|Hx]; [lra|]. assert (x <= total l) by auto. lra.
Qed.

(** The current sent from [a] to [b] when the pins read [cs]. *)
Definition share (cs : reading) (a b : pin) : Q :=
  match dget String.eqb cs a, dget String.eqb cs b with
  | Some x, Some y => if Qle_bool 0 x && negb (Qle_bool 0 y) then Qabs y * x / supply cs else 0
  | _, _ => 0
  end.

Section shares.
Variable cs : reading.
Hypothesis Hnd : NoDup (map fst cs).
Let SE := String.eqb_eq.

Lemma share_at a x b y : In (a, x) cs -> In (b, y) cs ->
  share cs a b = if Qle_bool 0 x && negb (Qle_bool 0 y) then Qabs y * x / supply cs else 0.
Proof. intros Ha Hb. unfold share. now rewrite (in_dget _ SE _ _ _ Hnd Ha), (in_dget _ SE _ _ _ Hnd Hb). Qed.

Lemma supply_nonneg : 0 <= supply cs.
Proof.
  unfold supply. rewrite qsum_total. apply total_nonneg. intros x Hx. apply in_map_iff in Hx. destruct Hx as ([a y] & <- & Hy).
  apply filter_In in Hy. apply Qle_bool_iff. apply Hy.
Qed.

Lemma share_directed : directed cs (share cs).
Proof.
  intros a b. pose proof supply_nonneg as S0. unfold share.
  destruct (dget String.eqb cs a) as [x|] eqn:Ea; [|split; [lra|intros H; lra]].
  destruct (dget String.eqb cs b) as [y|] eqn:Eb; [|split; [lra|intros H; lra]].
  apply (dget_in _ SE) in Ea, Eb.
  destruct (Qle_bool 0 x) eqn:E1; cbn [andb]; [|split; [lra|intros H; lra]].
  destruct (Qle_bool 0 y) eqn:E2; cbn [negb]; [split; [lra|intros H; lra]|].
  apply Qle_bool_iff in E1. apply Qleb_false in E2. pose proof (Qabs_nonneg y). split.
  - destruct (Qeq_dec (supply cs) 0) as [E|E].
    + rewrite E. unfold Qdiv. change (/ 0) with 0. rewrite Qmult_0_r. lra.
    + apply Qle_shift_div_l; [lra|]. rewrite Qmult_0_l. apply Qmult_le_0_compat; lra.
  - intros Hne. exists x, y. repeat split; auto. destruct (Qeq_dec x 0) as [E|E]; [|lra].
    exfalso. apply Hne. rewrite E. unfold Qdiv. ring.
Qed.

Lemma share_drawn : 0 < supply cs -> drawn cs (share cs).
Proof.
  intros HS b y Hb Hy. rewrite map_map.
  rewrite (total_ext _ (fun c => if Qle_bool 0 (snd c) then - y / supply cs * snd c else 0)).
  - rewrite (total_if (fun c => Qle_bool 0 (snd c))), total_scale.
    assert (ES : total (map snd (filter (fun c => Qle_bool 0 (snd c)) cs)) == supply cs) by (unfold supply; rewrite (qsum_total (map snd (sources cs))); reflexivity).
    rewrite ES. field. lra.
  - intros [a x] Ha. cbn [fst snd]. rewrite (share_at a x b y Ha Hb). apply Qleb_false in Hy. rewrite Hy. cbn [negb]. rewrite andb_true_r.
    destruct (Qle_bool 0 x); [|reflexivity]. apply Qleb_false in Hy. rewrite Qabs_neg by lra. field. lra.
Qed.

Lemma share_given a x : 0 < supply cs -> In (a, x) cs -> 0 <= x ->
  total (map (share cs a) (map fst cs)) == x * (- total (map snd (sinks cs))) / supply cs.
Proof.
  intros HS Ha Hx. rewrite map_map.
  rewrite (total_ext _ (fun c => if negb (Qle_bool 0 (snd c)) then - x / supply cs * snd c else 0)).
  - rewrite (total_if (fun c => negb (Qle_bool 0 (snd c)))), total_scale. fold (sinks cs). field. lra.
  - intros [b y] Hb. cbn [fst snd]. rewrite (share_at a x b y Ha Hb). apply Qle_bool_iff in Hx. rewrite Hx. cbn [andb].
    destruct (Qle_bool 0 y) eqn:E; cbn [negb]; [reflexivity|]. apply Qleb_false in E. rewrite Qabs_neg by lra. field. lra.
Qed.

Lemma sinks_of_balanced : balanced cs -> - total (map snd (sinks cs)) == supply cs.
Proof.
  unfold balanced. rewrite (total_parts (fun c => Qle_bool 0 (snd c))). unfold supply. rewrite (qsum_total (map snd (sources cs))). unfold sources, sinks. lra.
Qed.

Lemma sink_supply b y : balanced cs -> In (b, y) cs -> y < 0 -> 0 < supply cs.
Proof.
  intros HB Hb Hy. rewrite <- (sinks_of_balanced HB). unfold sinks.
  assert (- y <= total (map (fun c => - snd c) (filter (fun c => negb (Qle_bool 0 (snd c))) cs))).
  { apply total_ge.
    - intros z Hz. apply in_map_iff in Hz. destruct Hz as ([k w] & <- & Hz). apply filter_In in Hz. destruct Hz as [_ Hz]. cbn [snd] in *.
      apply negb_true_iff in Hz. apply Qleb_false in Hz. lra.
    - apply in_map_iff. exists (b, y). split; [reflexivity|]. apply filter_In. split; [exact Hb|]. cbn [snd]. apply negb_true_iff. now apply Qleb_false. }
  assert (total (map (fun c : pin * Q => - snd c) (filter (fun c => negb (Qle_bool 0 (snd c))) cs)) ==
          - total (map snd (filter (fun c => negb (Qle_bool 0 (snd c))) cs))) as <-; [|lra].
  generalize (filter (fun c : pin * Q => negb (Qle_bool 0 (snd c))) cs). clear. intros l. induction l as [|x l IH]; simpl; [lra|]. rewrite IH. lra.
Qed.

Lemma share_supplied : balanced cs -> supplied cs (share cs).
Proof.
  intros HB a x Ha Hx. destruct (Qlt_le_dec 0 (supply cs)) as [HS|HS].
  - rewrite (share_given a x HS Ha Hx), (sinks_of_balanced HB). field. lra.
  - (* nothing is supplied: [x] is zero and there is no sink *)
    assert (S0 : supply cs == 0) by (pose proof supply_nonneg; lra).
    assert (x <= supply cs).
    { unfold supply. rewrite (qsum_total (map snd (sources cs))). apply total_ge.
      - intros z Hz. apply in_map_iff in Hz. destruct Hz as ([k w] & <- & Hz). apply filter_In in Hz. apply Qle_bool_iff. apply Hz.
      - apply in_map_iff. exists (a, x). split; [reflexivity|]. apply filter_In. split; [exact Ha|]. now apply Qle_bool_iff. }
    assert (x == 0) as -> by lra. rewrite map_map. rewrite (total_ext _ (fun _ => 0 * 0)).
    + rewrite (total_scale (fun _ => 0)). lra.
    + intros [b y] Hb. cbn [fst]. rewrite (share_at a x b y Ha Hb). destruct (Qle_bool 0 y) eqn:E; [rewrite andb_false_r; lra|].
      apply Qleb_false in E. pose proof (sink_supply b y HB Hb E). lra.
Qed.
End shares.

Lemma at_time_reading n i pc : (i < n)%nat -> (forall p l, In (p, l) pc -> length l = n) -> at_time i pc = Some (reading_at i pc).
Proof.
  intros Hi H. unfold at_time, reading_at. induction pc as [|[p l] pc IH]; [reflexivity|]. cbn [mapM map fst snd].
  rewrite IH by (intros; eapply H; right; eauto). assert (Hl : length l = n) by (apply (H p); now left).
  rewrite (nth_error_nth' l 0) by (rewrite Hl; exact Hi). reflexivity.
Qed.

Lemma reading_names i pc : map fst (reading_at i pc) = map fst pc.
Proof. unfold reading_at. rewrite map_map. reflexivity. Qed.

Section steps.
Variables (n : nat) (pc : list (pin * list Q)).
Hypothesis Hnd : NoDup (map fst pc).
Hypothesis Hlen : forall p l, In (p, l) pc -> length l = n.

Definition pairs_at (i : nat) : list (pin * pin) :=
  map (fun sk => (fst (fst sk), fst (snd sk))) (flat_map (fun k => map (fun s => (s, k)) (sources (reading_at i pc))) (sinks (reading_at i pc))).

Lemma pairs_at_in i a b : In (a, b) (pairs_at i) <->
  exists x y, In (a, x) (reading_at i pc) /\ In (b, y) (reading_at i pc) /\ 0 <= x /\ y < 0.
Proof.
  unfold pairs_at. rewrite in_map_iff. split.
  - intros ([[a' x] [b' y]] & [= <- <-] & H). apply in_flat_map in H. destruct H as (k & Hk & H). apply in_map_iff in H.
    destruct H as (s & [= -> ->] & Hs). apply filter_In in Hs, Hk. cbn [fst snd] in *. destruct Hs as [S1 S2], Hk as [K1 K2].
    exists x, y. repeat split; auto; [now apply Qle_bool_iff|]. apply negb_true_iff in K2. now apply Qleb_false.
  - intros (x & y & Ha & Hb & Hx & Hy). exists ((a, x), (b, y)). split; [reflexivity|]. apply in_flat_map. exists (b, y). split.
    + apply filter_In. split; [exact Hb|]. cbn [snd]. apply negb_true_iff. now apply Qleb_false.
    + apply in_map_iff. exists (a, x). split; [reflexivity|]. apply filter_In. split; [exact Ha|]. now apply Qle_bool_iff.
Qed.

Lemma reading_fun i a x y : In (a, x) (reading_at i pc) -> In (a, y) (reading_at i pc) -> x = y.
Proof.
  intros H1 H2. assert (N : NoDup (map fst (reading_at i pc))) by (rewrite reading_names; exact Hnd).
  apply (in_dget _ String.eqb_eq _ _ _ N) in H1, H2. congruence.
Qed.

Lemma pairs_at_asym i a b : In (a, b) (pairs_at i) -> a <> b /\ ~ In (b, a) (pairs_at i).
Proof.
  rewrite pairs_at_in. intros (x & y & Ha & Hb & Hx & Hy). split.
  - intros ->. rewrite (reading_fun _ _ _ _ Ha Hb) in Hx. lra.
  - rewrite pairs_at_in. intros (x' & y' & Ha' & Hb' & Hx' & Hy'). rewrite (reading_fun _ _ _ _ Ha Hb') in Hx. lra.
Qed.

Lemma share_pair i a b : In (a, b) (pairs_at i) ->
  exists x y, In (a, x) (reading_at i pc) /\ In (b, y) (reading_at i pc) /\ share (reading_at i pc) a b = Qabs y * x / supply (reading_at i pc).
Proof.
  rewrite pairs_at_in. intros (x & y & Ha & Hb & Hx & Hy). exists x, y. split; [exact Ha|]. split; [exact Hb|].
  rewrite (share_at _ (eq_ind_r (@NoDup pin) Hnd (reading_names i pc)) a x b y Ha Hb).
  apply Qle_bool_iff in Hx. apply Qleb_false in Hy. rewrite Hx, Hy. reflexivity.
Qed.

Lemma share_nopair i a b : ~ In (a, b) (pairs_at i) -> share (reading_at i pc) a b = 0.
Proof.
  intros H. unfold share. destruct (dget String.eqb (reading_at i pc) a) as [x|] eqn:Ea; [|reflexivity].
  destruct (dget String.eqb (reading_at i pc) b) as [y|] eqn:Eb; [|reflexivity].
  apply (dget_in _ String.eqb_eq) in Ea, Eb. destruct (Qle_bool 0 x) eqn:E1, (Qle_bool 0 y) eqn:E2; try reflexivity.
  exfalso. apply H. rewrite pairs_at_in. exists x, y. repeat split; auto; [now apply Qle_bool_iff|now apply Qleb_false].
Qed.

Lemma fold_puts i l pp : (forall sk, In sk l -> share (reading_at i pc) (fst (fst sk)) (fst (snd sk)) = Qabs (snd (snd sk)) * snd (fst sk) / supply (reading_at i pc)) ->
  fold_left (fun pp (sk : (pin * Q) * (pin * Q)) => put n i (fst (fst sk)) (fst (snd sk)) (Qabs (snd (snd sk)) * snd (fst sk) / supply (reading_at i pc)) pp) l pp =
  puts n i (share (reading_at i pc)) (map (fun sk => (fst (fst sk), fst (snd sk))) l) pp.
Proof.
  revert pp. induction l as [|sk l IH]; intros pp H; [reflexivity|]. cbn [fold_left map]. unfold puts. cbn [fold_left fst snd].
  rewrite (H sk) by now left. apply IH. intros; apply H; now right.
Qed.

(** A time step fails iff there is a source and a sink but nothing is supplied; otherwise it records the shares. *)
Lemma time_step_spec i pp : (i < n)%nat -> tab_ok n pp ->
  (pairs_at i <> [] -> ~ supply (reading_at i pc) == 0) ->
  exists pp', time_step n pc pp i = Some pp' /\ tab_ok n pp' /\
    (forall x y, linked pp' x y <-> linked pp x y \/ In (x, y) (pairs_at i) \/ In (y, x) (pairs_at i)) /\
    (forall x y j, j <> i -> val pp' x y j = val pp x y j) /\
    (forall x y, val pp x y i = 0 -> val pp' x y i == share (reading_at i pc) x y + share (reading_at i pc) y x).
Proof.
  intros Hi Hok Hs. unfold time_step. rewrite (at_time_reading n i pc Hi Hlen).
  set (l := flat_map (fun k => map (fun s => (s, k)) (sources (reading_at i pc))) (sinks (reading_at i pc))).
  assert (HP : pairs_at i = map (fun sk => (fst (fst sk), fst (snd sk))) l) by reflexivity.
  assert (HF : forall sk, In sk l -> share (reading_at i pc) (fst (fst sk)) (fst (snd sk)) = Qabs (snd (snd sk)) * snd (fst sk) / supply (reading_at i pc)).
  { intros [[a x] [b y]] Hsk. unfold l in Hsk. apply in_flat_map in Hsk. destruct Hsk as (k & Hk & H). apply in_map_iff in H.
    destruct H as (s & [= -> ->] & Hs'). apply filter_In in Hs', Hk. cbn [fst snd] in *. destruct Hs' as [S1 S2], Hk as [K1 K2].
    rewrite (share_at _ (eq_ind_r (@NoDup pin) Hnd (reading_names i pc)) a x b y S1 K1). rewrite S2, K2. reflexivity. }
  assert (R : exists pp', match l with [] => Some pp | _ :: _ => if Qeq_bool (supply (reading_at i pc)) 0 then None else
      Some (fold_left (fun pp (sk : (pin * Q) * (pin * Q)) => put n i (fst (fst sk)) (fst (snd sk)) (Qabs (snd (snd sk)) * snd (fst sk) / supply (reading_at i pc)) pp) l pp) end = Some pp' /\
      pp' = puts n i (share (reading_at i pc)) (pairs_at i) pp).
  { destruct l as [|sk l0] eqn:El.
    - exists pp. split; [reflexivity|]. rewrite HP. reflexivity.
    - destruct (Qeq_bool (supply (reading_at i pc)) 0) eqn:E0.
      + exfalso. apply Hs; [rewrite HP; discriminate|]. now apply Qeq_bool_iff.
      + eexists. split; [reflexivity|]. rewrite HP. now apply fold_puts. }
  destruct R as (pp' & -> & ->). eexists. split; [reflexivity|].
  destruct (puts_spec n i (share (reading_at i pc)) Hi (pairs_at i) (pairs_at_asym i) pp Hok) as (P1 & P2 & P3).
  split; [exact P1|]. split; [exact P2|]. split.
  - intros x y j Hj. rewrite P3. replace (j =? i)%nat with false by (symmetry; now apply Nat.eqb_neq). reflexivity.
  - intros x y H0. rewrite P3, Nat.eqb_refl, H0.
    destruct (named (pairs_at i) x y) eqn:E1; [apply named_in in E1|].
    + rewrite (share_nopair i y x) by apply (proj2 (pairs_at_asym i x y E1)). lra.
    + assert (N1 : ~ In (x, y) (pairs_at i)) by (rewrite <- named_in; congruence). rewrite (share_nopair i x y N1).
      destruct (named (pairs_at i) y x) eqn:E2; [lra|].
      assert (N2 : ~ In (y, x) (pairs_at i)) by (rewrite <- named_in; congruence). rewrite (share_nopair i y x N2). lra.
Qed.

(** The whole table. *)
Lemma pair_currents_spec :
  (forall i, (i < n)%nat -> pairs_at i <> [] -> ~ supply (reading_at i pc) == 0) ->
  exists pp, pair_currents n pc = Some pp /\ tab_ok n pp /\
    (forall x y, linked pp x y <-> exists i, (i < n)%nat /\ (In (x, y) (pairs_at i) \/ In (y, x) (pairs_at i))) /\
    (forall x y i, (i < n)%nat -> val pp x y i == share (reading_at i pc) x y + share (reading_at i pc) y x).
Proof.
  intros Hs. unfold pair_currents.
  assert (G : forall k, (k <= n)%nat -> exists pp, foldO (time_step n pc) (List.seq 0 k) [] = Some pp /\ tab_ok n pp /\
    (forall x y, linked pp x y <-> exists i, (i < k)%nat /\ (In (x, y) (pairs_at i) \/ In (y, x) (pairs_at i))) /\
    (forall x y i, (i < k)%nat -> val pp x y i == share (reading_at i pc) x y + share (reading_at i pc) y x) /\
    (forall x y i, (k <= i)%nat -> val pp x y i = 0)).
  { induction k as [|k IH]; intros Hk.
    - exists []. split; [reflexivity|]. split; [repeat split; simpl; try constructor; tauto|]. split.
      + intros x y. split; [intros [[]|[]]|intros (i & Hi & _); lia].
      + split; [intros; lia|]. intros; reflexivity.
    - destruct IH as (pp & E & I1 & I2 & I3 & I4); [lia|].
      destruct (time_step_spec k pp ltac:(lia) I1 (Hs k ltac:(lia))) as (pp' & E' & J1 & J2 & J3 & J4).
      exists pp'. rewrite seq_S. split; [|split; [exact J1|split; [|split]]].
      + rewrite Nat.add_0_l. assert (FA : forall (f : tab -> nat -> option tab) l m (b : tab), foldO f (l ++ m) b = match foldO f l b with Some b' => foldO f m b' | None => None end).
        { intros f l m. induction l as [|x l IHl]; intros b; [reflexivity|]. cbn [app foldO]. destruct (f b x : option tab); [apply IHl|reflexivity]. }
        rewrite FA, E. cbn [foldO]. rewrite E'. reflexivity.
      + intros x y. rewrite J2, I2. split.
        * intros [(i & Hi & H)|H]; [exists i; split; [lia|exact H]|exists k; split; [lia|exact H]].
        * intros (i & Hi & H). destruct (Nat.eq_dec i k) as [->|]; [right; exact H|]. left. exists i. split; [lia|exact H].
      + intros x y i Hi. destruct (Nat.eq_dec i k) as [->|Hne]; [apply J4, I4; lia|]. rewrite J3 by exact Hne. apply I3. lia.
      + intros x y i Hi. rewrite J3 by lia. apply I4. lia. }
  destruct (G n (le_n n)) as (pp & E & I1 & I2 & I3 & _). exists pp. auto.
Qed.
End steps.

(** ** Failure *)
Lemma foldO_stop {A B} (f : B -> A -> option B) l m x b : (forall b, f b x = None) -> foldO f (l ++ x :: m) b = None.
Proof.
  intros H. revert b; induction l as [|y l IH]; intros b; simpl; [now rewrite H|]. destruct (f b y); [apply IH|reflexivity].
Qed.

Lemma seq_split n i : (i < n)%nat -> exists l m, List.seq 0 n = l ++ i :: m.
Proof.
  intros H. exists (List.seq 0 i), (List.seq (Datatypes.S i) (n - Datatypes.S i)).
  replace n with (i + Datatypes.S (n - Datatypes.S i))%nat at 1 by lia. rewrite seq_app. reflexivity.
Qed.

Lemma no_supply_fails n pc i a b x y : NoDup (map fst pc) -> (forall p l, In (p, l) pc -> length l = n) -> (i < n)%nat ->
  In (a, x) (reading_at i pc) -> In (b, y) (reading_at i pc) -> x == 0 -> y < 0 ->
  (forall p z, In (p, z) (reading_at i pc) -> z <= 0) -> pair_currents n pc = None.
Proof.
  intros Hnd Hlen Hi Ha Hb Hx Hy Hz. unfold pair_currents. destruct (seq_split n i Hi) as (l & m & ->). apply foldO_stop.
  intros pp. unfold time_step. rewrite (at_time_reading n i pc Hi Hlen).
  assert (HS : supply (reading_at i pc) == 0).
  { unfold supply. rewrite qsum_total. assert (G : forall z, In z (map snd (sources (reading_at i pc))) -> z == 0).
    { intros z Hin. apply in_map_iff in Hin. destruct Hin as ([p w] & <- & Hin). apply filter_In in Hin. destruct Hin as [H1 H2].
      apply Qle_bool_iff in H2. specialize (Hz p w H1). cbn [snd] in *. lra. }
    revert G. generalize (map snd (sources (reading_at i pc))). clear. intros q G. induction q as [|z q IH]; simpl; [lra|].
    rewrite (G z) by now left. rewrite IH; [lra|]. intros; apply G; now right. }
  assert (HP : In ((a, x), (b, y)) (flat_map (fun k => map (fun s => (s, k)) (sources (reading_at i pc))) (sinks (reading_at i pc)))).
  { apply in_flat_map. exists (b, y). split.
    - apply filter_In. split; [exact Hb|]. cbn [snd]. apply negb_true_iff. now apply Qleb_false.
    - apply in_map_iff. exists (a, x). split; [reflexivity|]. apply filter_In. split; [exact Ha|]. apply Qle_bool_iff. cbn [snd]. lra. }
  destruct (flat_map _ _) as [|sk l']; [destruct HP|]. apply Qeq_bool_iff in HS. now rewrite HS.
Qed.

(** ** Mean squares *)
Lemma charge2_ms time cur s : mean_square time cur s -> charge2 time cur == s.
Proof.
  induction 1 as [t c|t t' ts c c' cs s H IH]; [reflexivity|].
  change (charge2 (t :: t' :: ts) (c :: c' :: cs)) with ((t' - t) * ((c + c') * (c + c')) / 4 + charge2 (t' :: ts) (c' :: cs)).
  rewrite IH. field.
Qed.

Lemma ms_exists time : forall cur, length cur = length time -> time <> [] -> exists s, mean_square time cur s.
Proof.
  induction time as [|t ts IH]; intros [|c cs] Hl Hne; try (simpl in Hl; congruence). destruct ts as [|t' ts].
  - destruct cs; [|discriminate]. eexists. constructor.
  - destruct cs as [|c' cs]; [discriminate|]. destruct (IH (c' :: cs)) as (s & Hs); [simpl in *; lia|discriminate|].
    eexists. constructor. exact Hs.
Qed.

Lemma ms_nonneg time cur s : StronglySorted Qle time -> mean_square time cur s -> 0 <= s.
Proof.
  intros HS H. induction H as [t c|t t' ts c c' cs s H IH]; [lra|]. inversion HS as [|? ? HS' F]; subst. specialize (IH HS').
  inversion F; subst. assert (0 <= (t' - t) * ((c + c') / 2) * ((c + c') / 2)); [|lra].
  rewrite <- Qmult_assoc. apply Qmult_le_0_compat; [lra|]. generalize ((c + c') / 2). intros q. nra.
Qed.

(** ** Nets *)
Lemma add_pin_spec d net p : NoDup (map fst d) -> (forall n ps, In (n, ps) d -> NoDup ps) ->
  NoDup (map fst (add_pin d net p)) /\ (forall n ps, In (n, ps) (add_pin d net p) -> NoDup ps) /\
  (forall n q, (exists ps, In (n, ps) (add_pin d net p) /\ In q ps) <-> (exists ps, In (n, ps) d /\ In q ps) \/ (n = net /\ q = p)).
Proof.
  intros H1 H2. pose proof String.eqb_eq as SE. unfold add_pin.
  set (g := fun o : option (list pin) => match o with Some ps => if existsb (String.eqb p) ps then ps else ps ++ [p] | None => [p] end).
  assert (K : NoDup (map fst (dupd String.eqb d net g))) by now apply (dupd_nodup _ SE).
  assert (G1 : dget String.eqb (dupd String.eqb d net g) net = Some (g (dget String.eqb d net))) by apply (dget_dupd_same _ SE).
  assert (G2 : forall n, n <> net -> dget String.eqb (dupd String.eqb d net g) n = dget String.eqb d n) by (intros; now apply (dget_dupd_other _ SE)).
  assert (G3 : forall q, In q (g (dget String.eqb d net)) <-> (exists ps, In (net, ps) d /\ In q ps) \/ q = p).
  { intros q. unfold g. destruct (dget String.eqb d net) as [ps|] eqn:E.
    - apply (dget_in _ SE) in E. assert (U : forall ps', In (net, ps') d -> ps' = ps).
      { intros ps' H'. apply (in_dget _ SE _ _ _ H1) in H', E. congruence. }
      destruct (existsb (String.eqb p) ps) eqn:Ex.
      + apply existsb_exists in Ex. destruct Ex as (p' & Hp & E'). apply SE in E'. subst p'. split; [eauto|].
        intros [(ps' & H' & Hq)| ->]; [rewrite <- (U ps' H'); exact Hq|exact Hp].
      + rewrite in_app_iff. simpl. split.
        * intros [H|[->|[]]]; eauto.
        * intros [(ps' & H' & Hq)| ->]; [left; rewrite <- (U ps' H'); exact Hq|auto].
    - apply (dget_none _ SE) in E. simpl. split; [intros [->|[]]; auto|]. intros [(ps' & H' & _)| ->]; [|auto].
      exfalso. apply E. exact (in_map fst _ _ H'). }
  split; [exact K|]. split.
  - intros n ps H. apply (in_dget _ SE _ _ _ K) in H. destruct (string_dec n net) as [->|Hne].
    + rewrite G1 in H. injection H as <-. unfold g. destruct (dget String.eqb d net) as [ps|] eqn:E; [|repeat constructor; simpl; tauto].
      apply (dget_in _ SE) in E. destruct (existsb (String.eqb p) ps) eqn:Ex; [eauto|].
      apply (Permutation_NoDup (Permutation_cons_append ps p)). constructor; [|eauto].
      intros Hp. assert (existsb (String.eqb p) ps = true) by (apply existsb_exists; exists p; split; [exact Hp|apply String.eqb_refl]). congruence.
    + rewrite G2 in H by exact Hne. apply (dget_in _ SE) in H. eauto.
  - intros n q. split.
    + intros (ps & H & Hq). apply (in_dget _ SE _ _ _ K) in H. destruct (string_dec n net) as [->|Hne].
      * rewrite G1 in H. injection H as <-. apply G3 in Hq. destruct Hq as [Hq| ->]; auto.
      * rewrite G2 in H by exact Hne. apply (dget_in _ SE) in H. left. eauto.
    + intros H. destruct (string_dec n net) as [->|Hne].
      * exists (g (dget String.eqb d net)). split; [apply (dget_in _ SE); exact G1|]. apply G3. destruct H as [H|[_ ->]]; auto.
      * destruct H as [(ps & H & Hq)|[-> _]]; [|congruence]. exists ps. split; [|exact Hq]. apply (dget_in _ SE). rewrite G2 by exact Hne.
        now apply (in_dget _ SE).
Qed.

(** The pin [p] is the formal of an instance tied to [net]. *)
Definition pin_of (insts : list finst) (net : string) (p : pin) : Prop :=
  exists i formal, In i insts /\ In (formal, net) (fi_map i) /\ p = (fi_name i ++ "/" ++ formal)%string.

Lemma nets_of_spec supplies insts :
  NoDup (map fst (nets_of supplies insts)) /\ (forall n ps, In (n, ps) (nets_of supplies insts) -> NoDup ps) /\
  (forall n q, (exists ps, In (n, ps) (nets_of supplies insts) /\ In q ps) <-> ~ In n supplies /\ pin_of insts n q).
Proof.
  unfold nets_of. set (l := flat_map (fun i => map (fun f => (fi_name i, f)) (fi_map i)) insts).
  set (stp := fun d (ip : string * (string * string)) => if existsb (String.eqb (snd (snd ip))) supplies then d else add_pin d (snd (snd ip)) (fst ip ++ "/" ++ fst (snd ip))%string).
  assert (G : forall l d, NoDup (map fst d) -> (forall n ps, In (n, ps) d -> NoDup ps) ->
    NoDup (map fst (fold_left stp l d)) /\ (forall n ps, In (n, ps) (fold_left stp l d) -> NoDup ps) /\
    (forall n q, (exists ps, In (n, ps) (fold_left stp l d) /\ In q ps) <->
       (exists ps, In (n, ps) d /\ In q ps) \/ (~ In n supplies /\ exists i f, In (i, (f, n)) l /\ q = (i ++ "/" ++ f)%string))).
  { clear. induction l as [|[i [f net]] l IH]; intros d H1 H2; cbn [fold_left].
    - split; [exact H1|]. split; [exact H2|]. intros n q. split; [auto|]. intros [H|(_ & ? & ? & [] & _)]; exact H.
    - assert (B : existsb (String.eqb net) supplies = true <-> In net supplies).
      { rewrite existsb_exists. split; [intros (y & Hy & E); apply String.eqb_eq in E; congruence|]. intros H. exists net. split; [exact H|apply String.eqb_refl]. }
      assert (Es : stp d (i, (f, net)) = if existsb (String.eqb net) supplies then d else add_pin d net (i ++ "/" ++ f)%string) by reflexivity.
      rewrite !Es. clear Es. destruct (existsb (String.eqb net) supplies) eqn:E.
      + destruct (IH d H1 H2) as (A1 & A2 & A3). split; [exact A1|]. split; [exact A2|]. intros n q. rewrite A3.
        split; (intros [H|(Hn & i' & f' & H & ->)]; [now left|right; split; [exact Hn|]]).
        * exists i', f'. split; [now right|reflexivity].
        * destruct H as [[= -> -> ->]|H]; [exfalso; apply Hn, B; reflexivity|]. exists i', f'. auto.
      + destruct (add_pin_spec d net (i ++ "/" ++ f)%string H1 H2) as (B1 & B2 & B3).
        destruct (IH _ B1 B2) as (A1 & A2 & A3). split; [exact A1|]. split; [exact A2|]. intros n q. rewrite A3, B3.
        split.
        * intros [[H|[-> ->]]|(Hn & i' & f' & H & ->)]; [now left| |].
          -- right. split; [rewrite <- B; congruence|]. exists i, f. split; [now left|reflexivity].
          -- right. split; [exact Hn|]. exists i', f'. split; [now right|reflexivity].
        * intros [H|(Hn & i' & f' & [[= -> -> ->]|H] & ->)]; [auto|left; right; auto|]. right. split; [exact Hn|]. exists i', f'. auto. }
  destruct (G l []) as (A1 & A2 & A3); [constructor|intros ? ? []|]. split; [exact A1|]. split; [exact A2|].
  intros n q. rewrite A3. split.
  - intros [(? & [] & _)|(Hn & i & f & H & ->)]. split; [exact Hn|]. unfold l in H. apply in_flat_map in H. destruct H as (inst & Hi & H).
    apply in_map_iff in H. destruct H as ([f' n'] & [= <- <- <-] & H). exists inst, f'. auto.
  - intros (Hn & inst & f & Hi & Hf & ->). right. split; [exact Hn|]. exists (fi_name inst), f. split; [|reflexivity].
    unfold l. apply in_flat_map. exists inst. split; [exact Hi|]. apply in_map_iff. exists (f, n). auto.
Qed.

(** ** Known pins *)
Lemma known_spec order currents pins : (forall l, Permutation (order l) l) -> NoDup pins ->
  NoDup (map fst (known order currents pins)) /\
  (forall p c, In (p, c) (known order currents pins) <-> In p pins /\ dget String.eqb currents p = Some c).
Proof.
  intros Ho Hnd. unfold known. assert (N : NoDup (order pins)) by (eapply Permutation_NoDup; [apply Permutation_sym, Ho|exact Hnd]).
  assert (M : forall p c l, In (p, c) (flat_map (fun p => match dget String.eqb currents p with Some c => [(p, c)] | None => [] end) l) <-> In p l /\ dget String.eqb currents p = Some c).
  { intros p c l. rewrite in_flat_map. split.
    - intros (q & Hq & H). destruct (dget String.eqb currents q) as [c'|] eqn:E; [|destruct H]. destruct H as [[= -> ->]|[]]. auto.
    - intros [Hp E]. exists p. split; [exact Hp|]. rewrite E. now left. }
  split.
  - induction N as [|p l Hp N IH]; simpl; [constructor|]. destruct (dget String.eqb currents p) as [c|] eqn:E; [|exact IH]. cbn [app map fst].
    constructor; [|exact IH]. intros H. apply in_map_iff in H. destruct H as ([p' c'] & <- & H). apply M in H. tauto.
  - intros p c. rewrite M. split; intros [H E]; (split; [|exact E]); [apply (Permutation_in _ (Ho pins) H)|apply (Permutation_in _ (Permutation_sym (Ho pins)) H)].
Qed.

Lemma mapM_F2' {A B} (f : A -> option B) l r : mapM f l = Some r -> Forall2 (fun a b => f a = Some b) l r.
Proof.
  revert r; induction l as [|a l IH]; intros r H; cbn [mapM] in H; [injection H as <-; constructor|].
  destruct (f a) as [b|] eqn:E; [|discriminate]. destruct (mapM f l) as [bs|]; [|discriminate]. injection H as <-. constructor; auto.
Qed.
Lemma mapM_total {A B} (f : A -> option B) l : (forall a, In a l -> exists b, f a = Some b) -> exists r, mapM f l = Some r.
Proof.
  induction l as [|a l IH]; intros H; [eexists; reflexivity|]. destruct (H a (or_introl eq_refl)) as (b & E).
  destruct IH as (r & E'); [intros; apply H; now right|]. cbn [mapM]. rewrite E, E'. eexists; reflexivity.
Qed.
Lemma F2_in_r {A B} (R : A -> B -> Prop) l r b : Forall2 R l r -> In b r -> exists a, In a l /\ R a b.
Proof. induction 1 as [|x y l r H _ IH]; intros Hb; [destruct Hb|]. destruct Hb as [<-|Hb]; [exists x; simpl; auto|]. destruct (IH Hb) as (a & ? & ?). exists a. simpl; auto. Qed.
Lemma F2_in_l {A B} (R : A -> B -> Prop) l r a : Forall2 R l r -> In a l -> exists b, In b r /\ R a b.
Proof. induction 1 as [|x y l r H _ IH]; intros Hb; [destruct Hb|]. destruct Hb as [<-|Hb]; [exists y; simpl; auto|]. destruct (IH Hb) as (b & ? & ?). exists b. simpl; auto. Qed.
