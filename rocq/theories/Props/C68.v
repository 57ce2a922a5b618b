(** C68: the charge flow weights, align/pnr/write_constraint.py:179-232. *)
From Coq Require Import String QArith Qminmax Qabs Lqa.
From Verif Require Import Base.Prelude Base.PyDict Model.PlaceGrid Model.UpdateConst Model.ChargeFlow Spec.ChargeSpec Proofs.ChargeFlowP.
Local Open Scope Q_scope.

(** The currents of some pins over [n] times. *)
Definition record_of (n : nat) (pc : list (pin * list Q)) : Prop :=
  NoDup (map fst pc) /\ (forall p l, In (p, l) pc -> length l = n).

(** [pp] lists, once for every two pins that ever exchange current, what flows between them, either way. *)
Definition records (n : nat) (pp : list ((pin * pin) * list Q)) (f : nat -> pin -> pin -> Q) : Prop :=
  NoDup (map fst pp) /\ (forall a b, In (a, b) (map fst pp) -> ~ In (b, a) (map fst pp)) /\
  (forall a b l, In ((a, b), l) pp -> length l = n /\ forall i, (i < n)%nat -> nth i l 0 == f i a b + f i b a) /\
  (forall i a b, (i < n)%nat -> ~ f i a b == 0 -> exists l, In ((a, b), l) pp \/ In ((b, a), l) pp).

Lemma spec_records n pc pp : record_of n pc -> tab_ok n pp ->
  (forall x y, linked pp x y <-> exists i, (i < n)%nat /\ (In (x, y) (pairs_at pc i) \/ In (y, x) (pairs_at pc i))) ->
  (forall x y i, (i < n)%nat -> val pp x y i == share (reading_at i pc) x y + share (reading_at i pc) y x) ->
  records n pp (fun i => share (reading_at i pc)).
Proof.
  intros [Hnd Hlen] (T1 & T2 & T3) HL HV. split; [exact T1|]. split; [exact T3|]. split.
  - intros a b l H. split; [exact (T2 _ _ H)|]. intros i Hi. rewrite <- (HV a b i Hi). unfold val.
    rewrite (in_dget _ pair_eqb_ok _ _ _ T1 H). reflexivity.
  - intros i a b Hi Hne. assert (In (a, b) (pairs_at pc i)).
    { destruct (named (pairs_at pc i) a b) eqn:E; [now apply named_in|].
      exfalso. apply Hne. rewrite (share_nopair pc i a b); [reflexivity|]. rewrite <- named_in. congruence. }
    assert (HK : linked pp a b) by (apply HL; eauto).
    destruct HK as [HK|HK]; apply in_map_iff in HK; destruct HK as ([k l] & E & HK); cbn [fst] in E; subst k; eauto.
Qed.

(** While the currents of a net sum to zero the computation succeeds, and what it records is a split of the pin
    currents into currents between pins. *)
Theorem C68_flow : forall n pc, record_of n pc -> (forall i, (i < n)%nat -> balanced (reading_at i pc)) ->
  exists pp f, pair_currents n pc = Some pp /\ records n pp f /\
    forall i, (i < n)%nat -> directed (reading_at i pc) (f i) /\ drawn (reading_at i pc) (f i) /\ supplied (reading_at i pc) (f i).
Proof.
  intros n pc Hr HB. pose proof Hr as [Hnd Hlen].
  assert (Nr : forall i, NoDup (map fst (reading_at i pc))) by (intros i; rewrite reading_names; exact Hnd).
  destruct (pair_currents_spec n pc Hnd Hlen) as (pp & E & H1 & H2 & H3).
  { intros i Hi Hne HS. destruct (pairs_at pc i) as [|[a b] l] eqn:Ep; [congruence|].
    assert (Hin : In (a, b) (pairs_at pc i)) by (rewrite Ep; now left). apply pairs_at_in in Hin.
    destruct Hin as (x & y & Ha & Hb & Hx & Hy). pose proof (sink_supply _ b y (HB i Hi) Hb Hy). lra. }
  exists pp, (fun i => share (reading_at i pc)). split; [exact E|]. split; [now apply spec_records|].
  intros i Hi. split; [apply share_directed|]. split.
  - intros b y Hb Hy. apply (share_drawn _ (Nr i)); auto. exact (sink_supply _ b y (HB i Hi) Hb Hy).
  - apply share_supplied; auto.
Qed.
Print Assumptions C68_flow.

(** The current entering a net at one time, and the current leaving it. *)
Definition entering (r : reading) : Q := total (map (fun c => if Qle_bool 0 (snd c) then snd c else 0) r).
Definition leaving (r : reading) : Q := total (map (fun c => if Qle_bool 0 (snd c) then 0 else - snd c) r).

(** Without that law, wherever a current enters: the drawing pins get their currents, and the entering current is
    scaled to what is drawn. *)
Theorem C68_unbalanced : forall n pc, record_of n pc ->
  (forall i, (i < n)%nat -> (exists p y, In (p, y) (reading_at i pc) /\ y < 0) -> 0 < entering (reading_at i pc)) ->
  exists pp f, pair_currents n pc = Some pp /\ records n pp f /\
    forall i, (i < n)%nat -> directed (reading_at i pc) (f i) /\ drawn (reading_at i pc) (f i) /\
      forall a x, In (a, x) (reading_at i pc) -> 0 < x ->
        total (map (f i a) (map fst pc)) == x * leaving (reading_at i pc) / entering (reading_at i pc).
Proof.
  intros n pc Hr HB. pose proof Hr as [Hnd Hlen].
  assert (Nr : forall i, NoDup (map fst (reading_at i pc))) by (intros i; rewrite reading_names; exact Hnd).
  assert (EE : forall i, entering (reading_at i pc) == supply (reading_at i pc)).
  { intros i. unfold entering, supply. rewrite (qsum_total (map snd (sources (reading_at i pc)))).
    rewrite (total_if (fun c : pin * Q => Qle_bool 0 (snd c)) snd). reflexivity. }
  assert (EL : forall i, leaving (reading_at i pc) == - total (map snd (sinks (reading_at i pc)))).
  { intros i. unfold leaving, sinks. generalize (reading_at i pc). intros r. induction r as [|[p x] r IH]; simpl; [lra|].
    rewrite IH. destruct (Qle_bool 0 x); simpl; lra. }
  destruct (pair_currents_spec n pc Hnd Hlen) as (pp & E & H1 & H2 & H3).
  { intros i Hi Hne HS. destruct (pairs_at pc i) as [|[a b] l] eqn:Ep; [congruence|].
    assert (Hin : In (a, b) (pairs_at pc i)) by (rewrite Ep; now left). apply pairs_at_in in Hin.
    destruct Hin as (x & y & Ha & Hb & Hx & Hy). assert (P : 0 < entering (reading_at i pc)) by (apply HB; eauto). rewrite EE in P. lra. }
  exists pp, (fun i => share (reading_at i pc)). split; [exact E|]. split; [now apply spec_records|].
  intros i Hi. split; [apply share_directed|]. split.
  - intros b y Hb Hy. apply (share_drawn _ (Nr i)); auto. rewrite <- EE. apply HB; eauto.
  - intros a x Ha Hx. rewrite EE, EL, <- (reading_names i pc). apply share_given; auto; [|lra].
    apply Qlt_le_trans with x; [exact Hx|]. unfold supply. rewrite (qsum_total (map snd (sources (reading_at i pc)))). apply total_ge.
    + intros z Hz. apply in_map_iff in Hz. destruct Hz as ([k w] & <- & Hz). apply filter_In in Hz. apply Qle_bool_iff. apply Hz.
    + apply in_map_iff. exists (a, x). split; [reflexivity|]. apply filter_In. split; [exact Ha|]. apply Qle_bool_iff. cbn [snd]. lra.
Qed.
Print Assumptions C68_unbalanced.

(** An idle pin counts as a source: a time with an idle pin, a drawing pin and no supplying pin makes the
    computation fail (division by zero), whatever the other times. *)
Theorem C68_idle_refuted : forall n pc i a b x y, record_of n pc -> (i < n)%nat ->
  In (a, x) (reading_at i pc) -> x == 0 -> In (b, y) (reading_at i pc) -> y < 0 ->
  (forall p z, In (p, z) (reading_at i pc) -> z <= 0) -> pair_currents n pc = None.
Proof. intros n pc i a b x y [Hnd Hlen] Hi Ha Hx Hb Hy Hz. exact (no_supply_fails n pc i a b x y Hnd Hlen Hi Ha Hb Hx Hy Hz). Qed.
Print Assumptions C68_idle_refuted.

(** ** A net *)

(** The pins of the net with a given current. *)
Definition pins_with (currents : list (pin * list Q)) (pins : list pin) (pc : list (pin * list Q)) : Prop :=
  forall p c, In (p, c) pc <-> In p pins /\ dget String.eqb currents p = Some c.

(** Times that grow, from the second on strictly. *)
Definition times_ok (time : list Q) : Prop := StronglySorted Qle time /\ hd 0 time < last time 0.

Lemma times_two time : times_ok time -> time <> [].
Proof. intros [_ H] ->. simpl in H. lra. Qed.

Lemma mean2_ok time cur : times_ok time -> length cur = length time ->
  exists m s, mean2 time cur = Some m /\ mean_square time cur s /\ m == s / (last time 0 - hd 0 time) /\ 0 <= m.
Proof.
  intros Ht Hl. destruct (ms_exists time cur Hl (times_two _ Ht)) as (s & Hs). destruct Ht as [HS HT].
  pose proof (ms_nonneg _ _ _ HS Hs) as H0. unfold mean2, span.
  destruct (Qeq_bool (last time 0 - hd 0 time) 0) eqn:E; [apply Qeq_bool_iff in E; lra|].
  assert (EM : charge2 time cur / (last time 0 - hd 0 time) == s / (last time 0 - hd 0 time)) by (rewrite (charge2_ms _ _ _ Hs); reflexivity).
  assert (P : 0 <= charge2 time cur / (last time 0 - hd 0 time)).
  { rewrite EM. apply Qle_shift_div_l; [lra|]. rewrite Qmult_0_l. exact H0. }
  cbv zeta. pose proof P as P'. apply Qle_bool_iff in P'. rewrite P'. eauto 10.
Qed.

(** Every weight of a net is the mean square over time of the current between its two pins. *)
Theorem C68_net : forall order time currents pins, (forall l, Permutation (order l) l) -> NoDup pins -> times_ok time ->
  (forall p c, dget String.eqb currents p = Some c -> length c = length time) ->
  (forall pc i, NoDup (map fst pc) -> pins_with currents pins pc -> (i < length time)%nat -> balanced (reading_at i pc)) ->
  exists ws f pc, net_flow order time currents pins = Some ws /\ NoDup (map fst pc) /\ pins_with currents pins pc /\
    (forall i, (i < length time)%nat -> directed (reading_at i pc) (f i) /\ drawn (reading_at i pc) (f i) /\ supplied (reading_at i pc) (f i)) /\
    NoDup (map fst ws) /\ (forall a b, In (a, b) (map fst ws) -> ~ In (b, a) (map fst ws)) /\
    (forall a b w, In ((a, b), w) ws -> 0 <= w /\ exists cur s, length cur = length time /\
       (forall i, (i < length time)%nat -> nth i cur 0 == f i a b + f i b a) /\
       mean_square time cur s /\ w == s / (last time 0 - hd 0 time)) /\
    (forall i a b, (i < length time)%nat -> ~ f i a b == 0 -> exists w, In ((a, b), w) ws \/ In ((b, a), w) ws).
Proof.
  intros order time currents pins Ho Hnd Ht Hlen HB.
  destruct (known_spec order currents pins Ho Hnd) as (K1 & K2). set (pc := known order currents pins) in *.
  assert (Hr : record_of (length time) pc).
  { split; [exact K1|]. intros p l H. apply K2 in H. destruct H as [_ H]. eauto. }
  destruct (C68_flow (length time) pc Hr (fun i Hi => HB pc i K1 K2 Hi)) as (pp & f & E & (R1 & R2 & R3 & R4) & Hf).
  assert (M : exists ws, mapM (fun e => option_map (pair (fst e)) (mean2 time (snd e))) pp = Some ws).
  { apply mapM_total. intros [[a b] l] H. destruct (R3 _ _ _ H) as [Hl _]. destruct (mean2_ok time l Ht Hl) as (m & s & Em & _). exists ((a, b), m). cbn [fst snd]. rewrite Em. reflexivity. }
  destruct M as (ws & M). exists ws, f, pc. split.
  { unfold net_flow. fold pc. destruct pc as [|e pc'].
    - assert (pp = []) as ->.
      { destruct pp as [|[[a b] l] pp]; [reflexivity|]. exfalso. revert E. clear. unfold pair_currents.
        assert (G : forall ks, foldO (time_step (length time) []) ks [] = Some []) by (induction ks; simpl; auto). rewrite G. discriminate. }
      cbn in M. exact M.
    - rewrite E. exact M. }
  apply mapM_F2' in M.
  assert (EK : map fst ws = map fst pp).
  { clear - M. induction M as [|x y l r H _ IH]; [reflexivity|]. cbn [map]. rewrite IH. f_equal.
    destruct (mean2 time (snd x)); [|discriminate]. injection H as <-. reflexivity. }
  split; [exact K1|]. split; [exact K2|]. split; [exact Hf|]. rewrite EK. split; [exact R1|]. split; [exact R2|]. split.
  - intros a b w Hw. destruct (F2_in_r _ _ _ _ M Hw) as ([k l] & Hl & H). cbn [fst snd] in H.
    destruct (mean2 time l) as [m|] eqn:Em; [|discriminate]. injection H as -> <-.
    destruct (R3 _ _ _ Hl) as [L1 L2]. destruct (mean2_ok time l Ht L1) as (m' & s & Em' & Hs & Hm & H0). rewrite Em in Em'. injection Em' as <-.
    split; [exact H0|]. exists l, s. auto.
  - intros i a b Hi Hne. destruct (R4 i a b Hi Hne) as (l & [H|H]); destruct (F2_in_l _ _ _ _ M H) as ([k w] & Hw & Ew); cbn [fst snd] in Ew;
      destruct (mean2 time l); try discriminate; injection Ew as <- _; eauto.
Qed.
Print Assumptions C68_net.

(** The weights of a constraint: the pins of a net are the formals tied to it; supply nets are left out, as are nets
    without weights. *)
Theorem C68_nets : forall order supplies insts time currents out, const_flow order supplies insts time currents = Some out ->
  forall net ws, In (net, ws) out <->
    ws <> [] /\ exists pins, In (net, pins) (nets_of supplies insts) /\ net_flow order time currents pins = Some ws /\
      NoDup pins /\ ~ In net supplies /\ forall p, In p pins <-> pin_of insts net p.
Proof.
  intros order supplies insts time currents out H net ws. unfold const_flow in H.
  destruct (mapM _ (nets_of supplies insts)) as [r|] eqn:E; [|discriminate]. injection H as <-. apply mapM_F2' in E.
  destruct (nets_of_spec supplies insts) as (N1 & N2 & N3). rewrite filter_In. split.
  - intros [Hin Hne]. cbn [snd] in Hne. split; [destruct ws; [discriminate|discriminate]|].
    destruct (F2_in_r _ _ _ _ E Hin) as ([n' pins] & Hp & Ew). cbn [fst snd] in Ew.
    destruct (net_flow order time currents pins) as [ws'|] eqn:Ef; [|discriminate]. injection Ew as -> ->.
    assert (U : forall ps, In (net, ps) (nets_of supplies insts) -> ps = pins).
    { intros ps Hps. apply (in_dget _ String.eqb_eq _ _ _ N1) in Hps, Hp. congruence. }
    assert (NE : exists p, In p pins).
    { destruct pins as [|p pins]; [|exists p; now left]. exfalso. unfold net_flow, known in Ef. clear - Ef Hne Hp N1 N2 N3.
      assert (Z : forall d (l : list (string * (string * string))), (forall n ps, In (n, ps) d -> ps <> []) ->
        forall n ps, In (n, ps) (fold_left (fun d ip => if existsb (String.eqb (snd (snd ip))) supplies then d
                         else add_pin d (snd (snd ip)) (fst ip ++ "/" ++ fst (snd ip))%string) l d) -> ps <> []).
      { intros d l. revert d. induction l as [|ip l IH]; intros d Hd n ps Hps; [eauto|]. cbn [fold_left] in Hps. eapply IH; [|exact Hps].
        intros n' ps' H'. destruct (existsb _ supplies); [eauto|]. revert H'. unfold add_pin. clear - Hd.
        induction d as [|[k v] d IHd]; cbn [dupd]; [intros [[= <- <-]|[]]; discriminate|].
        destruct (String.eqb (snd (snd ip)) k).
        - intros [[= <- <-]|H]; [|eapply Hd; right; exact H]. destruct (existsb _ v) eqn:Ev; [destruct v; discriminate|destruct v; discriminate].
        - intros [[= <- <-]|H]; [eapply Hd; left; reflexivity|]. apply IHd; auto. intros; eapply Hd; right; eauto. }
      apply (Z [] _ (fun _ _ F => match F with end) net [] Hp eq_refl). }
    exists pins. split; [exact Hp|]. split; [exact Ef|]. split; [eauto|]. destruct NE as (p0 & Hp0).
    split; [apply (N3 net p0); eauto|]. intros p. split.
    + intros Hpp. apply (N3 net p). eauto.
    + intros Hpo. assert (HN : ~ In net supplies) by (apply (N3 net p0); eauto).
      destruct (proj2 (N3 net p) (conj HN Hpo)) as (ps & Hps & Hpi). rewrite <- (U ps Hps). exact Hpi.
  - intros (Hne & pins & Hp & Ef & _). split; [|destruct ws; [congruence|reflexivity]].
    destruct (F2_in_l _ _ _ _ E Hp) as (e & He & Ee). cbn [fst snd] in Ee. rewrite Ef in Ee. injection Ee as <-. exact He.
Qed.
Print Assumptions C68_nets.

(** ** Scaling *)
Definition weights (rs : list (list (string * list ((pin * pin) * Q)))) : list Q := map snd (concat (map snd (concat rs))).

Lemma max_ge l : 0 <= fold_right Qmax 0 l /\ forall x, In x l -> x <= fold_right Qmax 0 l.
Proof.
  induction l as [|y l [IH0 IH]]; simpl; [split; [lra|tauto]|]. pose proof (Q.le_max_l y (fold_right Qmax 0 l)). pose proof (Q.le_max_r y (fold_right Qmax 0 l)).
  split; [lra|]. intros x [->|Hx]; [exact H|]. specialize (IH x Hx). lra.
Qed.
Lemma max_in l : 0 < fold_right Qmax 0 l -> exists x, In x l /\ x == fold_right Qmax 0 l.
Proof.
  induction l as [|y l IH]; simpl; intros H; [lra|]. destruct (Qlt_le_dec y (fold_right Qmax 0 l)) as [L|L].
  - assert (E : Qmax y (fold_right Qmax 0 l) == fold_right Qmax 0 l) by (apply Q.max_r; lra). destruct IH as (x & Hx & Ex); [lra|].
    exists x. split; [auto|]. lra.
  - exists y. split; [auto|]. symmetry. now apply Q.max_l.
Qed.

Lemma weights_map (g : Q -> Q) rs : weights (map (map (fun e => (fst e, map (fun q : (pin * pin) * Q => (fst q, g (snd q))) (snd e)))) rs) = map g (weights rs).
Proof.
  unfold weights. induction rs as [|r rs IH]; [reflexivity|]. cbn [map concat]. rewrite !map_app, !concat_app, !map_app, IH. f_equal. clear.
  induction r as [|[n ws] r IH]; [reflexivity|]. cbn [map concat fst snd]. rewrite !map_app, IH. f_equal. rewrite !map_map. reflexivity.
Qed.

(** After scaling every weight is between 0 and 1, the largest being 1 unless all are 0; ratios are kept. *)
Theorem C68_scaled : forall order supplies insts cons out, charge_flows order supplies insts cons = Some out ->
  exists rs, mapM (fun c => const_flow order supplies insts (fst c) (snd c)) cons = Some rs /\
    exists c, 0 < c /\ Forall2 (fun r o => o == c * r) (weights rs) (weights out) /\
      (Forall (fun w => 0 <= w) (weights rs) -> Forall (fun w => 0 <= w <= 1) (weights out) \/ Forall (fun w => w == 0) (weights out)) /\
      ((exists w, In w (weights rs) /\ 0 < w) -> Forall (fun w => w <= 1) (weights out) /\ exists w, In w (weights out) /\ w == 1).
Proof.
  intros order supplies insts cons out H. unfold charge_flows in H.
  destruct (mapM _ cons) as [rs|] eqn:E; [|discriminate]. injection H as <-. exists rs. split; [reflexivity|].
  destruct (max_ge (weights rs)) as [M0 M1]. unfold scaled, max2. fold (weights rs). set (m := fold_right Qmax 0 (weights rs)) in *.
  unfold Qltb. destruct (Qle_bool m 0) eqn:Em; cbn [negb].
  - apply Qle_bool_iff in Em. exists 1. split; [lra|]. split; [|split].
    + clear. induction (weights rs) as [|w ws IH]; constructor; [lra|exact IH].
    + intros HF. right. rewrite Forall_forall in *. intros w Hw. specialize (HF w Hw). specialize (M1 w Hw). lra.
    + intros (w & Hw & Hp). specialize (M1 w Hw). lra.
  - apply Qleb_false in Em. rewrite (weights_map (fun q => q / m)). exists (/ m). split; [now apply Qinv_lt_0_compat|].
    assert (Hle : forall w, In w (weights rs) -> w / m <= 1).
    { intros w Hw. apply Qle_shift_div_r; [exact Em|]. rewrite Qmult_1_l. auto. }
    split; [|split].
    + clear. generalize m. clear m. intros m. induction (weights rs) as [|w ws IH]; constructor; [unfold Qdiv; ring|exact IH].
    + intros HF. left. rewrite Forall_forall in *. intros w Hw. apply in_map_iff in Hw. destruct Hw as (r & <- & Hr). split; [|auto].
      apply Qle_shift_div_l; [exact Em|]. rewrite Qmult_0_l. auto.
    + intros _. split.
      * apply Forall_forall. intros w Hw. apply in_map_iff in Hw. destruct Hw as (r & <- & Hr). auto.
      * destruct (max_in (weights rs) Em) as (w & Hw & Ew). exists (w / m). split; [exact (in_map (fun q => q / m) _ _ Hw)|]. fold m in Ew. rewrite Ew. field. lra.
Qed.
Print Assumptions C68_scaled.

(** ** Findings *)
Local Open Scope string_scope.
Local Open Scope list_scope.
Local Open Scope Q_scope.

(** The validator admits one time; the computation then divides by the zero length of time. *)
Theorem C68_one_time_refuted : forall order t a b x, (forall l, Permutation (order l) l) -> a <> b -> 0 < x ->
  net_flow order [t] [(a, [x]); (b, [- x])] [a; b] = None.
Proof.
  intros order t a b x Ho Hab Hx.
  destruct (known_spec order [(a, [x]); (b, [- x])] [a; b] Ho) as (K1 & K2); [repeat constructor; simpl; intuition|].
  assert (Hr : record_of 1 (known order [(a, [x]); (b, [- x])] [a; b])).
  { split; [exact K1|]. intros p l H. apply K2 in H. destruct H as [_ H]. cbn [dget] in H.
    destruct (String.eqb p a); [injection H as <-; reflexivity|]. destruct (String.eqb p b); [injection H as <-; reflexivity|discriminate]. }
  unfold net_flow. set (pc := known order [(a, [x]); (b, [- x])] [a; b]) in *.
  assert (Ia : In (a, [x]) pc) by (apply K2; split; [simpl; auto|]; cbn [dget]; now rewrite String.eqb_refl).
  assert (Ib : In (b, [- x]) pc).
  { apply K2; split; [simpl; auto|]. cbn [dget]. rewrite String.eqb_refl. replace (String.eqb b a) with false; [reflexivity|].
    symmetry. apply String.eqb_neq. congruence. }
  assert (Ra : In (a, x) (reading_at 0 pc)) by (exact (in_map (fun z => (fst z, nth 0 (snd z) 0)) _ _ Ia)).
  assert (Rb : In (b, - x) (reading_at 0 pc)) by (exact (in_map (fun z => (fst z, nth 0 (snd z) 0)) _ _ Ib)).
  destruct Hr as [Hnd Hlen]. destruct (pair_currents_spec 1 pc Hnd Hlen) as (pp & E & T & H2 & H3).
  { intros i Hi _ HS. replace i with 0%nat in HS by lia. revert HS. unfold supply. rewrite (qsum_total (map snd (sources (reading_at 0 pc)))). intros HS.
    assert (x <= total (map snd (sources (reading_at 0 pc)))); [|lra]. apply total_ge.
    - intros z Hz. apply in_map_iff in Hz. destruct Hz as ([k w] & <- & Hz). apply filter_In in Hz. apply Qle_bool_iff. apply Hz.
    - apply in_map_iff. exists (a, x). split; [reflexivity|]. apply filter_In. split; [exact Ra|]. apply Qle_bool_iff. cbn [snd]. lra. }
  assert (HP : linked pp a b).
  { apply H2. exists 0%nat. split; [lia|]. left. apply pairs_at_in. exists x, (- x). repeat split; auto; lra. }
  destruct pc as [|e pc']; [destruct Ia|]. cbn [length]. rewrite E. destruct pp as [|[k l] pp]; [destruct HP as [[]|[]]|].
  cbn [mapM fst snd]. unfold mean2 at 1, span. cbn [last hd]. replace (Qeq_bool (t - t) 0) with true; [reflexivity|].
  symmetry. apply Qeq_bool_iff. lra.
Qed.
Print Assumptions C68_one_time_refuted.

(** The direction of a current is lost: the flow between two pins that reverses has mean 0 over the interval and is
    given weight 1. *)
Theorem C68_reversed_refuted :
  let pc := [("X/A", [1; -(1)]); ("Y/B", [-(1); 1])] in
  (forall i, (i < 2)%nat -> balanced (reading_at i pc)) /\
  (exists w, net_flow (fun l => l) [0; 1] pc ["X/A"; "Y/B"] = Some [(("X/A", "Y/B"), w)] /\ w == 1) /\
  mean_square [0; 1] [1; -(1)] ((1 - 0) * ((1 + -(1)) / 2) * ((1 + -(1)) / 2) + 0) /\
  (1 - 0) * ((1 + -(1)) / 2) * ((1 + -(1)) / 2) + 0 == 0.
Proof.
  intros pc. split; [|split; [|split]].
  - intros [|[|i]] Hi; [reflexivity|reflexivity|lia].
  - eexists. split; [vm_compute; reflexivity|reflexivity].
  - constructor. constructor.
  - reflexivity.
Qed.
Print Assumptions C68_reversed_refuted.

(** A net with one driver and two loads whose shares change over time. *)
Definition c68_insts :=
  [mkFinst "X" [("D", "N"); ("S", "VSS")]; mkFinst "Y" [("G", "N"); ("S", "VSS")]; mkFinst "Z" [("G", "N"); ("D", "M")]].
Definition c68_currents := [("X/D", [3; 4; 0]); ("Y/G", [-(1); -(4); 2]); ("Z/G", [-(2); 0; -(2)]); ("X/S", [1; 1; 1])].

Example C68_nonvacuous : exists w1 w2 w3,
  const_flow (fun l => l) ["VSS"] c68_insts [0; 1; 2] c68_currents =
    Some [("N", [(("X/D", "Y/G"), w1); (("X/D", "Z/G"), w2); (("Z/G", "Y/G"), w3)])] /\
  w1 == 41 # 8 /\ w2 == 1 # 2 /\ w3 == 1 # 2.
Proof. do 3 eexists. split; [vm_compute; reflexivity|]. repeat split; vm_compute; reflexivity. Qed.

Example C68_hypotheses :
  times_ok [0; 1; 2] /\ (forall p c, dget String.eqb c68_currents p = Some c -> length c = 3%nat) /\
  record_of 3 (known (fun l => l) c68_currents ["X/D"; "Y/G"; "Z/G"]) /\
  forall i, (i < 3)%nat -> balanced (reading_at i (known (fun l => l) c68_currents ["X/D"; "Y/G"; "Z/G"])).
Proof.
  split; [|split; [|split]].
  - split; [|reflexivity]. repeat (apply SSorted_cons || apply SSorted_nil || apply Forall_cons || apply Forall_nil); lra.
  - intros p c H. apply (dget_in _ String.eqb_eq) in H. simpl in H. intuition; match goal with E : (_, _) = (_, _) |- _ => injection E as _ <-; reflexivity end.
  - split; [vm_compute; repeat constructor; simpl; intuition discriminate|].
    intros p l H. vm_compute in H. intuition; match goal with E : (_, _) = (_, _) |- _ => injection E as _ <-; reflexivity end.
  - intros [|[|[|i]]] Hi; [reflexivity|reflexivity|reflexivity|lia].
Qed.
