(** All passes of one circuit together (Model/Preprocess.v). *)
From Coq Require Import String Ascii.
From Verif Require Import Base.Prelude Base.PyDict Base.PyStr Model.RemoveDuplicates Model.Netlist Model.DefineSD Model.Preprocess Spec.NetlistSpec Spec.ChannelSpec Spec.PhysicsSpec.
From Verif Require Import Proofs.RemoveDuplicatesP Proofs.DefineSDP Proofs.NetlistP Proofs.ParallelP Proofs.SeriesP Proofs.SeriesSemP Proofs.SymConstP Proofs.PreprocessP Proofs.PhysicsP.

(** * Source and drain *)
Definition turned (L : models) (e e' : elem) : Prop :=
  e' = e \/ (get_base_model L (e_model e) = "PMOS" \/ get_base_model L (e_model e) = "NMOS")%string /\ exchanged e e' /\ (exists d, sget (e_pins e) "D" = Some d) /\ exists s, sget (e_pins e) "S" = Some s.
Lemma sd_turned L ports power gnd els els' : wf_netlist els -> define_SD L ports power gnd els = Some els' -> Forall2 (turned L) els els'.
Proof.
  intros Hwf E. assert (Hp : wf_pins els) by (split; [exact (proj1 Hwf)|]; destruct Hwf as (_ & H & _); eapply Forall_impl; [|exact H]; intros e He; apply He).
  destruct (result L els ports power gnd els' E) as [->|(-> & _)].
  - assert (G : forall l, incl l els -> Forall2 (turned L) l (map (fun e => if flip L els ports power gnd (e_name e) then swap_SD e else e) l)).
    { induction l as [|e l IH]; intros Hl; cbn [map]; constructor; [|apply IH; intros x Hx; apply Hl; now right].
      assert (He : In e els) by (apply Hl; now left). destruct (flip L els ports power gnd (e_name e)) eqn:Ef; [right|now left].
      destruct (flip_mos L els ports power gnd Hp e He Ef) as (Hb & (d & Hd) & s & Hs). unfold base_of in Hb. rewrite (find_name els (proj1 Hp) e He) in Hb.
      split; [exact Hb|]. split; [now apply (swap_exchanged e d s)|]. split; eauto. }
    apply G, incl_refl.
  - clear. induction els; constructor; auto. now left.
Qed.
Lemma turned_keys L e e' : turned L e e' -> e_name e' = e_name e /\ e_model e' = e_model e /\ e_params e' = e_params e /\ map fst (e_pins e') = map fst (e_pins e).
Proof. intros [->|(_ & H & _)]; [auto|]. destruct H as (H1 & H2 & H3 & H4 & _). auto. Qed.
Lemma F2_in {A B} (R : A -> B -> Prop) l l' : Forall2 R l l' -> (forall y, In y l' -> exists x, In x l /\ R x y) /\ (forall x, In x l -> exists y, In y l' /\ R x y).
Proof.
  induction 1 as [|x y l l' H _ (I1 & I2)]; [split; intros ? []|]. split.
  - intros z [<-|Hz]; [exists x; split; [now left|exact H]|]. destruct (I1 z Hz) as (w & Hw & Hr). exists w. split; [now right|exact Hr].
  - intros z [<-|Hz]; [exists y; split; [now left|exact H]|]. destruct (I2 z Hz) as (w & Hw & Hr). exists w. split; [now right|exact Hr].
Qed.
Lemma turned_names L els els' : Forall2 (turned L) els els' -> map e_name els' = map e_name els.
Proof. induction 1 as [|e e' l l' H _ IH]; [reflexivity|]. cbn. destruct (turned_keys _ _ _ H) as (-> & _). now rewrite IH. Qed.
Lemma turned_wf L els els' : wf_netlist els -> Forall2 (turned L) els els' -> wf_netlist els'.
Proof.
  intros Hwf HF. destruct (F2_in _ _ _ HF) as (I1 & _). split; [rewrite (turned_names L els els' HF); exact (proj1 Hwf)|]. split.
  - apply Forall_forall. intros e' He'. destruct (I1 e' He') as (e & He & H). destruct (turned_keys _ _ _ H) as (_ & _ & E1 & E2). destruct (wfe els Hwf e He) as (W1 & W2 & W3 & W4 & W5).
    unfold wf_elem. rewrite E1, E2. repeat split; auto. intros E. rewrite E in E2. destruct (e_pins e); [now apply W5|discriminate].
  - intros a' b' Ha' Hb' Hm. destruct (I1 a' Ha') as (a & Ha & HA), (I1 b' Hb') as (b & Hb & HB). destruct (turned_keys _ _ _ HA) as (_ & M1 & P1 & K1), (turned_keys _ _ _ HB) as (_ & M2 & P2 & K2).
    rewrite M1, M2 in Hm. destruct (keys_ok els Hwf a b Ha Hb Hm) as (Q1 & Q2). unfold same_keys. rewrite K1, K2, P1, P2. split; [exact Q1|exact Q2].
Qed.
Lemma turned_stack L els els' : Forall2 (turned L) els els' -> stack_ok els -> stack_ok els'.
Proof.
  intros HF (H1 & H2). destruct (F2_in _ _ _ HF) as (I1 & _). split.
  - intros e' s He' E. destruct (I1 e' He') as (e & He & H). destruct (turned_keys _ _ _ H) as (_ & _ & E1 & _). rewrite E1 in E. eauto.
  - intros e' p q He' Hp Hq. destruct (I1 e' He') as (e & He & H). destruct (turned_keys _ _ _ H) as (_ & _ & _ & E2). rewrite E2. eauto.
Qed.
Lemma turned_pos L els els' : Forall2 (turned L) els els' -> stack_pos els -> stack_pos els'.
Proof.
  intros HF Hp e' s k He' E. destruct (F2_in _ _ _ HF) as (I1 & _). destruct (I1 e' He') as (e & He & H). destruct (turned_keys _ _ _ H) as (_ & _ & E1 & _). rewrite E1 in E. eauto.
Qed.
Lemma exchanged_sym e e' : exchanged e e' -> exchanged e' e.
Proof. intros (H1 & H2 & H3 & H4 & H5 & H6 & H7). repeat split; try (symmetry; assumption). intros p N1 N2. symmetry. now apply H7. Qed.
Lemma exch_nets e e' n : exchanged e e' -> (exists k, sget (e_pins e) k = Some n) -> exists k, sget (e_pins e') k = Some n.
Proof.
  intros (_ & _ & _ & _ & HD & HS & HO) (p & Hp). destruct (String.eqb_spec p "D") as [->|ND]; [exists "S"%string; congruence|]. destruct (String.eqb_spec p "S") as [->|NS]; [exists "D"%string; congruence|].
  exists p. now rewrite HO.
Qed.
Lemma turned_nets L els els' n : wf_netlist els -> Forall2 (turned L) els els' -> In n (nets els') <-> In n (nets els).
Proof.
  intros Hwf HF. pose proof (turned_wf L els els' Hwf HF) as Hwf'. rewrite (net_in els' n (proj1 (proj2 Hwf'))), (net_in els n (proj1 (proj2 Hwf))). destruct (F2_in _ _ _ HF) as (I1 & I2). split.
  - intros (e' & k & He' & E). destruct (I1 e' He') as (e & He & [->|(_ & H & _)]); [now exists e, k|]. apply exchanged_sym in H. destruct (exch_nets e' e n H (ex_intro _ k E)) as (k' & E'). now exists e, k'.
  - intros (e & k & He & E). destruct (I2 e He) as (e' & He' & [->|(_ & H & _)]); [now exists e, k|]. destruct (exch_nets e e' n H (ex_intro _ k E)) as (k' & E'). now exists e', k'.
Qed.

Section All.
  Context {V : Type} (I : interp V) (pol : string -> option polarity) (hi lo : V) (L : models).
  Hypothesis PH : physical I pol hi lo.
  Hypothesis Hbase : forall m, get_base_model L m = "PMOS"%string \/ get_base_model L m = "NMOS"%string -> pol m <> None.
  Hypothesis HN : forall m, root L m "NMOS" -> pol m = Some Nch.
  Hypothesis HP : forall m, root L m "PMOS" -> pol m = Some Pch.
  Lemma turned_sat r els els' : Forall2 (turned L) els els' -> sat I r els <-> sat I r els'.
  Proof.
    intros HF. unfold sat. rewrite !Forall_forall. destruct (F2_in _ _ _ HF) as (I1 & I2). split.
    - intros H e' He'. destruct (I1 e' He') as (e & He & [->|(Hb & Hx & (d & Hd) & s & Hs)]); [auto|]. apply (holds_exchanged I pol hi lo PH r e e' d s); auto.
    - intros H e He. destruct (I2 e He) as (e' & He' & [->|(Hb & Hx & (d & Hd) & s & Hs)]); [auto|].
      apply (holds_exchanged I pol hi lo PH r e' e s d); auto; [|destruct Hx as (_ & _ & _ & _ & HD & HS & _); congruence|destruct Hx as (_ & _ & _ & _ & HD & HS & _); congruence|now apply exchanged_sym].
      destruct Hx as (_ & -> & _). now apply Hbase.
  Qed.
  Lemma sat_ext r r' els : wf_netlist els -> (forall n, In n (nets els) -> r n = r' n) -> sat I r els -> sat I r' els.
  Proof.
    intros Hwf Hr H. unfold sat in *. rewrite Forall_forall in *. intros e He. apply (holds_ext I r r'); [|auto]. intros k n E. apply Hr. apply (net_in els n (proj1 (proj2 Hwf))). eauto.
  Qed.
  Lemma wf_filter f els : wf_netlist els -> wf_netlist (filter f els).
  Proof.
    intros (H1 & H2 & H3). split; [now apply nodup_filter_map|]. split.
    - rewrite Forall_forall in *. intros e He. apply filter_In in He as (He & _). auto.
    - intros a b Ha Hb. apply filter_In in Ha as (Ha & _). apply filter_In in Hb as (Hb & _). auto.
  Qed.
  Theorem preprocess_sat ord sw pins power gnd els out : (forall l, Permutation (ord l) l) -> wf_netlist els -> stack_ok els -> stack_pos els ->
    preprocess ord sw L pins power gnd els = Some out ->
    wf_netlist out /\ (forall n, In n (nets out) -> In n (nets els)) /\
    (forall r, (forall n, In n power -> r n = hi) -> (forall n, In n gnd -> r n = lo) -> sat I r out ->
       exists r', (forall n, In n (nets out) \/ ~ internal pins els n -> r' n = r n) /\ sat I r' els) /\
    (forall r, sat I r els -> sat I r out).
  Proof.
    intros Hord Hwf Hst Hpos. unfold preprocess. destruct (sw_digital sw).
    { intros [= <-]. split; [exact Hwf|]. split; [auto|]. split; [intros r _ _ H; exists r; auto|auto]. }
    destruct (if sw_sd sw then define_SD L pins power gnd els else Some els) as [e1|] eqn:E1; [|discriminate].
    assert (F1 : Forall2 (turned L) els e1).
    { destruct (sw_sd sw); [exact (sd_turned L pins power gnd els e1 Hwf E1)|]. injection E1 as <-. clear. induction els; constructor; auto. now left. }
    pose proof (turned_wf L els e1 Hwf F1) as W1. pose proof (turned_stack L els e1 F1 Hst) as S1. pose proof (turned_pos L els e1 F1 Hpos) as P1.
    set (e2 := if sw_parallel sw then add_parallel_devices (ord (nets e1)) e1 else e1).
    assert (F2 : wf_netlist e2 /\ psim e1 e2).
    { unfold e2. destruct (sw_parallel sw); [now apply par_pass|]. split; [exact W1|]. split; [intros x Hx; exists x; split; [exact Hx|now left]|intros e He; exists e; split; [exact He|apply same_refl]]. }
    destruct F2 as (W2 & F2). pose proof (psim_stack e1 e2 F2 S1) as S2. pose proof (psim_pos e1 e2 F2 P1) as P2.
    assert (N2 : forall n, In n (nets e2) <-> In n (nets els)) by (intros n; rewrite (psim_nets e1 e2 n W1 W2 F2); exact (turned_nets L els e1 n Hwf F1)).
    assert (Q2 : forall r, sat I r els <-> sat I r e2) by (intros r; rewrite (turned_sat r els e1 F1); exact (psim_sat I pol hi lo PH r e1 e2 F2)).
    destruct (if sw_series sw then add_series_devices (ord (filter (fun n => negb (in_strs n pins)) (nets e2))) e2 else Some e2) as [e3|] eqn:E3; [|discriminate].
    assert (F3 : wf_netlist e3 /\ stack_ok e3 /\ stack_pos e3 /\ (forall n, In n (nets e3) -> In n (nets els)) /\
                 (forall r, sat I r e3 -> exists r', (forall n, In n (nets e3) \/ ~ internal pins els n -> r' n = r n) /\ sat I r' els) /\ (forall r, sat I r els -> sat I r e3)).
    { destruct (sw_series sw).
      - set (order := ord (filter (fun n => negb (in_strs n pins)) (nets e2))) in *.
        assert (Ho : forall n, In n order <-> internal pins els n).
        { intros n. unfold order, internal. split.
          - intros H. apply (Permutation_in _ (Hord _)) in H. apply filter_In in H as (H & Hn). split; [now apply N2|]. apply negb_true_iff, in_strs_false in Hn. exact Hn.
          - intros (H & Hn). apply (Permutation_in _ (Permutation_sym (Hord _))). apply filter_In. split; [now apply N2|]. apply negb_true_iff, in_strs_false. exact Hn. }
        assert (Hnd : NoDup order) by (unfold order; apply (Permutation_NoDup (Permutation_sym (Hord _))), NoDup_filter, nets_nodup).
        assert (Hin : forall n, In n order -> In n (nets e2)) by (intros n Hn; apply N2, Ho, Hn).
        destruct (series_pass order e2 W2 S2 Hnd Hin) as (out' & E' & So). assert (out' = e3) as -> by congruence.
        split; [apply So|]. split; [apply So|]. split; [exact (series_pass_pos order e2 e3 W2 S2 P2 Hnd Hin E3)|]. split; [|split].
        + intros n Hn. apply N2. now apply (so_nets _ _ _ So).
        + intros r H. apply (so_complete _ _ _ So) in H as (r' & Hr & H). exists r'. split; [|now apply Q2]. intros n Hn. apply Hr. intros Hi. destruct Hn as [Hn|Hn]; [exact Hn|]. exfalso. apply Hn, Ho, Hi.
        + intros r H. apply (so_sound _ _ _ So). now apply Q2.
      - injection E3 as <-. split; [exact W2|]. split; [exact S2|]. split; [exact P2|]. split; [intros n Hn; now apply N2|]. split; [|intros r H; now apply Q2].
        intros r H. exists r. split; [auto|now apply Q2]. }
    destruct F3 as (W3 & S3 & P3 & N3 & C3 & D3).
    intros E4. assert (F4 : out = e3 \/ (out = filter (keep L power gnd) e3 /\ (forall e, In e e3 -> exists r, root L (e_model e) r))).
    { destruct (sw_dummy sw); [|injection E4 as <-; now left]. destruct (remove_ok L power gnd e3 out (proj1 W3) E4) as [(_ & _ & ->)|H]; [now left|now right]. }
    destruct F4 as [->|(-> & Hroot)].
    - split; [exact W3|]. split; [exact N3|]. split; [intros r _ _ H; now apply C3|exact D3].
    - pose proof (wf_filter (keep L power gnd) e3 W3) as W4.
      assert (N4 : forall n, In n (nets (filter (keep L power gnd) e3)) -> In n (nets e3)).
      { intros n Hn. apply (net_in _ n (proj1 (proj2 W4))) in Hn as (e & k & He & Ek). apply filter_In in He as (He & _). apply (net_in _ n (proj1 (proj2 W3))). eauto. }
      split; [exact W4|]. split; [intros n Hn; now apply N3, N4|]. split.
      + intros r Hhi Hlo H. assert (H3 : sat I r e3).
        { unfold sat in *. rewrite Forall_forall in *. intros e He. destruct (keep L power gnd e) eqn:K; [apply H; now apply filter_In|].
          apply (holds_dummy I pol hi lo PH L power gnd r e HN HP Hhi Hlo).
          - intros e' s k [<-|[]]. now apply P3.
          - intros s Es. destruct S3 as (S3 & _). destruct (S3 e s He Es) as (k & _ & Ek). eauto.
          - destruct (Hroot e He) as (b & Hb). pose proof Hb as Hb'. apply root_go_ok in Hb'. unfold keep in K. rewrite Hb' in K. apply negb_false_iff in K. now apply (is_dummy_ok L power gnd b). }
        destruct (C3 r H3) as (r' & Hr & Hs). exists r'. split; [|exact Hs]. intros n [Hn|Hn]; apply Hr; auto.
      + intros r H. apply D3 in H. unfold sat in *. rewrite Forall_forall in *. intros e He. apply filter_In in He as (He & _). auto.
  Qed.
End All.
