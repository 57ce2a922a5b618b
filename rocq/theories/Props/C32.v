(** C32: merging series devices preserves the circuit. *)
From Coq Require Import String Ascii.
From Verif Require Import Base.Prelude Base.PyDict Base.PyStr Model.RemoveDuplicates Model.Netlist Spec.NetlistSpec Proofs.NetlistP Proofs.ParallelP Proofs.SeriesP Proofs.SeriesSemP.
Local Open Scope Z_scope.

(** For every visiting order of the internal nets the pass succeeds; only internal nets disappear;
    the total stack count stays; whatever the devices do, the values of the remaining nets allowed
    by the result are exactly those allowed by the original netlist; and no internal net is left
    where two devices could be stacked. *)
Theorem C32_pass pins order els :
  wf_netlist els -> stack_ok els -> NoDup order -> (forall n, In n order <-> internal pins els n) ->
  exists out, add_series_devices order els = Some out /\ wf_netlist out /\
    (forall n, In n (nets out) -> In n (nets els)) /\
    (forall n, In n (nets els) -> ~ In n (nets out) -> internal pins els n) /\
    total_stack out = total_stack els /\
    (forall V (I : interp V) r,
       sat I r out <-> exists r', (forall n, In n (nets out) \/ ~ internal pins els n -> r' n = r n) /\ sat I r' els) /\
    (forall n a b p q, internal pins out n -> ~ stackable out n a b p q).
Proof.
  intros Hwf Hst Hnd Ho. destruct (series_pass order els Hwf Hst Hnd) as (out & E & So).
  - intros n Hn. apply Ho in Hn. apply Hn.
  - exists out. split; [assumption|]. split; [apply So|]. split; [apply So|]. split; [|split; [apply So|split]].
    + intros n Hn Hx. apply Ho. destruct (in_dec string_dec n order) as [|Hi]; [assumption|]. exfalso. apply Hx, (so_keep _ _ _ So); assumption.
    + intros V I r. split.
      * intros H. apply (so_complete _ _ _ So) in H as (r' & Hr & H). exists r'. split; [|assumption]. intros n Hn. apply Hr. intros Hi.
        destruct Hn as [|Hn]; [assumption|]. exfalso. now apply Hn, Ho.
      * intros (r' & Hr & H). apply (so_sound _ _ _ So) in H. unfold sat in *. rewrite Forall_forall in *. intros e He. apply (holds_ext I r'); [|auto].
        intros k n Ek. apply Hr. left. apply net_in; [apply So|eauto].
    + intros n a b p q (Hn & Hp). apply (so_done _ _ _ So). apply Ho. split; [now apply (so_nets _ _ _ So)|assumption].
Qed.

(** One merge in full: the device with the smaller name takes over the far terminal of the other
    one and the sum of the counts; the other device disappears; everything else is as it was. *)
Theorem C32_one els net a b p q :
  wf_netlist els -> stack_ok els -> stackable els net a b p q -> String.ltb (e_name a) (e_name b) = true ->
  exists out m, series_step els net = Some out /\
    e_name m = e_name a /\ e_model m = e_model a /\ stack_count m = stack_count a + stack_count b /\
    sget (e_pins m) p = sget (e_pins b) p /\ (forall k, k <> p -> sget (e_pins m) k = sget (e_pins a) k) /\
    (forall k, k <> STACK -> sget (e_params m) k = sget (e_params a) k) /\
    (forall z, In z out <-> z = m \/ In z els /\ z <> a /\ z <> b).
Proof.
  intros Hwf Hst H Hlt. destruct (stack_pair_yes els Hwf Hst net a b p q H) as (y & s1 & s2 & Hy & Hyn & C1 & C2 & P1 & P2 & E).
  exists (merge_result els a b p y (s1 + s2)), (stacked a p y (s1 + s2)).
  split; [|split; [reflexivity|split; [reflexivity|split; [|split; [|split; [|split]]]]]].
  - pose proof H as (Ha & Hb & Hab & _ & _ & _ & Hpa & Hpb & _ & _ & Honly). pose proof Hwf as (Hnd & Hf & _). rewrite Forall_forall in Hf.
    assert (Hp : Permutation (on_net net els) [a; b]).
    { apply NoDup_Permutation.
      - unfold on_net. apply NoDup_filter. now apply NoDup_map_inv in Hnd.
      - constructor; [simpl; intuition congruence|]. repeat constructor. intros [].
      - intros x. rewrite on_net_in. split.
        + intros (Hx & Ht). apply touches_ok in Ht as (j & Ej); [|auto]. destruct (Honly x j Hx Ej); simpl; auto.
        + intros [<-|[<-|[]]]; (split; [assumption|]); apply touches_ok; auto; [exists p; now apply Hpa|exists q; now apply Hpb]. }
    apply Permutation_sym, Permutation_length_2_inv in Hp. unfold series_step. destruct Hp as [-> | ->].
    + assert (Hl : String.ltb (e_name b) (e_name a) = false); [|now rewrite Hl].
      unfold String.ltb in *. rewrite String.compare_antisym. destruct (String.compare (e_name a) (e_name b)); [reflexivity|reflexivity|discriminate].
    + now rewrite Hlt.
  - rewrite C1, C2. apply (m_count els net a b p q y s1 s2 H) || apply m_count.
  - cbn [e_pins stacked]. rewrite sget_sset, String.eqb_refl. now rewrite Hy.
  - intros k Hk. cbn [e_pins stacked]. rewrite sget_sset. apply String.eqb_neq in Hk. now rewrite Hk.
  - intros k Hk. cbn [e_params stacked]. rewrite sget_sset. apply String.eqb_neq in Hk. now rewrite Hk.
  - exact (out_in els Hwf net a b p q y s1 s2 H).
Qed.

(** Three transistors in a row, visited from the middle, become one of stack 4; the device with a
    different gate stays. *)
Definition mos (n d g s k : string) : elem := mkElem n "NMOS" [("D", d); ("G", g); ("S", s); ("B", "VSS")]%string [("W", "10"); ("STACK", k)]%string.
Definition c32_els : list elem := [mos "M3" "N2" "A" "VSS" "1"; mos "M1" "O" "A" "N1" "2"; mos "M2" "N1" "A" "N2" "1"; mos "M4" "O" "B" "N3" "1"; mos "M5" "N3" "A" "VSS" "1"]%string.
Lemma mos_wf n d g s k : wf_elem (mos n d g s k).
Proof.
  split; [simpl; repeat constructor; simpl; intuition discriminate|]. split; [simpl; repeat constructor; simpl; intuition discriminate|].
  split; [intros x H1 H2; simpl in *; intuition (subst; discriminate)|]. split; [simpl; intuition discriminate|discriminate].
Qed.
Example C32_nonvacuous :
  let pins := ["O"; "A"; "B"; "VSS"]%string in let order := ["N2"; "N3"; "N1"]%string in
  wf_netlist c32_els /\ stack_ok c32_els /\ NoDup order /\ (forall n, In n order <-> internal pins c32_els n) /\
  add_series_devices order c32_els = Some [mos "M1" "O" "A" "VSS" "4"; mos "M4" "O" "B" "N3" "1"; mos "M5" "N3" "A" "VSS" "1"]%string /\
  exists a b, stackable c32_els "N2" a b "S" "D" /\ String.ltb (e_name a) (e_name b) = true.
Proof.
  assert (Hm : forall e, In e c32_els -> exists n d g s k, e = mos n d g s k /\ (k = "1" \/ k = "2")%string).
  { intros e H. simpl in H. repeat (destruct H as [<-|H]; [do 5 eexists; split; [reflexivity|auto]|]). destruct H. }
  cbv zeta. split; [|split; [|split; [|split; [|split]]]].
  - split; [simpl; repeat constructor; simpl; intuition discriminate|]. split.
    + apply Forall_forall. intros e He. destruct (Hm e He) as (? & ? & ? & ? & ? & -> & _). apply mos_wf.
    + intros a b Ha Hb _. destruct (Hm a Ha) as (? & ? & ? & ? & ? & -> & _), (Hm b Hb) as (? & ? & ? & ? & ? & -> & _). split; intros k; reflexivity.
  - split.
    + intros e s He. destruct (Hm e He) as (? & ? & ? & ? & k & -> & Hk). simpl. intros [= <-]. destruct Hk as [-> | ->]; [exists 1|exists 2]; split; vm_compute; congruence.
    + intros e p q He H1 H2 H3 H4. destruct (Hm e He) as (? & ? & ? & ? & ? & -> & _). simpl in H2, H4. intuition (subst; discriminate).
  - repeat constructor; simpl; intuition discriminate.
  - intros n. split.
    + simpl. intros H. split; [vm_compute; intuition|]. simpl. intuition (subst; discriminate).
    + intros (H & Hx). vm_compute in H. simpl in Hx. simpl. intuition.
  - vm_compute. reflexivity.
  - exists (mos "M2" "N1" "A" "N2" "1")%string, (mos "M3" "N2" "A" "VSS" "1")%string. split; [|reflexivity].
    assert (Hg : forall n d g s k j v, sget (e_pins (mos n d g s k)) j = Some v -> (j = "D" /\ v = d \/ j = "G" /\ v = g \/ j = "S" /\ v = s \/ j = "B" /\ v = "VSS")%string).
    { intros n d g s k j v H. apply (dget_in _ String.eqb_eq) in H. simpl in H. intuition congruence. }
    split; [simpl; auto|]. split; [simpl; auto|]. split; [discriminate|]. split; [reflexivity|]. split; [simpl; auto|].
    split; [unfold terminal_pair; auto|]. split; [|split; [|split; [|split]]].
    + intros k. split; [intros H; apply Hg in H; intuition (subst; try discriminate; auto)|intros ->; reflexivity].
    + intros k. split; [intros H; apply Hg in H; intuition (subst; try discriminate; auto)|intros ->; reflexivity].
    + intros k H1 H2. cbn [mos e_pins]. unfold sget. simpl. destruct (String.eqb_spec k "D"%string); [contradiction|].
      destruct (String.eqb_spec k "G"%string); [reflexivity|]. destruct (String.eqb_spec k "S"%string); [contradiction|]. reflexivity.
    + intros k Hk. unfold mos, e_params. reflexivity.
    + intros e k He Ek. simpl in He. repeat (destruct He as [<-|He]; [apply Hg in Ek; intuition (try discriminate; auto)|]). destruct He.
Qed.

Print Assumptions C32_pass.
Print Assumptions C32_one.
