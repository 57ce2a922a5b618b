(** The merged netlist means the same; nothing stackable is left. *)
From Coq Require Import String Ascii ZifyBool.
From Verif Require Import Base.Prelude Base.PyDict Base.PyStr Model.RemoveDuplicates Model.Lef Model.Netlist Spec.NetlistSpec Proofs.LefP Proofs.NetlistP Proofs.ParallelP Proofs.SeriesP.
Local Open Scope Z_scope.

Lemma chain_app {V} (r : V -> V -> Prop) m n a c : chain r (m + n) a c <-> exists b, chain r m a b /\ chain r n b c.
Proof.
  revert a. induction m as [|m IH]; intros a; simpl.
  - split; [intros H; exists a; auto|intros (b & -> & H); assumption].
  - split.
    + intros (x & Hx & H). apply IH in H as (b & H1 & H2). exists b. split; [exists x; auto|assumption].
    + intros (b & (x & Hx & H1) & H2). exists x. split; [assumption|]. apply IH. exists b. auto.
Qed.
Lemma chain_ext {V} (r r' : V -> V -> Prop) n a b : (forall x y, r x y -> r' x y) -> chain r n a b -> chain r' n a b.
Proof.
  intros H. revert a. induction n as [|n IH]; intros a; simpl; [auto|]. intros (c & Hc & Hr). exists c. auto.
Qed.

Lemma terminals_of e t1 t2 : (t1, t2) = ("D", "S")%string \/ (t1, t2) = ("PLUS", "MINUS")%string ->
  (forall p q, In p ["D"; "S"]%string -> In q ["PLUS"; "MINUS"]%string -> In p (map fst (e_pins e)) -> In q (map fst (e_pins e)) -> False) ->
  In t1 (map fst (e_pins e)) -> In t2 (map fst (e_pins e)) -> terminals e = Some (t1, t2).
Proof.
  intros Ht Hmix H1 H2. unfold terminals.
  assert (Hs : forall k, In k (map fst (e_pins e)) -> exists v, sget (e_pins e) k = Some v) by (intros k Hk; now apply shas_ok, shas_in).
  destruct Ht as [E|E]; injection E as -> ->; destruct (Hs _ H1) as (v1 & ->), (Hs _ H2) as (v2 & ->).
  - rewrite (proj2 (sget_none (e_pins e) "PLUS")), (proj2 (sget_none (e_pins e) "MINUS")); [reflexivity| |]; intros Hi; apply (Hmix "D"%string _) in Hi; simpl; auto.
  - rewrite (proj2 (sget_none (e_pins e) "D")), (proj2 (sget_none (e_pins e) "S")); [reflexivity| |]; intros Hi; apply (Hmix _ "PLUS"%string) in Hi; simpl; auto.
Qed.

Lemma holds_ext {V} (I : interp V) r r' e : (forall k n, sget (e_pins e) k = Some n -> r n = r' n) -> holds I r e -> holds I r' e.
Proof.
  intros Hr. assert (Hv : forall k, value r e k = value r' e k).
  { intros k. unfold value. destruct (sget (e_pins e) k) as [n|] eqn:E; [|reflexivity]. simpl. f_equal. eauto. }
  unfold holds. destruct (sget (e_params e) STACK) as [s|]; [destruct (terminals e) as [(t1, t2)|]|].
  - intros (k & va & vb & H1 & H2 & H3 & H4). exists k, va, vb. rewrite <- !Hv. repeat (split; [assumption|]). revert H4. apply chain_ext. intros x z.
    apply i_unit_ext; [reflexivity|]. intros j. unfold other. now rewrite Hv.
  - apply i_dev_ext; [reflexivity|exact Hv].
  - apply i_dev_ext; [reflexivity|exact Hv].
Qed.

Section Sem.
  Variable els : list elem.
  Hypothesis Hwf : wf_netlist els.
  Hypothesis Hst : stack_ok els.
  Variables (net : string) (a b : elem) (p q y : string) (s1 s2 : Z).
  Hypothesis Hstk : stackable els net a b p q.
  Hypothesis Hy : sget (e_pins b) p = Some y.
  Hypothesis Hyn : y <> net.
  Hypothesis C1 : stack_count a = s1.
  Hypothesis C2 : stack_count b = s2.
  Hypothesis P1 : 0 <= s1.
  Hypothesis P2 : 0 <= s2.
  Notation M := (stacked a p y (s1 + s2)).
  Notation out := (merge_result els a b p y (s1 + s2)).
  Let outin := out_in els Hwf net a b p q y s1 s2 Hstk.

  Lemma far_pin : exists x, sget (e_pins a) q = Some x /\ x <> net.
  Proof.
    pose proof Hstk as (Ha & Hb & _ & Hm & _ & Ht & Hpa & Hpb & _). destruct (terminal_neq p q Ht) as (Hpq & _).
    destruct (keys_ok els Hwf a b Ha Hb Hm) as (Kp & _).
    assert (Hq : In q (map fst (e_pins a))). { apply Kp. apply shas_in, shas_ok. exists net. now apply Hpb. }
    apply shas_in, shas_ok in Hq as (x & Ex). exists x. split; [assumption|]. intros ->. apply Hpa in Ex. congruence.
  Qed.

  (** The terminals in the order of the device. *)
  Lemma term : exists t1 t2, ((t1, t2) = (p, q) \/ (t1, t2) = (q, p)) /\ terminals a = Some (t1, t2) /\ terminals b = Some (t1, t2) /\ terminals M = Some (t1, t2).
  Proof.
    destruct far_pin as (x & Ex & _). destruct Hst as (_ & Hmix).
    pose proof Hstk as (Ha & Hb & _ & Hm & _ & Ht & Hpa & Hpb & _). destruct (keys_ok els Hwf a b Ha Hb Hm) as (Kp & _).
    assert (Ip : In p (map fst (e_pins a))) by (apply (m_pin els net a b p q Hstk)).
    assert (Iq : In q (map fst (e_pins a))) by (apply shas_in, shas_ok; eauto).
    assert (G : forall t1 t2, (t1, t2) = ("D", "S")%string \/ (t1, t2) = ("PLUS", "MINUS")%string -> In t1 (map fst (e_pins a)) -> In t2 (map fst (e_pins a)) ->
      terminals a = Some (t1, t2) /\ terminals b = Some (t1, t2) /\ terminals M = Some (t1, t2)).
    { intros t1 t2 Hd H1 H2. split; [|split]; apply terminals_of; auto.
      - intros p' q' G1 G2. exact (Hmix a p' q' Ha G1 G2).
      - intros p' q' G1 G2. exact (Hmix b p' q' Hb G1 G2).
      - now apply Kp.
      - now apply Kp.
      - rewrite (m_pins_keys els net a b p q y s1 s2 Hstk). intros p' q' G1 G2. exact (Hmix a p' q' Ha G1 G2).
      - now rewrite (m_pins_keys els net a b p q y s1 s2 Hstk).
      - now rewrite (m_pins_keys els net a b p q y s1 s2 Hstk). }
    destruct Ht as [E|[E|[E|E]]]; injection E as Ep Eq; rewrite Ep in Ip; rewrite Eq in Iq.
    - exists "D"%string, "S"%string. split; [left; congruence|]. apply G; auto.
    - exists "D"%string, "S"%string. split; [right; congruence|]. apply G; auto.
    - exists "PLUS"%string, "MINUS"%string. split; [left; congruence|]. apply G; auto.
    - exists "PLUS"%string, "MINUS"%string. split; [right; congruence|]. apply G; auto.
  Qed.

  Lemma holds_stack {V} (I : interp V) r e t1 t2 k : (exists s, sget (e_params e) STACK = Some s /\ py_int s = Some k) -> terminals e = Some (t1, t2) ->
    holds I r e <-> exists va vb, value r e t1 = Some va /\ value r e t2 = Some vb /\
      chain (i_unit I (e_model e) (no_stack (e_params e)) (other (value r e) t1 t2)) (Z.to_nat k) va vb.
  Proof.
    intros (s & Es & Ek) Et. unfold holds. rewrite Es, Et. split.
    - intros (k' & va & vb & H1 & H2 & H3 & H4). assert (k' = k) by congruence. subst k'. eauto.
    - intros (va & vb & H2 & H3 & H4). exists k, va, vb. auto.
  Qed.
  Lemma unit_eq {V} (I : interp V) (r r' : string -> V) e e' t1 t2 : e_model e = e_model e' ->
    (forall k, k <> STACK -> sget (e_params e) k = sget (e_params e') k) ->
    (forall k, k <> t1 -> k <> t2 -> value r e k = value r' e' k) ->
    forall x z, i_unit I (e_model e) (no_stack (e_params e)) (other (value r e) t1 t2) x z -> i_unit I (e_model e') (no_stack (e_params e')) (other (value r' e') t1 t2) x z.
  Proof.
    intros Hm Hp Hv x z. rewrite Hm. apply i_unit_ext.
    - intros k. unfold no_stack. destruct (String.eqb_spec k STACK); [reflexivity|auto].
    - intros k. unfold other. destruct (String.eqb_spec k t1); [reflexivity|]. destruct (String.eqb_spec k t2); [reflexivity|]. simpl. auto.
  Qed.

  Lemma stack_str e k : In e els -> In STACK (map fst (e_params e)) -> stack_count e = k -> exists s, sget (e_params e) STACK = Some s /\ py_int s = Some k.
  Proof. intros He Hs Hk. destruct (stack_val els Hst e He Hs) as (s & k' & E1 & _ & E2 & E3). exists s. split; [assumption|]. congruence. Qed.
  Lemma stack_b : In STACK (map fst (e_params b)).
  Proof. pose proof Hstk as (Ha & Hb & _ & Hm & Hs & _). now apply (keys_ok els Hwf a b Ha Hb Hm). Qed.
  Lemma stack_M : exists s, sget (e_params M) STACK = Some s /\ py_int s = Some (s1 + s2).
  Proof. exists (zstr (s1 + s2)). split; [apply sget_sset_same|apply py_int_zstr]. Qed.

  Lemma value_M {V} (r : string -> V) k : value r M k = if String.eqb k p then Some (r y) else value r a k.
  Proof. unfold value. cbn [e_pins stacked]. rewrite sget_sset. destruct (String.eqb k p); reflexivity. Qed.

  Lemma merge_sound {V} (I : interp V) r : sat I r els -> sat I r out.
  Proof.
    unfold sat. rewrite !Forall_forall. intros H z Hz. apply outin in Hz as [->|(Hz & _)]; [|auto].
    pose proof Hstk as (Ha & Hb & _ & Hm & Hs & Ht & Hpa & Hpb & Hpins & Hpar & _). destruct (terminal_neq p q Ht) as (Hpq & _).
    destruct term as (t1 & t2 & Hd & Ta & Tb & TM). pose proof (H a Ha) as Ka. pose proof (H b Hb) as Kb.
    apply (holds_stack I r a t1 t2 s1 (stack_str a s1 Ha Hs C1) Ta) in Ka as (va & vb & A1 & A2 & A3).
    apply (holds_stack I r b t1 t2 s2 (stack_str b s2 Hb stack_b C2) Tb) in Kb as (va' & vb' & B1 & B2 & B3).
    apply (holds_stack I r M t1 t2 (s1 + s2) stack_M TM).
    assert (Vap : value r a p = Some (r net)) by (unfold value; now rewrite (proj2 (Hpa p) eq_refl)).
    assert (Vbq : value r b q = Some (r net)) by (unfold value; now rewrite (proj2 (Hpb q) eq_refl)).
    assert (Vbp : value r b p = Some (r y)) by (unfold value; now rewrite Hy).
    apply String.eqb_neq in Hpq as Epq. rewrite String.eqb_sym in Epq.
    destruct Hd as [E|E]; injection E as -> ->.
    - (* a hangs below: b then a *)
      exists (r y), vb. rewrite !value_M, String.eqb_refl, Epq. split; [reflexivity|]. split; [assumption|].
      replace (Z.to_nat (s1 + s2)) with (Z.to_nat s2 + Z.to_nat s1)%nat by lia. apply chain_app. exists (r net). split.
      + rewrite Vbp in B1. injection B1 as <-. rewrite Vbq in B2. injection B2 as <-. revert B3. apply chain_ext. apply unit_eq.
        * now symmetry.
        * intros k Hk. cbn [e_params stacked]. rewrite sget_sset. apply String.eqb_neq in Hk as Ek. rewrite Ek. symmetry. auto.
        * intros k K1 K2. rewrite value_M. apply String.eqb_neq in K1 as Ek. rewrite Ek. unfold value. now rewrite Hpins.
      + rewrite Vap in A1. injection A1 as <-. revert A3. apply chain_ext. apply unit_eq.
        * reflexivity.
        * intros k Hk. cbn [e_params stacked]. rewrite sget_sset. apply String.eqb_neq in Hk as Ek. now rewrite Ek.
        * intros k K1 K2. rewrite value_M. apply String.eqb_neq in K1 as Ek. now rewrite Ek.
    - exists va, (r y). rewrite !value_M, String.eqb_refl, Epq. split; [assumption|]. split; [reflexivity|].
      replace (Z.to_nat (s1 + s2)) with (Z.to_nat s1 + Z.to_nat s2)%nat by lia. apply chain_app. exists (r net). split.
      + rewrite Vap in A2. injection A2 as <-. revert A3. apply chain_ext. apply unit_eq.
        * reflexivity.
        * intros k Hk. cbn [e_params stacked]. rewrite sget_sset. apply String.eqb_neq in Hk as Ek. now rewrite Ek.
        * intros k K1 K2. rewrite value_M. apply String.eqb_neq in K2 as Ek. now rewrite Ek.
      + rewrite Vbq in B1. injection B1 as <-. rewrite Vbp in B2. injection B2 as <-. revert B3. apply chain_ext. apply unit_eq.
        * now symmetry.
        * intros k Hk. cbn [e_params stacked]. rewrite sget_sset. apply String.eqb_neq in Hk as Ek. rewrite Ek. symmetry. auto.
        * intros k K1 K2. rewrite value_M. apply String.eqb_neq in K2 as Ek. rewrite Ek. unfold value. now rewrite Hpins.
  Qed.

  Lemma merge_complete {V} (I : interp V) r : sat I r out -> exists r', (forall n, n <> net -> r' n = r n) /\ sat I r' els.
  Proof.
    unfold sat. rewrite Forall_forall. intros H.
    pose proof Hstk as (Ha & Hb & Hab & Hm & Hs & Ht & Hpa & Hpb & Hpins & Hpar & Honly). destruct (terminal_neq p q Ht) as (Hpq & _).
    destruct term as (t1 & t2 & Hd & Ta & Tb & TM). assert (KM : holds I r M) by (apply H, outin; now left).
    apply (holds_stack I r M t1 t2 (s1 + s2) stack_M TM) in KM as (va & vb & M1 & M2 & M3).
    destruct far_pin as (x & Ex & Hx). apply String.eqb_neq in Hpq as Epq. rewrite String.eqb_sym in Epq. rewrite !value_M in M1, M2.
    assert (Hfar : forall k, k <> p -> forall v, value (fun n => if String.eqb n net then v else r n) a k = value r a k).
    { intros k Hk v. unfold value. destruct (sget (e_pins a) k) as [n|] eqn:E; [|reflexivity]. simpl. destruct (String.eqb_spec n net) as [->|]; [|reflexivity].
      apply Hpa in E. contradiction. }
    assert (Hrest : forall v z, In z els -> z <> a -> z <> b -> holds I (fun n => if String.eqb n net then v else r n) z).
    { intros v z Hz Hza Hzb. apply (holds_ext I r); [|apply H, outin; right; auto]. intros k n E. destruct (String.eqb_spec n net) as [->|]; [|reflexivity].
      destruct (Honly z k Hz E); contradiction. }
    assert (Hgo : forall v, holds I (fun n => if String.eqb n net then v else r n) a -> holds I (fun n => if String.eqb n net then v else r n) b ->
       exists r', (forall n, n <> net -> r' n = r n) /\ Forall (holds I r') els).
    { intros v Ka Kb. exists (fun n => if String.eqb n net then v else r n). split.
      - intros n Hn. apply String.eqb_neq in Hn. now rewrite Hn.
      - apply Forall_forall. intros z Hz. destruct (elem_eq_dec z a) as [->|]; [assumption|]. destruct (elem_eq_dec z b) as [->|]; [assumption|]. now apply Hrest. }
    destruct Hd as [E|E]; injection E as -> ->.
    - rewrite String.eqb_refl in M1. injection M1 as <-. rewrite Epq in M2.
      replace (Z.to_nat (s1 + s2)) with (Z.to_nat s2 + Z.to_nat s1)%nat in M3 by lia. apply chain_app in M3 as (v & M3 & M4).
      apply (Hgo v).
      + apply (holds_stack I _ a p q s1 (stack_str a s1 Ha Hs C1) Ta). exists v, vb. split; [|split].
        * unfold value. rewrite (proj2 (Hpa p) eq_refl). simpl. now rewrite String.eqb_refl.
        * rewrite Hfar; [assumption|congruence].
        * revert M4. apply chain_ext. apply unit_eq.
          -- reflexivity.
          -- intros k Hk. cbn [e_params stacked]. rewrite sget_sset. apply String.eqb_neq in Hk as Ek. now rewrite Ek.
          -- intros k K1 K2. rewrite value_M, Hfar by assumption. apply String.eqb_neq in K1 as Ek. now rewrite Ek.
      + apply (holds_stack I _ b p q s2 (stack_str b s2 Hb stack_b C2) Tb). exists (r y), v. split; [|split].
        * unfold value. rewrite Hy. simpl. apply String.eqb_neq in Hyn as Ey. now rewrite Ey.
        * unfold value. rewrite (proj2 (Hpb q) eq_refl). simpl. now rewrite String.eqb_refl.
        * revert M3. apply chain_ext. apply unit_eq.
          -- exact Hm.
          -- intros k Hk. cbn [e_params stacked]. rewrite sget_sset. apply String.eqb_neq in Hk as Ek. rewrite Ek. auto.
          -- intros k K1 K2. rewrite value_M. apply String.eqb_neq in K1 as Ek. rewrite Ek. rewrite <- (Hfar k K1 v). unfold value. now rewrite Hpins.
    - rewrite String.eqb_refl in M2. injection M2 as <-. rewrite Epq in M1.
      replace (Z.to_nat (s1 + s2)) with (Z.to_nat s1 + Z.to_nat s2)%nat in M3 by lia. apply chain_app in M3 as (v & M3 & M4).
      apply (Hgo v).
      + apply (holds_stack I _ a q p s1 (stack_str a s1 Ha Hs C1) Ta). exists va, v. split; [|split].
        * rewrite Hfar; [assumption|congruence].
        * unfold value. rewrite (proj2 (Hpa p) eq_refl). simpl. now rewrite String.eqb_refl.
        * revert M3. apply chain_ext. apply unit_eq.
          -- reflexivity.
          -- intros k Hk. cbn [e_params stacked]. rewrite sget_sset. apply String.eqb_neq in Hk as Ek. now rewrite Ek.
          -- intros k K1 K2. rewrite value_M, Hfar by assumption. apply String.eqb_neq in K2 as Ek. now rewrite Ek.
      + apply (holds_stack I _ b q p s2 (stack_str b s2 Hb stack_b C2) Tb). exists v, (r y). split; [|split].
        * unfold value. rewrite (proj2 (Hpb q) eq_refl). simpl. now rewrite String.eqb_refl.
        * unfold value. rewrite Hy. simpl. apply String.eqb_neq in Hyn as Ey. now rewrite Ey.
        * revert M4. apply chain_ext. apply unit_eq.
          -- exact Hm.
          -- intros k Hk. cbn [e_params stacked]. rewrite sget_sset. apply String.eqb_neq in Hk as Ek. rewrite Ek. auto.
          -- intros k K1 K2. rewrite value_M. apply String.eqb_neq in K2 as Ek. rewrite Ek. rewrite <- (Hfar k K2 v). unfold value. now rewrite Hpins.
  Qed.

  (** A net that can be stacked afterwards could be stacked before. *)
  Lemma no_new net' c d p' q' : net' <> net -> stackable out net' c d p' q' -> exists c' d', stackable els net' c' d' p' q'.
  Proof.
    intros Hnn (Hc & Hd & Hcd & Hm' & Hs' & Ht' & Hpc & Hpd & Hpins' & Hpar' & Honly').
    pose proof Hstk as (Ha & Hb & Hab & Hm & Hs & Ht & Hpa & Hpb & Hpins & Hpar & Honly). destruct (terminal_neq p q Ht) as (Hpq & HpS & HqS). destruct (terminal_neq p' q' Ht') as (Hpq' & HpS' & HqS').
    assert (HMp : forall k, sget (e_pins M) k = if String.eqb k p then Some y else sget (e_pins a) k) by (intros; apply sget_sset).
    assert (HMq : forall k, sget (e_params M) k = if String.eqb k STACK then Some (zstr (s1 + s2)) else sget (e_params a) k) by (intros; apply sget_sset).
    assert (HM : In M out) by (apply outin; now left).
    assert (Hkeep : forall z, In z els -> z <> a -> z <> b -> In z out) by (intros; apply outin; auto).
    (* devices on net' that are not M are unchanged *)
    assert (Hon : forall z k, In z els -> sget (e_pins z) k = Some net' -> z = a \/ z = b \/ In z out).
    { intros z k Hz _. destruct (elem_eq_dec z a); [auto|]. destruct (elem_eq_dec z b); auto. }
    (* a device other than M that shares net' with M, and terminal k0 of M on net' *)
    assert (Hmain : forall d0 k0 j0, In d0 els -> d0 <> a -> d0 <> b -> e_model d0 = e_model a -> terminal_pair k0 j0 ->
       (forall k, sget (e_pins M) k = Some net' <-> k = k0) -> (forall k, sget (e_pins d0) k = Some net' <-> k = j0) ->
       (forall k, k <> k0 -> k <> j0 -> sget (e_pins M) k = sget (e_pins d0) k) ->
       (forall k, k <> STACK -> sget (e_params M) k = sget (e_params d0) k) ->
       (forall e k, In e out -> sget (e_pins e) k = Some net' -> e = M \/ e = d0) ->
       exists w, In w els /\ w <> d0 /\ e_model w = e_model a /\ In STACK (map fst (e_params w)) /\ (forall k, sget (e_pins w) k = Some net' <-> k = k0) /\
         (forall k, k <> k0 -> k <> j0 -> sget (e_pins w) k = sget (e_pins d0) k) /\
         (forall k, k <> STACK -> sget (e_params w) k = sget (e_params d0) k) /\
         (forall e k, In e els -> sget (e_pins e) k = Some net' -> e = w \/ e = d0)).
    { intros d0 k0 j0 Hd0 Hd0a Hd0b Hmd Htk HMk Hdk Hpk Hqk Hok.
      assert (Hk0 : k0 = p \/ k0 = q).
      { pose proof (proj2 (HMk k0) eq_refl) as E. rewrite HMp in E. destruct (String.eqb_spec k0 p); [auto|].
        assert (Ik : In k0 (map fst (e_pins a))) by (apply shas_in, shas_ok; eauto).
        assert (Ip : In p (map fst (e_pins a))) by exact (m_pin els net a b p q Hstk).
        destruct Hst as (_ & Hmix).
        destruct Ht as [T|[T|[T|T]]], Htk as [T'|[T'|[T'|T']]]; injection T; injection T'; intros; subst; auto; exfalso;
          first [exact (Hmix a "D" "PLUS" Ha ltac:(simpl; auto) ltac:(simpl; auto) ltac:(assumption) ltac:(assumption))%string
                |exact (Hmix a "D" "MINUS" Ha ltac:(simpl; auto) ltac:(simpl; auto) ltac:(assumption) ltac:(assumption))%string
                |exact (Hmix a "S" "PLUS" Ha ltac:(simpl; auto) ltac:(simpl; auto) ltac:(assumption) ltac:(assumption))%string
                |exact (Hmix a "S" "MINUS" Ha ltac:(simpl; auto) ltac:(simpl; auto) ltac:(assumption) ltac:(assumption))%string]. }
      assert (Hj0 : (k0 = p -> j0 = q) /\ (k0 = q -> j0 = p)).
      { destruct Ht as [T|[T|[T|T]]], Htk as [T'|[T'|[T'|T']]]; injection T; injection T'; intros; subst; split; intros; congruence. }
      assert (HoutM : forall e k, In e els -> sget (e_pins e) k = Some net' -> e <> a -> e <> b -> e = d0).
      { intros e k He Ek Hea Heb. destruct (Hok e k (Hkeep e He Hea Heb) Ek) as [->|]; [|assumption]. exfalso. apply Hea.
        apply (in_name_inj els _ a (proj1 Hwf) He Ha). reflexivity. }
      destruct Hk0 as [->| ->].
      - (* b had the terminal *)
        rewrite (proj1 Hj0 eq_refl) in *. pose proof (proj2 (HMk p) eq_refl) as E. rewrite HMp, String.eqb_refl in E. injection E as Ey.
        exists b. split; [assumption|]. split; [congruence|]. split; [congruence|]. split; [apply stack_b|]. split; [|split; [|split]].
        + intros k. split.
          * intros Ek. destruct (String.string_dec k q) as [->|Hkq]; [rewrite (proj2 (Hpb q) eq_refl) in Ek; congruence|].
            destruct (String.string_dec k p) as [|Hkp]; [assumption|]. apply HMk. rewrite HMp. apply String.eqb_neq in Hkp as Ekp. rewrite Ekp. now rewrite Hpins.
          * intros ->. congruence.
        + intros k K1 K2. rewrite <- Hpins by assumption. rewrite <- Hpk by assumption. rewrite HMp. apply String.eqb_neq in K1 as Ek. now rewrite Ek.
        + intros k Hk. rewrite <- Hpar by assumption. rewrite <- Hqk by assumption. rewrite HMq. apply String.eqb_neq in Hk as Ek. now rewrite Ek.
        + intros e k He Ek. destruct (elem_eq_dec e b) as [|Heb]; [auto|]. right. destruct (elem_eq_dec e a) as [->|Hea]; [|exact (HoutM e k He Ek Hea Heb)].
          exfalso. destruct (String.string_dec k p) as [->|Hkp]; [rewrite (proj2 (Hpa p) eq_refl) in Ek; congruence|].
          assert (k = p); [|contradiction]. apply HMk. rewrite HMp. apply String.eqb_neq in Hkp as Ekp. now rewrite Ekp.
      - (* a has it *)
        rewrite (proj2 Hj0 eq_refl) in *. pose proof (proj2 (HMk q) eq_refl) as E. rewrite HMp in E.
        assert (Eqp : String.eqb q p = false) by (apply String.eqb_neq; congruence). rewrite Eqp in E.
        assert (Hyn' : y <> net').
        { intros ->. assert (p = q); [|congruence]. apply HMk. now rewrite HMp, String.eqb_refl. }
        exists a. split; [assumption|]. split; [congruence|]. split; [reflexivity|]. split; [assumption|]. split; [|split; [|split]].
        + intros k. split.
          * intros Ek. destruct (String.string_dec k p) as [->|Hkp]; [rewrite (proj2 (Hpa p) eq_refl) in Ek; congruence|].
            apply HMk. rewrite HMp. apply String.eqb_neq in Hkp as Ekp. now rewrite Ekp.
          * intros ->. assumption.
        + intros k K1 K2. rewrite <- Hpk by assumption. rewrite HMp. apply String.eqb_neq in K2 as Ek. now rewrite Ek.
        + intros k Hk. rewrite <- Hqk by assumption. rewrite HMq. apply String.eqb_neq in Hk as Ek. now rewrite Ek.
        + intros e k He Ek. destruct (elem_eq_dec e a) as [|Hea]; [auto|]. right. destruct (elem_eq_dec e b) as [->|Heb]; [|exact (HoutM e k He Ek Hea Heb)].
          exfalso. destruct (String.string_dec k q) as [->|Hkq]; [rewrite (proj2 (Hpb q) eq_refl) in Ek; congruence|].
          destruct (String.string_dec k p) as [->|Hkp]; [congruence|].
          assert (k = q); [|contradiction]. apply HMk. rewrite HMp. apply String.eqb_neq in Hkp as Ekp. rewrite Ekp. now rewrite Hpins. }
    pose proof (proj1 (outin c) Hc) as [->|(Hc1 & Hca & Hcb)]; pose proof (proj1 (outin d) Hd) as [->|(Hd1 & Hda & Hdb)].
    - congruence.
    - destruct (Hmain d p' q' Hd1 Hda Hdb) as (w & W1 & W2 & W3 & W4 & W5 & W6 & W7 & W8); auto.
      exists w, d. repeat (split; [assumption|]). split; [cbn in Hm'; congruence|]. repeat (split; [assumption|]). assumption.
    - destruct (Hmain c q' p' Hc1 Hca Hcb) as (w & W1 & W2 & W3 & W4 & W5 & W6 & W7 & W8); auto.
      + destruct Ht' as [E|[E|[E|E]]]; injection E as -> ->; unfold terminal_pair; auto.
      + intros k K1 K2. symmetry. auto.
      + intros k Hk. symmetry. auto.
      + intros e k He Ek. destruct (Honly' e k He Ek); auto.
      + exists c, w. cbn in Hm'. split; [assumption|]. split; [assumption|]. split; [congruence|]. split; [congruence|]. split; [assumption|]. split; [assumption|]. split; [assumption|]. split; [assumption|].
        split; [intros k K1 K2; symmetry; auto|]. split; [intros k Hk; symmetry; auto|]. intros e k He Ek. destruct (W8 e k He Ek); auto.
    - exists c, d. repeat (split; [assumption|]). intros e k He Ek.
      destruct (elem_eq_dec e a) as [->|Hea]; [|destruct (elem_eq_dec e b) as [->|Heb]; [|exact (Honly' e k (Hkeep e He Hea Heb) Ek)]]; exfalso.
      + assert (Hkp : k <> p) by (intros ->; rewrite (proj2 (Hpa p) eq_refl) in Ek; congruence).
        destruct (Honly' M k HM) as [E|E]; [rewrite HMp; apply String.eqb_neq in Hkp; now rewrite Hkp| |];
          [apply Hca|apply Hda]; apply (in_name_inj els _ a (proj1 Hwf)); auto; rewrite <- E; reflexivity.
      + assert (Hkq : k <> q) by (intros ->; rewrite (proj2 (Hpb q) eq_refl) in Ek; congruence).
        assert (EM : sget (e_pins M) k = Some net').
        { rewrite HMp. destruct (String.eqb_spec k p) as [->|Hkp]; [congruence|]. now rewrite Hpins. }
        destruct (Honly' M k HM EM) as [E|E]; [apply Hca|apply Hda]; apply (in_name_inj els _ a (proj1 Hwf)); auto; rewrite <- E; reflexivity.
  Qed.
End Sem.

Lemma stackable_sym els net a b p q : wf_netlist els -> stackable els net a b p q -> stackable els net b a q p.
Proof.
  intros (_ & _ & Hk) (Ha & Hb & Hab & Hm & Hs & Ht & Hpa & Hpb & Hpins & Hpar & Honly). split; [assumption|]. split; [assumption|]. split; [congruence|]. split; [congruence|].
  split; [now apply (Hk a b Ha Hb Hm)|]. split; [destruct Ht as [E|[E|[E|E]]]; injection E as -> ->; unfold terminal_pair; auto|]. split; [assumption|]. split; [assumption|].
  split; [intros; symmetry; auto|]. split; [intros; symmetry; auto|]. intros e k He Ek. destruct (Honly e k He Ek); auto.
Qed.

Record step_ok (els : list elem) (ns : list string) (out : list elem) : Prop := {
  so_wf : wf_netlist out;
  so_stack : stack_ok out;
  so_nets : forall n, In n (nets out) -> In n (nets els);
  so_keep : forall n, In n (nets els) -> ~ In n ns -> In n (nets out);
  so_total : total_stack out = total_stack els;
  so_sound : forall V (I : interp V) r, sat I r els -> sat I r out;
  so_complete : forall V (I : interp V) r, sat I r out -> exists r', (forall n, (In n ns -> In n (nets out)) -> r' n = r n) /\ sat I r' els;
  so_done : forall net a b p q, In net ns -> ~ stackable out net a b p q;
  so_new : forall net a b p q, stackable out net a b p q -> exists a' b', stackable els net a' b' p q }.

Lemma merge_step els net a b p q : wf_netlist els -> stack_ok els -> stackable els net a b p q -> exists out, stack_pair net els a b = Some out /\ step_ok els [net] out.
Proof.
  intros Hwf Hst H. destruct (stack_pair_yes els Hwf Hst net a b p q H) as (y & s1 & s2 & Hy & Hyn & C1 & C2 & P1 & P2 & E).
  eexists. split; [exact E|].
  assert (Hn := out_nets els Hwf net a b p q y s1 s2 H Hy Hyn).
  assert (Hgone : forall a' b' p' q', ~ stackable (merge_result els a b p y (s1 + s2)) net a' b' p' q').
  { intros a' b' p' q' (Ha & _ & _ & _ & _ & _ & Hpa & _).
    assert (In net (nets (merge_result els a b p y (s1 + s2)))).
    { apply net_in; [exact (proj1 (proj2 (out_wf els Hwf net a b p q y s1 s2 H)))|]. exists a', p'. split; [assumption|]. now apply Hpa. }
    apply Hn in H0. intuition. }
  constructor.
  - apply (out_wf els Hwf net a b p q y s1 s2 H).
  - apply (out_stack els Hwf Hst net a b p q y s1 s2 H); assumption.
  - intros n Hi. now apply Hn.
  - intros n Hi Hx. apply Hn. split; [assumption|]. intros ->. apply Hx. now left.
  - apply (out_total els Hwf net a b p q y s1 s2 H); assumption.
  - intros V I r. now apply (merge_sound els Hwf Hst net a b p q y s1 s2 H Hy C1 C2 P1 P2).
  - intros V I r Hs. apply (merge_complete els Hwf Hst net a b p q y s1 s2 H Hy Hyn C1 C2 P1 P2) in Hs as (r' & Hr & Hs). exists r'. split; [|assumption].
    intros n Hi. apply Hr. intros ->. destruct (proj1 (Hn net) (Hi (or_introl eq_refl))). congruence.
  - intros n a' b' p' q' [<-|[]]. apply Hgone.
  - intros n a' b' p' q' Hs. destruct (String.string_dec n net) as [->|Hnn]; [now apply Hgone in Hs|].
    now apply (no_new els Hwf Hst net a b p q y s1 s2 H Hy Hyn C1 C2 P1 P2 n a' b' p' q' Hnn).
Qed.

Lemma skip_step els net : wf_netlist els -> stack_ok els -> (forall a b p q, ~ stackable els net a b p q) -> step_ok els [net] els.
Proof.
  intros Hwf Hst Hno. constructor; auto.
  - intros V I r Hs. exists r. auto.
  - intros n a b p q [<-|[]]. apply Hno.
  - intros n a b p q H. eauto.
Qed.

Lemma pair_no els net x y : wf_netlist els -> on_net net els = [x; y] -> (forall p q, ~ stackable els net x y p q) -> forall a b p q, ~ stackable els net a b p q.
Proof.
  intros Hwf E Hno a b p q H. pose proof H as (Ha & Hb & Hab & _ & _ & _ & Hpa & Hpb & _).
  assert (Hin : forall e k, In e els -> sget (e_pins e) k = Some net -> e = x \/ e = y).
  { intros e k He Ek. assert (Hi : In e (on_net net els)). { apply on_net_in. split; [assumption|]. apply touches_ok; [|eauto]. destruct Hwf as (_ & Hf & _). rewrite Forall_forall in Hf. auto. }
    rewrite E in Hi. destruct Hi as [->|[->|[]]]; auto. }
  destruct (Hin a p Ha (proj2 (Hpa p) eq_refl)) as [->| ->], (Hin b q Hb (proj2 (Hpb q) eq_refl)) as [->| ->]; try congruence.
  - now apply Hno in H.
  - apply stackable_sym in H; [|assumption]. now apply Hno in H.
Qed.

Lemma series_step_ok els net : wf_netlist els -> stack_ok els -> In net (nets els) -> exists out, series_step els net = Some out /\ step_ok els [net] out.
Proof.
  intros Hwf Hst Hin. pose proof Hwf as (Hnd & Hf & _). pose proof Hf as Hf'. rewrite Forall_forall in Hf'. apply net_in in Hin as (e & k & He & Ek); [|assumption].
  assert (Hon : In e (on_net net els)) by (apply on_net_in; split; [assumption|]; apply touches_ok; eauto).
  assert (Hno : length (on_net net els) <> 2%nat -> forall a b p q, ~ stackable els net a b p q).
  { intros Hl a b p q (Ha & Hb & Hab & _ & _ & _ & Hpa & Hpb & _ & _ & Honly). apply Hl.
    assert (Hp : Permutation (on_net net els) [a; b]); [|now rewrite Hp].
    apply NoDup_Permutation.
    - unfold on_net. apply NoDup_filter. now apply NoDup_map_inv in Hnd.
    - constructor; [simpl; intuition congruence|]. repeat constructor. intros [].
    - intros x. rewrite on_net_in. split.
      + intros (Hx & Ht). apply touches_ok in Ht as (j & Ej); [|auto]. destruct (Honly x j Hx Ej); simpl; auto.
      + intros [<-|[<-|[]]]; (split; [assumption|]); apply touches_ok; eauto; eexists; [apply Hpa|apply Hpb]; reflexivity. }
  assert (Hpair : forall x y, In x els -> In y els -> x <> y -> (on_net net els = [x; y] \/ on_net net els = [y; x]) -> exists out, stack_pair net els x y = Some out /\ step_ok els [net] out).
  { intros x y Hx Hy Hxy Exy. assert (Hnone : (forall p q, ~ stackable els net x y p q) -> step_ok els [net] els).
    { intros Hn. apply skip_step; auto. destruct Exy as [E|E]; apply (pair_no _ _ _ _ Hwf E); auto. intros p q H. apply stackable_sym in H; [|assumption]. now apply Hn in H. }
    destruct (stack_pair_no els Hwf Hst net x y Hx Hy Hxy) as [E|(p & q & H)].
    - intros z Hz Tz. assert (Hi : In z (on_net net els)) by now apply on_net_in. destruct Exy as [E|E]; rewrite E in Hi; destruct Hi as [->|[->|[]]]; auto.
    - (* nothing done: either nothing stackable, or the merge would have been done *)
      exists els. split; [assumption|]. apply Hnone. intros p q H. pose proof (merge_step els net x y p q Hwf Hst H) as (out & E' & So). rewrite E in E'. injection E' as <-.
      exact (so_done _ _ _ So net x y p q (or_introl eq_refl) H).
    - apply (merge_step els net x y p q); assumption. }
  unfold series_step. destruct (on_net net els) as [|x [|y [|z l]]] eqn:E.
  - destruct Hon.
  - exists els. split; [reflexivity|]. apply skip_step; [assumption|assumption|]. apply Hno. simpl. lia.
  - assert (Hx : In x els /\ In y els).
    { split; apply (proj1 (on_net_in net els _)); rewrite E; simpl; auto. }
    assert (Hxy : x <> y).
    { intros ->. apply NoDup_map_inv in Hnd. apply (NoDup_filter (touches net)) in Hnd. fold (on_net net els) in Hnd. rewrite E in Hnd. apply NoDup_cons_iff in Hnd as (Hn & _). apply Hn. now left. }
    destruct (String.ltb (e_name y) (e_name x)); apply Hpair; intuition congruence.
  - exists els. split; [reflexivity|]. apply skip_step; [assumption|assumption|]. apply Hno. simpl. lia.
Qed.

Lemma step_trans els net mid ns out : ~ In net ns -> step_ok els [net] mid -> step_ok mid ns out -> step_ok els (net :: ns) out.
Proof.
  intros Hn A B. constructor.
  - apply B.
  - apply B.
  - intros n H. apply (so_nets _ _ _ A), (so_nets _ _ _ B), H.
  - intros n H Hx. apply (so_keep _ _ _ B); [|intros Hi; apply Hx; now right]. apply (so_keep _ _ _ A); [assumption|]. intros [->|[]]. apply Hx. now left.
  - rewrite (so_total _ _ _ B). apply A.
  - intros V I r H. apply (so_sound _ _ _ B), (so_sound _ _ _ A), H.
  - intros V I r H. apply (so_complete _ _ _ B) in H as (r1 & E1 & H). apply (so_complete _ _ _ A) in H as (r2 & E2 & H). exists r2. split; [|assumption].
    intros n Hi. rewrite E2; [apply E1|].
    + intros Hin. apply Hi. now right.
    + intros [->|[]]. apply (so_nets _ _ _ B), Hi. now left.
  - intros n a b p q [<-|Hi] H; [|exact (so_done _ _ _ B n a b p q Hi H)].
    apply (so_new _ _ _ B) in H as (a' & b' & H). exact (so_done _ _ _ A net a' b' p q (or_introl eq_refl) H).
  - intros n a b p q H. apply (so_new _ _ _ B) in H as (a' & b' & H). exact (so_new _ _ _ A n a' b' p q H).
Qed.

Lemma series_pass order : forall els, wf_netlist els -> stack_ok els -> NoDup order -> (forall n, In n order -> In n (nets els)) ->
  exists out, add_series_devices order els = Some out /\ step_ok els order out.
Proof.
  induction order as [|net order IH]; intros els Hwf Hst Hnd Hin.
  - exists els. split; [reflexivity|]. constructor; auto.
    + intros V I r H. exists r. auto.
    + intros n a b p q H. eauto.
  - apply NoDup_cons_iff in Hnd as (Hn & Hnd). destruct (series_step_ok els net Hwf Hst (Hin net (or_introl eq_refl))) as (mid & E & A).
    destruct (IH mid (so_wf _ _ _ A) (so_stack _ _ _ A) Hnd) as (out & E2 & B).
    + intros n Hi. apply (so_keep _ _ _ A); [apply Hin; now right|]. intros [->|[]]. contradiction.
    + exists out. split; [|exact (step_trans els net mid order out Hn A B)]. unfold add_series_devices in *. simpl. now rewrite E.
Qed.
