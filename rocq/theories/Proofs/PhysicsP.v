(** The preprocessed circuit behaves as the original one. *)
From Coq Require Import String Ascii ZifyBool.
From Verif Require Import Base.Prelude Base.PyDict Base.PyStr Model.RemoveDuplicates Model.Netlist Model.DefineSD Model.Preprocess Spec.NetlistSpec Spec.ChannelSpec Spec.PhysicsSpec.
From Verif Require Import Proofs.RemoveDuplicatesP Proofs.NetlistP Proofs.ParallelP Proofs.SeriesP Proofs.SeriesSemP Proofs.SymConstP Proofs.PreprocessP.
Local Open Scope Z_scope.

(** * Parallel devices, without any assumption on names and multiplicities *)
Definition psim (els S : list elem) : Prop :=
  (forall x, In x S -> exists e, In e els /\ from e x) /\ (forall e, In e els -> exists x, In x S /\ same_device e x).
Lemma sset_twice (d : dict) k v w : sset (sset d k v) k w = sset d k w.
Proof.
  unfold sset, dset. induction d as [|(a, b) d IH]; cbn.
  - now rewrite String.eqb_refl.
  - destruct (String.eqb k a) eqn:E; cbn; rewrite E; [reflexivity|]. now rewrite IH.
Qed.
Lemma from_trans a b c : from a b -> from b c -> from a c.
Proof.
  intros H1 H2. destruct H1 as [-> | H1]; [exact H2|]. destruct H2 as [-> | H2]; [right; exact H1|]. destruct H1 as (M1 & v & ->), H2 as (M2 & w & ->).
  right. split; [exact M1|]. exists w. unfold set_param. cbn [e_name e_model e_pins e_params]. f_equal. apply sset_twice.
Qed.
Lemma from_device e x : from e x -> same_device e x.
Proof.
  intros F. split; [symmetry; apply (from_model e x F)|]. split; [intros p; now rewrite (from_pins e x F)|]. intros k Hk. symmetry. now apply from_params.
Qed.
Lemma wf_sim els S : wf_netlist els -> NoDup (map e_name S) -> (forall x, In x S -> exists e, In e els /\ from e x) -> wf_netlist S.
Proof.
  intros Hwf Hn Hf. split; [exact Hn|]. split.
  - apply Forall_forall. intros x Hx. destruct (Hf x Hx) as (e & He & F). exact (from_wf els Hwf e x He F).
  - intros a b Ha Hb Hm. destruct (Hf a Ha) as (a' & Ha' & Fa), (Hf b Hb) as (b' & Hb' & Fb). rewrite (from_model _ _ Fa), (from_model _ _ Fb) in Hm.
    destruct (keys_ok els Hwf a' b' Ha' Hb' Hm) as (K1 & K2). rewrite (from_pins _ _ Fa), (from_pins _ _ Fb). split; [exact K1|].
    intros k. rewrite (from_keys _ _ Fa k), (from_keys _ _ Fb k). apply K2.
Qed.
Lemma nbrs_in net S e : In e (nbrs net S) -> In e S /\ is_multi e = true.
Proof. unfold nbrs, on_net. rewrite !filter_In. tauto. Qed.
Lemma nodup_filter_map (f : elem -> bool) (l : list elem) : NoDup (map e_name l) -> NoDup (map e_name (filter f l)).
Proof.
  induction l as [|a l IH]; intros H; [exact H|]. cbn [map] in H. apply NoDup_cons_iff in H as (Hn & H). cbn [filter]. destruct (f a); [|now apply IH]. cbn [map]. constructor; [|now apply IH].
  intros Hi. apply Hn. apply in_map_iff in Hi as (x & E & Hx). apply filter_In in Hx as (Hx & _). rewrite <- E. now apply in_map.
Qed.
Lemma par_step S net : wf_netlist S -> NoDup (map e_name (parallel_step S net)) /\ psim S (parallel_step S net).
Proof.
  intros Hwf. pose proof (proj1 Hwf) as Hn. rewrite (step_flat net S Hn).
  assert (Hact : forall e, In e S -> forall x, In x (actG (parallel_groups net S) e) -> from e x).
  { intros e He x Hx. destruct (in_dec string_dec (e_name e) (map e_name (nbrs net S))) as [Hi|Hi].
    - apply in_map_iff in Hi as (e' & Ee & Hi). destruct (nbrs_in _ _ _ Hi) as (He' & Hm). assert (e' = e) as -> by now apply (in_name_inj S).
      rewrite (group_of net S e Hn Hi) in Hx. unfold act1 in Hx. destruct (1 <? length _)%nat; [|destruct Hx as [<-|[]]; now left].
      destruct (inb _ _); [destruct Hx|]. destruct (String.eqb _ _); destruct Hx as [<-|[]]; [right|now left]. split; [exact Hm|]. now eexists.
    - rewrite (group_none net S e Hi) in Hx. destruct Hx as [<-|[]]. now left. }
  split; [|split].
  - assert (G : forall l, incl l S -> NoDup (map e_name l) -> NoDup (map e_name (flat_map (actG (parallel_groups net S)) l))).
    { intros l Hl. assert (Hname : forall e, In e l -> forall x, In x (actG (parallel_groups net S) e) -> e_name x = e_name e).
      { intros e He x Hx. destruct (Hact e (Hl e He) x Hx) as [->|(_ & v & ->)]; reflexivity. }
      assert (Hshort : forall e, (length (actG (parallel_groups net S) e) <= 1)%nat) by (intros e; unfold actG; destruct (find _ _); [apply act1_short|cbn; lia]).
      clear Hl. induction l as [|e l IH]; intros H; [exact H|]. cbn [map] in H. apply NoDup_cons_iff in H as (Hne & H). cbn [flat_map]. rewrite map_app. apply nodup_app'.
      - specialize (Hshort e). destruct (actG (parallel_groups net S) e) as [|x [|y l']]; cbn in Hshort |- *; [constructor|repeat constructor; intros []|lia].
      - apply IH; auto. intros e' He'. apply Hname. now right.
      - intros n H1 H2. apply in_map_iff in H1 as (x & <- & Hx). apply in_map_iff in H2 as (z & Ez & Hz). apply in_flat_map in Hz as (w & Hw & Hz).
        rewrite (Hname e (or_introl eq_refl) x Hx) in Ez. rewrite (Hname w (or_intror Hw) z Hz) in Ez. apply Hne. rewrite <- Ez. now apply in_map. }
    apply G; [apply incl_refl|exact Hn].
  - intros x Hx. apply in_flat_map in Hx as (e & He & Hx). exists e. split; [exact He|now apply Hact].
  - intros e He. destruct (in_dec string_dec (e_name e) (map e_name (nbrs net S))) as [Hi|Hi].
    + apply in_map_iff in Hi as (e' & Ee & Hi). destruct (nbrs_in _ _ _ Hi) as (He' & Hm). assert (e' = e) as -> by now apply (in_name_inj S).
      pose proof (group_of net S e Hn Hi) as Eg. set (g := filter (fun x => dict_eqb (key e) (key x)) (nbrs net S)) in *.
      assert (Heg : In e g) by (apply filter_In; split; [exact Hi|apply dict_eqb_refl]).
      destruct g as [|h t] eqn:Egl; [contradiction|]. assert (Hh : In h (nbrs net S) /\ dict_eqb (key e) (key h) = true) by (apply (filter_In (fun x => dict_eqb (key e) (key x))); change (In h g); rewrite Egl; now left).
      destruct Hh as (Hh & Kh). destruct (nbrs_in _ _ _ Hh) as (HhS & Hmh).
      assert (Egh : actG (parallel_groups net S) h = act1 (h :: t) h).
      { rewrite (group_of net S h Hn Hh). f_equal. rewrite <- Egl. unfold g. apply filter_ext. intros a. symmetry. now apply dict_eqb_trans. }
      assert (Hsame : same_device e h).
      { assert (We : wf_elem e) by now apply (wfe S Hwf). assert (Wh : wf_elem h) by now apply (wfe S Hwf). apply (keq_parts e h We Wh) in Kh as (A & B & C); [|now apply (keys_ok S Hwf)]. split; [exact A|split; [exact B|intros k _; apply C]]. }
      assert (Hne : act1 (h :: t) h <> []).
      { unfold act1. destruct (1 <? length (h :: t))%nat; [|discriminate]. cbn [tl].
        assert (Hni : inb (e_name h) (map e_name t) = false).
        { apply inb_false. assert (Hng : NoDup (map e_name g)) by (unfold g; apply nodup_filter_map; unfold nbrs, on_net; now apply nodup_filter_map, nodup_filter_map). rewrite Egl in Hng. cbn [map] in Hng. now apply NoDup_cons_iff in Hng as (? & _). }
        rewrite Hni. destruct (String.eqb _ _); discriminate. }
      destruct (act1 (h :: t) h) as [|x l'] eqn:Ea; [contradiction|]. exists x. split; [apply in_flat_map; exists h; split; [exact HhS|rewrite Egh; now left]|].
      apply (same_trans e h x Hsame). apply from_device. apply (Hact h HhS). rewrite Egh. now left.
    + exists e. split; [|apply same_refl]. apply in_flat_map. exists e. split; [exact He|]. rewrite (group_none net S e Hi). now left.
Qed.
Lemma par_pass els order : wf_netlist els -> wf_netlist (add_parallel_devices order els) /\ psim els (add_parallel_devices order els).
Proof.
  unfold add_parallel_devices. revert els. induction order as [|n order IH]; intros els Hwf; cbn [fold_left].
  - split; [exact Hwf|]. split; [intros x Hx; exists x; split; [exact Hx|now left]|intros e He; exists e; split; [exact He|apply same_refl]].
  - destruct (par_step els n Hwf) as (H1 & H2 & H3). assert (W : wf_netlist (parallel_step els n)) by now apply (wf_sim els). destruct (IH _ W) as (W2 & P1 & P2). split; [exact W2|]. split.
    + intros x Hx. destruct (P1 x Hx) as (y & Hy & F). destruct (H2 y Hy) as (e & He & F'). exists e. split; [exact He|now apply (from_trans e y)].
    + intros e He. destruct (H3 e He) as (y & Hy & F). destruct (P2 y Hy) as (x & Hx & F'). exists x. split; [exact Hx|now apply (same_trans e y)].
Qed.
Lemma psim_nets els S n : wf_netlist els -> wf_netlist S -> psim els S -> In n (nets S) <-> In n (nets els).
Proof.
  intros W1 W2 (P1 & P2). rewrite (net_in S n (proj1 (proj2 W2))), (net_in els n (proj1 (proj2 W1))). split.
  - intros (x & k & Hx & E). destruct (P1 x Hx) as (e & He & F). exists e, k. split; [exact He|]. now rewrite <- (from_pins _ _ F).
  - intros (e & k & He & E). destruct (P2 e He) as (x & Hx & (_ & F & _)). exists x, k. split; [exact Hx|]. now rewrite <- F.
Qed.
Lemma same_keys_stack e x : from e x -> sget (e_params x) STACK = sget (e_params e) STACK.
Proof. intros F. now apply (from_params e x STACK F). Qed.
Lemma psim_stack els S : psim els S -> stack_ok els -> stack_ok S.
Proof.
  intros (P1 & _) (H1 & H2). split.
  - intros x s Hx E. destruct (P1 x Hx) as (e & He & F). rewrite (same_keys_stack e x F) in E. exact (H1 e s He E).
  - intros x p q Hx Hp Hq. destruct (P1 x Hx) as (e & He & F). rewrite (from_pins e x F). now apply H2.
Qed.
Lemma psim_pos els S : psim els S -> stack_pos els -> stack_pos S.
Proof. intros (P1 & _) H x s k Hx E. destruct (P1 x Hx) as (e & He & F). rewrite (same_keys_stack e x F) in E. exact (H e s k He E). Qed.

(** * Stacks stay positive *)
Lemma series_pos els net out : wf_netlist els -> stack_pos els -> series_step els net = Some out -> stack_pos out.
Proof.
  intros Hwf Hp.
  assert (G : forall a b, In a els -> In b els -> stack_pair net els a b = Some out -> stack_pos out).
  { intros a b Ha Hb. unfold stack_pair. destruct (shas (e_params a) STACK) eqn:Hs; cbn [negb]; [|intros [= <-]; exact Hp].
    destruct (String.eqb_spec (e_model a) (e_model b)) as [Hm|]; cbn [negb]; [|intros [= <-]; exact Hp].
    destruct (pins_on net a) as [|p1 [|? ?]]; [intros [= <-]; exact Hp| |intros [= <-]; exact Hp]. destruct (pins_on net b) as [|p2 [|? ?]]; [intros [= <-]; exact Hp| |intros [= <-]; exact Hp].
    destruct (String.eqb p1 p2); [intros [= <-]; exact Hp|]. rewrite (joined_ok a (wfe els Hwf a Ha)), (joined_ok b (wfe els Hwf b Hb)).
    destruct (keys_ok els Hwf a b Ha Hb Hm) as (_ & Kq). assert (Hsb : shas (e_params b) STACK = true) by (apply shas_in, Kq, shas_in; exact Hs).
    apply shas_ok in Hs as (sa & Ea). apply shas_ok in Hsb as (sb & Eb). unfold stack_of. rewrite !joined_get, Ea, Eb.
    destruct (py_int sa) as [k1|] eqn:I1; [|discriminate]. destruct (py_int sb) as [k2|] eqn:I2; [|discriminate].
    destruct (_ && _ && _ && _); [|discriminate]. destruct (_ && _); [|intros [= <-]; exact Hp]. destruct (repin net b (e_pins a)) as [pins|]; [|discriminate]. intros [= <-].
    intros z s k Hz E Ei. assert (Hz' : In z (update (e_name a) (fun e => mkElem (e_name e) (e_model e) pins (sset (e_params e) STACK (zstr (k1 + k2)))) els)).
    { revert Hz. generalize (update (e_name a) (fun e => mkElem (e_name e) (e_model e) pins (sset (e_params e) STACK (zstr (k1 + k2)))) els). clear. induction l as [|x l IH]; cbn; [auto|]. destruct (String.eqb (e_name x) (e_name b)); [auto|]. intros [<-|H]; auto. }
    apply in_map_iff in Hz' as (e & <- & He). destruct (String.eqb (e_name e) (e_name a)).
    - cbn [e_params] in E. rewrite sget_sset in E. cbn in E. injection E as <-. rewrite py_int_zstr in Ei. injection Ei as <-. pose proof (Hp a sa k1 Ha Ea I1). pose proof (Hp b sb k2 Hb Eb I2). lia.
    - exact (Hp e s k He E Ei). }
  unfold series_step. destruct (on_net net els) as [|x [|y [|z l]]] eqn:E; [discriminate|intros [= <-]; exact Hp| |intros [= <-]; exact Hp].
  assert (Hxy : forall w, In w [x; y] -> In w els) by (intros w Hw; rewrite <- E in Hw; apply on_net_in in Hw; tauto).
  assert (Hx : In x els) by (apply Hxy; cbn; auto). assert (Hy : In y els) by (apply Hxy; cbn; auto). destruct (String.ltb _ _); apply G; assumption.
Qed.
Lemma series_pass_pos order : forall els out, wf_netlist els -> stack_ok els -> stack_pos els -> NoDup order -> (forall n, In n order -> In n (nets els)) ->
  add_series_devices order els = Some out -> stack_pos out.
Proof.
  induction order as [|net order IH]; intros els out Hwf Hst Hp Hnd Hin E.
  - injection E as <-. exact Hp.
  - apply NoDup_cons_iff in Hnd as (Hn & Hnd). destruct (series_step_ok els net Hwf Hst (Hin net (or_introl eq_refl))) as (mid & Em & A).
    unfold add_series_devices in E. cbn in E. rewrite Em in E. apply (IH mid out (so_wf _ _ _ A) (so_stack _ _ _ A)); auto.
    + exact (series_pos els net mid Hwf Hp Em).
    + intros n Hi. apply (so_keep _ _ _ A); [apply Hin; now right|]. intros [->|[]]. contradiction.
Qed.

(** * What the devices say *)
Section Phys.
  Context {V : Type} (I : interp V) (pol : string -> option polarity) (hi lo : V).
  Hypothesis PH : physical I pol hi lo.
  Lemma chain_snoc (R : V -> V -> Prop) n a b c : chain R n a b -> R b c -> chain R (Datatypes.S n) a c.
  Proof. revert a. induction n as [|n IH]; intros a; cbn; [intros -> H; exists c; auto|]. intros (x & Hx & H) Hc. exists x. split; [exact Hx|]. now apply IH. Qed.
  Lemma chain_rev (R : V -> V -> Prop) n a b : (forall x y, R x y -> R y x) -> chain R n a b -> chain R n b a.
  Proof.
    intros Hs. revert a. induction n as [|n IH]; intros a; [intros H; symmetry; exact H|]. intros (c & Hc & H). apply (chain_snoc R n b c a); [now apply IH|now apply Hs].
  Qed.
  Lemma holds_exchanged r e e' d s : pol (e_model e) <> None -> sget (e_pins e) "D" = Some d -> sget (e_pins e) "S" = Some s -> exchanged e e' -> holds I r e -> holds I r e'.
  Proof.
    intros Hp Hd Hs (_ & Em & Ep & Ek & ED & ES & EO). rewrite Hs in ED. rewrite Hd in ES.
    assert (Hv : forall k, value r e' k = exchange (value r e) k).
    { intros k. unfold exchange, value. destruct (String.eqb_spec k "D") as [->|N1]; [now rewrite ED, Hs|]. destruct (String.eqb_spec k "S") as [->|N2]; [now rewrite ES, Hd|]. now rewrite EO. }
    assert (Et : terminals e' = terminals e) by (unfold terminals; rewrite ED, ES, Hd, Hs, !EO by discriminate; reflexivity).
    assert (Tt : terminals e = Some ("D", "S")%string \/ terminals e = None) by (unfold terminals; rewrite Hd, Hs; destruct (sget (e_pins e) "PLUS"), (sget (e_pins e) "MINUS"); auto).
    unfold holds. rewrite Em, Ep, Et. destruct (sget (e_params e) STACK) as [st|].
    - destruct Tt as [-> | ->].
      + intros (k & va & vb & H1 & H2 & H3 & H4). exists k, vb, va. split; [exact H1|]. rewrite !Hv. split; [exact H3|]. split; [exact H2|].
        apply (chain_rev _ _ va vb); [intros x y; now apply (ph_sym_unit I pol hi lo PH)|]. revert H4. apply chain_ext. intros x y. apply i_unit_ext; [reflexivity|].
        intros k'. unfold other. destruct (String.eqb k' "D" || String.eqb k' "S") eqn:E; [reflexivity|]. rewrite Hv. unfold exchange. apply orb_false_iff in E as (-> & ->). reflexivity.
      + intros H. apply (i_dev_ext I _ (sget (e_params e)) _ (exchange (value r e))); [reflexivity|intros k; now rewrite Hv|]. now apply (ph_sym_dev I pol hi lo PH).
    - intros H. apply (i_dev_ext I _ (sget (e_params e)) _ (exchange (value r e))); [reflexivity|intros k; now rewrite Hv|]. now apply (ph_sym_dev I pol hi lo PH).
  Qed.
  Lemma holds_same r e x : same_device e x -> holds I r e -> holds I r x.
  Proof.
    intros (Em & Ep & Eq). assert (Hv : forall k, value r e k = value r x k) by (intros k; unfold value; now rewrite Ep).
    assert (Et : terminals x = terminals e) by (unfold terminals; now rewrite !Ep). assert (Es : sget (e_params x) STACK = sget (e_params e) STACK) by (symmetry; now apply Eq).
    unfold holds. rewrite Es, Et, <- Em. destruct (sget (e_params e) STACK) as [st|]; [destruct (terminals e) as [(t1, t2)|]|].
    - intros (k & va & vb & H1 & H2 & H3 & H4). exists k, va, vb. rewrite <- !Hv. repeat (split; [assumption|]). revert H4. apply chain_ext. intros y z H.
      apply (i_unit_ext I _ (no_stack (e_params x)) _ (other (value r e) t1 t2)); [reflexivity|intros j; unfold other; now rewrite Hv|].
      revert H. apply (ph_par_unit I pol hi lo PH). intros j Hj. unfold no_stack. destruct (String.eqb j STACK); [reflexivity|now apply Eq].
    - intros H. apply (i_dev_ext I _ (sget (e_params x)) _ (value r e)); [reflexivity|exact Hv|]. revert H. apply (ph_par_dev I pol hi lo PH). exact Eq.
    - intros H. apply (i_dev_ext I _ (sget (e_params x)) _ (value r e)); [reflexivity|exact Hv|]. revert H. apply (ph_par_dev I pol hi lo PH). exact Eq.
  Qed.
  Lemma psim_sat r els S : psim els S -> sat I r els <-> sat I r S.
  Proof.
    intros (P1 & P2). unfold sat. rewrite !Forall_forall. split.
    - intros H x Hx. destruct (P1 x Hx) as (e & He & F). apply (holds_same r e x); [now apply from_device|auto].
    - intros H e He. destruct (P2 e He) as (x & Hx & F). apply (holds_same r x e); [now apply same_sym|auto].
  Qed.
  Lemma chain_all (R : V -> V -> Prop) n a b : (forall x y, R x y) -> chain R (Datatypes.S n) a b.
  Proof. intros H. revert a. induction n as [|n IH]; intros a; [exists b; split; [apply H|reflexivity]|]. exists a. split; [apply H|apply IH]. Qed.
  Lemma chain_same (R : V -> V -> Prop) n a : R a a -> chain R n a a.
  Proof. intros H. induction n as [|n IH]; [reflexivity|]. exists a. auto. Qed.
  Lemma holds_dummy L power gnd r e : (forall m, root L m "NMOS" -> pol m = Some Nch) -> (forall m, root L m "PMOS" -> pol m = Some Pch) ->
    (forall n, In n power -> r n = hi) -> (forall n, In n gnd -> r n = lo) -> stack_pos [e] -> (forall s, sget (e_params e) STACK = Some s -> exists k, py_int s = Some k) ->
    dummy L power gnd e -> holds I r e.
  Proof.
    intros HN HP Hhi Hlo Hpos Hst (d & g & s & Hd & Hg & Hs & Hdm).
    assert (Tt : terminals e = Some ("D", "S")%string \/ terminals e = None) by (unfold terminals; rewrite Hd, Hs; destruct (sget (e_pins e) "PLUS"), (sget (e_pins e) "MINUS"); auto).
    assert (Vd : value r e "D" = Some (r d)) by (unfold value; now rewrite Hd). assert (Vg : value r e "G" = Some (r g)) by (unfold value; now rewrite Hg). assert (Vs : value r e "S" = Some (r s)) by (unfold value; now rewrite Hs).
    assert (Vo : other (value r e) "D" "S" "G" = Some (r g)) by exact Vg.
    assert (C : (forall f g', g' "G"%string = Some (r g) -> (i_dev I (e_model e) f g' /\ forall a b, i_unit I (e_model e) f g' a b)) \/ (pol (e_model e) <> None /\ d = g /\ g = s)).
    { destruct Hdm as [(R & H)|[(R & H)|(R & H)]].
      - left. intros f g' Hg'. rewrite (Hhi g H) in Hg'. split; [apply (ph_off_dev I pol hi lo PH)|intros a b; apply (ph_off_unit I pol hi lo PH)]; right; auto.
      - left. intros f g' Hg'. rewrite (Hlo g H) in Hg'. split; [apply (ph_off_dev I pol hi lo PH)|intros a b; apply (ph_off_unit I pol hi lo PH)]; left; auto.
      - right. split; [|exact H]. destruct R as [R|R]; [rewrite (HN _ R)|rewrite (HP _ R)]; discriminate. }
    assert (D0 : i_dev I (e_model e) (sget (e_params e)) (value r e)).
    { destruct C as [C|(Cp & -> & ->)]; [now apply C|]. now apply (ph_short_dev I pol hi lo PH _ _ _ (r s)). }
    unfold holds. destruct (sget (e_params e) STACK) as [st|] eqn:Est; [|exact D0]. destruct Tt as [-> | ->]; [|exact D0].
    destruct (Hst st eq_refl) as (k & Ek). exists k, (r d), (r s). split; [exact Ek|]. split; [exact Vd|]. split; [exact Vs|].
    destruct C as [C|(Cp & -> & ->)].
    - pose proof (Hpos e st k (or_introl eq_refl) Est Ek) as Hk. destruct (Z.to_nat k) as [|n] eqn:En; [lia|]. apply chain_all. intros x y. now apply C.
    - apply chain_same. now apply (ph_short_unit I pol hi lo PH).
  Qed.
End Phys.
