(** Proofs about source and drain (Model/DefineSD.v). *)
From Coq Require Import String Ascii.
From Verif Require Import Base.Prelude Base.PyDict Base.PyStr Model.RemoveDuplicates Model.Netlist Model.DefineSD Spec.ChannelSpec Proofs.RemoveDuplicatesP Proofs.NetlistP Proofs.SymConstP Proofs.BfsP.

Definition wf_pins (els : list elem) : Prop := NoDup (map e_name els) /\ Forall (fun e => NoDup (map fst (e_pins e))) els.
Lemma node_eqb_ok a b : node_eqb a b = true <-> a = b.
Proof. destruct a, b; cbn; rewrite ?String.eqb_eq; split; congruence. Qed.
Lemma mem_node_in x l : mem_node x l = true <-> In x l. Proof. apply (memb_in node_eqb node_eqb_ok). Qed.
Lemma mem_node_out x l : mem_node x l = false <-> ~ In x l. Proof. apply (memb_out node_eqb node_eqb_ok). Qed.
Lemma find_name els : NoDup (map e_name els) -> forall e, In e els -> get_elem els (e_name e) = Some e.
Proof.
  unfold get_elem. induction els as [|a els IH]; intros Hnd e He; [contradiction|]. destruct He as [<-|He]; cbn in *.
  - now rewrite String.eqb_refl.
  - apply NoDup_cons_iff in Hnd as (Hn & Hnd). destruct (String.eqb_spec (e_name a) (e_name e)) as [E|]; [|now apply IH]. exfalso. apply Hn. rewrite E. now apply in_map.
Qed.
Lemma get_elem_some els i e : get_elem els i = Some e -> In e els /\ e_name e = i.
Proof. unfold get_elem. intros H. apply find_some in H as (H1 & H2). split; [exact H1|now apply String.eqb_eq]. Qed.
Lemma elem_nets_in e n : In n (elem_nets e) <-> exists p, In (p, n) (e_pins e).
Proof.
  unfold elem_nets. assert (G : forall l acc, In n (fold_left (fun l p => add_net l (snd p)) l acc) <-> In n acc \/ exists p : string, In (p, n) l).
  { induction l as [|(p, m) l IH]; intros acc; cbn [fold_left].
    - split; [now left|intros [H|(p & [])]; exact H].
    - rewrite IH, add_net_in. cbn [snd]. split.
      + intros [[H|H]|(q & H)]; [now left|right; exists p; left; now subst|right; exists q; now right].
      + intros [H|(q & [[= _ H]|H])]; [now left; left|left; now right|right; now exists q]. }
  rewrite G. split; [intros [[]|H]; exact H|now right].
Qed.
Lemma pins_on_in' n e p : NoDup (map fst (e_pins e)) -> In p (pins_on n e) <-> sget (e_pins e) p = Some n.
Proof.
  intros Hnd. unfold pins_on. rewrite in_map_iff. split.
  - intros ((a, b) & <- & Hi). apply filter_In in Hi as (Hi & E). apply String.eqb_eq in E. cbn in E. subst b. now apply (in_dget _ String.eqb_eq).
  - intros E. exists (p, n). split; [reflexivity|]. apply filter_In. split; [now apply (dget_in _ String.eqb_eq)|apply String.eqb_refl].
Qed.
(** [e] has its source or its drain on [n]. *)
Definition chan (e : elem) (n : string) : Prop := sget (e_pins e) "S" = Some n \/ sget (e_pins e) "D" = Some n.
Lemma on_channel_ok e n : NoDup (map fst (e_pins e)) -> on_channel (pins_on n e) = true <-> chan e n.
Proof. intros H. unfold on_channel, chan. rewrite orb_true_iff, !in_strs_ok, !pins_on_in' by exact H. tauto. Qed.
Lemma touches_ok n e : touches n e = true <-> exists p, In (p, n) (e_pins e).
Proof.
  unfold touches. rewrite existsb_exists. split.
  - intros ((p, m) & Hi & E). apply String.eqb_eq in E. cbn in E. subst m. now exists p.
  - intros (p & Hi). exists (p, n). split; [exact Hi|apply String.eqb_refl].
Qed.
Lemma chan_in e n : chan e n -> exists p, In (p, n) (e_pins e).
Proof. intros [H|H]; apply (dget_in _ String.eqb_eq) in H; eauto. Qed.

Section One.
  Variable L : models.
  Definition adj (els : list elem) (x : node) : list node := filter (fun y => on_channel (edge_pins els y x)) (next_level L els x).
  Definition blame (hp hn : string) (els : list elem) (e : node * node) : bool := suspect L hp hn els (snd e) (edge_pins els (snd e) (fst e)).
  Lemma fold_visit hp hn els x l : forall q vis log,
    fold_left (visit L hp hn els x) l (q, vis, map snd (filter (blame hp hn els) log)) =
    let '(q', vis', log') := fold_left (bstep node_eqb x) (filter (fun y => on_channel (edge_pins els y x)) l) (q, vis, log) in (q', vis', map snd (filter (blame hp hn els) log')).
  Proof.
    induction l as [|y l IH]; intros q vis log; cbn [fold_left filter]; [reflexivity|].
    unfold visit at 2. destruct (on_channel (edge_pins els y x)) eqn:E; cbn [negb orb]; [|apply IH].
    cbn [fold_left bstep]. change (memb node_eqb y vis) with (mem_node y vis). destruct (mem_node y vis); [apply IH|].
    rewrite <- IH. do 2 f_equal. rewrite filter_app, map_app. cbn [filter]. change (blame hp hn els (x, y)) with (suspect L hp hn els y (edge_pins els y x)). destruct (suspect L hp hn els y (edge_pins els y x)); cbn [map]; [reflexivity|now rewrite app_nil_r].
  Qed.
  Lemma traverse_bfs hp hn els : forall fuel q vis log,
    traverse L fuel hp hn els (q, vis, map snd (filter (blame hp hn els) log)) = map snd (filter (blame hp hn els) (bfs node_eqb (adj els) fuel (q, vis, log))).
  Proof.
    induction fuel as [|fuel IH]; intros q vis log; [reflexivity|]. cbn [traverse bfs]. destruct q as [|x q]; [reflexivity|].
    rewrite fold_visit. fold (adj els x). destruct (fold_left (bstep node_eqb x) (adj els x) (q, vis, log)) as ((q', vis'), log'). apply IH.
  Qed.
  Definition log_of (els : list elem) (start blocked : list string) : list (node * node) :=
    bfs node_eqb (adj els) (rounds els start) (map NN start, map NN start ++ map NN blocked, []).
  Lemma changes_log hp hn els start blocked : changes L hp hn els start blocked = map snd (filter (blame hp hn els) (log_of els start blocked)).
  Proof. unfold changes, log_of. rewrite map_app. apply (traverse_bfs hp hn els _ _ _ []). Qed.

  (** * The graph *)
  Section Graph.
    Variable els : list elem.
    Hypothesis Hwf : wf_pins els.
    Lemma pins_nd e : In e els -> NoDup (map fst (e_pins e)).
    Proof. destruct Hwf as (_ & H). rewrite Forall_forall in H. apply H. Qed.
    Lemma get_ok e : In e els -> get_elem els (e_name e) = Some e. Proof. apply find_name, Hwf. Qed.
    Lemma adj_net n y : In y (adj els (NN n)) <-> exists e, In e els /\ y = NI (e_name e) /\ chan e n.
    Proof.
      unfold adj. rewrite filter_In. cbn [next_level neighbors]. rewrite in_map_iff. split.
      - intros ((e & <- & He) & Hc). apply filter_In in He as (He & _). cbn [edge_pins] in Hc. rewrite (get_ok e He) in Hc. apply on_channel_ok in Hc; [|now apply pins_nd]. now exists e.
      - intros (e & He & -> & Hc). split.
        + exists e. split; [reflexivity|]. apply filter_In. split; [exact He|]. apply touches_ok, chan_in, Hc.
        + cbn [edge_pins]. rewrite (get_ok e He). apply on_channel_ok; [now apply pins_nd|exact Hc].
    Qed.
    Lemma adj_inst i y : In y (adj els (NI i)) <-> exists e n, In e els /\ e_name e = i /\ y = NN n /\ chan e n.
    Proof.
      unfold adj. rewrite filter_In. split.
      - intros (Hi & Hc).
        assert (Hn : In y (neighbors els (NI i))) by (cbn [next_level] in Hi; destruct (has_mos _); [apply filter_In in Hi; tauto|exact Hi]).
        cbn [neighbors] in Hn. destruct (get_elem els i) as [e|] eqn:E; [|contradiction]. apply in_map_iff in Hn as (n & <- & Hn).
        cbn [edge_pins] in Hc. rewrite E in Hc. destruct (get_elem_some _ _ _ E) as (He & Ei). apply on_channel_ok in Hc; [|now apply pins_nd]. now exists e, n.
      - intros (e & n & He & <- & -> & Hc).
        assert (Hch : on_channel (pins_on n e) = true) by (apply on_channel_ok; [now apply pins_nd|exact Hc]).
        assert (Hn : In (NN n) (neighbors els (NI (e_name e)))) by (cbn [neighbors]; rewrite (get_ok e He); apply in_map, elem_nets_in, chan_in, Hc).
        split; [|cbn [edge_pins]; now rewrite (get_ok e He)].
        cbn [next_level]. destruct (has_mos _); [|exact Hn]. apply filter_In. split; [exact Hn|]. cbn [edge_pins]. rewrite (get_ok e He). apply negb_true_iff.
        unfold on_channel in Hch. apply orb_true_iff in Hch. destruct (forallb (fun p => in_strs p ["G"; "B"]%string) (pins_on n e)) eqn:F; [|reflexivity]. rewrite forallb_forall in F.
        destruct Hch as [H|H]; apply in_strs_ok, F in H; discriminate.
    Qed.
    Definition universe : list node := map NI (map e_name els) ++ map NN (nets els).
    Lemma universe_nd : NoDup universe.
    Proof.
      unfold universe. apply nodup_app'.
      - apply FinFun.Injective_map_NoDup; [intros a b [=]; assumption|apply Hwf].
      - apply FinFun.Injective_map_NoDup; [intros a b [=]; assumption|apply nets_nodup].
      - intros x H1 H2. apply in_map_iff in H1 as (? & <- & _). apply in_map_iff in H2 as (? & [=] & _).
    Qed.
    Lemma universe_adj x : incl (adj els x) universe.
    Proof.
      intros y Hy. apply in_app_iff. destruct x as [i|n].
      - apply adj_inst in Hy as (e & n & He & _ & -> & Hc). right. apply in_map, nets_in. destruct (chan_in _ _ Hc) as (p & Hp). now exists e, (p, n).
      - apply adj_net in Hy as (e & He & -> & _). left. now apply in_map, in_map.
    Qed.

    Variables start blocked : list string.
    Notation W := (within (adj els) (map NN start) (map NN blocked)).
    Notation nr := (near els (fun n => In n start) (fun n => In n blocked)).
    Lemma near_S k n : nr k n -> nr (S k) n.
    Proof. induction 1 as [k n H|k n m e _ IH He Hj Hb]; [now constructor|now apply (near_step _ _ _ (S k) n m e)]. Qed.
    Lemma joins_chan e n m : joins e n m -> chan e n /\ chan e m.
    Proof. unfold joins, chan. tauto. Qed.
    Lemma near_within k n : nr k n -> W (2 * k) (NN n).
    Proof.
      induction 1 as [k n H|k n m e _ IH He Hj Hb]; [constructor; now apply in_map|]. destruct (joins_chan _ _ _ Hj) as (Hn & Hm). replace (2 * S k) with (S (S (2 * k))) by lia.
      apply (w_step _ _ _ _ (NI (e_name e))).
      - apply (w_step _ _ _ _ (NN n)); [exact IH|apply adj_net; now exists e|]. intros Hi. apply in_map_iff in Hi as (? & [=] & _).
      - apply adj_inst. now exists e, m.
      - intros Hi. apply in_map_iff in Hi as (x & [= ->] & Hx). contradiction.
    Qed.
    Lemma within_near j x : W j x -> match x with NN n => nr (j / 2) n | NI i => exists e n, In e els /\ e_name e = i /\ chan e n /\ nr ((j - 1) / 2) n /\ 1 <= j end.
    Proof.
      induction 1 as [j x H|j x y Hx IH Ha Hb].
      - apply in_map_iff in H as (n & <- & Hn). now constructor.
      - destruct x as [i|n].
        + apply adj_inst in Ha as (e & m & He & Ei & -> & Hc). destruct IH as (e' & n & He' & Ei' & Hc' & Hn & Hj).
          assert (e' = e) as -> by (pose proof (get_ok e He) as G1; pose proof (get_ok e' He') as G2; rewrite Ei in G1; rewrite Ei' in G2; congruence).
          replace (S j / 2) with (S ((j - 1) / 2)) by (pose proof (Nat.div_add_l 1 2 (j - 1) ltac:(lia)) as E2; replace (1 * 2 + (j - 1)) with (S j) in E2 by lia; lia).
          assert (Hor : n = m \/ joins e n m) by (unfold chan, joins in *; destruct Hc as [H1|H1], Hc' as [H2|H2]; first [left; congruence|right; left; now split|right; right; now split]).
          destruct Hor as [->|Hj']; [now apply near_S|]. apply (near_step _ _ _ _ n m e); auto. intros Hi. apply Hb. now apply in_map.
        + apply adj_net in Ha as (e & He & -> & Hc). exists e, n. replace (S j - 1) with j by lia. repeat split; auto. lia.
    Qed.
    Lemma within_near2 k n : W (2 * k) (NN n) -> nr k n.
    Proof. intros H. apply within_near in H. now rewrite Nat.mul_comm, Nat.div_mul in H by lia. Qed.

    Lemma log_facts : let log := log_of els start blocked in
      (forall p c, In (p, c) log -> edge_ok (adj els) (map NN start) (map NN blocked) p c) /\ (forall k c, W k c -> In c (map NN start) \/ exists p, In (p, c) log) /\
      (forall p p' c, In (p, c) log -> In (p', c) log -> p = p').
    Proof.
      apply (bfs_correct node_eqb node_eqb_ok (adj els) (map NN start) (map NN blocked) universe universe_nd universe_adj).
      unfold rounds, universe. rewrite app_length, !map_length. lia.
    Qed.
    Lemma suspect_ok hp hn e p n : In e els -> In p ["D"; "S"]%string -> p = (if String.eqb "PMOS" (base_of L els (e_name e)) then hp else hn) -> (base_of L els (e_name e) = "PMOS" \/ base_of L els (e_name e) = "NMOS")%string ->
      suspect L hp hn els (NI (e_name e)) (edge_pins els (NI (e_name e)) (NN n)) = true <-> sget (e_pins e) p = Some n.
    Proof.
      intros He Hp Ep Hb. cbn [edge_pins suspect]. rewrite (get_ok e He). destruct Hb as [Hb|Hb]; rewrite Hb in *; cbn in Ep |- *; subst p; rewrite in_strs_ok; apply pins_on_in'; now apply pins_nd.
    Qed.
    (** Who is blamed: [p] is the pin that counts, [q] the other one. *)
    Lemma blamed hp hn e p q n m : In e els -> (p = "D" /\ q = "S" \/ p = "S" /\ q = "D")%string ->
      p = (if String.eqb "PMOS" (base_of L els (e_name e)) then hp else hn) -> (base_of L els (e_name e) = "PMOS" \/ base_of L els (e_name e) = "NMOS")%string ->
      sget (e_pins e) p = Some n -> sget (e_pins e) q = Some m ->
      (In (NI (e_name e)) (changes L hp hn els start blocked) -> no_farther els (fun n => In n start) (fun n => In n blocked) n m) /\
      (nearer els (fun n => In n start) (fun n => In n blocked) n m -> In (NI (e_name e)) (changes L hp hn els start blocked)).
    Proof.
      intros He Hpq Ep Hb Hn Hm. destruct log_facts as (F1 & F2 & F3). rewrite changes_log.
      assert (Hcn : chan e n) by (destruct Hpq as [(-> & ->)|(-> & ->)]; unfold chan; tauto).
      assert (Hcm : chan e m) by (destruct Hpq as [(-> & ->)|(-> & ->)]; unfold chan; tauto).
      assert (Hin : In p ["D"; "S"]%string) by (destruct Hpq as [(-> & _)|(-> & _)]; cbn; tauto).
      assert (Hpar : forall x, In (x, NI (e_name e)) (log_of els start blocked) -> exists c, x = NN c /\ chan e c).
      { intros x Hx. destruct (F1 _ _ Hx) as (Ha & _). destruct x as [i|c]; [apply adj_inst in Ha as (? & ? & _ & _ & [=] & _)|].
        exists c. split; [reflexivity|]. apply adj_net in Ha as (e' & He' & [= E] & Hc). pose proof (get_ok e He) as G1. pose proof (get_ok e' He') as G2. rewrite <- E in G2. congruence. }
      split.
      - intros Hi. apply in_map_iff in Hi as ((x, c) & Ec & Hi). cbn in Ec. subst c. apply filter_In in Hi as (Hi & Hbl). unfold blame in Hbl. cbn [fst snd] in Hbl.
        destruct (Hpar x Hi) as (c & -> & Hc). apply (suspect_ok hp hn e p c He Hin Ep Hb) in Hbl. assert (c = n) as -> by congruence.
        destruct (F1 _ _ Hi) as (_ & (k & Hk) & _ & _ & Hmin). split.
        + exists k. apply within_near2. eapply within_le; [|exact Hk]. lia.
        + intros k' Hk'. apply within_near2. apply (Hmin (NN m)); [apply adj_net; now exists e|]. now apply near_within.
      - intros (k & Hk & Hnk). pose proof (near_within k n Hk) as Hw.
        assert (Hwi : W (S (2 * k)) (NI (e_name e))) by (apply (w_step _ _ _ _ (NN n)); [exact Hw|apply adj_net; now exists e|intros Hx; apply in_map_iff in Hx as (? & [=] & _)]).
        destruct (F2 _ _ Hwi) as [Hs|(x & Hx)]; [apply in_map_iff in Hs as (? & [=] & _)|].
        destruct (Hpar x Hx) as (c & -> & Hc). destruct (F1 _ _ Hx) as (_ & _ & _ & _ & Hmin).
        assert (c = n) as ->.
        { assert (Hor : c = n \/ c = m) by (destruct Hpq as [(-> & ->)|(-> & ->)], Hc as [Hc|Hc]; first [left; congruence|right; congruence]).
          destruct Hor as [H|H]; [exact H|]. subst c. exfalso. apply Hnk, within_near2. apply (Hmin (NN n)); [apply adj_net; now exists e|exact Hw]. }
        apply in_map_iff. exists (NN n, NI (e_name e)). split; [reflexivity|]. apply filter_In. split; [exact Hx|]. unfold blame. cbn [fst snd]. apply (suspect_ok hp hn e p n He Hin Ep Hb). exact Hn.
    Qed.
    (** Only transistors with the pins are blamed. *)
    Lemma blamed_mos hp hn e : In e els -> In (NI (e_name e)) (changes L hp hn els start blocked) ->
      (base_of L els (e_name e) = "PMOS" /\ sget (e_pins e) hp <> None \/ base_of L els (e_name e) = "NMOS" /\ sget (e_pins e) hn <> None)%string.
    Proof.
      intros He Hi. rewrite changes_log in Hi. apply in_map_iff in Hi as ((x, c) & Ec & Hi). cbn in Ec. subst c. apply filter_In in Hi as (_ & Hb). unfold blame in Hb. cbn [fst snd suspect] in Hb.
      assert (Hg : forall h, in_strs h (edge_pins els (NI (e_name e)) x) = true -> sget (e_pins e) h <> None).
      { intros h Hh. destruct x as [i|n]; [discriminate|]. cbn [edge_pins] in Hh. rewrite (get_ok e He) in Hh. apply in_strs_ok, pins_on_in' in Hh; [congruence|now apply pins_nd]. }
      destruct (String.eqb_spec "PMOS" (base_of L els (e_name e))) as [E|_]; [left; split; [now symmetry|now apply Hg]|].
      destruct (String.eqb_spec "NMOS" (base_of L els (e_name e))) as [E|_]; [right; split; [now symmetry|now apply Hg]|discriminate].
    Qed.
    Lemma changes_inst hp hn x : In x (changes L hp hn els start blocked) -> exists i, x = NI i.
    Proof. rewrite changes_log. intros Hi. apply in_map_iff in Hi as ((y, c) & Ec & Hi). cbn in Ec. subst c. apply filter_In in Hi as (_ & Hb). destruct x; [now eexists|discriminate]. Qed.
  End Graph.

  (** * The result *)
  Lemma inter_in a b x : In x (inter a b) <-> In x a /\ In x b.
  Proof.
    unfold inter. assert (G : forall a acc, In x (fold_left (fun l y => if in_strs y b then add_net l y else l) a acc) <-> In x acc \/ In x a /\ In x b).
    { clear a. induction a as [|y a IH]; intros acc; cbn [fold_left]; [cbn; tauto|]. rewrite IH. destruct (in_strs y b) eqn:E.
      - apply in_strs_ok in E. rewrite add_net_in. cbn [In]. intuition (subst; auto).
      - apply in_strs_false in E. cbn [In]. intuition (subst; auto; contradiction). }
    rewrite G. cbn. tauto.
  Qed.
  Definition hi (els : list elem) (l ports : list string) : list string := filter (fun n => in_strs n (nets els)) (inter l ports).
  Lemma hi_in els l ports n : In n (hi els l ports) <-> supply els ports l n.
  Proof.
    unfold hi, supply. rewrite filter_In, inter_in, in_strs_ok, nets_in. split.
    - intros ((H1 & H2) & e & (p, m) & He & Hp & E). cbn in E. subst m. repeat split; auto. now exists e, p.
    - intros (H1 & H2 & e & p & He & Hp). repeat split; auto. now exists e, (p, n).
  Qed.
  Definition flip (els : list elem) (ports power gnd : list string) (i : string) : bool :=
    mem_node (NI i) (match changes L "D" "S" els (hi els power ports) gnd with [] => [] | _ => changes L "S" "D" els (hi els gnd ports) (inter power ports) end) &&
    mem_node (NI i) (changes L "D" "S" els (hi els power ports) gnd).
  Lemma define_cases ports power gnd els :
    match define_SD L ports power gnd els with
    | None => power <> [] /\ gnd <> [] /\ (inter power ports = [] \/ inter gnd ports = [])
    | Some els' => (els' = els /\ (hi els power ports = [] \/ hi els gnd ports = [])) \/
                   els' = map (fun e => if flip els ports power gnd (e_name e) then swap_SD e else e) els
    end.
  Proof.
    unfold define_SD. destruct power as [|p0 power]; [now left; split; [|left]|]. destruct gnd as [|g0 gnd].
    { left. split; [reflexivity|now right]. }
    set (pw := p0 :: power). set (gn := g0 :: gnd).
    assert (Hp : pw <> []) by discriminate. assert (Hg : gn <> []) by discriminate.
    destruct (inter pw ports) as [|h0 h] eqn:Eh; [repeat split; auto|]. destruct (inter gn ports) as [|l0 l] eqn:El; [repeat split; auto|].
    rewrite <- Eh. fold (hi els pw ports). rewrite <- El. fold (hi els gn ports).
    destruct (hi els pw ports) as [|h1 hs] eqn:Ehi; [left; split; [reflexivity|now left]|]. destruct (hi els gn ports) as [|l1 ls] eqn:Elo; [left; split; [reflexivity|now right]|].
    right. unfold flip. rewrite Ehi, Elo. reflexivity.
  Qed.
  Lemma swap_exchanged e d s : sget (e_pins e) "D" = Some d -> sget (e_pins e) "S" = Some s -> exchanged e (swap_SD e).
  Proof.
    intros Hd Hs. unfold swap_SD. rewrite Hd, Hs. unfold exchanged. cbn [e_name e_model e_params e_pins].
    assert (K : forall (dd : dict) k v w, sget dd k = Some w -> map fst (sset dd k v) = map fst dd).
    { clear. intros dd k v w. unfold sget, sset, dset. induction dd as [|(a, b) dd IH]; cbn [dget dupd]; [discriminate|]. destruct (String.eqb k a); [reflexivity|]. intros H. cbn [map]. now rewrite IH. }
    repeat split.
    - rewrite (K _ _ _ s); [now rewrite (K _ _ _ d)|]. rewrite sget_sset. cbn. exact Hs.
    - rewrite !sget_sset. cbn. now rewrite Hs.
    - rewrite !sget_sset. cbn. now rewrite Hd.
    - intros p H1 H2. rewrite !sget_sset. destruct (String.eqb_spec p "S"); [contradiction|]. destruct (String.eqb_spec p "D"); [contradiction|reflexivity].
  Qed.
  Lemma flip_iff els ports power gnd i : flip els ports power gnd i = true <->
    In (NI i) (changes L "D" "S" els (hi els power ports) gnd) /\ In (NI i) (changes L "S" "D" els (hi els gnd ports) (inter power ports)).
  Proof.
    unfold flip. rewrite andb_true_iff, !mem_node_in. destruct (changes L "D" "S" els (hi els power ports) gnd) as [|x l]; [|tauto]. cbn. tauto.
  Qed.
  Section Who.
    Variables (els : list elem) (ports power gnd : list string).
    Hypothesis Hwf : wf_pins els.
    Lemma flip_mos e : In e els -> flip els ports power gnd (e_name e) = true ->
      (base_of L els (e_name e) = "PMOS" \/ base_of L els (e_name e) = "NMOS")%string /\ (exists d, sget (e_pins e) "D" = Some d) /\ exists s, sget (e_pins e) "S" = Some s.
    Proof.
      intros He Hf. apply flip_iff in Hf as (H1 & H2). apply (blamed_mos els Hwf) in H1; [|exact He]. apply (blamed_mos els Hwf) in H2; [|exact He].
      assert (G : forall p, sget (e_pins e) p <> None -> exists x, sget (e_pins e) p = Some x) by (intros p; destruct (sget (e_pins e) p); [eauto|congruence]).
      destruct H1 as [(B1 & P1)|(B1 & P1)], H2 as [(B2 & P2)|(B2 & P2)]; try congruence; (split; [auto|]); split; apply G; assumption.
    Qed.
    Lemma near_ext (s1 b1 s2 b2 : string -> Prop) k n : (forall x, s1 x <-> s2 x) -> (forall x, b1 x <-> b2 x) -> near els s1 b1 k n -> near els s2 b2 k n.
    Proof.
      intros Hs Hb. induction 1 as [k n H|k n m e _ IH He Hj Hn]; [constructor; now apply Hs|]. apply (near_step _ _ _ k n m e); auto. intros H. now apply Hn, Hb.
    Qed.
    Lemma no_farther_ext (s1 b1 s2 b2 : string -> Prop) n m : (forall x, s1 x <-> s2 x) -> (forall x, b1 x <-> b2 x) -> no_farther els s1 b1 n m -> no_farther els s2 b2 n m.
    Proof.
      intros Hs Hb ((k & Hk) & H). split; [exists k; now apply (near_ext s1 b1)|]. intros k' Hk'. apply (near_ext s1 b1); auto. apply H. apply (near_ext s2 b2); auto; intros x; symmetry; auto.
    Qed.
    Lemma nearer_ext (s1 b1 s2 b2 : string -> Prop) n m : (forall x, s1 x <-> s2 x) -> (forall x, b1 x <-> b2 x) -> nearer els s1 b1 n m -> nearer els s2 b2 n m.
    Proof.
      intros Hs Hb (k & Hk & Hn). exists k. split; [now apply (near_ext s1 b1)|]. intros H. apply Hn. apply (near_ext s2 b2); auto; intros x; symmetry; auto.
    Qed.
    Notation PW := (supply els ports power). Notation PB := (fun n => In n gnd).
    Notation GW := (supply els ports gnd). Notation GB := (fun n : string => In n power /\ In n ports).
    (** [p] is the pin of [e] that should be away from power: the drain of a PMOS, the source of an NMOS. *)
    Lemma who e p q n m : In e els ->
      (base_of L els (e_name e) = "PMOS" /\ p = "D" /\ q = "S" \/ base_of L els (e_name e) = "NMOS" /\ p = "S" /\ q = "D")%string ->
      sget (e_pins e) p = Some n -> sget (e_pins e) q = Some m ->
      (flip els ports power gnd (e_name e) = true -> no_farther els PW PB n m /\ no_farther els GW GB m n) /\
      (nearer els PW PB n m -> nearer els GW GB m n -> flip els ports power gnd (e_name e) = true).
    Proof.
      intros He Hb Hn Hm. rewrite flip_iff.
      assert (Hb' : (base_of L els (e_name e) = "PMOS" \/ base_of L els (e_name e) = "NMOS")%string) by tauto.
      assert (B1 : (In (NI (e_name e)) (changes L "D" "S" els (hi els power ports) gnd) -> no_farther els PW PB n m) /\ (nearer els PW PB n m -> In (NI (e_name e)) (changes L "D" "S" els (hi els power ports) gnd))).
      { destruct (blamed els Hwf (hi els power ports) gnd "D" "S" e p q n m He) as (A & B); auto; [tauto| |].
        - destruct Hb as [(-> & -> & _)|(-> & -> & _)]; reflexivity.
        - split.
          + intros H. eapply no_farther_ext; [| |exact (A H)]; [apply hi_in|reflexivity].
          + intros H. apply B. eapply nearer_ext; [| |exact H]; [intros x; symmetry; apply hi_in|reflexivity]. }
      assert (B2 : (In (NI (e_name e)) (changes L "S" "D" els (hi els gnd ports) (inter power ports)) -> no_farther els GW GB m n) /\ (nearer els GW GB m n -> In (NI (e_name e)) (changes L "S" "D" els (hi els gnd ports) (inter power ports)))).
      { destruct (blamed els Hwf (hi els gnd ports) (inter power ports) "S" "D" e q p m n He) as (A & B); auto; [tauto| |].
        - destruct Hb as [(-> & _ & ->)|(-> & _ & ->)]; reflexivity.
        - split.
          + intros H. eapply no_farther_ext; [| |exact (A H)]; [apply hi_in|apply inter_in].
          + intros H. apply B. eapply nearer_ext; [| |exact H]; [intros x; symmetry; apply hi_in|intros x; symmetry; apply inter_in]. }
      tauto.
    Qed.
    Lemma near_nonempty (s b : string -> Prop) k n : near els s b k n -> exists x, s x.
    Proof. induction 1; eauto. Qed.
    Theorem result els' : define_SD L ports power gnd els = Some els' ->
      els' = map (fun e => if flip els ports power gnd (e_name e) then swap_SD e else e) els \/
      (els' = els /\ ((forall n, ~ PW n) \/ (forall n, ~ GW n))).
    Proof.
      intros E. pose proof (define_cases ports power gnd els) as H. rewrite E in H. destruct H as [(-> & [H|H])|H]; [right|right|now left]; (split; [reflexivity|]).
      - left. intros n Hn. apply hi_in in Hn. now rewrite H in Hn.
      - right. intros n Hn. apply hi_in in Hn. now rewrite H in Hn.
    Qed.
  End Who.

  (** * A second run changes nothing *)
  Lemma adj_net_list els n : wf_pins els -> adj els (NN n) = map (fun e => NI (e_name e)) (filter (fun e => on_channel (pins_on n e)) els).
  Proof.
    intros Hwf. unfold adj. cbn [next_level neighbors]. unfold on_net.
    assert (G : forall l, incl l els -> filter (fun y => on_channel (edge_pins els y (NN n))) (map (fun e => NI (e_name e)) (filter (touches n) l)) = map (fun e => NI (e_name e)) (filter (fun e => on_channel (pins_on n e)) l)).
    { induction l as [|e l IH]; intros Hl; [reflexivity|]. assert (He : In e els) by (apply Hl; now left). assert (Hl' : incl l els) by (intros x Hx; apply Hl; now right).
      cbn [filter]. destruct (touches n e) eqn:T.
      - cbn [map filter]. cbn [edge_pins]. rewrite (get_ok els Hwf e He). destruct (on_channel (pins_on n e)); cbn [map]; now rewrite (IH Hl').
      - destruct (on_channel (pins_on n e)) eqn:C; [|now apply IH]. apply on_channel_ok in C; [|now apply (pins_nd els)]. apply chan_in, touches_ok in C. congruence. }
    apply G, incl_refl.
  Qed.
  Lemma elem_nets_nd e : NoDup (elem_nets e).
  Proof.
    unfold elem_nets. assert (G : forall (l : dict) acc, NoDup acc -> NoDup (fold_left (fun l p => add_net l (snd p)) l acc)).
    { induction l as [|p l IH]; intros acc H; [exact H|]. cbn [fold_left]. apply IH. unfold add_net. destruct (existsb (String.eqb (snd p)) acc) eqn:E; [exact H|].
      apply nodup_app'; [exact H|repeat constructor; intros []|]. intros x Hx [<-|[]]. assert (existsb (String.eqb (snd p)) acc = true) by (apply existsb_exists; exists (snd p); split; [exact Hx|apply String.eqb_refl]). congruence. }
    apply G. constructor.
  Qed.
  Lemma adj_inst_nd els i : NoDup (adj els (NI i)).
  Proof.
    unfold adj. apply NoDup_filter. assert (H : NoDup (neighbors els (NI i))).
    { cbn [neighbors]. destruct (get_elem els i) as [e|]; [|constructor]. apply FinFun.Injective_map_NoDup; [intros a b [=]; assumption|apply elem_nets_nd]. }
    cbn [next_level]. destruct (has_mos _); [now apply NoDup_filter|exact H].
  Qed.
  Lemma fold_two (x : node) l l' q vis log a b : NoDup l -> NoDup l' -> (forall y, In y l <-> In y l') -> (forall y, In y l -> y = a \/ y = b) -> (exists y, In y l /\ In y vis) ->
    fold_left (bstep node_eqb x) l (q, vis, log) = fold_left (bstep node_eqb x) l' (q, vis, log).
  Proof.
    intros Hn Hn' Heq Hab (y & Hy & Hv). pose proof (NoDup_Permutation Hn Hn' Heq) as Hp.
    destruct l as [|u [|v [|w l]]].
    - contradiction.
    - apply Permutation_length_1_inv in Hp. now subst l'.
    - apply Permutation_length_2_inv in Hp as [->| ->]; [reflexivity|]. apply NoDup_cons_iff in Hn as (Hne & _).
      assert (M : forall z, In z vis -> memb node_eqb z vis = true) by (intros z Hz; now apply (memb_in node_eqb node_eqb_ok)).
      assert (M2 : forall z w, In z vis -> memb node_eqb z (vis ++ [w]) = true) by (intros z w Hz; apply (memb_in node_eqb node_eqb_ok), in_app_iff; now left).
      cbn [fold_left]. destruct Hy as [<-|[<-|[]]]; unfold bstep at 2 4; rewrite (M _ Hv).
      + unfold bstep. destruct (memb node_eqb v vis); [now rewrite (M u Hv)|now rewrite (M2 u v Hv)].
      + unfold bstep. destruct (memb node_eqb u vis); [now rewrite (M v Hv)|now rewrite (M2 v u Hv)].
    - exfalso. apply NoDup_cons_iff in Hn as (H1 & Hn). apply NoDup_cons_iff in Hn as (H2 & _).
      destruct (Hab u) as [->| ->]; [now left| |]; destruct (Hab v) as [->| ->]; [now right; left| | |now right; left| |]; destruct (Hab w) as [->| ->]; try (now right; right; left); cbn in H1, H2; tauto.
  Qed.
  Lemma changes_iff els : wf_pins els -> forall start blocked hp hn e, In e els ->
    (In (NI (e_name e)) (changes L hp hn els start blocked) <->
     exists c, In (NN c, NI (e_name e)) (log_of els start blocked) /\
       (base_of L els (e_name e) = "PMOS" /\ sget (e_pins e) hp = Some c \/ base_of L els (e_name e) = "NMOS" /\ sget (e_pins e) hn = Some c)%string).
  Proof.
    intros Hwf start blocked hp hn e He. rewrite changes_log, in_map_iff.
    assert (P : forall c h, in_strs h (edge_pins els (NI (e_name e)) (NN c)) = true <-> sget (e_pins e) h = Some c).
    { intros c h. cbn [edge_pins]. rewrite (get_ok els Hwf e He), in_strs_ok. apply pins_on_in'. now apply (pins_nd els). }
    split.
    - intros ((x, y) & Ey & Hi). cbn in Ey. subst y. apply filter_In in Hi as (Hi & Hb). unfold blame in Hb. cbn [fst snd suspect] in Hb.
      destruct x as [i|c]; [exfalso; cbn [edge_pins] in Hb; destruct (String.eqb _ _); [discriminate|]; destruct (String.eqb _ _); discriminate|].
      exists c. split; [exact Hi|]. destruct (String.eqb_spec "PMOS" (base_of L els (e_name e))) as [E|_]; [left; split; [now symmetry|now apply P]|].
      destruct (String.eqb_spec "NMOS" (base_of L els (e_name e))) as [E|_]; [right; split; [now symmetry|now apply P]|discriminate].
    - intros (c & Hi & Hb). exists (NN c, NI (e_name e)). split; [reflexivity|]. apply filter_In. split; [exact Hi|]. unfold blame. cbn [fst snd suspect].
      destruct Hb as [(-> & H)|(-> & H)]; cbn [String.eqb Ascii.eqb Bool.eqb]; now apply P.
  Qed.

  Section Idem.
    Variables (els : list elem) (F : string -> bool).
    Hypothesis Hwf : wf_pins els.
    Hypothesis HF : forall e, In e els -> F (e_name e) = true -> (exists d, sget (e_pins e) "D" = Some d) /\ exists s, sget (e_pins e) "S" = Some s.
    Definition upd (e : elem) : elem := if F (e_name e) then swap_SD e else e.
    Definition els2 : list elem := map upd els.
    Lemma upd_cases e : In e els -> upd e = e \/ exchanged e (upd e).
    Proof. intros He. unfold upd. destruct (F (e_name e)) eqn:E; [right|now left]. destruct (HF e He E) as ((d & Hd) & s & Hs). now apply (swap_exchanged e d s). Qed.
    Lemma upd_name e : In e els -> e_name (upd e) = e_name e.
    Proof. intros He. destruct (upd_cases e He) as [->|H]; [reflexivity|apply H]. Qed.
    Lemma upd_model e : In e els -> e_model (upd e) = e_model e.
    Proof. intros He. destruct (upd_cases e He) as [->|H]; [reflexivity|apply H]. Qed.
    Lemma upd_keys e : In e els -> map fst (e_pins (upd e)) = map fst (e_pins e).
    Proof. intros He. destruct (upd_cases e He) as [->|H]; [reflexivity|apply H]. Qed.
    Lemma upd_chan e n : In e els -> chan (upd e) n <-> chan e n.
    Proof. intros He. destruct (upd_cases e He) as [->|H]; [reflexivity|]. unfold chan. destruct H as (_ & _ & _ & _ & -> & -> & _). tauto. Qed.
    Lemma upd_nets e n : In e els -> (exists p, sget (e_pins (upd e)) p = Some n) <-> exists p, sget (e_pins e) p = Some n.
    Proof.
      intros He. destruct (upd_cases e He) as [->|H]; [reflexivity|]. destruct H as (_ & _ & _ & _ & HD & HS & HO).
      split; intros (p & Hp); (destruct (String.eqb_spec p "D") as [->|ND]; [exists "S"%string; congruence|]); (destruct (String.eqb_spec p "S") as [->|NS]; [exists "D"%string; congruence|]);
        exists p; rewrite HO in * by assumption; exact Hp.
    Qed.
    Lemma names2 : map e_name els2 = map e_name els.
    Proof. unfold els2. rewrite map_map. apply map_ext_in. intros e He. now apply upd_name. Qed.
    Lemma wf2 : wf_pins els2.
    Proof.
      destruct Hwf as (H1 & H2). split; [now rewrite names2|]. apply Forall_forall. intros e' He'. apply in_map_iff in He' as (e & <- & He). rewrite (upd_keys e He). rewrite Forall_forall in H2. now apply H2.
    Qed.
    Lemma get2 e : In e els -> get_elem els2 (e_name e) = Some (upd e).
    Proof. intros He. rewrite <- (upd_name e He). apply (get_ok els2 wf2). now apply in_map. Qed.
    Lemma base2 e : In e els -> base_of L els2 (e_name e) = base_of L els (e_name e).
    Proof. intros He. unfold base_of. now rewrite (get2 e He), (get_ok els Hwf e He), upd_model. Qed.
    Lemma sget_in (d : dict) n : NoDup (map fst d) -> (exists p, In (p, n) d) <-> exists p, sget d p = Some n.
    Proof. intros Hd. split; intros (p & Hp); exists p; [now apply (in_dget _ String.eqb_eq)|now apply (dget_in _ String.eqb_eq)]. Qed.
    Lemma nets_in' (l : list elem) n : Forall (fun e => NoDup (map fst (e_pins e))) l -> In n (nets l) <-> exists e, In e l /\ exists p, sget (e_pins e) p = Some n.
    Proof.
      intros Hl. rewrite Forall_forall in Hl. rewrite nets_in. split.
      - intros (e & (p, m) & He & Hp & E). cbn in E. subst m. exists e. split; [exact He|]. apply sget_in; [now apply Hl|eauto].
      - intros (e & He & H). apply sget_in in H as (p & Hp); [|now apply Hl]. now exists e, (p, n).
    Qed.
    Lemma nets2 n : In n (nets els2) <-> In n (nets els).
    Proof.
      rewrite (nets_in' els2 n (proj2 wf2)), (nets_in' els n (proj2 Hwf)). split.
      - intros (e' & He' & H). apply in_map_iff in He' as (e & <- & He). exists e. split; [exact He|]. now apply upd_nets.
      - intros (e & He & H). exists (upd e). split; [now apply in_map|]. now apply upd_nets.
    Qed.
    Lemma rounds2 start : rounds els2 start = rounds els start.
    Proof.
      unfold rounds. f_equal; [unfold els2; now rewrite map_length|]. apply Permutation_length. apply NoDup_Permutation; [apply nets_nodup|apply nets_nodup|apply nets2].
    Qed.
    Lemma hi2 l ports : hi els2 l ports = hi els l ports.
    Proof.
      unfold hi. apply filter_ext. intros n. destruct (in_strs n (nets els2)) eqn:E1, (in_strs n (nets els)) eqn:E2; auto.
      - apply in_strs_ok, nets2, in_strs_ok in E1. congruence.
      - apply in_strs_ok, nets2, in_strs_ok in E2. congruence.
    Qed.
    Lemma adj2_net n : adj els2 (NN n) = adj els (NN n).
    Proof.
      rewrite (adj_net_list _ _ wf2), (adj_net_list _ _ Hwf). unfold els2.
      assert (G : forall l, incl l els -> map (fun e => NI (e_name e)) (filter (fun e => on_channel (pins_on n e)) (map upd l)) = map (fun e => NI (e_name e)) (filter (fun e => on_channel (pins_on n e)) l)).
      { induction l as [|e l IH]; intros Hl; [reflexivity|]. assert (He : In e els) by (apply Hl; now left). assert (Hl' : incl l els) by (intros x Hx; apply Hl; now right).
        cbn [map filter]. assert (Hk : NoDup (map fst (e_pins e))) by now apply (pins_nd els).
        assert (E : on_channel (pins_on n (upd e)) = on_channel (pins_on n e)).
        { assert (Hk' : NoDup (map fst (e_pins (upd e)))) by now rewrite (upd_keys e He).
          destruct (on_channel (pins_on n (upd e))) eqn:E1, (on_channel (pins_on n e)) eqn:E2; auto.
          - apply (on_channel_ok _ _ Hk'), (upd_chan e n He), (on_channel_ok _ _ Hk) in E1. congruence.
          - apply (on_channel_ok _ _ Hk), (upd_chan e n He), (on_channel_ok _ _ Hk') in E2. congruence. }
        rewrite E. destruct (on_channel (pins_on n e)); cbn [map]; rewrite (IH Hl'); [now rewrite (upd_name e He)|reflexivity]. }
      apply G, incl_refl.
    Qed.
    Lemma adj2_inst i y : In y (adj els2 (NI i)) <-> In y (adj els (NI i)).
    Proof.
      rewrite (adj_inst els2 wf2), (adj_inst els Hwf). split.
      - intros (e' & n & He' & Ei & -> & Hc). apply in_map_iff in He' as (e & <- & He). exists e, n. rewrite (upd_name e He) in Ei. apply (upd_chan e n He) in Hc. auto.
      - intros (e & n & He & Ei & -> & Hc). exists (upd e), n. split; [now apply in_map|]. rewrite (upd_name e He). split; [exact Ei|]. split; [reflexivity|]. now apply upd_chan.
    Qed.
    Lemma two_nets i y : In y (adj els (NI i)) -> exists a b, forall z, In z (adj els (NI i)) -> z = a \/ z = b.
    Proof.
      intros Hy. apply (adj_inst els Hwf) in Hy as (e & n & He & Ei & -> & Hc).
      exists (NN (match sget (e_pins e) "S" with Some x => x | None => n end)), (NN (match sget (e_pins e) "D" with Some x => x | None => n end)).
      intros z Hz. apply (adj_inst els Hwf) in Hz as (e' & m & He' & Ei' & -> & Hc').
      assert (e' = e) as -> by (pose proof (get_ok els Hwf e He) as G1; pose proof (get_ok els Hwf e' He') as G2; rewrite Ei in G1; rewrite Ei' in G2; congruence).
      destruct Hc' as [->| ->]; auto.
    Qed.
    Lemma bfs2 : forall fuel q vis log, (forall x, In x q -> In x vis /\ forall i, x = NI i -> exists y, In y (adj els x) /\ In y vis) ->
      bfs node_eqb (adj els2) fuel (q, vis, log) = bfs node_eqb (adj els) fuel (q, vis, log).
    Proof.
      induction fuel as [|fuel IH]; intros q vis log Hq; [reflexivity|]. cbn [bfs]. destruct q as [|x q]; [reflexivity|].
      destruct (Hq x (or_introl eq_refl)) as (Hx & Hi).
      assert (E : fold_left (bstep node_eqb x) (adj els2 x) (q, vis, log) = fold_left (bstep node_eqb x) (adj els x) (q, vis, log)).
      { destruct x as [i|n]; [|now rewrite adj2_net]. destruct (Hi i eq_refl) as (y & Hy & Hv). destruct (two_nets i y Hy) as (a & b & Hab). symmetry.
        apply (fold_two (NI i) _ _ q vis log a b); [apply adj_inst_nd|apply adj_inst_nd|intros z; symmetry; apply adj2_inst|exact Hab|now exists y]. }
      rewrite E. destruct (fold_bstep node_eqb node_eqb_ok x (adj els x) q vis log) as (news & En & _ & Hn & _). rewrite En. apply IH.
      intros z Hz. apply in_app_iff in Hz as [Hz|Hz].
      - destruct (Hq z (or_intror Hz)) as (H1 & H2). split; [apply in_app_iff; now left|]. intros i Ez. destruct (H2 i Ez) as (y & Hy & Hv). exists y. split; [exact Hy|apply in_app_iff; now left].
      - split; [apply in_app_iff; now right|]. intros i ->. destruct (Hn _ Hz) as (Ha & _). exists x. split; [|apply in_app_iff; now left].
        destruct x as [j|n]; [apply (adj_inst els Hwf) in Ha as (? & ? & _ & _ & [=] & _)|]. apply (adj_net els Hwf) in Ha as (e & He & [= ->] & Hc). apply (adj_inst els Hwf). now exists e, n.
    Qed.
    Lemma log2 start blocked : log_of els2 start blocked = log_of els start blocked.
    Proof.
      unfold log_of. rewrite rounds2. apply bfs2. intros x Hx. split; [apply in_app_iff; now left|]. intros i ->. apply in_map_iff in Hx as (? & [=] & _).
    Qed.
  End Idem.
  Lemma sset_same (d : dict) k v : sget d k = Some v -> sset d k v = d.
  Proof. unfold sget, sset, dset. induction d as [|(a, b) d IH]; cbn [dget dupd]; [discriminate|]. destruct (String.eqb k a); [intros [= ->]; reflexivity|]. intros H. now rewrite IH. Qed.
  Lemma swap_same e d : sget (e_pins e) "D" = Some d -> sget (e_pins e) "S" = Some d -> swap_SD e = e.
  Proof.
    intros Hd Hs. unfold swap_SD. rewrite Hd, Hs. rewrite (sset_same (e_pins e) "D" d Hd), (sset_same (e_pins e) "S" d Hs). now destruct e.
  Qed.
  Theorem idempotent ports power gnd els els' : wf_pins els -> define_SD L ports power gnd els = Some els' -> define_SD L ports power gnd els' = Some els'.
  Proof.
    intros Hwf E. pose proof (define_cases ports power gnd els) as H. rewrite E in H. destruct H as [(-> & _)|H]; [exact E|].
    set (F := flip els ports power gnd) in *.
    assert (HF : forall e, In e els -> F (e_name e) = true -> (exists d, sget (e_pins e) "D" = Some d) /\ exists s, sget (e_pins e) "S" = Some s) by (intros e He Hf; apply (flip_mos els ports power gnd Hwf e He Hf)).
    assert (Hels : els' = els2 els F) by exact H.
    pose proof (define_cases ports power gnd els') as H2. pose proof (define_cases ports power gnd els) as H1. rewrite E in H1.
    destruct (define_SD L ports power gnd els') as [els''|] eqn:E2.
    - destruct H2 as [(-> & _)|H2]; [reflexivity|]. f_equal. rewrite H2. rewrite <- (map_id els') at 2. apply map_ext_in. intros e' He'.
      destruct (flip els' ports power gnd (e_name e')) eqn:Ef; [|reflexivity].
      rewrite Hels in He'. apply in_map_iff in He' as (e & <- & He). pose proof (wf2 els F Hwf HF) as Hwf2.
      rewrite Hels in Ef. apply flip_iff in Ef as (F1 & F2). rewrite (hi2 els F Hwf HF) in F1, F2.
      assert (Hin : In (upd F e) (els2 els F)) by now apply in_map.
      apply (changes_iff _ Hwf2 _ _ _ _ _ Hin) in F1 as (c1 & L1 & B1). apply (changes_iff _ Hwf2 _ _ _ _ _ Hin) in F2 as (c2 & L2 & B2).
      rewrite (log2 els F Hwf HF) in L1, L2. rewrite (upd_name els F HF e He) in L1, L2, B1, B2. rewrite (base2 els F Hwf HF e He) in B1, B2.
      destruct (F (e_name e)) eqn:EF.
      + (* flipped before: source and drain are one net *)
        destruct (HF e He EF) as ((d & Hd) & s & Hs). destruct (swap_exchanged e d s Hd Hs) as (_ & _ & _ & _ & X1 & X2 & _).
        assert (Eu : upd F e = swap_SD e) by (unfold upd; now rewrite EF). rewrite Eu in *.
        pose proof EF as EF'. apply flip_iff in EF' as (F1 & _). apply (changes_iff _ Hwf _ _ _ _ _ He) in F1 as (c & Lc & Bc).
        assert (c1 = c) as ->.
        { destruct (log_facts els Hwf (hi els power ports) gnd) as (_ & _ & F3). specialize (F3 _ _ _ L1 Lc). congruence. }
        rewrite X1, X2, Hd, Hs in B1. rewrite Hd, Hs in Bc.
        assert (s = d) as -> by (destruct B1 as [(Eb & B1)|(Eb & B1)], Bc as [(Eb' & Bc)|(Eb' & Bc)]; congruence).
        apply (swap_same _ d); [now rewrite X1|now rewrite X2].
      + (* not flipped before *)
        assert (Eu : upd F e = e) by (unfold upd; now rewrite EF). rewrite Eu in *. exfalso.
        assert (T : F (e_name e) = true).
        { apply flip_iff. split; apply (changes_iff _ Hwf _ _ _ _ _ He); [exists c1|exists c2]; auto. }
        congruence.
    - exfalso. unfold define_SD in E2, E. destruct power as [|p0 power]; [discriminate|]. destruct gnd as [|g0 gnd]; [discriminate|].
      destruct H2 as (_ & _ & [H2|H2]); rewrite H2 in E; [discriminate|]. destruct (inter (p0 :: power) ports); discriminate.
  Qed.
End One.
