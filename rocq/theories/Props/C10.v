(** C10: the output of removeDuplicates is normalised and the pass is idempotent
    (align/cell_fabric/remove_duplicates.py). *)
From Coq Require Import String Ascii.
From Verif Require Import Base.Prelude Base.PyDict Model.Transformation Model.UnionFind Model.PySort
  Model.RemoveDuplicates Spec.RemoveDuplicatesSpec Proofs.UnionFindP Proofs.PySortP Proofs.RemoveDuplicatesP
  Proofs.RdLineP Proofs.RdPassP Proofs.RdViaP Proofs.RdRunP Proofs.RdIdemP.
From Coq Require Import ZifyBool.
Local Open Scope Z_scope.

(** The input of C10: plain wires of one width per track on all wiring layers. *)
Definition clean_input (cf : rdcfg) (ts : list term) : Prop :=
  (forall x, In x ts -> wired cf x -> plain x) /\
  (forall layer d c x y, wire_layer cf layer d -> In x ts -> In y ts -> on_track layer d c x -> on_track layer d c y ->
     equal_width d (t_rect x) (t_rect y)).

(** The terminals of a list on one track, in order. *)
Definition track_of (layer : string) (d : sdir) (c : Z) (ts : list term) : list term :=
  filter (fun o => String.eqb (t_layer o) layer &&
     (match d with DH => lly (t_rect o) + ury (t_rect o) | _ => llx (t_rect o) + urx (t_rect o) end =? c)) ts.

Lemma plain_clean t : plain t -> clean_entry (entry_of t).
Proof.
  intros [H1 H2]. split; simpl.
  - now apply parse_name_plain.
  - unfold is_blockage. now apply String.eqb_neq.
Qed.

Lemma filter_map_comm {A B} (f : A -> B) (p : B -> bool) l : filter p (map f l) = map f (filter (fun a => p (f a)) l).
Proof. induction l as [|a l IH]; simpl; [reflexivity|]. destruct (p (f a)); simpl; now rewrite IH. Qed.

Lemma filter_all {A} (p : A -> bool) l : (forall x, In x l -> p x = true) -> filter p l = l.
Proof. induction l as [|a l IH]; simpl; intros H; [reflexivity|]. rewrite H by now left. f_equal. apply IH. auto. Qed.

Lemma filter_ext_in' {A} (p q : A -> bool) l : (forall x, In x l -> p x = q x) -> filter p l = filter q l.
Proof. induction l as [|a l IH]; simpl; intros H; [reflexivity|]. rewrite H by now left. rewrite IH by auto. reflexivity. Qed.

(** Selecting one bucket of a list of buckets. *)
Lemma bucket_filter {K A} (eqb : K -> K -> bool) (ok : forall a b, eqb a b = true <-> a = b) (key : A -> K)
  (l : list (K * list A)) k b :
  NoDup (map fst l) -> (forall k' b' x, In (k', b') l -> In x b' -> key x = k') -> In (k, b) l ->
  filter (fun x => eqb (key x) k) (concat (map snd l)) = b.
Proof.
  intros Hnd Hk Hin. induction l as [|[k1 b1] l IH]; [destruct Hin|]. simpl in *. rewrite filter_app.
  inversion Hnd; subst. destruct Hin as [[= -> ->]|Hin].
  - rewrite filter_all, filter_none'; [apply app_nil_r| |].
    + intros x Hx. apply in_concat in Hx as (b0 & Hb0 & Hx). apply in_map_iff in Hb0 as ([k2 b2] & <- & Hb0).
      destruct (eqb (key x) k) eqn:E; [|reflexivity]. apply ok in E. rewrite (Hk k2 b2 x) in E; [|now right|assumption].
      subst. exfalso. apply H1. apply in_map_iff. exists (k, b2). auto.
    + intros x Hx. apply ok. eapply Hk; [now left|assumption].
  - rewrite filter_none', IH; auto.
    + intros; eapply Hk; eauto.
    + intros x Hx. destruct (eqb (key x) k) eqn:E; [|reflexivity]. apply ok in E.
      rewrite (Hk k1 b1 x) in E; [|now left|assumption]. subst. exfalso. apply H1. apply in_map_iff. exists (k, b). auto.
Qed.

Section Normal.
  Variables (cf : rdcfg) (ts : list term) (res : rd_result) (t : tbl) (s1 : rst) (rep1 : nat -> nat)
            (ps : list vpair) (s2 : rst) (rep2 : nat -> nat).
  Hypothesis Hcf : cfg_ok cf.
  Hypothesis R : RUN cf ts res t s1 rep1 ps s2 rep2.
  Hypothesis HI : clean_input cf ts.
  Hypothesis Hsh : r_shorts res = [].

  Let st := r_store res.
  Let nm i := net_of s2 (rep2 i).
  Let ty i := if ported_of s1 i then "pin"%string else type_of s1 i.
  Let E i := mkE (rect_of s1 i) (nm i) (ty i) (has_pin (ty i)).
  Let outT (li : string * nat) := mkTerm (fst li) (nm (snd li)) (rect_of s1 (snd li)) (ty (snd li)) (term_of s1 (snd li)).

  Lemma shorts_nil : s_shorts s1 = [] /\ s_shorts s2 = s_shorts s1.
  Proof.
    destruct (rn_shorts12 _ _ _ _ _ _ _ _ _ R) as [n12 E12]. destruct (rn_shorts23 _ _ _ _ _ _ _ _ _ R) as [n23 E23].
    rewrite Hsh, E12 in E23. symmetry in E23. apply app_eq_nil in E23 as [E23 _]. apply app_eq_nil in E23 as [E1 E2].
    subst. rewrite E12, E1. auto.
  Qed.

  Lemma line_facts layer ls c ids : In (layer, ls) st -> In (c, ids) ls ->
    exists d, wire_layer cf layer d /\ LINE layer d (track_entries cf layer d c ts) ids s1 rep1 /\ ids <> [] /\
      (forall e, In e (track_entries cf layer d c ts) -> clean_entry e) /\
      StronglySorted (gap_order d s1) ids /\
      (forall i j, In i ids -> In j ids -> same_width d (rect_of s1 i) (rect_of s1 j) = true) /\
      (forall i, In i ids -> twice_center d (rect_of s1 i) = c).
  Proof.
    intros H1 H2.
    destruct (track_line cf ts t st s1 rep1 Hcf (rn_tbl _ _ _ _ _ _ _ _ _ R) (rn_store _ _ _ _ _ _ _ _ _ R) _ _ _ _ H1 H2)
      as (d & HL & Hne & L).
    assert (HT : forall e, In e (track_entries cf layer d c ts) <-> exists t, In t ts /\ on_track layer d c t /\ e = entry_of t)
      by (intros e; apply track_entries_in; apply HL).
    destruct HI as [HP HW].
    assert (Hc : forall e, In e (track_entries cf layer d c ts) -> clean_entry e).
    { intros e He. apply HT in He as (x & Hx & Hxt & ->). apply plain_clean, HP; auto. exists d. destruct Hxt as [<- _]. exact HL. }
    assert (Hw : forall e e', In e (track_entries cf layer d c ts) -> In e' (track_entries cf layer d c ts) ->
       same_width d (e_rect e) (e_rect e') = true).
    { intros e e' He He'. apply HT in He as (x & Hx & Hxt & ->). apply HT in He' as (y & Hy & Hyt & ->).
      specialize (HW layer d c x y HL Hx Hy Hxt Hyt). unfold same_width, equal_width in *. destruct d; simpl in *; lia. }
    exists d. split; [assumption|]. split; [assumption|]. split; [|split; [assumption|split; [|split]]].
    - intros ->. destruct (track_entries cf layer d c ts) as [|e l]; [contradiction|].
      destruct (ln_in _ _ _ _ _ _ L e (or_introl eq_refl)) as (i & [] & _).
    - apply (ln_sorted _ _ _ _ _ _ L Hc (proj1 shorts_nil) Hw).
    - intros i j Hi Hj. destruct (ln_start _ _ _ _ _ _ L i Hi) as (e & He & _ & S1 & _).
      destruct (ln_start _ _ _ _ _ _ L j Hj) as (e' & He' & _ & S2 & _).
      eapply same_width_trans; [exact S1|]. eapply same_width_trans; [apply (Hw e e'); assumption|]. now apply same_width_sym.
    - intros i Hi. destruct (ln_start _ _ _ _ _ _ L i Hi) as (e & He & _ & S1 & _).
      apply filter_In in He as [_ He]. unfold same_width, twice_center in *. lia.
  Qed.

  Lemma id_facts layer i : In (layer, i) (layer_ids st) ->
    clean_entry (E i) /\ term_of s1 i = None /\ rep1 i = i /\ (i < size s1)%nat /\ ~ In layer (cf_skip cf) /\
    (has_pin (ty i) = true -> nm i <> None) /\ (if has_pin (ty i) then "pin"%string else ty i) = ty i.
  Proof.
    intros Hi. apply layer_ids_in in Hi as (ls & c & ids & H1 & H2 & H3).
    destruct (line_facts _ _ _ _ H1 H2) as (d & HL & L & _ & Hc & _ & _).
    destruct (ln_clean _ _ _ _ _ _ L Hc) as (C1 & C2 & C3 & C4 & C5).
    destruct (ln_start _ _ _ _ _ _ L i H3) as (e & He & _ & _ & Ht & Hp & _).
    assert (Hlt := ln_ids _ _ _ _ _ _ L i H3).
    assert (Epe : e_ported e = has_pin (e_type e)).
    { apply filter_In in He as [He _]. apply in_map_iff in He as (x & <- & _). reflexivity. }
    split; [split|split; [|split; [|split; [|split; [|split]]]]].
    - apply parse_name_plain. unfold E. simpl. intros n Hn.
      destruct (rn_names _ _ _ _ _ _ _ _ _ R _ _ Hn) as (x & Hx & Hwx & Hnx). apply (proj1 HI x Hx Hwx); assumption.
    - simpl. unfold ty. destruct (ported_of s1 i); [reflexivity|]. rewrite Ht. apply (Hc e He).
    - auto.
    - auto.
    - assumption.
    - apply HL.
    - intros Hpin. assert (Hpt : ported_of s1 i = true).
      { unfold ty in Hpin. destruct (ported_of s1 i); [reflexivity|]. rewrite Ht, <- Epe in Hpin. symmetry. symmetry. auto. }
      destruct (C5 i H3 Hpt) as (e' & He' & Hpe' & Hn').
      apply track_entries_in in He'; [|apply HL]. destruct He' as (x & Hx & _ & ->). simpl in *.
      destruct (centerline_spec _ _ _ (rn_tbl _ _ _ _ _ _ _ _ _ R)) as [Hpn _]. specialize (Hpn x Hx Hpe').
      destruct (t_net x) as [n|] eqn:En; [|contradiction]. specialize (Hn' n eq_refl).
      unfold nm. rewrite (rn_J _ _ _ _ _ _ _ _ _ R i Hlt) with (n := n); [discriminate| |].
      + intros n0 Hn0. now rewrite (C1 i H3).
      + now apply (rn_mono _ _ _ _ _ _ _ _ _ R).
    - unfold ty. destruct (ported_of s1 i) eqn:Epo; [reflexivity|].
      destruct (has_pin (type_of s1 i)) eqn:Eh; [|reflexivity]. rewrite Ht, <- Epe in Eh. specialize (Hp Eh). congruence.
  Qed.

  Lemma store_keys : NoDup (map fst st).
  Proof.
    pose proof (rn_store _ _ _ _ _ _ _ _ _ R) as HS. unfold STORE in HS. fold st in HS. unfold cfg_ok in Hcf.
    revert HS Hcf. generalize st. clear. generalize (cf_layers cf). induction l as [|[layer d] l IH]; intros st HS Hnd; simpl in *.
    - inversion HS. constructor.
    - inversion Hnd; subst. destruct (dget String.eqb t layer) as [bs|]; simpl in HS; [|auto].
      inversion HS as [|? [l1 ls] ? st' [H3 _] H4]; subst. simpl in *. subst l1. constructor; [|auto].
      intros Hin. apply H1. apply in_map_iff in Hin as ([l2 ls2] & Hl2 & Hin). simpl in Hl2. subst l2.
      destruct (Forall2_in_r _ _ _ _ H4 Hin) as ([[l3 d3] bs3] & H5 & H6 & _). simpl in *. subst l3.
      apply in_flat_map in H5 as ([l4 d4] & H7 & H8). simpl in H8. destruct (dget String.eqb t l4); [|destruct H8].
      destruct H8 as [H8|[]]. injection H8 as -> _ _. apply in_map_iff. exists (layer, d4). auto.
  Qed.

  Lemma line_keys layer ls : In (layer, ls) st -> NoDup (map fst ls).
  Proof.
    intros H. destruct (store_lines cf t st s1 rep1 (rn_store _ _ _ _ _ _ _ _ _ R) layer ls H) as (d & bs & H1 & H2 & H3).
    assert (Em : map fst ls = map fst bs).
    { clear -H3. unfold LAYER in H3. induction H3 as [|b l bs ls [H1 _] H IH]; simpl; congruence. }
    rewrite Em. destruct (centerline_spec _ _ _ (rn_tbl _ _ _ _ _ _ _ _ _ R)) as [_ Ec]. specialize (Ec layer).
    rewrite H2, (layer_dget _ _ _ Hcf H1) in Ec. destruct (layer_bins cf layer d ts) as [|b0 bs0] eqn:Eb; [discriminate|].
    injection Ec as ->. rewrite <- Eb. apply group_by_nodup. exact zeqb_ok.
  Qed.

  Lemma layer_ids_filter layer ls : In (layer, ls) st ->
    filter (fun li => String.eqb (fst li) layer) (layer_ids st) = map (fun i => (layer, i)) (lids ls).
  Proof.
    intros H. unfold layer_ids. rewrite flat_map_concat_map.
    pose proof (bucket_filter String.eqb str_eqb_ok fst
      (map (fun ll => (fst ll, map (fun i => (fst ll, i)) (concat (map snd (snd ll))))) st) layer (map (fun i => (layer, i)) (lids ls))) as B.
    rewrite map_map in B. simpl in B. rewrite map_map in B. simpl in B. apply B.
    - apply store_keys.
    - intros k' b' x Hin Hx. apply in_map_iff in Hin as ([l1 ls1] & [= <- <-] & _). simpl in Hx.
      apply in_map_iff in Hx as (i & <- & _). reflexivity.
    - apply in_map_iff. exists (layer, ls). auto.
  Qed.

  Lemma terms_eq : r_terms res = filter (fun x => in_strs (t_layer x) (cf_skip cf)) ts ++ map outT (layer_ids st).
  Proof. apply (rn_terms _ _ _ _ _ _ _ _ _ R). Qed.

  Lemma normalised layer d c : wire_layer cf layer d ->
    StronglySorted (fun a b => start_of d (t_rect a) <= start_of d (t_rect b) /\ end_of d (t_rect a) < start_of d (t_rect b))
      (track_of layer d c (r_terms res)).
  Proof.
    intros HL. unfold track_of. rewrite terms_eq, filter_app.
    rewrite (filter_none' _ (filter _ ts)).
    2:{ intros x Hx. apply filter_In in Hx as [_ Hx]. apply in_strs_ok in Hx.
        destruct (String.eqb (t_layer x) layer) eqn:El; [|reflexivity]. apply String.eqb_eq in El. subst. destruct HL. contradiction. }
    simpl. rewrite filter_map_comm.
    destruct (in_dec String.string_dec layer (map fst st)) as [Hin|Hout].
    - apply in_map_iff in Hin as ([l1 ls] & Hl1 & Hin). simpl in Hl1. subst l1.
      replace (filter _ (layer_ids st)) with
        (filter (fun li => twice_center d (rect_of s1 (snd li)) =? c) (filter (fun li => String.eqb (fst li) layer) (layer_ids st))).
      2:{ clear. induction (layer_ids st) as [|li l IH]; simpl; [reflexivity|].
          destruct (String.eqb (fst li) layer); simpl; [|assumption]. rewrite IH. unfold twice_center, wlo, whi. destruct d; reflexivity. }
      rewrite (layer_ids_filter layer ls Hin), filter_map_comm. simpl.
      destruct (in_dec Z.eq_dec c (map fst ls)) as [Hc|Hc].
      + apply in_map_iff in Hc as ([c1 ids] & Hc1 & Hids). simpl in Hc1. subst c1.
        destruct (line_facts _ _ _ _ Hin Hids) as (d0 & HL0 & _ & _ & _ & SS & _).
        assert (d0 = d) by (pose proof (layer_dget _ _ _ Hcf (proj1 HL0)); pose proof (layer_dget _ _ _ Hcf (proj1 HL)); congruence). subst d0.
        unfold lids. rewrite (bucket_filter Z.eqb zeqb_ok (fun i => twice_center d (rect_of s1 i)) ls c ids); auto.
        * clear -SS. induction SS as [|i l Hs IH Hf]; simpl; constructor; auto.
          rewrite Forall_forall in *. intros x Hx. apply in_map_iff in Hx as (lj & <- & Hj). apply in_map_iff in Hj as (j & <- & Hj).
          specialize (Hf j Hj). unfold gap_order in Hf. unfold outT, start_of, end_of. destruct d; exact Hf.
        * eapply line_keys; eauto.
        * intros c' ids' i H1 H2. destruct (line_facts _ _ _ _ Hin H1) as (d0 & HL1 & _ & _ & _ & _ & _ & Htc).
          assert (d0 = d) by (pose proof (layer_dget _ _ _ Hcf (proj1 HL1)); pose proof (layer_dget _ _ _ Hcf (proj1 HL)); congruence). subst d0.
          auto.
      + rewrite filter_none'; [constructor|]. intros i Hi. unfold lids in Hi. apply in_concat in Hi as (ids & Hids & Hi).
        apply in_map_iff in Hids as ([c' ids'] & <- & Hids). simpl in Hi.
        destruct (line_facts _ _ _ _ Hin Hids) as (d0 & HL1 & _ & _ & _ & _ & _ & Htc).
        assert (d0 = d) by (pose proof (layer_dget _ _ _ Hcf (proj1 HL1)); pose proof (layer_dget _ _ _ Hcf (proj1 HL)); congruence). subst d0.
        rewrite (Htc i Hi). apply Z.eqb_neq. intros ->. apply Hc. apply in_map_iff. exists (c, ids'). auto.
    - rewrite filter_none'; [constructor|]. intros [l1 i] Hi. simpl. destruct (String.eqb l1 layer) eqn:El; [|reflexivity].
      apply String.eqb_eq in El. subst l1. apply layer_ids_in in Hi as (ls & _ & _ & Hin & _). exfalso. apply Hout. apply in_map_iff. exists (layer, ls). auto.
  Qed.

  (** ** The second pass *)
  Let A := all_ids st.
  Let g k := nth k A (size s1).

  Lemma layer_ids_snd : map snd (layer_ids st) = A.
  Proof.
    unfold layer_ids, A, all_ids. generalize st. intros l. induction l as [|[layer ls] l IH]; simpl; [reflexivity|].
    rewrite map_app, map_map, IH, map_app, concat_app. simpl. rewrite map_id. reflexivity.
  Qed.

  Lemma A_in i : In i A -> exists layer, In (layer, i) (layer_ids st).
  Proof. rewrite <- layer_ids_snd. intros H. apply in_map_iff in H as ([layer j] & <- & H). eauto. Qed.

  Lemma A_lt i : In i A -> (i < size s1)%nat.
  Proof. intros H. destruct (A_in i H) as (layer & H1). now apply (id_facts layer i H1). Qed.

  Lemma second_table : exists t2, build_centerline_tbl cf (r_terms res) = Some t2 /\
    (forall layer ls, In (layer, ls) st -> dget String.eqb t2 layer = Some (map (fun l => (fst l, map E (snd l))) ls)) /\
    (forall layer, ~ In layer (map fst st) -> dget String.eqb t2 layer = None).
  Proof.
    destruct (centerline_total cf (r_terms res)) as (t2 & E2).
    { intros x Hx Hp. rewrite terms_eq in Hx. apply in_app_iff in Hx as [Hx|Hx].
      - apply filter_In in Hx as [Hx _]. apply (proj1 (centerline_spec _ _ _ (rn_tbl _ _ _ _ _ _ _ _ _ R)) x Hx Hp).
      - apply in_map_iff in Hx as ([layer i] & <- & Hi). simpl in *. now apply (id_facts layer i Hi). }
    exists t2. split; [assumption|]. destruct (centerline_spec _ _ _ E2) as [_ Ec].
    assert (Fl : forall layer, filter (on_layer cf layer) (r_terms res) = map outT (filter (fun li => String.eqb (fst li) layer) (layer_ids st))).
    { intros layer. rewrite terms_eq, filter_app, filter_none', filter_map_comm.
      - simpl. f_equal. apply filter_ext_in'. intros [l1 i] Hi. unfold on_layer. simpl.
        destruct (id_facts l1 i Hi) as (_ & _ & _ & _ & Hs & _). destruct (in_strs l1 (cf_skip cf)) eqn:El; [|apply Bool.andb_true_r].
        apply in_strs_ok in El. contradiction.
      - intros x Hx. apply filter_In in Hx as [_ Hx]. unfold on_layer. rewrite Hx. apply Bool.andb_false_r. }
    split.
    - intros layer ls Hin. rewrite Ec.
      destruct (store_lines cf t st s1 rep1 (rn_store _ _ _ _ _ _ _ _ _ R) layer ls Hin) as (d & bs & H1 & _ & H3).
      rewrite (layer_dget _ _ _ Hcf H1). unfold layer_bins. rewrite Fl, (layer_ids_filter layer ls Hin), !map_map. simpl.
      assert (Eg : group_by Z.eqb (fun e => twice_center d (e_rect e)) (map (fun x => entry_of (outT (layer, x))) (lids ls)) =
                   map (fun l => (fst l, map E (snd l))) ls).
      { replace (map (fun x => entry_of (outT (layer, x))) (lids ls)) with (concat (map snd (map (fun l : Z * list nat => (fst l, map E (snd l))) ls))).
        2:{ unfold lids. rewrite map_map, concat_map, map_map. reflexivity. }
        apply (group_by_concat _ _ zeqb_ok).
        - rewrite map_map. simpl. eapply line_keys; eauto.
        - intros k b Hb. apply in_map_iff in Hb as ([c ids] & [= <- <-] & Hids). simpl.
          destruct (line_facts _ _ _ _ Hin Hids) as (d0 & HL1 & _ & Hne & _ & _ & _ & Htc).
          assert (d0 = d) by (pose proof (layer_dget _ _ _ Hcf (proj1 HL1)); pose proof (layer_dget _ _ _ Hcf H1); congruence). subst d0.
          split; [destruct ids; [contradiction|discriminate]|].
          intros e He. apply in_map_iff in He as (i & <- & Hi). simpl. auto. }
      rewrite Eg. destruct ls as [|l ls]; [|reflexivity]. exfalso.
      unfold LAYER in H3. inversion H3; subst bs.
      destruct (centerline_spec _ _ _ (rn_tbl _ _ _ _ _ _ _ _ _ R)) as [_ Ec1].
      destruct (store_lines cf t st s1 rep1 (rn_store _ _ _ _ _ _ _ _ _ R) layer [] Hin) as (d' & bs' & H1' & H2' & H3').
      inversion H3'; subst bs'. rewrite Ec1, (layer_dget _ _ _ Hcf H1') in H2'. destruct (layer_bins cf layer d' ts); discriminate.
    - intros layer Hno. rewrite Ec. destruct (dget String.eqb (cf_layers cf) layer) as [d|]; [|reflexivity].
      unfold layer_bins. rewrite Fl, filter_none'; [reflexivity|]. intros [l1 i] Hi. simpl.
      destruct (String.eqb l1 layer) eqn:El; [|reflexivity]. apply String.eqb_eq in El. subst l1.
      apply layer_ids_in in Hi as (ls & _ & _ & Hin & _). exfalso. apply Hno. apply in_map_iff. exists (layer, ls). auto.
  Qed.

  Lemma idempotent : exists res2, remove_duplicates cf (r_terms res) = Some res2 /\
    r_terms res2 = r_terms res /\ r_shorts res2 = [] /\ r_widths res2 = 0%nat.
  Proof.
    destruct second_table as (t2 & E2 & T2 & T2n). unfold remove_duplicates. rewrite E2.
    (* scan lines *)
    destruct (rebuild_store E A (size s1) t2 (cf_layers cf) st [] [] [] 0%nat) as (st2 & Es & Em).
    { now rewrite app_nil_r. }
    { pose proof (rn_store _ _ _ _ _ _ _ _ _ R) as HS. unfold STORE in HS. fold st in HS.
      assert (LF : forall layer ls, In (layer, ls) st -> forall d, In (layer, d) (cf_layers cf) -> forall c ids, In (c, ids) ls -> good_line E layer d ids).
      { intros layer ls Hin d Hd c ids Hids. destruct (line_facts _ _ _ _ Hin Hids) as (d0 & HL1 & _ & _ & _ & SS & SW & _).
        assert (d0 = d) by (pose proof (layer_dget _ _ _ Hcf (proj1 HL1)); pose proof (layer_dget _ _ _ Hcf Hd); congruence). subst d0.
        split; [|split].
        - intros i Hi. apply (id_facts layer i). apply layer_ids_in. eauto 8.
        - clear -SS. induction SS as [|i l Hs IH Hf]; simpl; constructor; auto.
          rewrite Forall_forall in *. intros x Hx. apply in_map_iff in Hx as (j & <- & Hj). apply (Hf j Hj).
        - intros i j Hi Hj. apply (SW i j Hi Hj). }
      assert (Sub : forall lds, (forall ld, In ld lds -> In ld (cf_layers cf)) -> forall stL,
        (forall x, In x stL -> In x st) ->
        (forall layer d, In (layer, d) lds -> dget String.eqb t layer = None -> ~ In layer (map fst st)) ->
        Forall2 (fun (ld : string * sdir * bins) (sl : string * lines) => fst sl = fst (fst ld) /\ LAYER (fst (fst ld)) (snd (fst ld)) (snd ld) (snd sl) s1 rep1)
          (flat_map (fun ld => match dget String.eqb t (fst ld) with Some bs => [(ld, bs)] | None => [] end) lds) stL ->
        Forall2 (fun ld sl => fst sl = fst ld /\ forall c ids, In (c, ids) (snd sl) -> good_line E (fst ld) (snd ld) ids)
            (filter (fun ld => match dget String.eqb t2 (fst ld) with Some _ => true | None => false end) lds) stL).
      { induction lds as [|[layer d] lds IH]; intros Hlds stL Hst Hno HF; simpl in *; [inversion HF; constructor|].
        destruct (dget String.eqb t layer) as [bs|] eqn:Ed; simpl in HF.
        - destruct stL as [|[l1 ls] stL]; [inversion HF|]. apply Forall2_cons_inv in HF as [[H1 _] H2]. simpl in H1. subst l1.
          rewrite (T2 layer ls) by (apply Hst; now left).
          constructor; [simpl; split; [reflexivity|]|apply IH; auto].
          + intros c ids Hids. apply (LF layer ls (Hst _ (or_introl eq_refl)) d (Hlds _ (or_introl eq_refl)) c ids Hids).
          + intros; apply Hst; now right.
          + intros; eapply Hno; eauto.
        - rewrite T2n by (eapply Hno; eauto). apply IH; auto. intros; eapply Hno; eauto. }
      apply (Sub (cf_layers cf)); auto. intros layer d Hd Hn Hin. apply in_map_iff in Hin as ([l1 ls] & Hl1 & Hin). simpl in Hl1. subst l1.
      destruct (store_lines cf t st s1 rep1 (rn_store _ _ _ _ _ _ _ _ _ R) layer ls Hin) as (d' & bs & _ & H2 & _). congruence. }
    { exact T2. }
    unfold build_scan_lines.
    match goal with |- context [foldM ?f (cf_layers cf) ?b] => set (fm := foldM f (cf_layers cf) b) end.
    assert (Efm : fm = Some (st2, als (map E A) rst0, 0%nat)) by exact Es. rewrite Efm. clearbody fm. clear fm Efm Es.
    fold g in Em. set (u1 := als (map E A) rst0).
    destruct (als_fields (map E A) rst0) as (F1 & F2 & F3 & F4 & F5 & F6 & F7 & F8). fold u1 in F1, F2, F3, F4, F5, F6, F7, F8.
    simpl in F1, F2, F3, F4, F5, F6, F7, F8. rewrite map_length in F8.
    destruct (als_wf (map E A) rst0 (fun x => x) wf0 ltac:(auto)) as (v1 & W1 & Hv1). fold u1 in W1, Hv1.
    assert (gA : forall k, (k < List.length A)%nat -> In (g k) A) by (intros k Hk; apply nth_In; assumption).
    assert (Rg : forall k, rect_of u1 k = rect_of s1 (g k)).
    { intros k. unfold rect_of at 1. rewrite F1, map_map. destruct (Nat.lt_ge_cases k (List.length A)) as [Hk|Hk].
      - rewrite (nth_indep _ _ (e_rect (E (size s1)))) by now rewrite map_length. rewrite (map_nth (fun x => e_rect (E x))). reflexivity.
      - rewrite nth_overflow by now rewrite map_length. unfold g. rewrite nth_overflow by assumption.
        unfold rect_of. rewrite nth_overflow; [reflexivity|]. rewrite (wf_rect _ _ (rn_wf1 _ _ _ _ _ _ _ _ _ R)). unfold size. lia. }
    assert (Ng : forall k, (k < List.length A)%nat -> net_of u1 k = nm (g k)).
    { intros k Hk. unfold net_of. rewrite F2, map_map. rewrite (nth_indep _ _ (e_net (E (size s1)))) by now rewrite map_length.
      rewrite (map_nth (fun x => e_net (E x))). reflexivity. }
    assert (Tg : forall k, term_of u1 k = None).
    { intros k. unfold term_of. rewrite F4. clear. revert k. induction (map E A) as [|e l IH]; intros [|k]; simpl; auto. }
    assert (Hids2 : map g (all_ids st2) = A).
    { unfold A. rewrite <- Em. unfold all_ids, map_store, map_lines. rewrite map_map. simpl. clearbody g. clear.
      induction st2 as [|[l ls] l' IH]; simpl; [reflexivity|]. rewrite !map_app, !concat_app, map_app, IH. f_equal.
      rewrite map_map. simpl. clear. induction ls as [|[c ids] ls IH]; simpl; [reflexivity|]. rewrite map_app, IH. reflexivity. }
    assert (HV2 : store_valid (size u1) st2).
    { intros layer ls c ids k H1 H2 H3.
      destruct (Nat.lt_ge_cases k (size u1)) as [|Hge]; [assumption|exfalso].
      assert (Hin : In (g k) A).
      { rewrite <- Hids2. apply in_map. unfold all_ids. apply in_concat. exists ids. split; [|assumption].
        apply in_map_iff. exists (c, ids). split; [reflexivity|]. apply in_concat. exists ls. split; [|assumption].
        apply in_map_iff. exists (layer, ls). auto. }
      apply A_lt in Hin. unfold g in Hin. rewrite nth_overflow in Hin by lia. lia. }
    (* vias *)
    assert (OK1 : okst (size u1) (s_rect u1) u1) by (split; [eauto|auto]).
    rewrite (check_vias_eq (size u1) (s_rect u1) st2 HV2 cf u1 OK1).
    change (fun i => nth i (s_rect u1) (mkRect 0 0 0 0)) with (rect_of u1).
    assert (Ev : option_map (map (gp g)) (via_pairs (rect_of u1) cf st2) = Some ps).
    { rewrite <- (rn_pairs _ _ _ _ _ _ _ _ _ R). fold st. rewrite <- Em.
      rewrite (via_pairs_map g (rect_of s1) cf st2). f_equal. apply via_pairs_ext. intros k. symmetry. apply Rg. }
    destruct (via_pairs (rect_of u1) cf st2) as [ps2|] eqn:Ep2; [|discriminate]. simpl in Ev. injection Ev as Ev.
    pose proof (via_pairs_valid (rect_of u1) (size u1) st2 HV2 cf ps2 Ep2) as HPV.
    destruct (links_agree (fun k => nm (g k)) (size u1) ps2 u1 v1 W1 eq_refl) as (u2 & v2 & L1 & L2 & L3 & L4 & L5 & L6 & L7).
    { exact HPV. } { exact Tg. } { intros k Hk. apply Ng. lia. }
    { intros i j Hi Hj Hij. rewrite !Hv1 in Hij by assumption. congruence. }
    { intros via a b Hab. unfold nm. f_equal. apply (rn_joined _ _ _ _ _ _ _ _ _ R (proj2 shorts_nil) via).
      rewrite <- Ev. apply in_map_iff. exists (via, a, b). auto. }
    rewrite L1.
    (* terminals *)
    unfold check_terms. rewrite L5, F7. simpl.
    (* opens *)
    assert (HV3 : store_valid (size u2) st2) by (rewrite (geo_size _ _ L3); assumption).
    destruct (opens_total cf st2 u2 v2 L2 HV3) as ([ops u3] & Eo). rewrite Eo.
    destruct (opens_spec cf st2 u2 v2 ops u3 L2 HV3 Eo) as (S3 & A3).
    assert (HV4 : store_valid (size u3) st2) by (rewrite (geo_size _ _ (sm_geo _ _ _ S3)); assumption).
    destruct (generate_spec cf (r_terms res) st2 u3 v2 (sm_wf _ _ _ S3) HV4) as (u4 & Eg & A4). rewrite Eg.
    eexists. split; [reflexivity|]. simpl. split; [|split; [congruence|reflexivity]].
    rewrite terms_eq at 2. f_equal.
    - rewrite terms_eq, filter_app, (filter_none' _ (map outT _)), app_nil_r.
      + apply filter_all. intros x Hx. now apply filter_In in Hx as [_ Hx].
      + intros x Hx. apply in_map_iff in Hx as ([layer i] & <- & Hi). simpl.
        destruct (id_facts layer i Hi) as (_ & _ & _ & _ & Hs & _). destruct (in_strs layer (cf_skip cf)) eqn:El; [|reflexivity].
        apply in_strs_ok in El. contradiction.
    - assert (El : layer_ids st = map (fun li => (fst li, g (snd li))) (layer_ids st2)).
      { rewrite <- Em. unfold layer_ids, map_store, map_lines. clear. induction st2 as [|[l ls] l' IH]; simpl; [reflexivity|].
        rewrite map_app, IH. f_equal. rewrite !map_map. simpl. rewrite concat_map, map_map.
        induction ls as [|[c ids] ls IHl]; simpl; [reflexivity|]. rewrite !map_app, IHl. f_equal. now rewrite map_map. }
      rewrite El, map_map. apply map_ext_in. intros [layer k] Hk. simpl.
      assert (Hkl : (k < size u1)%nat).
      { apply layer_ids_in in Hk as (ls & c & ids & H1 & H2 & H3). eapply HV2; eauto. }
      assert (Hkl' : (k < List.length A)%nat) by lia.
      assert (G13 : geo u1 u3) by (eapply geo_trans; [exact L3|apply S3]).
      destruct (A_in _ (gA k Hkl')) as (layer' & Hgk). destruct (id_facts layer' (g k) Hgk) as (_ & Ht & _ & _ & _ & _ & Hty).
      unfold outT. simpl. f_equal.
      + rewrite (same_net_of _ _ _ _ S3).
        assert (Hlt : (v2 k < size u1)%nat).
        { rewrite <- (geo_size _ _ L3). eapply Inv_rep_lt; [apply L2|]. rewrite <- (geo_size _ _ L3) in Hkl. exact Hkl. }
        rewrite L6 by assumption. apply L7; auto. eapply Inv_rep_idem; [apply L2|]. rewrite <- (geo_size _ _ L3) in Hkl. exact Hkl.
      + rewrite (geo_rect_of _ _ _ G13). apply Rg.
      + rewrite (geo_ported_of _ _ _ G13), (geo_type_of _ _ _ G13). rewrite <- Hty. unfold ported_of, type_of. rewrite F5, F3, !map_map.
        rewrite (nth_indep _ false (e_ported (E (size s1)))) by now rewrite map_length.
        rewrite (nth_indep (map _ A) EmptyString (e_type (E (size s1)))) by now rewrite map_length.
        rewrite (map_nth (fun x => e_ported (E x))), (map_nth (fun x => e_type (E x))). reflexivity.
      + rewrite (geo_term_of _ _ _ G13), Tg. now symmetry.
  Qed.
End Normal.

(** The rectangles on a track come out sorted with positive gaps. *)
Theorem C10_normalised :
  forall cf ts res layer d c, cfg_ok cf -> remove_duplicates cf ts = Some res -> clean_input cf ts -> r_shorts res = [] ->
  wire_layer cf layer d ->
  StronglySorted (fun a b => start_of d (t_rect a) <= start_of d (t_rect b) /\ end_of d (t_rect a) < start_of d (t_rect b))
    (track_of layer d c (r_terms res)).
Proof.
  intros cf ts res layer d c Hcf H HI Hsh HL. destruct (run_spec cf ts res Hcf H) as (t & s1 & rep1 & ps & s2 & rep2 & R).
  eapply normalised; eauto.
Qed.
Print Assumptions C10_normalised.

(** Running the pass on its own output succeeds and changes nothing. *)
Theorem C10_idempotent :
  forall cf ts res, cfg_ok cf -> remove_duplicates cf ts = Some res -> clean_input cf ts -> r_shorts res = [] ->
  exists res2, remove_duplicates cf (r_terms res) = Some res2 /\
    r_terms res2 = r_terms res /\ r_shorts res2 = [] /\ r_widths res2 = 0%nat.
Proof.
  intros cf ts res Hcf H HI Hsh. destruct (run_spec cf ts res Hcf H) as (t & s1 & rep1 & ps & s2 & rep2 & R).
  eapply idempotent; eauto.
Qed.
Print Assumptions C10_idempotent.

(** A clean input with three overlapping M1 wires, an M2 wire and a via. *)
Example C10_nonvacuous :
  let cf := mkRC [("M1"%string, DH); ("M2"%string, DV); ("V1"%string, DStar)] ["boundary"%string]
                 [("V1"%string, (Some "M2"%string, Some "M1"%string))] [] false in
  let w n x0 x1 := mkTerm "M1"%string n (mkRect x0 (-5) x1 5) "drawing"%string None in
  let ts := [mkTerm "boundary" None (mkRect 0 0 99 99) "drawing" None; w None 0 60; w (Some "A"%string) 50 100; w None 40 55;
             w (Some "B"%string) 200 300;
             mkTerm "M2" None (mkRect 20 (-50) 30 50) "drawing" None; mkTerm "V1" None (mkRect 20 (-5) 30 5) "drawing" None]%string in
  cfg_ok cf /\ clean_input cf ts /\
  option_map (fun r => (List.length (r_terms r), r_shorts r)) (remove_duplicates cf ts) = Some (5%nat, []).
Proof.
  split; [|split; [|vm_compute; reflexivity]].
  - repeat constructor; simpl; intuition discriminate.
  - split.
    + intros x Hx _. simpl in Hx.
      destruct Hx as [<-|[<-|[<-|[<-|[<-|[<-|[<-|[]]]]]]]]; split; simpl; try discriminate;
        intros n Hn; try discriminate Hn; injection Hn as <-; simpl; repeat split; discriminate.
    + intros layer d c x y [HL _] Hx Hy [H1 H2] [H3 H4]. simpl in Hx, Hy, HL.
      destruct Hx as [<-|[<-|[<-|[<-|[<-|[<-|[<-|[]]]]]]]]; simpl in H1; subst layer;
      destruct Hy as [<-|[<-|[<-|[<-|[<-|[<-|[<-|[]]]]]]]]; simpl in H3; try discriminate H3;
      destruct HL as [HL|[HL|[HL|[]]]]; try discriminate HL; injection HL as <-; split; reflexivity.
Qed.
