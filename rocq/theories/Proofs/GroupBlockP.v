(** Proofs about [group_block]. *)
From Coq Require Import String.
From Verif Require Import Base.Prelude Base.PyDict Base.PyStr Model.RemoveDuplicates Model.Canvas Model.Netlist Model.Hier Model.NewHier Model.GroupBlock Spec.HierSpec Spec.CircuitSpec Proofs.NetlistP Proofs.HierP Proofs.FindDummyP Proofs.NewHierP Proofs.FoldP.

Local Open Scope Z_scope.
Lemma kinsert_perm {A} (key : A -> string) x l : Permutation (kinsert key x l) (x :: l).
Proof. induction l as [|y l IH]; [reflexivity|]. cbn [kinsert]. destruct (String.leb _ _); [reflexivity|]. rewrite IH. apply perm_swap. Qed.
Lemma ksorted_perm {A} (key : A -> string) l : Permutation (ksorted key l) l.
Proof. induction l as [|x l IH]; [reflexivity|]. unfold ksorted in *. cbn [fold_right]. rewrite kinsert_perm. now constructor. Qed.
Lemma index_inj l : forall a b, In a l -> In b l -> index_of a l = index_of b l -> a = b.
Proof.
  assert (P : forall x l, (0 <= index_of x l)%Z) by (intros x m; induction m as [|y m IH]; cbn [index_of]; [lia|destruct (String.eqb y x); lia]).
  induction l as [|y l IH]; intros a b Ha Hb E; [destruct Ha|]. cbn [index_of] in E. destruct (String.eqb_spec y a), (String.eqb_spec y b); [congruence| | |].
  - pose proof (P b l). lia.
  - pose proof (P a l). lia.
  - destruct Ha as [Ha|Ha]; [contradiction|]. destruct Hb as [Hb|Hb]; [contradiction|]. apply IH; [assumption|assumption|lia].
Qed.
Lemma app_inj_l a b c : (a ++ b = a ++ c)%string -> b = c.
Proof. induction a as [|x a IH]; simpl; intros E; [assumption|]. injection E as E. auto. Qed.
Lemma canon_net_inj l a b : In a l -> In b l -> canon_net l a = canon_net l b -> a = b.
Proof. intros Ha Hb E. apply (app_inj_l "P") in E. apply zstr_inj in E. exact (index_inj l a b Ha Hb E). Qed.
Lemma nodup_inj {A B} (f : A -> B) l : NoDup l -> (forall a b, In a l -> In b l -> f a = f b -> a = b) -> NoDup (map f l).
Proof.
  induction l as [|a l IH]; intros N G; [constructor|]. inversion N as [|? ? N1 N2]; subst. cbn [map]. constructor; [|apply IH; [assumption|intros u v Hu Hv; apply G; now right]]. intros H. apply in_map_iff in H as (b & E & Hb). apply G in E; [congruence|now right|now left].
Qed.
Lemma group_nets_in insts n : (forall e, In e insts -> NoDup (map fst (e_pins e))) -> In n (group_nets insts) <-> exists e, In e insts /\ on e n.
Proof.
  intros N. unfold group_nets. rewrite uniq_in, in_flat_map. split.
  - intros (e & He & H). exists e. split; [assumption|]. apply in_map_iff in H as (k & Ek & Hk). apply (Permutation_in _ (ksorted_perm _ _)) in Hk. destruct (sget_key _ _ Hk) as (v & Hv). unfold at_key in Ek. rewrite Hv in Ek. subst n. exists k. now apply sget_in.
  - intros (e & He & q & Hq). exists e. split; [assumption|]. apply in_map_iff. exists q. split; [unfold at_key; now rewrite (in_sget _ _ _ (N e He) Hq)|]. apply (Permutation_in _ (Permutation_sym (ksorted_perm _ _))). apply in_map_iff. exists (q, n). auto.
Qed.

(** The member of the canonical subcircuit that stands for an element. *)
Definition twin (insts : list elem) (e : elem) : elem := canon_inst (group_nets insts) (index_of (e_name e) (map e_name insts), e).
Lemma enum_index l : forall i, NoDup (map e_name l) -> enum i l = map (fun e => (i + index_of (e_name e) (map e_name l), e)) l.
Proof.
  induction l as [|a l IH]; intros i N; [reflexivity|]. inversion N as [|? ? N1 N2]; subst. cbn [enum map index_of]. rewrite String.eqb_refl, Z.add_0_r. f_equal. rewrite (IH (i + 1) N2). apply map_ext_in. intros e He. f_equal. cbn [index_of]. destruct (String.eqb_spec (e_name a) (e_name e)) as [E|E]; [exfalso; apply N1; rewrite E; now apply in_map|]. lia.
Qed.
Lemma canon_twin insts : NoDup (map e_name insts) -> canon_insts insts = map (twin insts) insts.
Proof. intros N. unfold canon_insts. rewrite (enum_index insts 0 N), map_map. apply map_ext. intros e. unfold twin. rewrite Z.add_0_l. reflexivity. Qed.

Section Grp.
  Variables (gname : list elem -> string) (L : lib) (pn iname : string) (names : list string) (p : sub).
  Hypothesis Hwf : well_formed L.
  Hypothesis Hp : lfind L pn = Some (Sub p).
  Let insts := group_insts (sb_elems p) names.
  Let nets := group_nets insts.
  Let gp := group_pins p insts.
  Let cn := gname (canon_insts insts).
  Lemma gp_in : In (Sub p) L. Proof. exact (proj1 (lfind_in _ _ _ Hp)). Qed.
  Lemma gp_nodup : NoDup (map e_name (sb_elems p)). Proof. exact (proj1 (proj2 Hwf p gp_in)). Qed.
  Lemma insts_in e : In e insts <-> In e (sb_elems p) /\ In (e_name e) names.
  Proof.
    unfold insts, group_insts. split; intros H.
    - apply (Permutation_in _ (ksorted_perm _ _)) in H. apply filter_In in H as (H1 & H2). apply in_strs_iff in H2. auto.
    - apply (Permutation_in _ (Permutation_sym (ksorted_perm _ _))). apply filter_In. destruct H as (H1 & H2). apply in_strs_iff in H2. auto.
  Qed.
  Lemma nodup_filter (f : elem -> bool) l : NoDup (map e_name l) -> NoDup (map e_name (filter f l)).
  Proof.
    induction l as [|a l IH]; intros N; [constructor|]. inversion N as [|? ? N1 N2]; subst. cbn [filter]. destruct (f a); [|auto]. cbn [map]. constructor; [|auto]. intros H. apply N1. apply in_map_iff in H as (b & E & Hb). apply filter_In in Hb as (Hb & _). apply in_map_iff. eauto.
  Qed.
  Lemma insts_nodup : NoDup (map e_name insts).
  Proof. apply (Permutation_NoDup (Permutation_map e_name (Permutation_sym (ksorted_perm _ _)))). apply nodup_filter, gp_nodup. Qed.
  Lemma pins_nodup e : In e insts -> NoDup (map fst (e_pins e)).
  Proof. intros H. apply insts_in in H as (H & _). exact (proj1 (proj2 (proj2 Hwf p gp_in) e H)). Qed.
  Lemma nets_in n : In n nets <-> exists e, In e insts /\ on e n. Proof. apply group_nets_in. exact pins_nodup. Qed.
  Lemma names_insts y : (exists e, In e insts /\ e_name e = y) -> in_strs y (map e_name insts) = true.
  Proof. intros (e & He & E). apply in_strs_iff. apply in_map_iff. eauto. Qed.
  Lemma gp_pin n : In n gp -> In n nets. Proof. intros H. apply filter_In in H. tauto. Qed.
  Lemma gp_nd : NoDup gp. Proof. apply NoDup_filter, uniq_nodup. Qed.
  Lemma crosses_gp n : crosses p names n -> In n gp.
  Proof.
    intros (e & He & Hn & Ho & Hc). apply filter_In. split; [apply nets_in; exists e; split; [apply insts_in; auto|assumption]|]. destruct Hc as [Hc|(e2 & He2 & Hn2 & Ho2)].
    - apply in_strs_iff in Hc. rewrite Hc. apply orb_true_r.
    - apply orb_true_iff. left. apply negb_true_iff. destruct (forallb _ _) eqn:E; [|reflexivity]. exfalso. rewrite forallb_forall in E. specialize (E (e_name e2) ltac:(apply neighbors_in; right; eauto)). apply in_strs_iff, in_map_iff in E as (e3 & E3 & H3). apply insts_in in H3 as (_ & H3). apply Hn2. congruence.
  Qed.
  Lemma twin_facts e : In e insts -> e_model (twin insts e) = e_model e /\ e_params (twin insts e) = e_params e /\ e_pins (twin insts e) = map (fun qn => (fst qn, canon_net nets (snd qn))) (e_pins e).
  Proof. intros _. repeat split. Qed.
  Lemma twin_inj e1 e2 : In e1 insts -> In e2 insts -> e_name (twin insts e1) = e_name (twin insts e2) -> e1 = e2.
  Proof.
    intros H1 H2 E. cbn in E. injection E as E. apply zstr_inj in E. apply index_inj in E; [|apply in_map; assumption|apply in_map; assumption].
    apply insts_in in H1 as (H1 & _). apply insts_in in H2 as (H2 & _). exact (same_elem L Hwf p e1 e2 gp_in H1 H2 E).
  Qed.
  (** The subcircuit with the canonical name, if there is one, is the canonical subcircuit. *)
  Hypothesis Hhash : forall c, lfind L cn = Some c -> exists s, c = Sub s /\ sb_elems s = canon_insts insts.
  Hypothesis Hne : cn <> pn.
  Hypothesis Hpn : params_nodup L.
  Hypothesis Hfresh : forall e, In e (sb_elems p) -> ~ In (e_name e) names -> e_name e <> iname.

  Definition pins_x : dict := map (fun n => (canon_net nets n, n)) gp.
  Definition new_child : sub := mkSub cn (map (canon_net nets) gp) [] (canon_insts insts).
  Lemma mk_inst_inv M name model pins params e : mk_inst M name model pins params = Some e -> exists c, lfind M model = Some c /\ e_name e = name /\ e_model e = model /\ e_pins e = pins /\ (forall q, In q (map fst pins) <-> In q (cell_pins c)) /\ map fst (e_params e) = map fst (cell_params c).
  Proof.
    unfold mk_inst. destruct (lfind M model) as [c|]; [|discriminate]. destruct (negb (String.prefix _ _)); [discriminate|]. destruct (same_set _ _) eqn:S; cbn [negb]; [|discriminate]. intros H. exists c. split; [reflexivity|]. assert (Q := proj1 (same_set_iff _ _) S). destruct params as [|kv ps].
    - injection H as <-. cbn. auto.
    - destruct (forallb _ _); [|discriminate]. injection H as <-. cbn. repeat (split; [reflexivity || exact Q|]). rewrite map_map. reflexivity.
  Qed.
  Lemma mapM_val {A B} (f : A -> option B) g l r : (forall a b, In a l -> f a = Some b -> b = g a) -> mapM f l = Some r -> r = map g l.
  Proof.
    revert r. induction l as [|a l IH]; intros r H E; cbn [mapM] in E; [now injection E as <-|]. destruct (f a) as [b|] eqn:Ea; [|discriminate]. destruct (mapM f l) as [t|] eqn:Et; [|discriminate]. injection E as <-. cbn [map]. f_equal; [apply (H a b); [now left|assumption]|]. apply IH; [|reflexivity]. intros u v Hu. apply H. now right.
  Qed.
  Lemma twin_ok e : In e insts -> NoDup (map fst (e_pins (twin insts e))) /\ exists m, lfind L (e_model (twin insts e)) = Some m /\
    (forall q, In q (map fst (e_pins (twin insts e))) <-> In q (cell_pins m)) /\ map fst (e_params (twin insts e)) = map fst (cell_params m).
  Proof.
    intros He. destruct (twin_facts e He) as (T1 & T2 & T3). rewrite T1, T2, T3, map_map. cbn [fst]. apply insts_in in He as (He & _). exact (proj2 (proj2 Hwf p gp_in) e He).
  Qed.
  Lemma with_child_inv L1 : with_child gname L p insts = Some L1 ->
    exists child, ((L1 = L /\ lfind L cn = Some (Sub child)) \/ (L1 = L ++ [Sub child] /\ lfind L cn = None /\ sb_name child = cn)) /\ sb_elems child = canon_insts insts /\ (lfind L cn = None -> child = new_child).
  Proof.
    unfold with_child. fold cn. fold nets. fold gp. destruct (lfind L cn) as [c|] eqn:F.
    - intros H. injection H as <-. destruct (Hhash c eq_refl) as (s & -> & Hs). exists s. split; [left; auto|]. split; [assumption|]. discriminate.
    - destruct gp as [|g0 gs] eqn:G; [discriminate|]. rewrite <- G. destruct (mapM _ _) as [els|] eqn:M; [|discriminate]. cbn [option_map]. intros H. injection H as <-.
      assert (E : els = canon_insts insts).
      { rewrite <- (map_id (canon_insts insts)). apply (mapM_val _ _ _ _) with (2 := M). intros a b Ha Hb. rewrite (canon_twin insts insts_nodup) in Ha. apply in_map_iff in Ha as (e & <- & He).
        destruct (twin_ok e He) as (_ & m & Hm & Hq & Hr). destruct (mk_inst_inv _ _ _ _ _ _ Hb) as (c & Hc & _).
        assert (c = m) by (unfold lfind in *; revert Hc; clear - Hm; induction L as [|a l IH]; intros Hc; cbn [app find] in *; [discriminate|]; destruct (String.eqb (cell_name a) _); [congruence|auto]). subst c.
        rewrite mk_inst_ok with (c := m) in Hb; [apply (f_equal (fun o => match o with Some v => v | None => b end)) in Hb; rewrite <- Hb; unfold id; reflexivity|exact Hc| |exact Hq|exact Hr|].
        - unfold mk_inst in Hb. rewrite Hc in Hb. destruct (String.prefix _ _); [reflexivity|discriminate].
        - rewrite Hr. apply (Hpn m). exact (proj1 (lfind_in _ _ _ Hm)). }
      subst els. exists new_child. split; [right; split; [reflexivity|split; reflexivity]|]. split; reflexivity.
  Qed.
  Lemma remaining : exists rest, remove_all (sb_elems p) insts = Some rest /\ NoDup (map e_name rest) /\ forall e, In e rest <-> In e (sb_elems p) /\ ~ In e insts.
  Proof.
    destruct (remove_all_ok insts (sb_elems p) gp_nodup insts_nodup) as (rest & R1 & R2 & R3); [intros e He; apply insts_in in He; tauto|]. exists rest. split; [assumption|]. split; [assumption|]. intros e. rewrite R3. split; intros (H1 & H2); (split; [assumption|]); intros H; apply H2; [now apply in_map|].
    apply in_map_iff in H as (e' & E & He'). apply insts_in in He' as He2. destruct He2 as (He2 & _). rewrite <- (same_elem L Hwf p e' e gp_in He2 H1 E). assumption.
  Qed.

  Lemma group_ok L' : group_block gname L pn iname names = Some L' ->
    well_formed L' /\ (acyclic L -> acyclic L') /\
    (forall c, In (Sub c) L -> exists c', lfind L' (sb_name c) = Some (Sub c') /\ sb_pins c' = sb_pins c /\ same_circuit L c L' c') /\
    (forall n l, lfind L n = Some (Prim l) -> lfind L' n = Some (Prim l)) /\
    (exists rest child x p', lfind L' cn = Some (Sub child) /\ sb_elems child = canon_insts insts /\ (lfind L cn = None -> child = new_child) /\
       lfind L' pn = Some (Sub p') /\ sb_elems p' = rest ++ [x] /\ e_name x = iname /\ e_model x = cn /\ e_pins x = pins_x /\ (forall e, In e rest <-> In e (sb_elems p) /\ ~ In (e_name e) names) /\
       (forall q, In q (sb_pins child) <-> In q (map (canon_net nets) gp))) /\
    (forall n, In n names -> exists e, In e (sb_elems p) /\ e_name e = n) /\ params_nodup L'.
  Proof.
    unfold group_block. rewrite Hp. destruct (negb _) eqn:Hs; [discriminate|]. apply negb_false_iff in Hs. rewrite forallb_forall in Hs. fold insts. destruct (with_child gname L p insts) as [L1|] eqn:W; [|discriminate]. destruct (with_child_inv L1 W) as (child & Hl & Hce & Hnew).
    destruct remaining as (rest & R1 & R2 & R3). rewrite R1. fold cn nets gp. fold pins_x. destruct (mk_inst L1 iname cn pins_x []) as [x|] eqn:Mx; [|discriminate]. intros H. injection H as <-.
    set (p' := mkSub (sb_name p) (sb_pins p) (sb_params p) (rest ++ [x])).
    destruct (mk_inst_inv _ _ _ _ _ _ Mx) as (c & Hc & X1 & X2 & X3 & X4 & X5).
    assert (Hc1 : c = Sub child).
    { destruct Hl as [(-> & H)|(-> & H & E)]; [congruence|]. rewrite find_app_one, H, E, String.eqb_refl in Hc. congruence. }
    subst c. cbn [cell_pins cell_params] in X4, X5.
    assert (Pn : sb_name p' = pn) by exact (proj2 (lfind_in _ _ _ Hp)).
    assert (Hnn : pn <> cn) by congruence.
    assert (Kx : map fst pins_x = map (canon_net nets) gp) by (unfold pins_x; rewrite map_map; reflexivity).
    assert (Nk : NoDup (map fst (e_pins x))).
    { rewrite X3, Kx. apply nodup_inj; [exact gp_nd|]. intros a b Ha Hb. apply canon_net_inj; apply gp_pin; assumption. }
    assert (El : forall e, In e (sb_elems p') <-> (In e (sb_elems p) /\ ~ In e insts) \/ e = x) by (intros e; cbn [p' sb_elems]; rewrite in_app_iff, R3; simpl; intuition congruence).
    assert (Fr : forall e, In e (sb_elems p) -> ~ In e insts -> e_name e <> e_name x) by (intros e He Hn; rewrite X1; apply Hfresh; [assumption|]; intros H; apply Hn; apply insts_in; auto).
    assert (Nd : NoDup (map e_name (sb_elems p'))).
    { cbn [p' sb_elems]. rewrite map_app. simpl. apply (Permutation_NoDup (Permutation_cons_append _ _)). constructor; [|assumption]. intros H. apply in_map_iff in H as (e & E & He). apply R3 in He as (H1 & H2). exact (Fr e H1 H2 E). }
    assert (Xp : forall q, In q (map fst (e_pins x)) <-> In q (sb_pins child)) by (rewrite X3; exact X4).
    assert (Ck : child_ok L child).
    { unfold child_ok. rewrite Hce, (canon_twin insts insts_nodup). split.
      - rewrite map_map. apply nodup_inj; [exact (NoDup_map_inv _ _ insts_nodup)|exact twin_inj].
      - intros d Hd. apply in_map_iff in Hd as (e & <- & He). exact (twin_ok e He). }
    assert (Md : forall d, In d (sb_elems child) -> exists e, In e (sb_elems p) /\ e_model e = e_model d) by (intros d Hd; rewrite Hce, (canon_twin insts insts_nodup) in Hd; apply in_map_iff in Hd as (e & <- & He); exists e; split; [apply insts_in in He; tauto|reflexivity]).
    assert (Ep : forall e, In e (sb_elems p') -> In e (sb_elems p) \/ e = x) by (intros e He; apply El in He as [(He & _)|He]; auto).
    assert (FC := lib_child L L1 pn cn p p' child Hp Hnn Hl Pn).
    split; [exact (lib_wf L L1 pn cn p p' child Hwf Hp Hnn Hl Pn eq_refl eq_refl x X2 Nd Ep Nk Xp X5 Ck)|].
    split; [exact (lib_acyclic L L1 pn cn p p' child Hwf Hp Hnn Hl Pn x X2 Ep Xp Md)|].
    split; [|split; [|split]].
    - intros c Hcl. exists (fupd pn p' c). pose proof (lfind_of _ _ (proj1 Hwf) Hcl) as F. cbn [cell_name] in F. split; [exact (lib_sub L L1 pn cn p p' child Hp Hnn Hl Pn _ _ F)|]. split; [exact (fupd_pins L pn p p' Hwf Hp eq_refl c Hcl)|].
      assert (Gn : forall n, gnet insts n <-> In n nets) by (intros n; rewrite nets_in; reflexivity).
      apply (fold_same L (replace_sub L1 p') pn cn p p' child x insts (twin insts) (canon_net nets) Hwf Hp (lib_prim L L1 pn cn p p' child Hp Hnn Hl Pn) (lib_sub L L1 pn cn p p' child Hp Hnn Hl Pn) (lib_inv L L1 pn cn p p' child Hp Hnn Hl Pn) FC X2 eq_refl); try assumption.
      + intros e He. apply insts_in in He. tauto.
      + intros e He. destruct (twin_facts e He) as (T1 & T2 & T3). split; [rewrite Hce, (canon_twin insts insts_nodup); apply in_map; assumption|]. split; [assumption|]. split; [assumption|]. rewrite T3. apply Permutation_refl.
      + intros d Hd. rewrite Hce, (canon_twin insts insts_nodup) in Hd. apply in_map_iff in Hd as (e & <- & He). eauto.
      + exact twin_inj.
      + intros n1 n2 H1 H2. apply canon_net_inj; apply Gn; assumption.
      + intros n Hn Hi. rewrite X3. apply in_sget; [rewrite <- X3; assumption|]. apply X4 in Hi. rewrite Kx in Hi. apply in_map_iff in Hi as (m & Em & Hm). apply canon_net_inj in Em; [|apply gp_pin; assumption|apply Gn; assumption]. subst m. apply in_map_iff. eauto.
      + intros n Hn Hi. assert (Hg : ~ In n gp) by (intros H; apply Hi, X4; rewrite Kx; now apply in_map). apply Gn, nets_in in Hn as (e & He & Ho). apply insts_in in He as (He & Hen). split.
        * intros H. apply Hg, crosses_gp. exists e. auto.
        * intros e2 He2 Hn2 Ho2. apply Hg, crosses_gp. exists e. split; [assumption|]. split; [assumption|]. split; [assumption|]. right. exists e2. split; [assumption|]. split; [|assumption]. intros H. apply Hn2, insts_in. auto.
    - intros n l Hl0. exact (proj1 (lib_prim L L1 pn cn p p' child Hp Hnn Hl Pn n l) Hl0).
    - exists rest, child, x, p'. split; [exact FC|]. split; [assumption|]. split; [assumption|]. split; [pose proof (lib_sub L L1 pn cn p p' child Hp Hnn Hl Pn pn p Hp) as H; rewrite (fupd_p L pn p p' Hp) in H; exact H|]. split; [reflexivity|]. split; [assumption|]. split; [assumption|]. split; [assumption|]. split.
      + intros e. rewrite R3. split; intros (H1 & H2); (split; [assumption|]); intros H; apply H2; [apply insts_in; auto|apply insts_in in H; tauto].
      + intros q. rewrite <- X4, Kx. reflexivity.
    - split; [intros n Hn; apply Hs, in_strs_iff, in_map_iff in Hn as (e & E & He); eauto|]. intros c Hcl. rewrite (rep_map pn p' Pn) in Hcl. apply in_map_iff in Hcl as (c0 & <- & H0).
      assert (N0 : NoDup (map fst (cell_params c0))) by (destruct Hl as [(-> & _)|(-> & HN & _)]; [exact (Hpn c0 H0)|]; apply in_app_iff in H0 as [H0|[<-|[]]]; [exact (Hpn c0 H0)|]; rewrite (Hnew HN); constructor).
      unfold rupd. destruct c0 as [l|o]; [assumption|]. destruct (String.eqb _ _); [exact (Hpn (Sub p) gp_in)|assumption].
  Qed.
End Grp.
