(** Proofs about [replace_match]. *)
From Coq Require Import String.
From Verif Require Import Base.Prelude Base.PyDict Base.PyStr Model.RemoveDuplicates Model.Canvas Model.Netlist Model.Hier Model.NewHier Model.GroupBlock Model.ReplaceMatch Spec.HierSpec Spec.CircuitSpec Spec.MatchSpec Proofs.NetlistP Proofs.HierP Proofs.FindDummyP Proofs.NewHierP Proofs.FoldP Proofs.ResolveParamsP Proofs.GroupBlockP.

Lemma mapM_F2 {A B} (f : A -> option B) l r : mapM f l = Some r -> Forall2 (fun a b => f a = Some b) l r.
Proof.
  revert r. induction l as [|a l IH]; intros r E; cbn [mapM] in E; [injection E as <-; constructor|]. destruct (f a) as [b|] eqn:Ea; [|discriminate]. destruct (mapM f l) as [t|]; [|discriminate]. injection E as <-. constructor; auto.
Qed.
Lemma mk_inst_val M name model pins params c b : mk_inst M name model pins params = Some b -> lfind M model = Some c -> map fst params = map fst (cell_params c) -> NoDup (map fst params) -> b = mkElem name model pins params.
Proof.
  intros H Hc Hk Hn. destruct (mk_inst_inv _ _ _ _ _ _ H) as (c' & Hc' & _ & _ & _ & Hq & _). assert (c' = c) by congruence. subst c'.
  rewrite mk_inst_ok with (c := c) in H; [congruence|assumption| |assumption|assumption|assumption]. unfold mk_inst in H. rewrite Hc in H. destruct (String.prefix _ _); [reflexivity|discriminate].
Qed.
Lemma sset_new d k v : ~ In k (map fst d) -> sset d k v = d ++ [(k, v)].
Proof.
  unfold sset, dset. induction d as [|(k', v') d IH]; intros H; [reflexivity|]. cbn [map fst] in H. cbn [dupd]. destruct (String.eqb_spec k k') as [E|E]; [exfalso; apply H; now left|]. cbn [app]. f_equal. apply IH. intros Hi. apply H. now right.
Qed.
Lemma fold_swap (l : dict) : forall d, NoDup (map snd l) -> (forall k, In k (map fst d) -> ~ In k (map snd l)) -> fold_left (fun d xy => sset d (snd xy) (fst xy)) l d = d ++ map (fun xy => (snd xy, fst xy)) l.
Proof.
  induction l as [|(x, y) l IH]; intros d N H; [now rewrite app_nil_r|]. cbn [map snd] in *. inversion N as [|? ? N1 N2]; subst. cbn [fold_left fst snd]. rewrite sset_new; [|intros Hy; apply (H y Hy); now left]. rewrite IH; [rewrite <- app_assoc; reflexivity|assumption|].
  intros k Hk. rewrite map_app, in_app_iff in Hk. destruct Hk as [Hk|[<-|[]]]; [|assumption]. intros Hi. apply (H k Hk). now right.
Qed.
Lemma nodup_map_filter {A B} (g : A -> B) (f : A -> bool) l : NoDup (map g l) -> NoDup (map g (filter f l)).
Proof.
  induction l as [|a l IH]; intros N; [constructor|]. cbn [map] in N. inversion N as [|? ? N1 N2]; subst. cbn [filter]. destruct (f a); [|auto]. cbn [map]. constructor; [|auto]. intros H. apply N1. apply in_map_iff in H as (b & E & Hb). apply filter_In in Hb as (Hb & _). apply in_map_iff. eauto.
Qed.
Section Rep.
  Variables (gname : sub -> string) (L : lib) (pn : string) (skip : list string) (p T : sub) (m : dict).
  Hypothesis Hwf : well_formed L.
  Hypothesis Hp : lfind L pn = Some (Sub p).
  Hypothesis Hpn : params_nodup L.
  Hypothesis Oc : occurrence p T m.
  Hypothesis HTn : NoDup (map e_name (sb_elems T)).
  Hypothesis HTk : forall t, In t (sb_elems T) -> NoDup (map fst (e_pins t)).
  Hypothesis HTp : NoDup (map fst (sb_params T)).
  Hypothesis HTa : apart_names T.
  Hypothesis Hpa : apart_names p.
  Let grp := leaving (sb_elems p) T m.
  Lemma rp_in : In (Sub p) L. Proof. exact (proj1 (lfind_in _ _ _ Hp)). Qed.
  Lemma rp_nodup : NoDup (map e_name (sb_elems p)). Proof. exact (proj1 (proj2 Hwf p rp_in)). Qed.
  Lemma T_same t1 t2 : In t1 (sb_elems T) -> In t2 (sb_elems T) -> e_name t1 = e_name t2 -> t1 = t2.
  Proof. intros H1 H2 E. pose proof (get_element_of _ _ HTn H1) as A. pose proof (get_element_of _ _ HTn H2) as B. rewrite E in A. congruence. Qed.
  Lemma m_fun x y y' : In (x, y) m -> In (x, y') m -> y = y'.
  Proof. intros H1 H2. apply (in_sget _ _ _ (oc_fun _ _ _ Oc)) in H1. apply (in_sget _ _ _ (oc_fun _ _ _ Oc)) in H2. congruence. Qed.
  Lemma m_inj x x' y : In (x, y) m -> In (x', y) m -> x = x'.
  Proof.
    intros H1 H2. pose proof (oc_inj _ _ _ Oc) as N. revert H1 H2. clear - N. induction m as [|(a, b) l IH]; intros H1 H2; [destruct H1|]. cbn [map snd] in N. inversion N as [|? ? N1 N2]; subst.
    destruct H1 as [E1|H1], H2 as [E2|H2]; [congruence| | |exact (IH N2 H1 H2)]; exfalso; apply N1; apply in_map_iff; [injection E1 as -> ->; exists (x', y)|injection E2 as -> ->; exists (x, y)]; auto.
  Qed.
  Lemma cand_in x : In x (candidates T m) <-> exists y, In (x, y) m /\ ~ In y (sb_pins T).
  Proof.
    unfold candidates. rewrite in_map_iff. split.
    - intros ((x', y) & E & H). cbn in E. subst x'. apply filter_In in H as (H & Hn). exists y. split; [assumption|]. cbn in Hn. apply negb_true_iff in Hn. intros Hi. apply in_strs_iff in Hi. congruence.
    - intros (y & H & Hn). exists (x, y). split; [reflexivity|]. apply filter_In. split; [assumption|]. cbn. apply negb_true_iff. destruct (in_strs y (sb_pins T)) eqn:E; [|reflexivity]. apply in_strs_iff in E. contradiction.
  Qed.
  Lemma grp_iff e : In e grp <-> In e (sb_elems p) /\ exists t, In t (sb_elems T) /\ In (e_name e, e_name t) m.
  Proof.
    unfold grp, leaving. rewrite (found_in _ _ _ rp_nodup). split.
    - intros (He & Hn). split; [assumption|]. apply (Permutation_in _ (ksorted_perm _ _)) in Hn. apply cand_in in Hn as (y & Hy & Hny). destruct (in_dec string_dec y (map e_name (sb_elems T))) as [H|H]; [apply in_map_iff in H as (t & <- & Ht); eauto|]. exfalso. exact (oc_net _ _ _ Oc _ _ Hy H (in_map e_name _ _ He)).
    - intros (He & t & Ht & Hm). split; [assumption|]. apply (Permutation_in _ (Permutation_sym (ksorted_perm _ _))). apply cand_in. exists (e_name t). split; [assumption|]. exact (proj2 HTa t Ht).
  Qed.
  Lemma grp_nodup : NoDup (map e_name grp).
  Proof.
    apply found_nodup. apply (Permutation_NoDup (Permutation_sym (ksorted_perm _ _))). apply nodup_map_filter, Oc.
  Qed.

  Definition rmv (e : elem) : elem := match sget m (e_name e) with Some y => match get_element (sb_elems T) y with Some t => mkElem (e_name t) (e_model e) (e_pins t) (e_params e) | None => e end | None => e end.
  Definition rrho (n : string) : string := at_key m n.
  Lemma rmv_eq e t : In t (sb_elems T) -> In (e_name e, e_name t) m -> rmv e = mkElem (e_name t) (e_model e) (e_pins t) (e_params e).
  Proof. intros Ht Hm. unfold rmv. rewrite (in_sget _ _ _ (oc_fun _ _ _ Oc) Hm), (get_element_of _ _ HTn Ht). reflexivity. Qed.
  Lemma rrho_eq n y : In (n, y) m -> rrho n = y. Proof. intros H. unfold rrho, at_key. now rewrite (in_sget _ _ _ (oc_fun _ _ _ Oc) H). Qed.
  Lemma p_same e1 e2 : In e1 (sb_elems p) -> In e2 (sb_elems p) -> e_name e1 = e_name e2 -> e1 = e2.
  Proof. intros H1 H2. exact (same_elem L Hwf p e1 e2 rp_in H1 H2). Qed.
  (** Facts about a matched element. *)
  Lemma grp_elem e : In e grp -> exists t, In t (sb_elems T) /\ In (e_name e, e_name t) m /\ rmv e = mkElem (e_name t) (e_model e) (e_pins t) (e_params e) /\
    (forall q n, In (q, n) (e_pins e) -> In (n, rrho n) m /\ In (q, rrho n) (e_pins t)) /\ Permutation (map (fun qn => (fst qn, rrho (snd qn))) (e_pins e)) (e_pins t).
  Proof.
    intros He. apply grp_iff in He as (He & t & Ht & Hm). exists t. split; [assumption|]. split; [assumption|]. split; [exact (rmv_eq e t Ht Hm)|].
    destruct (oc_elem _ _ _ Oc _ _ Hm Ht) as (e' & He' & En & Hk & Hn). apply (p_same e' e He' He) in En. subst e'.
    assert (K : forall q n, In (q, n) (e_pins e) -> In (n, rrho n) m /\ In (q, rrho n) (e_pins t)) by (intros q n H; destruct (Hn q n H) as (y & Hy & Hq); rewrite (rrho_eq n y Hy); auto). split; [assumption|].
    pose proof (proj1 (proj2 (proj2 Hwf p rp_in) e He)) as Ne. pose proof (HTk t Ht) as Nt. apply NoDup_Permutation.
    - apply (NoDup_map_inv fst). rewrite map_map. exact Ne.
    - exact (NoDup_map_inv _ _ Nt).
    - intros (q, y). rewrite in_map_iff. split.
      + intros ((q', n) & E & H). injection E as <- <-. exact (proj2 (K q' n H)).
      + intros H. assert (Hq : In q (map fst (e_pins e))) by (apply Hk, in_map_iff; exists (q, y); auto). apply in_map_iff in Hq as ((q', n) & E & Hq). cbn in E. subst q'. exists (q, n). split; [|assumption]. cbn. f_equal. pose proof (in_sget _ _ _ Nt (proj2 (K q n Hq))) as A. pose proof (in_sget _ _ _ Nt H) as B. congruence.
  Qed.

  (** The elements of the copy. *)
  Lemma copy_spec cs : mapM (copy_node L (sb_elems p) T) m = Some cs -> (forall d, In d (concat cs) <-> exists e, In e grp /\ d = rmv e) /\ NoDup (map e_name (concat cs)).
  Proof.
    intros H. apply mapM_F2 in H.
    assert (V : forall x y z, In (x, y) m -> copy_node L (sb_elems p) T (x, y) = Some z -> (exists t e, In t (sb_elems T) /\ e_name t = y /\ In e grp /\ e_name e = x /\ z = [rmv e]) \/ (~ In y (map e_name (sb_elems T)) /\ z = [])).
    { intros x y z Hm Hc. unfold copy_node in Hc. cbn [fst snd] in Hc. destruct (get_element (sb_elems T) y) as [t|] eqn:G.
      - apply get_element_in in G as (Ht & En). left. subst y. destruct (get_element (sb_elems p) x) as [e|] eqn:Ge; [|discriminate]. apply get_element_in in Ge as (He & Ex). subst x. destruct (mk_inst L (e_name t) (e_model e) (e_pins t) (e_params e)) as [b|] eqn:Mi; [|discriminate]. injection Hc as <-.
        exists t, e. split; [assumption|]. split; [reflexivity|]. assert (Hg : In e grp) by (apply grp_iff; eauto). split; [assumption|]. split; [reflexivity|]. rewrite (rmv_eq e t Ht Hm). f_equal.
        destruct (proj2 (proj2 Hwf p rp_in) e He) as (_ & c & Hc & _ & Hr). apply (mk_inst_val _ _ _ _ _ c _ Mi Hc Hr). rewrite Hr. apply Hpn. exact (proj1 (lfind_in _ _ _ Hc)).
      - right. injection Hc as <-. split; [|reflexivity]. intros Hi. apply in_map_iff in Hi as (t & En & Ht). pose proof (get_element_of _ _ HTn Ht) as A. rewrite En in A. congruence. }
    split.
    - intros d. split.
      + intros Hd. apply in_concat in Hd as (z & Hz & Hd). destruct (Forall2_in_r _ _ _ _ H Hz) as ((x, y) & Hm & Hc). destruct (V x y z Hm Hc) as [(t & e & _ & _ & Hg & _ & ->)|(_ & ->)]; [|destruct Hd]. destruct Hd as [<-|[]]. eauto.
      + intros (e & He & ->). destruct (grp_elem e He) as (t & Ht & Hm & _). destruct (Forall2_in_l _ _ _ _ H Hm) as (z & Hz & Hc). destruct (V _ _ z Hm Hc) as [(t' & e' & _ & _ & Hg & En & ->)|(Hn & _)]; [|exfalso; apply Hn; now apply in_map]. apply in_concat. exists [rmv e']. split; [assumption|]. left. f_equal. apply p_same; [apply grp_iff in Hg; tauto|apply grp_iff in He; tauto|assumption].
    - assert (E : forall l cs, (forall a, In a l -> In a m) -> Forall2 (fun a b => copy_node L (sb_elems p) T a = Some b) l cs -> map e_name (concat cs) = filter (fun y => in_strs y (map e_name (sb_elems T))) (map snd l)).
      { induction l as [|(x, y) l IH]; intros cs0 Hl F; inversion F as [|? z ? cs1 Hz F1]; subst; [reflexivity|]. cbn [concat map snd filter]. rewrite map_app, (IH cs1 (fun a Ha => Hl a (or_intror Ha)) F1). destruct (V x y z (Hl _ (or_introl eq_refl)) Hz) as [(t & e & Ht & En & Hg & Ex & ->)|(Hn & ->)].
        - assert (Q : in_strs y (map e_name (sb_elems T)) = true) by (apply in_strs_iff; subst y; now apply in_map). rewrite Q. cbn [map app]. f_equal. rewrite (rmv_eq e t Ht); [assumption|]. subst x y. apply Hl. now left.
        - destruct (in_strs y (map e_name (sb_elems T))) eqn:Q; [apply in_strs_iff in Q; contradiction|reflexivity]. }
      rewrite (E m cs (fun a Ha => Ha) H). apply NoDup_filter, Oc.
  Qed.

  (** No net inside the match is a port. *)
  Hypothesis Hport : forall x y, In (x, y) m -> ~ In y (sb_pins T) -> ~ In x (sb_pins p).
  (** A subcircuit that has the name of the copy is the copy. *)
  Hypothesis Hhash : forall els c, let n := gname (mkSub (sb_name T) (sb_pins T) (sb_params T) els) in (mapM (copy_node L (sb_elems p) T) m = Some c -> els = concat c -> (forall d, lfind L n = Some d -> d = Sub (mkSub n (sb_pins T) (sb_params T) els)) /\ n <> pn).
  Hypothesis Hfresh : forall e, In e (sb_elems p) -> ~ In e grp -> e_name e <> ("X_" ++ String.concat "_" (map e_name grp))%string.

  Lemma p2n_eq : pin2net T m = map (fun xy => (snd xy, fst xy)) (filter (fun xy => in_strs (snd xy) (sb_pins T)) m).
  Proof. unfold pin2net. rewrite fold_swap; [reflexivity|apply nodup_map_filter, Oc|simpl; tauto]. Qed.
  Lemma p2n_in q n : In (q, n) (pin2net T m) <-> In (n, q) m /\ In q (sb_pins T).
  Proof.
    rewrite p2n_eq, in_map_iff. split.
    - intros ((x, y) & E & H). injection E as <- <-. apply filter_In in H as (H & Hq). apply in_strs_iff in Hq. auto.
    - intros (H & Hq). exists (n, q). split; [reflexivity|]. apply filter_In. split; [assumption|]. now apply in_strs_iff.
  Qed.
  Lemma p2n_nodup : NoDup (map fst (pin2net T m)).
  Proof. rewrite p2n_eq, map_map. cbn [fst]. apply nodup_map_filter, Oc. Qed.
  Lemma rremaining : exists rest, remove_all (sb_elems p) grp = Some rest /\ NoDup (map e_name rest) /\ forall e, In e rest <-> In e (sb_elems p) /\ ~ In e grp.
  Proof.
    destruct (remove_all_ok grp (sb_elems p) rp_nodup grp_nodup) as (rest & R1 & R2 & R3); [intros e He; apply grp_iff in He; tauto|]. exists rest. split; [assumption|]. split; [assumption|]. intros e. rewrite R3. split; intros (H1 & H2); (split; [assumption|]); intros H; apply H2; [now apply in_map|].
    apply in_map_iff in H as (e' & E & He'). rewrite <- (p_same e' e); [assumption|apply grp_iff in He'; tauto|assumption|assumption].
  Qed.

  Lemma replace_ok L' r : replace_match gname skip pn T L m = Some (L', r) ->
    (r = None /\ L' = L) \/ exists cn, r = Some cn /\
    (well_formed L' /\ (acyclic L -> acyclic L') /\
    (forall c, In (Sub c) L -> exists c', lfind L' (sb_name c) = Some (Sub c') /\ sb_pins c' = sb_pins c /\ same_circuit L c L' c') /\
    (forall n l, lfind L n = Some (Prim l) -> lfind L' n = Some (Prim l)) /\
    (exists rest child x p', lfind L' cn = Some (Sub child) /\ sb_pins child = sb_pins T /\ (forall d, In d (sb_elems child) <-> exists e, In e grp /\ d = rmv e) /\
       lfind L' pn = Some (Sub p') /\ sb_pins p' = sb_pins p /\ sb_elems p' = rest ++ [x] /\ e_model x = cn /\ e_pins x = pin2net T m /\ (forall e, In e rest <-> In e (sb_elems p) /\ ~ In e grp)) /\
    params_nodup L').
  Proof.
    unfold replace_match. rewrite Hp. destruct (negb _); [discriminate|]. destruct (negb (closed_match (sb_elems p) T m) || skipped skip (candidates T m)) eqn:Sk; [intros H; injection H as <- <-; now left|]. apply orb_false_iff in Sk as (Cl & _). apply negb_false_iff in Cl. unfold closed_match in Cl. rewrite forallb_forall in Cl.
    unfold create_copy. case_eq (sb_pins T); [discriminate|]. intros q0 qs PT. rewrite <- PT. clear PT q0 qs. destruct (mapM (copy_node L (sb_elems p) T) m) as [cs|] eqn:Mc; [|discriminate]. destruct (copy_spec cs Mc) as (Ci & Cn). destruct (Hhash (concat cs) cs eq_refl eq_refl) as (Hh & Hne).
    set (cn := gname (mkSub (sb_name T) (sb_pins T) (sb_params T) (concat cs))) in *. set (child := mkSub cn (sb_pins T) (sb_params T) (concat cs)) in *. set (L1 := match lfind L cn with Some _ => L | None => L ++ [Sub child] end).
    fold grp. destruct rremaining as (rest & R1 & R2 & R3). rewrite R1. destruct (negb _) eqn:Ap; [discriminate|]. apply negb_false_iff in Ap. rewrite forallb_forall in Ap. destruct (mk_inst L1 _ _ _ _) as [x|] eqn:Mx; [|discriminate]. intros H. injection H as <- <-. right. exists cn. split; [reflexivity|].
    set (p' := mkSub (sb_name p) (sb_pins p) (sb_params p) (rest ++ [x])).
    assert (Hl : (L1 = L /\ lfind L cn = Some (Sub child)) \/ (L1 = L ++ [Sub child] /\ lfind L cn = None /\ sb_name child = cn)).
    { unfold L1. destruct (lfind L cn) as [d|] eqn:F; [left; split; [reflexivity|]; now rewrite (Hh d eq_refl)|right; auto]. }
    destruct (mk_inst_inv _ _ _ _ _ _ Mx) as (c & Hc & X1 & X2 & X3 & X4 & X5). cbn [child sb_name] in X2.
    assert (Hc1 : c = Sub child).
    { cbn [child sb_name] in Hc. fold cn in Hc. destruct Hl as [(E & H)|(E & H & E2)]; rewrite E in Hc; [congruence|]. rewrite find_app_one, H, E2, String.eqb_refl in Hc. congruence. }
    subst c. cbn [cell_pins cell_params] in X4, X5.
    assert (Pn : sb_name p' = pn) by exact (proj2 (lfind_in _ _ _ Hp)).
    assert (Hnn : pn <> cn) by congruence.
    assert (Nk : NoDup (map fst (e_pins x))) by (rewrite X3; exact p2n_nodup).
    assert (El : forall e, In e (sb_elems p') <-> (In e (sb_elems p) /\ ~ In e grp) \/ e = x) by (intros e; cbn [p' sb_elems]; rewrite in_app_iff, R3; simpl; intuition congruence).
    assert (Fr : forall e, In e (sb_elems p) -> ~ In e grp -> e_name e <> e_name x) by (intros e He Hn; rewrite X1; exact (Hfresh e He Hn)).
    assert (Nd : NoDup (map e_name (sb_elems p'))).
    { cbn [p' sb_elems]. rewrite map_app. simpl. apply (Permutation_NoDup (Permutation_cons_append _ _)). constructor; [|assumption]. intros H. apply in_map_iff in H as (e & E & He). apply R3 in He as (H1 & H2). exact (Fr e H1 H2 E). }
    assert (Xp : forall q, In q (map fst (e_pins x)) <-> In q (sb_pins child)) by (rewrite X3; exact X4).
    assert (Ck : child_ok L child).
    { unfold child_ok. cbn [child sb_elems]. split; [exact Cn|]. intros d Hd. apply Ci in Hd as (e & He & ->). destruct (grp_elem e He) as (t & Ht & Hm & -> & _). cbn [e_pins e_model e_params]. split; [exact (HTk t Ht)|]. apply grp_iff in He as (He & _). destruct (proj2 (proj2 Hwf p rp_in) e He) as (_ & c & Hc2 & Hq & Hr). exists c. split; [assumption|]. split; [|assumption]. intros q. rewrite <- Hq.
      destruct (oc_elem _ _ _ Oc _ _ Hm Ht) as (e' & He' & En & Hk & _). apply (p_same e' e He' He) in En. subst e'. rewrite Hk. reflexivity. }
    assert (Md : forall d, In d (sb_elems child) -> exists e, In e (sb_elems p) /\ e_model e = e_model d) by (intros d Hd; apply Ci in Hd as (e & He & ->); exists e; destruct (grp_elem e He) as (t & _ & _ & -> & _); split; [apply grp_iff in He; tauto|reflexivity]).
    assert (Ep : forall e, In e (sb_elems p') -> In e (sb_elems p) \/ e = x) by (intros e He; apply El in He as [(He & _)|He]; auto).
    assert (FC := lib_child L L1 pn cn p p' child Hp Hnn Hl Pn).
    split; [exact (lib_wf L L1 pn cn p p' child Hwf Hp Hnn Hl Pn eq_refl eq_refl x X2 Nd Ep Nk Xp X5 Ck)|].
    split; [exact (lib_acyclic L L1 pn cn p p' child Hwf Hp Hnn Hl Pn x X2 Ep Xp Md)|].
    assert (Gn : forall n, gnet grp n -> In (n, rrho n) m) by (intros n (e & He & q & Ho); destruct (grp_elem e He) as (t0 & _ & _ & _ & K & _); exact (proj1 (K q n Ho))).
    split; [|split; [|split]].
    - intros c Hcl. exists (fupd pn p' c). pose proof (lfind_of _ _ (proj1 Hwf) Hcl) as F. cbn [cell_name] in F. split; [exact (lib_sub L L1 pn cn p p' child Hp Hnn Hl Pn _ _ F)|]. split; [exact (fupd_pins L pn p p' Hwf Hp eq_refl c Hcl)|].
      apply (fold_same L (replace_sub L1 p') pn cn p p' child x grp rmv rrho Hwf Hp (lib_prim L L1 pn cn p p' child Hp Hnn Hl Pn) (lib_sub L L1 pn cn p p' child Hp Hnn Hl Pn) (lib_inv L L1 pn cn p p' child Hp Hnn Hl Pn) FC X2 eq_refl); try assumption.
      + intros e He. apply grp_iff in He. tauto.
      + intros e He. destruct (grp_elem e He) as (t & Ht & Hm & E & _ & P). split; [apply Ci; eauto|]. rewrite E. split; [reflexivity|]. split; [reflexivity|]. exact P.
      + intros d Hd. apply Ci in Hd as (e & He & ->). eauto.
      + intros e1 e2 H1 H2 E. destruct (grp_elem e1 H1) as (t1 & T1 & M1 & E1 & _). destruct (grp_elem e2 H2) as (t2 & T2 & M2 & E2 & _). rewrite E1, E2 in E. cbn [e_name] in E. rewrite E in M1. apply p_same; [apply grp_iff in H1; tauto|apply grp_iff in H2; tauto|exact (m_inj _ _ _ M1 M2)].
      + intros n1 n2 H1 H2 E. apply Gn in H1. apply Gn in H2. rewrite E in H1. exact (m_inj _ _ _ H1 H2).
      + intros n Hn Hi. rewrite X3. apply in_sget; [exact p2n_nodup|]. apply p2n_in. split; [exact (Gn n Hn)|exact Hi].
      + intros n Hn Hi. pose proof (Gn n Hn) as Hm. cbn [child sb_pins] in Hi. split; [exact (Hport _ _ Hm Hi)|]. intros e2 He2 Hn2 Ho2. apply Hn2. apply grp_iff. split; [assumption|].
        assert (Hc2 : In n (candidates T m)) by (apply cand_in; eauto). specialize (Cl n Hc2). rewrite forallb_forall in Cl. specialize (Cl (e_name e2) ltac:(apply neighbors_in; right; eauto)). apply shas_in, in_map_iff in Cl as ((x2, y2) & Ex & Hm2). cbn in Ex. subst x2.
        destruct (in_dec string_dec y2 (map e_name (sb_elems T))) as [H|H]; [apply in_map_iff in H as (t & <- & Ht); eauto|]. exfalso. exact (oc_net _ _ _ Oc _ _ Hm2 H (in_map e_name _ _ He2)).
    - intros n l Hl0. exact (proj1 (lib_prim L L1 pn cn p p' child Hp Hnn Hl Pn n l) Hl0).
    - exists rest, child, x, p'. split; [exact FC|]. split; [reflexivity|]. split; [exact Ci|]. split; [pose proof (lib_sub L L1 pn cn p p' child Hp Hnn Hl Pn pn p Hp) as H; rewrite (fupd_p L pn p p' Hp) in H; exact H|]. split; [reflexivity|]. split; [reflexivity|]. split; [assumption|]. split; [assumption|]. exact R3.
    - intros c Hcl. rewrite (rep_map pn p' Pn) in Hcl. apply in_map_iff in Hcl as (c0 & <- & H0).
      assert (N0 : (exists c1, In c1 L /\ c0 = c1) \/ c0 = Sub child) by (destruct Hl as [(E & _)|(E & HN & _)]; rewrite E in H0; [left; eauto|]; apply in_app_iff in H0 as [H0|[<-|[]]]; [left; eauto|now right]).
      assert (NT : NoDup (map fst (cell_params c0))) by (destruct N0 as [(c1 & H1 & ->)| ->]; [exact (Hpn c1 H1)|exact HTp]).
      unfold rupd. destruct c0 as [l|o]; [assumption|]. destruct (String.eqb _ _); [exact (Hpn (Sub p) rp_in)|assumption].
  Qed.
End Rep.
