(** Lemmas on moving elements into a new subcircuit. *)
From Coq Require Import String.
From Verif Require Import Base.Prelude Base.PyDict Model.RemoveDuplicates Model.Canvas Model.Netlist Model.Hier Model.NewHier Spec.HierSpec Proofs.HierP Proofs.FindDummyP.

Lemma uniq_in l x : In x (uniq l) <-> In x l.
Proof.
  unfold uniq. enough (K : forall l d, In x (fold_left (fun d x => if in_strs x d then d else d ++ [x]) l d) <-> In x d \/ In x l) by (rewrite K; simpl; tauto).
  clear l. induction l as [|y l IH]; intros d; simpl; [tauto|]. rewrite IH. destruct (in_strs y d) eqn:E.
  - apply in_strs_iff in E. split; [tauto|]. intros [H|[->|H]]; auto.
  - rewrite in_app_iff. simpl. tauto.
Qed.
Lemma uniq_nodup l : NoDup (uniq l).
Proof.
  unfold uniq. enough (K : forall l d, NoDup d -> NoDup (fold_left (fun d x => if in_strs x d then d else d ++ [x]) l d)) by (apply K; constructor).
  clear l. induction l as [|y l IH]; intros d Hd; simpl; [assumption|]. apply IH. destruct (in_strs y d) eqn:E; [assumption|]. apply (Permutation_NoDup (Permutation_cons_append d y)). constructor; [|assumption]. intros H. apply in_strs_iff in H. congruence.
Qed.
Lemma on_iff e n : on e n <-> In n (map snd (e_pins e)).
Proof. unfold on. rewrite in_map_iff. split; [intros (p & H); exists (p, n); auto|intros ((p, m) & <- & H); eauto]. Qed.
Lemma neighbors_in els x y : In y (neighbors els x) <-> (exists e, In e els /\ e_name e = x /\ on e y) \/ (exists e, In e els /\ e_name e = y /\ on e x).
Proof.
  unfold neighbors. rewrite in_app_iff, !in_flat_map. split.
  - intros [(e & He & H)|(e & He & H)].
    + destruct (String.eqb_spec (e_name e) x); [|destruct H]. left. exists e. rewrite on_iff. auto.
    + destruct (in_strs x (map snd (e_pins e))) eqn:E; [|destruct H]. apply in_strs_iff in E. destruct H as [<-|[]]. right. exists e. rewrite on_iff. auto.
  - intros [(e & He & Hx & H)|(e & He & Hx & H)]; apply on_iff in H.
    + left. exists e. split; [assumption|]. rewrite Hx, String.eqb_refl. assumption.
    + right. exists e. split; [assumption|]. apply in_strs_iff in H. rewrite H. now left.
Qed.
Lemma get_element_in els x e : get_element els x = Some e -> In e els /\ e_name e = x.
Proof. unfold get_element. intros H. apply find_some in H as (H1 & H2). apply String.eqb_eq in H2. auto. Qed.
Lemma get_element_none els x : get_element els x = None -> forall e, In e els -> e_name e <> x.
Proof. unfold get_element. intros H e He E. pose proof (find_none _ _ H e He) as K. cbv beta in K. apply String.eqb_neq in K. contradiction. Qed.
Lemma found_in els names e : NoDup (map e_name els) -> In e (found els names) <-> In e els /\ In (e_name e) names.
Proof.
  intros N. unfold found. rewrite in_flat_map. split.
  - intros (x & Hx & H). destruct (get_element els x) as [e'|] eqn:E; [|destruct H]. destruct H as [<-|[]]. apply get_element_in in E as (E1 & E2). rewrite E2. auto.
  - intros (H1 & H2). exists (e_name e). split; [assumption|]. rewrite (get_element_of _ _ N H1). now left.
Qed.
Lemma found_nodup els names : NoDup names -> NoDup (map e_name (found els names)).
Proof.
  intros N. enough (K : NoDup (map e_name (found els names)) /\ forall x, In x (map e_name (found els names)) -> In x names) by exact (proj1 K).
  induction N as [|x names Hx N (I1 & I2)]; [split; [constructor|intros ? []]|]. unfold found in *. cbn [flat_map]. destruct (get_element els x) as [e|] eqn:E; cbn [app map].
  - apply get_element_in in E as (_ & E). rewrite E. split; [constructor; [intros H; exact (Hx (I2 x H))|assumption]|]. intros y [<-|H]; [now left|right; auto].
  - split; [assumption|]. intros y H. right. auto.
Qed.
Lemma remove_elem_in l n e : NoDup (map e_name l) -> In e (remove_elem l n) <-> In e l /\ e_name e <> n.
Proof.
  induction l as [|a l IH]; simpl; intros N; [tauto|]. inversion N as [|? ? N1 N2]; subst. destruct (String.eqb_spec (e_name a) n) as [<-|E].
  - split; [intros H; split; [now right|]; intros X; apply N1; rewrite <- X; now apply in_map|]. intros ([->|H] & X); [congruence|assumption].
  - simpl. rewrite (IH N2). split; [intros [->|(H & X)]; auto|]. intros ([->|H] & X); auto.
Qed.
Lemma remove_elem_nodup l n : NoDup (map e_name l) -> NoDup (map e_name (remove_elem l n)).
Proof.
  induction l as [|a l IH]; simpl; intros N; [constructor|]. inversion N as [|? ? N1 N2]; subst. destruct (String.eqb (e_name a) n); [assumption|]. simpl. constructor; [|auto]. intros H. apply N1. apply in_map_iff in H as (e & <- & He). apply in_map. apply (remove_elem_in l n e N2) in He. tauto.
Qed.
Lemma remove_all_ok pes : forall els, NoDup (map e_name els) -> NoDup (map e_name pes) -> (forall e, In e pes -> In e els) ->
  exists rest, remove_all els pes = Some rest /\ NoDup (map e_name rest) /\ forall e, In e rest <-> In e els /\ ~ In (e_name e) (map e_name pes).
Proof.
  induction pes as [|a pes IH]; intros els N M S; unfold remove_all in *; cbn [foldM map].
  - exists els. split; [reflexivity|]. split; [assumption|]. intros e. simpl. tauto.
  - inversion M as [|? ? M1 M2]; subst. rewrite (get_element_of _ _ N (S a (or_introl eq_refl))).
    destruct (IH (remove_elem els (e_name a))) as (rest & H1 & H2 & H3).
    + now apply remove_elem_nodup.
    + assumption.
    + intros e He. apply remove_elem_in; [assumption|]. split; [apply S; now right|]. intros X. apply M1. rewrite <- X. now apply in_map.
    + exists rest. split; [assumption|]. split; [assumption|]. intros e. rewrite H3, (remove_elem_in _ _ _ N). simpl. split; [intros ((A & B) & C); split; [assumption|]; intros [X|X]; [congruence|contradiction]|]. intros (A & B). split; [split; [assumption|]; intros X; apply B; left; congruence|]. intros X. apply B. now right.
Qed.

Section New.
  Variables (L : lib) (pn cn : string) (names : list string) (p : sub) (rest : list elem).
  Hypothesis Hwf : well_formed L.
  Hypothesis Hp : lfind L pn = Some (Sub p).
  Hypothesis Hcn : lfind L cn = None.
  Hypothesis Hnames : NoDup names.
  Let pm := new_pins p names.
  Let pes := found (sb_elems p) names.
  Let child := mkSub cn pm [] pes.
  Let xn := ("X_" ++ cn)%string.
  Let x := mkElem xn cn (map (fun n => (n, n)) pm) [].
  Let p' := mkSub (sb_name p) (sb_pins p) (sb_params p) (rest ++ [x]).
  Let L' := replace_sub (L ++ [Sub child]) p'.
  Hypothesis Hrest : forall e, In e rest <-> In e (sb_elems p) /\ ~ In (e_name e) (map e_name pes).
  Hypothesis Hrestn : NoDup (map e_name rest).
  (** No element that stays has the name of the new instance. *)
  Hypothesis Hfresh : forall e, In e (sb_elems p) -> ~ In (e_name e) names -> e_name e <> xn.

  Lemma p_in : In (Sub p) L. Proof. exact (proj1 (lfind_in _ _ _ Hp)). Qed.
  Lemma p_name : sb_name p = pn. Proof. exact (proj2 (lfind_in _ _ _ Hp)). Qed.
  Lemma p_nodup : NoDup (map e_name (sb_elems p)). Proof. exact (proj1 (proj2 Hwf p p_in)). Qed.
  Lemma pn_cn : pn <> cn. Proof. congruence. Qed.
  Lemma pes_in e : In e pes <-> In e (sb_elems p) /\ In (e_name e) names. Proof. apply found_in. exact p_nodup. Qed.
  Lemma rest_in e : In e rest <-> In e (sb_elems p) /\ ~ In (e_name e) names.
  Proof.
    rewrite Hrest. split; intros (H1 & H2); (split; [assumption|]); intros H; apply H2.
    - apply in_map_iff. exists e. split; [reflexivity|]. apply pes_in. auto.
    - apply in_map_iff in H as (e' & E & H). apply pes_in in H as (_ & H). congruence.
  Qed.
  Lemma pm_in n : In n pm <-> In n (touched (sb_elems p) names) /\ crossing p names n = true. Proof. apply filter_In. Qed.
  Lemma moved_touched e n : In e pes -> on e n -> In n (touched (sb_elems p) names).
  Proof.
    intros He Hn. apply pes_in in He as (H1 & H2). apply uniq_in. apply in_flat_map. exists (e_name e). split; [assumption|]. rewrite (get_element_of _ _ p_nodup H1). apply neighbors_in. left. exists e. auto.
  Qed.
  Lemma inner_not_port e n : In e pes -> on e n -> ~ In n pm -> ~ In n (sb_pins p).
  Proof. intros He Hn Hno H. apply Hno. apply pm_in. split; [exact (moved_touched e n He Hn)|]. unfold crossing. apply in_strs_iff in H. now rewrite H. Qed.
  Lemma inner_not_rest e e' n : In e pes -> on e n -> ~ In n pm -> In e' rest -> ~ on e' n.
  Proof.
    intros He Hn Hno H H'. apply Hno. apply pm_in. split; [exact (moved_touched e n He Hn)|]. apply rest_in in H as (H1 & H2). unfold crossing. apply orb_true_iff. right. apply existsb_exists. exists (e_name e').
    split; [apply neighbors_in; right; exists e'; auto|]. apply negb_true_iff. destruct (in_strs (e_name e') names) eqn:E; [|reflexivity]. apply in_strs_iff in E. contradiction.
  Qed.
  Definition upd (c : sub) : sub := if String.eqb (sb_name c) pn then p' else c.
  Lemma upd_pins c : In (Sub c) L -> sb_pins (upd c) = sb_pins c.
  Proof. intros Hc. unfold upd. destruct (String.eqb_spec (sb_name c) pn) as [E|E]; [|reflexivity]. pose proof (lfind_of _ _ (proj1 Hwf) Hc) as F. simpl in F. rewrite E, Hp in F. injection F as <-. reflexivity. Qed.
  Lemma is_p c : In (Sub c) L -> sb_name c = pn -> c = p.
  Proof. intros Hc E. pose proof (lfind_of _ _ (proj1 Hwf) Hc) as F. simpl in F. rewrite E, Hp in F. now injection F as <-. Qed.
  Definition updc (c : cell) : cell := match c with Sub o => if String.eqb (sb_name o) pn then Sub p' else c | Prim _ => c end.
  Lemma L'_map : L' = map updc L ++ [Sub child].
  Proof. unfold L', replace_sub. rewrite map_app. f_equal; [|cbn]. - apply map_ext. intros [|o]; [reflexivity|]. unfold updc. cbn [sb_name p']. now rewrite p_name. - unfold p'. cbn [sb_name]. rewrite p_name. destruct (String.eqb_spec cn pn); [exfalso; apply pn_cn; congruence|reflexivity]. Qed.
  Lemma updc_name c : cell_name (updc c) = cell_name c.
  Proof. destruct c as [|o]; [reflexivity|]. unfold updc. destruct (String.eqb_spec (sb_name o) pn) as [E|E]; [|reflexivity]. cbn. rewrite E. exact p_name. Qed.
  Lemma find_L' n : lfind L' n = match lfind L n with Some c => Some (updc c) | None => if String.eqb cn n then Some (Sub child) else None end.
  Proof.
    rewrite L'_map. unfold lfind. pose proof updc_name as U. enough (K : forall M, find (fun c => String.eqb (cell_name c) n) (map updc M ++ [Sub child]) = match find (fun c => String.eqb (cell_name c) n) M with Some c => Some (updc c) | None => if String.eqb cn n then Some (Sub child) else None end) by exact (K L).
    induction M as [|c M IH]; cbn [map app find].
    - cbn [cell_name child sb_name]. destruct (String.eqb cn n); reflexivity.
    - rewrite U. destruct (String.eqb (cell_name c) n); [reflexivity|exact IH].
  Qed.
  Lemma find_prim n l : lfind L n = Some (Prim l) <-> lfind L' n = Some (Prim l).
  Proof. rewrite find_L'. destruct (lfind L n) as [[l'|o]|]; simpl; [tauto|destruct (String.eqb _ _); split; discriminate|destruct (String.eqb _ _); split; discriminate]. Qed.
  Lemma find_sub n s : lfind L n = Some (Sub s) -> lfind L' n = Some (Sub (upd s)).
  Proof. intros H. rewrite find_L', H. unfold updc, upd. destruct (String.eqb _ _); reflexivity. Qed.
  Lemma find_child : lfind L' cn = Some (Sub child). Proof. rewrite find_L', Hcn, String.eqb_refl. reflexivity. Qed.
  Lemma find_sub_inv n s' : lfind L' n = Some (Sub s') -> n <> cn -> exists s, lfind L n = Some (Sub s) /\ s' = upd s.
  Proof.
    rewrite find_L'. intros H Hn. destruct (lfind L n) as [[l|o]|]; simpl in H; [discriminate| |destruct (String.eqb_spec cn n); [congruence|discriminate]].
    exists o. split; [reflexivity|]. unfold upd. destruct (String.eqb _ _); congruence.
  Qed.
  Lemma no_ref c e : In (Sub c) L -> In e (sb_elems c) -> e_model e <> cn.
  Proof. intros Hc He E. destruct (proj2 (proj2 Hwf c Hc) e He) as (_ & m & Hm & _). rewrite E, Hcn in Hm. discriminate. Qed.

  Lemma well_formed_L' : well_formed L'.
  Proof.
    split.
    - rewrite L'_map, map_app, map_map. erewrite map_ext; [|intros a; apply updc_name]. simpl. apply (Permutation_NoDup (Permutation_cons_append _ _)). constructor; [|exact (proj1 Hwf)]. apply lfind_none. exact Hcn.
    - assert (K : forall e, (exists c, In (Sub c) L /\ In e (sb_elems c)) -> NoDup (map fst (e_pins e)) /\ exists m, lfind L' (e_model e) = Some m /\ (forall q, In q (map fst (e_pins e)) <-> In q (cell_pins m)) /\ map fst (e_params e) = map fst (cell_params m)).
      { intros e (c & Hc & He). destruct (proj2 (proj2 Hwf c Hc) e He) as (N & m & Hm & Hq & Hr). split; [assumption|]. exists (updc m). split; [now rewrite find_L', Hm|].
        assert (E : cell_pins (updc m) = cell_pins m /\ cell_params (updc m) = cell_params m).
        { destruct m as [l|o]; [split; reflexivity|]. unfold updc. destruct (String.eqb_spec (sb_name o) pn) as [E|E]; [|split; reflexivity]. rewrite (is_p o (proj1 (lfind_in _ _ _ Hm)) E). split; reflexivity. }
        destruct E as (E1 & E2). rewrite E1, E2. auto. }
      intros c Hc. rewrite L'_map in Hc. apply in_app_iff in Hc as [Hc|[Hc|[]]].
      + apply in_map_iff in Hc as ([l|o] & E & Ho); [discriminate|]. unfold updc in E. destruct (String.eqb_spec (sb_name o) pn) as [En|En].
        * injection E as <-. split.
          -- cbn [p' sb_elems]. rewrite map_app. simpl. apply (Permutation_NoDup (Permutation_cons_append _ _)). constructor; [|exact Hrestn]. intros H. apply in_map_iff in H as (e & E & He). apply rest_in in He as (H1 & H2). exact (Hfresh e H1 H2 E).
          -- intros e He. cbn [p' sb_elems] in He. apply in_app_iff in He as [He|[<-|[]]]; [apply K; exists p; split; [exact p_in|]; now apply rest_in in He|].
             cbn [x e_pins e_model e_params]. rewrite map_map. cbn [fst]. rewrite map_id. split; [apply NoDup_filter, uniq_nodup|]. exists (Sub child). split; [exact find_child|]. split; [reflexivity|reflexivity].
        * injection E as <-. split; [exact (proj1 (proj2 Hwf o Ho))|]. intros e He. apply K. eauto.
      + injection Hc as <-. split; [apply found_nodup; exact Hnames|]. intros e He. cbn [child sb_elems] in He. apply pes_in in He as (He & _). apply K. exists p. split; [exact p_in|assumption].
  Qed.
  Lemma acyclic_L' : acyclic L -> acyclic L'.
  Proof.
    intros (rank & Hr). exists (fun n => if String.eqb n cn then (2 * rank pn)%nat else (2 * rank n + 1)%nat). intros c s m Hc (e & He & Em) Hf.
    pose proof (find_name _ _ _ Hf) as Es.
    assert (K : forall c0, In (Sub c0) L -> In e (sb_elems c0) -> (rank (sb_name s) < rank (sb_name c0))%nat /\ sb_name s <> cn).
    { intros c0 Hc0 He0. assert (Hm : m <> cn) by (rewrite <- Em; exact (no_ref c0 e Hc0 He0)). destruct (find_sub_inv _ _ Hf Hm) as (s0 & Hs0 & _). pose proof (find_name _ _ _ Hs0) as E0. split; [|congruence].
      pose proof (Hr c0 s0 m Hc0 (ex_intro _ e (conj He0 Em)) Hs0). congruence. }
    rewrite L'_map in Hc. apply in_app_iff in Hc as [Hc|[Hc|[]]].
    - apply in_map_iff in Hc as ([l|o] & E & Ho); [discriminate|]. unfold updc in E. destruct (String.eqb_spec (sb_name o) pn) as [En|En].
      + injection E as <-. cbn [p' sb_elems] in He. cbn [p' sb_name]. rewrite p_name. destruct (String.eqb_spec pn cn); [exfalso; now apply pn_cn|]. apply in_app_iff in He as [He|[<-|[]]].
        * apply rest_in in He as (He & _). destruct (K p p_in He) as (K1 & K2). rewrite p_name in K1. destruct (String.eqb_spec (sb_name s) cn); [contradiction|]. lia.
        * cbn [x e_model] in Em. subst m. rewrite Es, String.eqb_refl. lia.
      + injection E as <-. destruct (K o Ho He) as (K1 & K2). destruct (String.eqb_spec (sb_name s) cn); [contradiction|]. destruct (String.eqb_spec (sb_name o) cn) as [X|_]; [|lia]. exfalso. pose proof (lfind_of _ _ (proj1 Hwf) Ho) as F. simpl in F. rewrite X, Hcn in F. discriminate.
    - injection Hc as <-. cbn [child sb_elems sb_name] in *. rewrite String.eqb_refl. apply pes_in in He as (He & _). destruct (K p p_in He) as (K1 & K2). rewrite p_name in K1. destruct (String.eqb_spec (sb_name s) cn); [contradiction|]. lia.
  Qed.

  (** * Paths *)
  Definition is_moved (c : sub) (en : string) : bool := String.eqb (sb_name c) pn && in_strs en (map e_name pes).
  Definition base (c : sub) (n : string) : list string :=
    if String.eqb (sb_name c) pn && existsb (fun e => in_strs n (map snd (e_pins e))) pes && negb (in_strs n pm) then [xn] else [].
  Fixpoint ins (c : sub) (path : list string) (n : string) : list string :=
    match path with
    | [] => base c n
    | en :: q => (if is_moved c en then [xn; en] else [en]) ++
        match get_element (sb_elems c) en with
        | Some e => match lfind L (e_model e) with Some (Sub s) => ins s q n | _ => q end
        | None => q
        end
    end.
  Definition gn (c : sub) (r : net) : net := match r with Port q => Port q | Inner path n => Inner (ins c path n) n end.
  Definition rn (c : sub) (d : device) : device := ren_dev (fun path => ins c path EmptyString) (gn c) d.
  Lemma ins_cons c e q n : In (Sub c) L -> In e (sb_elems c) -> ins c (e_name e :: q) n = (if is_moved c (e_name e) then [xn; e_name e] else [e_name e]) ++ match lfind L (e_model e) with Some (Sub s) => ins s q n | _ => q end.
  Proof. intros Hc He. cbn [ins]. rewrite (get_element_of _ _ (proj1 (proj2 Hwf c Hc)) He). reflexivity. Qed.
  Lemma moved_iff c e : In (Sub c) L -> In e (sb_elems c) -> is_moved c (e_name e) = true <-> c = p /\ In e pes.
  Proof.
    intros Hc He. unfold is_moved. rewrite andb_true_iff, String.eqb_eq, in_strs_iff, in_map_iff. split.
    - intros (E & e' & En & He'). apply (is_p c Hc) in E as ->. split; [reflexivity|]. apply pes_in in He' as Hx. destruct Hx as (Hx & _). rewrite <- (same_elem L Hwf p e' e p_in Hx He En). assumption.
    - intros (-> & H). split; [exact p_name|]. eauto.
  Qed.
  Lemma in_upd c e : In (Sub c) L -> In e (sb_elems c) -> is_moved c (e_name e) = false -> In e (sb_elems (upd c)).
  Proof.
    intros Hc He Hm. unfold upd. destruct (String.eqb_spec (sb_name c) pn) as [E|E]; [|assumption]. apply (is_p c Hc) in E as ->. cbn [p' sb_elems]. apply in_app_iff. left. apply Hrest. split; [assumption|]. unfold is_moved in Hm. rewrite p_name, String.eqb_refl in Hm. simpl in Hm. intros H. apply in_strs_iff in H. congruence.
  Qed.
  Lemma base_false c e n : In (Sub c) L -> In e (sb_elems c) -> is_moved c (e_name e) = false -> on e n -> base c n = [].
  Proof.
    intros Hc He Hm Hn. unfold base. destruct (String.eqb_spec (sb_name c) pn) as [E|E]; [|reflexivity]. apply (is_p c Hc) in E as ->. simpl. destruct (existsb _ pes) eqn:Ex; [|reflexivity]. destruct (in_strs n pm) eqn:Ep; [reflexivity|]. exfalso.
    apply existsb_exists in Ex as (e' & He' & Hn'). apply in_strs_iff in Hn'. apply on_iff in Hn'. assert (Hno : ~ In n pm) by (intros H; apply in_strs_iff in H; congruence).
    apply (inner_not_rest e' e n He' Hn' Hno); [|assumption]. apply Hrest. split; [assumption|]. unfold is_moved in Hm. rewrite p_name, String.eqb_refl in Hm. simpl in Hm. intros H. apply in_strs_iff in H. congruence.
  Qed.
  Lemma gn_stay c e n : In (Sub c) L -> In e (sb_elems c) -> is_moved c (e_name e) = false -> on e n -> gn c (net_of c n) = net_of (upd c) n.
  Proof.
    intros Hc He Hm Hn. unfold net_of. rewrite (upd_pins c Hc). destruct (in_dec _ _ _); [reflexivity|]. cbn [gn ins]. rewrite (base_false c e n Hc He Hm Hn). reflexivity.
  Qed.
  (** The nets of a moved element, seen through the new instance. *)
  Lemma sget_x n : sget (e_pins x) n = if in_strs n pm then Some n else None.
  Proof.
    cbn [x e_pins]. destruct (in_strs n pm) eqn:E.
    - apply in_strs_iff in E. apply in_sget; [rewrite map_map; cbn [fst]; rewrite map_id; apply NoDup_filter, uniq_nodup|]. apply in_map_iff. eauto.
    - apply sget_none. rewrite map_map. cbn [fst]. rewrite map_id. intros H. apply in_strs_iff in H. congruence.
  Qed.
  Lemma gn_moved e n : In e pes -> on e n -> outside p' x (net_of child n) = Some (gn p (net_of p n)).
  Proof.
    intros He Hn. unfold net_of at 1. cbn [child sb_pins]. destruct (in_dec String.string_dec n pm) as [H|H].
    - cbn [outside]. rewrite sget_x. apply in_strs_iff in H as H'. rewrite H'. cbn [option_map]. f_equal. unfold net_of. cbn [p' sb_pins]. destruct (in_dec _ n (sb_pins p)); [reflexivity|]. cbn [gn ins]. unfold base. rewrite H'. cbn [negb]. rewrite andb_false_r. reflexivity.
    - cbn [outside x e_name]. f_equal. unfold net_of. destruct (in_dec _ n (sb_pins p)) as [Hi|_]; [exfalso; exact (inner_not_port e n He Hn H Hi)|]. cbn [gn ins]. unfold base. rewrite p_name, String.eqb_refl. cbn [andb].
      replace (existsb _ pes) with true by (symmetry; apply existsb_exists; exists e; split; [assumption|]; apply in_strs_iff, on_iff; assumption). destruct (in_strs n pm) eqn:E; [apply in_strs_iff in E; contradiction|reflexivity].
  Qed.

  Lemma in_x : In x (sb_elems p'). Proof. cbn [p' sb_elems]. apply in_app_iff. right. now left. Qed.
  Lemma upd_p : upd p = p'. Proof. unfold upd. rewrite p_name, String.eqb_refl. reflexivity. Qed.

  Lemma forward c d : device_of L c d -> In (Sub c) L -> device_of L' (upd c) (rn c d).
  Proof.
    intros Hd. induction Hd as [c e l He Hl|c e s d pins He Hs Hd IH HF]; intros Hc.
    - assert (Hl' := proj1 (find_prim _ _) Hl). unfold rn, ren_dev. cbn [dv_path dv_model dv_pins dv_params]. rewrite (ins_cons c e [] _ Hc He), Hl. rewrite map_map. cbn [fst snd]. destruct (is_moved c (e_name e)) eqn:Em.
      + apply (moved_iff c e Hc He) in Em as (-> & Hm). rewrite upd_p. cbn [app].
        refine (dev_sub L' p' x child (mkDev [e_name e] (e_model e) (map (fun pn => (fst pn, net_of child (snd pn))) (e_pins e)) (e_params e)) _ in_x find_child _ _).
        * apply (dev_leaf L' child e l); [exact Hm|exact Hl'].
        * cbn [dv_pins]. apply F2_map_l. cbn [fst snd]. assert (Q : forall q n, In (q, n) (e_pins e) -> on e n) by (intros q n H; exists q; assumption). revert Q. generalize (e_pins e) as ps. induction ps as [|(q, n) ps IHp]; intros Q; [constructor|]. cbn [map fst snd]. constructor; [split; [reflexivity|]; exact (gn_moved e n Hm (Q q n (or_introl eq_refl)))|]. apply IHp. intros q' n' H. apply (Q q' n'). now right.
      + cbn [app]. erewrite map_ext_in; [exact (dev_leaf L' (upd c) e l (in_upd c e Hc He Em) Hl')|]. intros (q, n) H. cbn [fst snd]. f_equal. apply (gn_stay c e n Hc He Em). exists q. assumption.
    - assert (Hsl := proj1 (lfind_in _ _ _ Hs)). specialize (IH Hsl). assert (Hs' := find_sub _ _ Hs). unfold rn, ren_dev. cbn [dv_path dv_model dv_pins dv_params]. rewrite (ins_cons c e _ _ Hc He), Hs. destruct (is_moved c (e_name e)) eqn:Em.
      + apply (moved_iff c e Hc He) in Em as Em2. destruct Em2 as (-> & Hm). rewrite upd_p. cbn [app].
        (** The nets of the device seen from the child. *)
        set (mid := map (fun ar => (fst ar, match snd ar with Port q => match sget (e_pins e) q with Some v => net_of child v | None => Port q end | Inner path n => Inner (e_name e :: ins s path n) n end)) (dv_pins d)).
        refine (dev_sub L' p' x child (mkDev (e_name e :: ins s (dv_path d) EmptyString) (dv_model d) mid (dv_params d)) _ in_x find_child _ _).
        * refine (dev_sub L' child e (upd s) (rn s d) mid _ Hs' IH _); [exact Hm|]. unfold mid, rn, ren_dev. cbn [dv_pins]. apply F2_map_l, F2_map_r. cbn [fst snd]. clear - HF. induction HF as [|(a, r) (b, r') l l' (H1 & H2) F IHF]; constructor; [|exact IHF]. split; [reflexivity|]. cbn [snd] in *. destruct r as [q|path n]; cbn [gn outside]; [|reflexivity]. cbn [outside] in H2. destruct (sget (e_pins e) q); [reflexivity|discriminate].
        * unfold mid. cbn [dv_pins]. apply F2_map_l, F2_map_r. cbn [fst snd]. eapply F2_impl; [|exact HF]. cbv beta. intros (a, r) (b, r') Hin (H1 & H2). cbn [fst snd] in *. split; [assumption|]. destruct r as [q|path n]; cbn [outside] in H2 |- *.
          -- destruct (sget (e_pins e) q) as [v|] eqn:E; [|discriminate]. cbn [option_map] in H2. injection H2 as <-. apply (gn_moved e v Hm). exists q. now apply sget_in.
          -- injection H2 as <-. cbn [outside gn]. rewrite (ins_cons p e path n Hc He), Em, Hs. reflexivity.
      + cbn [app]. refine (dev_sub L' (upd c) e (upd s) (rn s d) _ (in_upd c e Hc He Em) Hs' IH _). unfold rn, ren_dev. cbn [dv_pins]. apply F2_map_l, F2_map_r. cbn [fst snd]. eapply F2_impl; [|exact HF]. cbv beta. intros (a, r) (b, r') Hin (H1 & H2). cbn [fst snd] in *. split; [assumption|].
        destruct r as [q|path n]; cbn [outside gn] in H2 |- *.
        * destruct (sget (e_pins e) q) as [v|] eqn:E; [|discriminate]. cbn [option_map] in *. injection H2 as <-. f_equal. symmetry. apply (gn_stay c e v Hc He Em). exists q. now apply sget_in.
        * injection H2 as <-. cbn [gn]. rewrite (ins_cons c e path n Hc He), Em, Hs. reflexivity.
  Qed.

  Lemma F2_back {A B} (R : A -> B -> Prop) a c : (forall z, In z c -> True) -> Forall2 R a c -> Forall2 R a c. Proof. auto. Qed.
  (** Undo the renaming of the nets seen through an element. *)
  Lemma stay_back c e s d0 pins' : In (Sub c) L -> In e (sb_elems c) -> is_moved c (e_name e) = false -> lfind L (e_model e) = Some (Sub s) ->
    Forall2 (fun a b => fst a = fst b /\ outside (upd c) e (snd a) = Some (snd b)) (dv_pins (rn s d0)) pins' ->
    exists pins, Forall2 (fun a b => fst a = fst b /\ outside c e (snd a) = Some (snd b)) (dv_pins d0) pins /\ pins' = map (fun pn => (fst pn, gn c (snd pn))) pins.
  Proof.
    intros Hc He Em Hs HF. unfold rn, ren_dev in HF. cbn [dv_pins] in HF. apply F2_map_l in HF. cbn [fst snd] in HF. apply F2_pull with (g := fun pn => (fst pn, gn c (snd pn))). eapply F2_impl; [|exact HF]. cbv beta. intros (a, r) (b, r') Hin (H1 & H2). cbn [fst snd] in *. subst b.
    destruct r as [q|path n]; cbn [gn outside] in H2.
    - destruct (sget (e_pins e) q) as [v|] eqn:E; [|discriminate]. cbn [option_map] in H2. injection H2 as <-. exists (a, net_of c v). cbn [fst snd outside]. rewrite E. split; [auto|]. f_equal. symmetry. apply (gn_stay c e v Hc He Em). exists q. now apply sget_in.
    - injection H2 as <-. exists (a, Inner (e_name e :: path) n). cbn [fst snd outside gn]. split; [auto|]. rewrite (ins_cons c e path n Hc He), Em, Hs. reflexivity.
  Qed.
  Lemma backward k : forall c d', (length (dv_path d') <= k)%nat -> In (Sub c) L -> device_of L' (upd c) d' -> exists d, device_of L c d /\ d' = rn c d.
  Proof.
    induction k as [|k IH]; intros c d' Hk Hc Hd; [inversion Hd; subst; simpl in Hk; lia|].
    (** The device belongs to an element that was there before, or to the new instance. *)
    assert (St : forall e, In e (sb_elems (upd c)) -> (In e (sb_elems c) /\ is_moved c (e_name e) = false) \/ (c = p /\ e = x)).
    { intros e He. unfold upd in He. destruct (String.eqb_spec (sb_name c) pn) as [E|E].
      - apply (is_p c Hc) in E as ->. cbn [p' sb_elems] in He. apply in_app_iff in He as [He|[<-|[]]]; [|auto]. left. apply Hrest in He as (H1 & H2). split; [assumption|]. destruct (is_moved p (e_name e)) eqn:Em; [|reflexivity]. apply (moved_iff p e Hc H1) in Em as (_ & Em). exfalso. apply H2. now apply in_map.
      - left. split; [assumption|]. unfold is_moved. apply String.eqb_neq in E. rewrite E. reflexivity. }
    inversion Hd as [c0 e l He Hl|c0 e s' d0' pins' He Hs' Hd0 HF]; subst.
    - destruct (St e He) as [(He1 & Em)|(-> & ->)]; [|cbn [x e_model] in Hl; pose proof find_child; congruence]. apply find_prim in Hl. eexists. split; [exact (dev_leaf L c e l He1 Hl)|]. unfold rn, ren_dev. cbn [dv_path dv_model dv_pins dv_params]. rewrite (ins_cons c e [] _ Hc He1), Em, Hl. cbn [app]. f_equal. rewrite map_map. cbn [fst snd]. apply map_ext_in. intros (q, n) H. cbn [fst snd]. f_equal. symmetry. apply (gn_stay c e n Hc He1 Em). exists q. assumption.
    - cbn [dv_path length] in Hk. destruct (St e He) as [(He1 & Em)|(-> & ->)].
      + destruct (find_sub_inv _ _ Hs' (no_ref c e Hc He1)) as (s & Hs & ->). destruct (IH s d0' ltac:(lia) (proj1 (lfind_in _ _ _ Hs)) Hd0) as (d0 & D0 & ->). destruct (stay_back c e s d0 pins' Hc He1 Em Hs HF) as (pins & F & ->).
        eexists. split; [exact (dev_sub L c e s d0 pins He1 Hs D0 F)|]. unfold rn, ren_dev. cbn [dv_path dv_model dv_pins dv_params]. rewrite (ins_cons c e _ _ Hc He1), Em, Hs. reflexivity.
      + cbn [x e_model] in Hs'. pose proof find_child as FC. rewrite FC in Hs'. injection Hs' as <-. cbn [x e_name].
        inversion Hd0 as [c0 e l He0 Hl|c0 e s' d1' pins1 He0 Hs1 Hd1 HF1]; subst.
        * cbn [child sb_elems] in He0. assert (Hep : In e (sb_elems p)) by (apply pes_in in He0; tauto). apply find_prim in Hl. assert (Em : is_moved p (e_name e) = true) by (apply (moved_iff p e Hc Hep); auto).
          eexists. split; [exact (dev_leaf L p e l Hep Hl)|]. unfold rn, ren_dev. cbn [dv_path dv_model dv_pins dv_params]. rewrite (ins_cons p e [] _ Hc Hep), Em, Hl. cbn [app]. f_equal. rewrite map_map. cbn [fst snd]. cbn [dv_pins] in HF. apply F2_map_l in HF. cbn [fst snd] in HF.
          assert (Q : forall q n, In (q, n) (e_pins e) -> on e n) by (intros q n H; exists q; assumption). revert HF Q. clear - He0 Hwf Hp Hcn Hrest. generalize (e_pins e) as ps. intros ps HF. induction HF as [|(q, n) (b, r) ps ps' (H1 & H2) F IHF]; intros Q; [reflexivity|]. cbn [map fst snd] in *. rewrite upd_p in H2. rewrite (gn_moved e n He0 (Q q n (or_introl eq_refl))) in H2. injection H2 as <-. subst b. f_equal. apply IHF. intros q' n' H. apply (Q q' n'). now right.
        * cbn [child sb_elems] in He0. assert (Hep : In e (sb_elems p)) by (apply pes_in in He0; tauto). assert (Em : is_moved p (e_name e) = true) by (apply (moved_iff p e Hc Hep); auto).
          destruct (find_sub_inv _ _ Hs1 (no_ref p e Hc Hep)) as (s & Hs & ->). cbn [dv_path length] in Hk. destruct (IH s d1' ltac:(lia) (proj1 (lfind_in _ _ _ Hs)) Hd1) as (d1 & D1 & ->).
          cbn [dv_pins] in HF. pose proof (F2_comp _ _ _ _ _ HF1 HF) as FF. unfold rn, ren_dev in FF. cbn [dv_pins] in FF. apply F2_map_l in FF. cbn [fst snd] in FF.
          assert (G : exists pins, Forall2 (fun a b => fst a = fst b /\ outside p e (snd a) = Some (snd b)) (dv_pins d1) pins /\ pins' = map (fun pn => (fst pn, gn p (snd pn))) pins).
          { apply F2_pull with (g := fun pn => (fst pn, gn p (snd pn))). eapply F2_impl; [|exact FF]. cbv beta. intros (a, r) (b, r') Hin ((w, rw0) & (H1 & H2) & (H3 & H4)). cbn [fst snd] in *. subst b w. rewrite upd_p in H4. destruct r as [q|path n]; cbn [gn outside] in H2.
            - destruct (sget (e_pins e) q) as [v|] eqn:E; [|discriminate]. cbn [option_map] in H2. injection H2 as <-. rewrite (gn_moved e v He0) in H4 by (exists q; now apply sget_in). injection H4 as <-. exists (a, net_of p v). cbn [fst snd outside]. rewrite E. auto.
            - injection H2 as <-. cbn [outside x e_name] in H4. injection H4 as <-. exists (a, Inner (e_name e :: path) n). cbn [fst snd outside gn]. split; [auto|]. rewrite (ins_cons p e path n Hc Hep), Em, Hs. reflexivity. }
          destruct G as (pins & F & ->). eexists. split; [exact (dev_sub L p e s d1 pins Hep Hs D1 F)|]. unfold rn, ren_dev. cbn [dv_path dv_model dv_pins dv_params]. rewrite (ins_cons p e _ _ Hc Hep), Em, Hs. reflexivity.
  Qed.

  (** * Injectivity *)
  Lemma not_x c e : In (Sub c) L -> In e (sb_elems c) -> is_moved c (e_name e) = false -> c = p -> e_name e <> xn.
  Proof.
    intros Hc He Em ->. apply Hfresh; [assumption|]. intros H. assert (In e pes) by (apply pes_in; auto). rewrite (proj2 (moved_iff p e Hc He) (conj eq_refl H0)) in Em. discriminate.
  Qed.
  Lemma head_inj c e1 e2 t1 t2 : In (Sub c) L -> In e1 (sb_elems c) -> In e2 (sb_elems c) ->
    (if is_moved c (e_name e1) then [xn; e_name e1] else [e_name e1]) ++ t1 = (if is_moved c (e_name e2) then [xn; e_name e2] else [e_name e2]) ++ t2 -> e1 = e2 /\ t1 = t2.
  Proof.
    intros Hc H1 H2 E. destruct (is_moved c (e_name e1)) eqn:M1, (is_moved c (e_name e2)) eqn:M2; cbn [app] in E.
    - injection E as En Et. split; [exact (same_elem L Hwf c e1 e2 Hc H1 H2 En)|assumption].
    - injection E as En _. exfalso. apply (moved_iff c e1 Hc H1) in M1 as (-> & _). symmetry in En. exact (not_x p e2 Hc H2 M2 eq_refl En).
    - injection E as En _. exfalso. apply (moved_iff c e2 Hc H2) in M2 as (-> & _). exact (not_x p e1 Hc H1 M1 eq_refl En).
    - injection E as En Et. split; [exact (same_elem L Hwf c e1 e2 Hc H1 H2 En)|assumption].
  Qed.
  Lemma path_inj' c d1 : device_of L c d1 -> forall d2 n, In (Sub c) L -> device_of L c d2 -> ins c (dv_path d1) n = ins c (dv_path d2) n -> dv_path d1 = dv_path d2.
  Proof.
    intros H1. induction H1 as [c e1 l1 I1 F1|c e1 s1 k1 ps1 I1 F1 D1 IH _]; intros d2 n Hc H2 E; inversion H2 as [c0 e2 l2 I2 F2|c0 e2 s2 k2 ps2 I2 F2 D2 _]; subst; cbn [dv_path] in *; rewrite !ins_cons in E by assumption; apply head_inj in E as (<- & E); try assumption; [reflexivity|congruence|congruence|].
    rewrite F1 in F2. injection F2 as <-. rewrite F1 in E. f_equal. exact (IH k2 n (proj1 (lfind_in _ _ _ F1)) D2 E).
  Qed.
  Lemma base_cases c n : base c n = [] \/ (sb_name c = pn /\ base c n = [xn]).
  Proof. unfold base. destruct (String.eqb_spec (sb_name c) pn); simpl; [|auto]. destruct (existsb _ _ && _); auto. Qed.
  Lemma net_inj' c p1 n : occ L c p1 n -> forall p2, In (Sub c) L -> occ L c p2 n -> ins c p1 n = ins c p2 n -> p1 = p2.
  Proof.
    assert (Z : forall c e q, In (Sub c) L -> In e (sb_elems c) -> base c n = ins c (e_name e :: q) n -> False).
    { intros c0 e q Hc He E. rewrite (ins_cons c0 e q n Hc He) in E. destruct (base_cases c0 n) as [B|(En & B)]; rewrite B in E; destruct (is_moved c0 (e_name e)) eqn:Em; cbn [app] in E; try discriminate.
      injection E as En' _. symmetry in En'. exact (not_x c0 e Hc He Em (is_p c0 Hc En) En'). }
    intros H1. induction H1 as [c e1 q1 n I1 J1 N1|c e1 s1 q1 n I1 F1 O1 IH]; intros p2 Hc H2 E; inversion H2 as [c0 e2 q2 n0 I2 J2 N2|c0 e2 s2 q2 n0 I2 F2 O2]; subst; [reflexivity| | |].
    - exfalso. exact (Z c e2 q2 Hc I2 E).
    - exfalso. symmetry in E. exact (Z c e1 q1 Hc I1 E).
    - rewrite !ins_cons in E by assumption. apply head_inj in E as (<- & E); try assumption. rewrite F1 in F2. injection F2 as <-. rewrite F1 in E. f_equal. exact (IH Z q2 (proj1 (lfind_in _ _ _ F1)) O2 E).
  Qed.
  Lemma new_same c : In (Sub c) L -> same_netlist L c L' (upd c).
  Proof.
    intros Hc. exists (fun path => ins c path EmptyString), (gn c). split; [reflexivity|]. split; [intros path n; exists (ins c path n); reflexivity|]. split; [|split; [|split]].
    - intros d Hd. exact (forward c d Hd Hc).
    - intros d' Hd'. exact (backward _ c d' (le_n _) Hc Hd').
    - intros d1 d2 H1 H2 E. exact (path_inj' c d1 H1 d2 EmptyString Hc H2 E).
    - intros d1 d2 q1 q2 r1 r2 H1 H2 I1 I2 E. destruct r1 as [a1|a1 n1], r2 as [a2|a2 n2]; cbn [gn] in E; try discriminate; [assumption|]. injection E as E <-. f_equal. exact (net_inj' c a1 n1 (device_occ L c d1 H1 q1 a1 n1 I1) a2 Hc (device_occ L c d2 H2 q2 a2 n1 I2) E).
  Qed.
End New.
