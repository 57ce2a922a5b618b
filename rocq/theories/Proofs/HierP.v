(** Lemmas on removing one single-instance hierarchy. *)
From Coq Require Import String.
From Verif Require Import Base.Prelude Base.PyDict Model.RemoveDuplicates Model.Canvas Model.Netlist Model.Hier Spec.HierSpec.

Lemma in_strs_iff x l : in_strs x l = true <-> In x l.
Proof. unfold in_strs. rewrite existsb_exists. split; [intros (y & H & E); apply String.eqb_eq in E; now subst|intros H; exists x; split; [assumption|apply String.eqb_refl]]. Qed.
Lemma same_set_iff a b : same_set a b = true <-> forall x, In x a <-> In x b.
Proof.
  unfold same_set. rewrite andb_true_iff, !forallb_forall. split.
  - intros (H1 & H2) x. split; intros H; [apply in_strs_iff, H1, H|apply in_strs_iff, H2, H].
  - intros H. split; intros x Hx; apply in_strs_iff, H, Hx.
Qed.
Definition seqb_ok := String.eqb_eq.
Lemma sget_none d k : sget d k = None <-> ~ In k (map fst d). Proof. apply dget_none, String.eqb_eq. Qed.
Lemma sget_in d k v : sget d k = Some v -> In (k, v) d. Proof. apply dget_in, String.eqb_eq. Qed.
Lemma in_sget d k v : NoDup (map fst d) -> In (k, v) d -> sget d k = Some v. Proof. apply in_dget, String.eqb_eq. Qed.
Lemma sget_key d k : In k (map fst d) -> exists v, sget d k = Some v. Proof. apply dget_some_in, String.eqb_eq. Qed.

Lemma lfind_in L n c : lfind L n = Some c -> In c L /\ cell_name c = n.
Proof. intros H. apply find_some in H as (H & E). apply String.eqb_eq in E. auto. Qed.
Lemma lfind_of L c : NoDup (map cell_name L) -> In c L -> lfind L (cell_name c) = Some c.
Proof.
  unfold lfind. induction L as [|a L IH]; [intros _ []|]. simpl. intros Hn [->|H]; [now rewrite String.eqb_refl|]. inversion Hn as [|? ? Hno Hn']; subst.
  destruct (String.eqb_spec (cell_name a) (cell_name c)) as [E|_]; [|auto]. exfalso. apply Hno. rewrite E. now apply in_map.
Qed.
Lemma get_element_of els e : NoDup (map e_name els) -> In e els -> get_element els (e_name e) = Some e.
Proof.
  unfold get_element. induction els as [|a els IH]; [intros _ []|]. simpl. intros Hn [->|H]; [now rewrite String.eqb_refl|]. inversion Hn as [|? ? Hno Hn']; subst.
  destruct (String.eqb_spec (e_name a) (e_name e)) as [E|_]; [|auto]. exfalso. apply Hno. rewrite E. now apply in_map.
Qed.

(** The inner element [y], seen from outside, in the place of the instance [e]. *)
Definition val (o : option string) : string := match o with Some v => v | None => EmptyString end.
Definition thr (ypins epins : dict) : dict := map (fun pv => (fst pv, val (sget epins (snd pv)))) ypins.
Definition inl (y e : elem) : elem := mkElem (e_name e) (e_model y) (thr (e_pins y) (e_pins e)) (e_params y).
Definition rw (dh : string) (y e : elem) : elem := if String.eqb (e_model e) dh then inl y e else e.

Lemma through_thr yp ep : (forall p n, In (p, n) yp -> In n (map fst ep)) -> through yp ep = Some (thr yp ep).
Proof.
  unfold through, thr. induction yp as [|(p, n) yp IH]; intros H; [reflexivity|]. cbn [mapM map fst snd].
  destruct (sget_key ep n (H p n (or_introl eq_refl))) as (v & E). rewrite E. cbn [option_map val]. rewrite IH; [reflexivity|]. intros q m Hq. exact (H q m (or_intror Hq)).
Qed.
Lemma dset_same d k v : sget d k = Some v -> sset d k v = d.
Proof.
  unfold sget, sset, dset. induction d as [|(k', v') d IH]; [discriminate|]. simpl. destruct (String.eqb_spec k k') as [->|]; [intros E; injection E as ->; reflexivity|]. intros E. f_equal. now apply IH.
Qed.
Lemma override_same yp ep : (forall k v, In (k, v) ep -> In k (map fst yp) -> sget yp k = Some v) -> override yp ep = yp.
Proof.
  unfold override. induction ep as [|(k, v) ep IH]; intros H; [reflexivity|]. cbn [fold_left fst snd]. unfold shas, dmem. destruct (dget String.eqb yp k) as [w|] eqn:E.
  - rewrite dset_same; [apply IH; intros k' v' Hk; apply H; now right|]. apply (H k v); [now left|]. destruct (in_dec String.string_dec k (map fst yp)) as [|Hno]; [assumption|]. apply sget_none in Hno. unfold sget in Hno. congruence.
  - apply IH. intros k' v' Hk. apply H. now right.
Qed.
Lemma mk_inst_ok L name model pins params c : lfind L model = Some c -> String.prefix (cell_prefix c) name = true -> (forall p, In p (map fst pins) <-> In p (cell_pins c)) ->
  map fst params = map fst (cell_params c) -> NoDup (map fst params) -> mk_inst L name model pins params = Some (mkElem name model pins params).
Proof.
  intros Hc Hp Hs Hk Hn. unfold mk_inst. rewrite Hc, Hp. cbn [negb]. rewrite (proj2 (same_set_iff _ _) Hs). cbn [negb]. destruct params as [|kv params].
  - destruct (cell_params c); [reflexivity|discriminate].
  - rewrite Hk. replace (forallb _ (map fst (cell_params c))) with true by (symmetry; apply forallb_forall; intros x Hx; now apply in_strs_iff). do 2 f_equal. generalize dependent (kv :: params). clear kv params. intros ps Hk Hn.
    assert (G : forall a b, map fst a = map fst b -> (forall k v, In (k, v) a -> sget ps k = Some v) -> map (fun q : string * string => (fst q, match sget ps (fst q) with Some v => v | None => snd q end)) b = a).
    { induction a as [|(k, v) a IH]; intros b E H; destruct b as [|(k', v') b]; try discriminate; [reflexivity|]. injection E as <- E. cbn [map fst snd]. rewrite (H k v (or_introl eq_refl)). f_equal. apply IH; [assumption|]. intros q w Hq. apply H. now right. }
    apply G; [assumption|]. intros k v Hi. now apply in_sget.
Qed.

Lemma remove_elem_first l1 e l2 : ~ In (e_name e) (map e_name l1) -> remove_elem (l1 ++ e :: l2) (e_name e) = l1 ++ l2.
Proof.
  induction l1 as [|a l1 IH]; simpl; [now rewrite String.eqb_refl|]. intros H. destruct (String.eqb_spec (e_name a) (e_name e)) as [E|_]; [exfalso; auto|]. f_equal. apply IH. auto.
Qed.

Section Step.
  Variables (L : lib) (dh : string) (ckt : sub) (y : elem).
  Hypothesis Hwf : well_formed L.
  Hypothesis Hparams : forall c, In c L -> NoDup (map fst (cell_params c)).
  Hypothesis Hac : acyclic L.
  Hypothesis Hdh : lfind L dh = Some (Sub ckt).
  Hypothesis Hone : sb_elems ckt = [y].
  Hypothesis Hports : forall p n, In (p, n) (e_pins y) -> In n (sb_pins ckt).
  (** Instances of the hierarchy. *)
  Hypothesis Hinst : forall o e, In (Sub o) L -> In e (sb_elems o) -> e_model e = dh -> agree e y /\ may_name L e y.

  Lemma ckt_in : In (Sub ckt) L. Proof. exact (proj1 (lfind_in _ _ _ Hdh)). Qed.
  Lemma ckt_name : sb_name ckt = dh. Proof. exact (proj2 (lfind_in _ _ _ Hdh)). Qed.
  Lemma y_in : In y (sb_elems ckt). Proof. rewrite Hone. now left. Qed.
  Lemma y_model : e_model y <> dh.
  Proof.
    intros E. destruct Hac as (rank & Hr). specialize (Hr ckt ckt dh ckt_in). assert (rank (sb_name ckt) < rank (sb_name ckt))%nat; [|lia]. apply Hr; [|assumption]. exists y. split; [exact y_in|assumption].
  Qed.
  Lemma inst_keys o e : In (Sub o) L -> In e (sb_elems o) -> e_model e = dh -> forall p, In p (map fst (e_pins e)) <-> In p (sb_pins ckt).
  Proof. intros Ho He Em. destruct Hwf as (_ & W). destruct (proj2 (W o Ho) e He) as (_ & m & Hm & Hk & _). rewrite Em, Hdh in Hm. injection Hm as <-. exact Hk. Qed.

  Lemma replace_one_ok els d rest o : In (Sub o) L -> In d (sb_elems o) -> e_model d = dh -> NoDup (map e_name els) -> Permutation els (d :: rest) ->
    exists els', replace_one L y (els, e_params y) (e_name d) = Some (els', e_params y) /\ Permutation els' (inl y d :: rest) /\ NoDup (map e_name els').
  Proof.
    intros Ho Hd Em Hn Hp. unfold replace_one. rewrite (get_element_of els d); [|assumption|apply (Permutation_in _ (Permutation_sym Hp)); now left].
    rewrite through_thr; [|intros p n Hpn; apply (inst_keys o d Ho Hd Em), (Hports p n Hpn)]. destruct (Hinst o d Ho Hd Em) as (Ha & Hpre). rewrite override_same by exact Ha.
    destruct Hwf as (_ & W). destruct (proj2 (W ckt ckt_in) y y_in) as (Hny & m & Hm & Hk & Hpk).
    rewrite (mk_inst_ok L _ _ _ _ m Hm (Hpre m Hm)).
    - assert (In d els) as Hi by (apply (Permutation_in _ (Permutation_sym Hp)); now left). apply in_split in Hi as (l1 & l2 & ->). eexists. split; [reflexivity|].
      rewrite <- app_assoc. cbn [app]. rewrite map_app in Hn. cbn [map] in Hn. pose proof (NoDup_remove_2 _ _ _ Hn) as Hno. rewrite remove_elem_first by (intros H; apply Hno, in_or_app; now left).
      assert (P2 : Permutation (l1 ++ l2) rest) by (apply (Permutation_cons_inv (a := d)); rewrite <- Hp; apply Permutation_middle). fold (inl y d). split.
      + rewrite app_assoc, <- Permutation_cons_append. now constructor.
      + rewrite app_assoc, map_app. cbn [map]. apply (Permutation_NoDup (l := e_name d :: map e_name (l1 ++ l2))); [change [e_name (inl y d)] with [e_name d]; apply Permutation_cons_append|].
        apply (Permutation_NoDup (l := map e_name l1 ++ e_name d :: map e_name l2)); [|assumption]. rewrite map_app. symmetry. apply Permutation_middle.
    - intros p. unfold thr. rewrite map_map. cbn [fst]. apply Hk.
    - assumption.
    - rewrite Hpk. apply Hparams. exact (proj1 (lfind_in _ _ _ Hm)).
  Qed.
  Lemma replace_fold o ds : In (Sub o) L -> forall els rest, (forall d, In d ds -> In d (sb_elems o) /\ e_model d = dh) -> NoDup (map e_name els) -> Permutation els (ds ++ rest) ->
    exists els', foldM (replace_one L y) (map e_name ds) (els, e_params y) = Some (els', e_params y) /\ Permutation els' (map (inl y) ds ++ rest).
  Proof.
    intros Ho. induction ds as [|d ds IH]; intros els rest Hd Hn Hp; [exists els; auto|]. destruct (Hd d (or_introl eq_refl)) as (Hdo & Em).
    destruct (replace_one_ok els d (ds ++ rest) o Ho Hdo Em Hn Hp) as (els1 & E1 & P1 & N1). cbn [map foldM]. rewrite E1.
    destruct (IH els1 (inl y d :: rest)) as (els2 & E2 & P2); [intros d' H'; apply Hd; now right|assumption|rewrite P1; apply Permutation_middle|].
    exists els2. split; [assumption|]. rewrite P2. cbn [app]. symmetry. apply Permutation_middle.
  Qed.
  Lemma replace_in_ok o : In (Sub o) L -> exists els', replace_in L dh y (e_params y) (sb_elems o) = Some (els', e_params y) /\ Permutation els' (map (rw dh y) (sb_elems o)).
  Proof.
    intros Ho. set (ds := filter (fun e => String.eqb (e_model e) dh) (sb_elems o)). set (rest := filter (fun e => negb (String.eqb (e_model e) dh)) (sb_elems o)).
    assert (P : forall l, Permutation l (filter (fun e => String.eqb (e_model e) dh) l ++ filter (fun e => negb (String.eqb (e_model e) dh)) l)).
    { induction l as [|e l IH]; [constructor|]. simpl. destruct (String.eqb (e_model e) dh); simpl; [now constructor|]. rewrite <- Permutation_middle. now constructor. }
    assert (P2 : forall l, Permutation (map (inl y) (filter (fun e => String.eqb (e_model e) dh) l) ++ filter (fun e => negb (String.eqb (e_model e) dh)) l) (map (rw dh y) l)).
    { induction l as [|e l IH]; [constructor|]. simpl. unfold rw at 1. destruct (String.eqb (e_model e) dh); simpl; [now constructor|]. rewrite <- Permutation_middle. now constructor. }
    destruct (replace_fold o ds Ho (sb_elems o) rest) as (els' & E & Pe).
    - intros d Hd. apply filter_In in Hd as (Hd & E). apply String.eqb_eq in E. auto.
    - apply (proj1 (proj2 Hwf o Ho)).
    - apply P.
    - exists els'. split; [exact E|]. rewrite Pe. apply P2.
  Qed.

  (** The library after the step: the same modules except [dh], with the instances replaced. *)
  Definition cell_rel (c c' : cell) : Prop :=
    match c, c' with
    | Prim l, Prim l' => l = l'
    | Sub o, Sub o' => sb_name o' = sb_name o /\ sb_pins o' = sb_pins o /\ sb_params o' = sb_params o /\ Permutation (sb_elems o') (map (rw dh y) (sb_elems o))
    | _, _ => False
    end.
  Lemma rel_name c c' : cell_rel c c' -> cell_name c' = cell_name c. Proof. destruct c, c'; simpl; [intros ->; reflexivity|intros []|intros []|intros (H & _); exact H]. Qed.
  Lemma rel_pins c c' : cell_rel c c' -> cell_pins c' = cell_pins c. Proof. destruct c, c'; simpl; [intros ->; reflexivity|intros []|intros []|intros (_ & H & _); exact H]. Qed.
  Lemma rel_params c c' : cell_rel c c' -> cell_params c' = cell_params c. Proof. destruct c, c'; simpl; [intros ->; reflexivity|intros []|intros []|intros (_ & _ & H & _); exact H]. Qed.
  Lemma rel_prefix c c' : cell_rel c c' -> cell_prefix c' = cell_prefix c. Proof. destruct c, c'; simpl; [intros ->; reflexivity|intros []|intros []|intros _; reflexivity]. Qed.

  Lemma remove_dummy_ok : exists L', remove_dummy L dh = Some L' /\ Forall2 cell_rel (drop_cell L dh) L'.
  Proof.
    unfold remove_dummy. rewrite Hdh, Hone.
    assert (G : forall l out, incl l L -> exists l', foldM (replace_cell L dh y) l (out, e_params y) = Some (out ++ l', e_params y) /\ Forall2 cell_rel (drop_cell l dh) (drop_cell l' dh)).
    { induction l as [|c l IH]; intros out Hi; [exists []; rewrite app_nil_r; split; [reflexivity|constructor]|]. assert (Hc : In c L) by (apply Hi; now left). assert (Hl : incl l L) by (intros a Ha; apply Hi; now right).
      cbn [foldM]. destruct c as [p|o].
      - change (replace_cell L dh y (out, e_params y) (Prim p)) with (Some (out ++ [Prim p], e_params y)). cbv beta iota. destruct (IH (out ++ [Prim p]) Hl) as (l' & E & R). exists (Prim p :: l'). split; [etransitivity; [exact E|now rewrite <- app_assoc]|]. unfold drop_cell in *. cbn [filter]. destruct (negb _); [constructor; [reflexivity|assumption]|assumption].
      - assert (Ec : replace_cell L dh y (out, e_params y) (Sub o) = if String.eqb (sb_name o) dh then Some (out ++ [Sub o], e_params y)
                else option_map (fun r => (out ++ [Sub (mkSub (sb_name o) (sb_pins o) (sb_params o) (fst r))], snd r)) (replace_in L dh y (e_params y) (sb_elems o))) by reflexivity. rewrite Ec. clear Ec.
        destruct (String.eqb_spec (sb_name o) dh) as [En|En].
        + destruct (IH (out ++ [Sub o]) Hl) as (l' & E & R). exists (Sub o :: l'). split; [etransitivity; [exact E|now rewrite <- app_assoc]|]. unfold drop_cell in *. cbn [filter cell_name]. rewrite En, String.eqb_refl. exact R.
        + destruct (replace_in_ok o Hc) as (els' & E1 & P1). rewrite E1. cbn [option_map fst snd]. destruct (IH (out ++ [Sub (mkSub (sb_name o) (sb_pins o) (sb_params o) els')]) Hl) as (l' & E & R).
          eexists (Sub _ :: l'). split; [etransitivity; [exact E|now rewrite <- app_assoc]|]. unfold drop_cell in *. cbn [filter cell_name sb_name]. rewrite (proj2 (String.eqb_neq _ _) En). cbn [negb]. constructor; [|exact R]. simpl. auto. }
    destruct (G L [] (incl_refl _)) as (l' & E & R). exists (drop_cell l' dh). split; [|exact R]. exact (f_equal (option_map (fun r : lib * dict => drop_cell (fst r) dh)) E).
  Qed.

  Variable L' : lib.
  Hypothesis Hrel : Forall2 cell_rel (drop_cell L dh) L'.

  Lemma find_new n c : n <> dh -> lfind L n = Some c -> exists c', lfind L' n = Some c' /\ cell_rel c c'.
  Proof.
    intros Hn. unfold lfind. revert Hrel. unfold drop_cell. clear - Hn. revert L'. induction L as [|a l IH]; intros l' R; [discriminate|]. simpl. simpl in R. destruct (String.eqb_spec (cell_name a) n) as [E|E].
    - intros Ec. injection Ec as <-. rewrite E, (proj2 (String.eqb_neq _ _) Hn) in R. cbn [negb] in R. inversion R as [|? c' ? l2 Rc Rl]; subst. exists c'. split; [|assumption]. simpl. rewrite (rel_name _ _ Rc), String.eqb_refl. reflexivity.
    - destruct (String.eqb (cell_name a) dh); cbn [negb] in R; [apply IH, R|]. inversion R as [|? c' ? l2 Rc Rl]; subst. simpl. rewrite (rel_name _ _ Rc). rewrite (proj2 (String.eqb_neq _ _) E). now apply IH.
  Qed.
  Lemma old_of c' : In c' L' -> exists c, In c L /\ cell_name c <> dh /\ cell_rel c c'.
  Proof.
    intros H. assert (G : exists c, In c (drop_cell L dh) /\ cell_rel c c').
    { clear - H Hrel. revert H. induction Hrel as [|c c1 l l' R Rl IH]; [intros []|]. intros [<-|H]; [exists c; split; [now left|assumption]|]. destruct (IH Rl H) as (c2 & H1 & H2). exists c2. split; [now right|assumption]. }
    destruct G as (c & Hc & R). apply filter_In in Hc as (Hc & E). exists c. split; [assumption|]. split; [|assumption]. intros En. rewrite En, String.eqb_refl in E. discriminate.
  Qed.
  Lemma new_of c : In c L -> cell_name c <> dh -> exists c', In c' L' /\ cell_rel c c'.
  Proof. intros H Hn. destruct (find_new (cell_name c) c Hn) as (c' & E & R); [apply lfind_of; [exact (proj1 Hwf)|assumption]|]. exists c'. split; [exact (proj1 (lfind_in _ _ _ E))|assumption]. Qed.
  Lemma find_old n c' : lfind L' n = Some c' -> n <> dh /\ exists c, lfind L n = Some c /\ cell_rel c c'.
  Proof.
    intros E. destruct (lfind_in _ _ _ E) as (Hi & <-). destruct (old_of _ Hi) as (c & Hc & Hn & R). rewrite (rel_name _ _ R). split; [assumption|]. exists c. split; [|assumption]. apply lfind_of; [exact (proj1 Hwf)|assumption].
  Qed.
  Lemma names_new : NoDup (map cell_name L').
  Proof.
    replace (map cell_name L') with (map cell_name (drop_cell L dh)).
    - assert (G : forall l, NoDup (map cell_name l) -> NoDup (map cell_name (drop_cell l dh))).
      { induction l as [|c l IH]; [constructor|]. simpl. intros H. inversion H as [|? ? Hno Hn]; subst. destruct (negb _); [|auto]. simpl. constructor; [|auto]. intros Hi. apply Hno. apply in_map_iff in Hi as (c' & <- & Hi). apply filter_In in Hi. apply in_map. tauto. }
      apply G. exact (proj1 Hwf).
    - clear - Hrel. induction Hrel as [|c c' l l' R Rl IH]; [reflexivity|]. simpl. rewrite (rel_name _ _ R), IH by assumption. reflexivity.
  Qed.
  Lemma in_rw o o' e' : cell_rel (Sub o) (Sub o') -> In e' (sb_elems o') <-> exists e, In e (sb_elems o) /\ e' = rw dh y e.
  Proof.
    intros (_ & _ & _ & P). split.
    - intros H. apply (Permutation_in _ P), in_map_iff in H as (e & <- & H). eauto.
    - intros (e & H & ->). apply (Permutation_in _ (Permutation_sym P)). now apply in_map.
  Qed.
  Lemma rw_name e : e_name (rw dh y e) = e_name e. Proof. unfold rw. destruct (String.eqb _ _); reflexivity. Qed.
  Lemma rw_model e : e_model (rw dh y e) <> dh.
  Proof. unfold rw. destruct (String.eqb_spec (e_model e) dh); [exact y_model|assumption]. Qed.

  Lemma well_formed_new : well_formed L'.
  Proof.
    split; [exact names_new|]. intros o' Ho'. destruct (old_of _ Ho') as ([l|o] & Ho & Hno & R); [destruct R|]. split.
    - destruct R as (_ & _ & _ & P). apply (Permutation_NoDup (l := map e_name (map (rw dh y) (sb_elems o)))); [symmetry; now apply Permutation_map|]. rewrite map_map. rewrite (map_ext _ e_name) by apply rw_name. exact (proj1 (proj2 Hwf o Ho)).
    - intros e' He'. apply (in_rw _ _ _ R) in He' as (e & He & ->). destruct (proj2 (proj2 Hwf o Ho) e He) as (Hnd & m & Hm & Hk & Hpk). unfold rw. destruct (String.eqb_spec (e_model e) dh) as [Em|Em].
      + destruct (proj2 (proj2 Hwf ckt ckt_in) y y_in) as (Hny & my & Hmy & Hky & Hpy). cbn [inl e_pins e_model e_params]. unfold thr. rewrite map_map. cbn [fst]. split; [exact Hny|].
        destruct (find_new _ _ y_model Hmy) as (m' & Em' & Rm). exists m'. split; [assumption|]. rewrite (rel_pins _ _ Rm), (rel_params _ _ Rm). auto.
      + split; [assumption|]. destruct (find_new _ _ Em Hm) as (m' & Em' & Rm). exists m'. split; [assumption|]. rewrite (rel_pins _ _ Rm), (rel_params _ _ Rm). auto.
  Qed.
  Lemma params_new : forall c, In c L' -> NoDup (map fst (cell_params c)).
  Proof. intros c' H. destruct (old_of _ H) as (c & Hc & _ & R). rewrite (rel_params _ _ R). auto. Qed.
  Lemma acyclic_new : acyclic L'.
  Proof.
    destruct Hac as (rank & Hr). exists rank. intros o' s' m Ho' (e' & He' & Em) Hs'. destruct (old_of _ Ho') as ([l|o] & Ho & Hno & R); [destruct R|]. destruct (find_old _ _ Hs') as (_ & [l|s] & Hs & Rs); [destruct Rs|].
    apply (in_rw _ _ _ R) in He' as (e & He & ->). destruct R as (En & _). destruct Rs as (En' & _). rewrite En, En'. unfold rw in Em. destruct (String.eqb_spec (e_model e) dh) as [Ed|Ed]; cbn [inl e_model] in Em.
    - apply Nat.lt_trans with (rank (sb_name ckt)); [apply (Hr ckt s m ckt_in); [exists y; split; [exact y_in|assumption]|assumption]|]. apply (Hr o ckt dh Ho); [exists e; auto|assumption].
    - apply (Hr o s m Ho); [exists e; auto|assumption].
  Qed.

  (** * The flat netlist *)
  (** Old paths to new paths: the component after an instance of [dh] disappears. *)
  Fixpoint er (c : sub) (path : list string) {struct path} : list string :=
    match path with
    | [] => []
    | x :: tl => x ::
        match get_element (sb_elems c) x with
        | Some e =>
            if String.eqb (e_model e) dh
            then match tl with [] => [] | _ :: tl' => match lfind L (e_model y) with Some (Sub s) => er s tl' | _ => tl' end end
            else match lfind L (e_model e) with Some (Sub s) => er s tl | _ => tl end
        | None => tl
        end
    end.
  Lemma er_cons c e path : In (Sub c) L -> In e (sb_elems c) -> er c (e_name e :: path) = e_name e ::
    (if String.eqb (e_model e) dh then match path with [] => [] | _ :: tl' => match lfind L (e_model y) with Some (Sub s) => er s tl' | _ => tl' end end
     else match lfind L (e_model e) with Some (Sub s) => er s path | _ => path end).
  Proof. intros Hc He. cbn [er]. rewrite (get_element_of (sb_elems c) e); [reflexivity|exact (proj1 (proj2 Hwf c Hc))|assumption]. Qed.
  Lemma net_of_rel o o' n : sb_pins o' = sb_pins o -> net_of o' n = net_of o n. Proof. unfold net_of. intros ->. reflexivity. Qed.
  Lemma er_net_of c n : rename_net (er c) (net_of c n) = net_of c n. Proof. unfold net_of. destruct (in_dec _ _ _); reflexivity. Qed.
  Lemma net_of_ckt p n : In (p, n) (e_pins y) -> net_of ckt n = Port n.
  Proof. intros H. unfold net_of. destruct (in_dec _ _ _) as [|Hno]; [reflexivity|]. exfalso. exact (Hno (Hports p n H)). Qed.
  Lemma sget_thr yp ep p : sget (thr yp ep) p = option_map (fun n => val (sget ep n)) (sget yp p).
  Proof. unfold sget, thr. induction yp as [|(q, n) yp IH]; [reflexivity|]. simpl. destruct (String.eqb p q); [reflexivity|assumption]. Qed.
  Lemma F2_map_l {A B C} (R : B -> C -> Prop) (f : A -> B) a c : Forall2 R (map f a) c <-> Forall2 (fun x z => R (f x) z) a c.
  Proof. split; revert c; induction a as [|x a IH]; intros c H; inversion H; subst; constructor; auto. Qed.
  Lemma F2_map_r {A B C} (R : A -> C -> Prop) (f : B -> C) a b : Forall2 (fun x z => R x (f z)) a b -> Forall2 R a (map f b).
  Proof. intros H. induction H; constructor; auto. Qed.
  Lemma F2_impl {A B} (R Q : A -> B -> Prop) a b : (forall x z, In x a -> R x z -> Q x z) -> Forall2 R a b -> Forall2 Q a b.
  Proof. intros H F. induction F as [|x z a b Hr F IH]; constructor; [apply H; [now left|assumption]|]. apply IH. intros u v Hu. apply H. now right. Qed.
  Lemma F2_comp {A B C} (R : A -> B -> Prop) (Q : B -> C -> Prop) a b c : Forall2 R a b -> Forall2 Q b c -> Forall2 (fun x z => exists w, R x w /\ Q w z) a c.
  Proof. intros H. revert c. induction H; intros c F; inversion F; subst; constructor; eauto. Qed.
  Lemma F2_pull {A B C} (R : A -> B -> Prop) (g : B -> C) a c : Forall2 (fun x z => exists w, R x w /\ z = g w) a c -> exists b, Forall2 R a b /\ c = map g b.
  Proof. intros H. induction H as [|x z a c (w & Hr & ->) F (b & Fb & ->)]; [exists []; split; [constructor|reflexivity]|]. exists (w :: b). split; [now constructor|reflexivity]. Qed.

  Lemma flat_forward n : forall c d c', (length (dv_path d) <= n)%nat -> In (Sub c) L -> device_of L c d -> cell_rel (Sub c) (Sub c') -> device_of L' c' (rename (er c) d).
  Proof.
    induction n as [|n IH]; intros c d c' Hlen Hc Hd R.
    { inversion Hd; subst; simpl in Hlen; lia. }
    assert (Hpins : sb_pins c' = sb_pins c) by (destruct R as (_ & H & _); exact H).
    inversion Hd as [? e l He Hl|? e s d0 pins He Hs Hd0 Hp]; subst; unfold rename; cbn [dv_path dv_model dv_pins dv_params].
    - assert (Em : e_model e <> dh) by (intros E; rewrite E, Hdh in Hl; discriminate). rewrite er_cons, (proj2 (String.eqb_neq _ _) Em), Hl by assumption.
      destruct (find_new _ _ Em Hl) as (m' & Hm & Rm). destruct m' as [l'|s']; [|destruct Rm]. assert (He' : In e (sb_elems c')) by (apply (in_rw _ _ _ R); exists e; split; [assumption|]; unfold rw; now rewrite (proj2 (String.eqb_neq _ _) Em)).
      pose proof (dev_leaf L' c' e l' He' Hm) as X. rewrite map_map. cbn [fst snd]. erewrite map_ext; [exact X|]. intros (p, m). cbn [fst snd]. rewrite er_net_of, (net_of_rel c c' m Hpins). reflexivity.
    - rewrite er_cons by assumption. destruct (String.eqb_spec (e_model e) dh) as [Em|Em].
      + rewrite Em, Hdh in Hs. injection Hs as <-. assert (He' : In (inl y e) (sb_elems c')) by (apply (in_rw _ _ _ R); exists e; split; [assumption|]; unfold rw; now rewrite Em, String.eqb_refl).
        assert (Hkey : forall v, In v (sb_pins ckt) -> exists w, sget (e_pins e) v = Some w) by (intros v Hv; apply sget_key, (inst_keys c e Hc He Em), Hv).
        inversion Hd0 as [? e0 l He0 Hl|? e0 s1 d1 pins0 He0 Hs1 Hd1 Hp1]; subst; rewrite Hone in He0; destruct He0 as [<-|[]]; cbn [dv_path dv_model dv_pins dv_params] in *.
        * rewrite Hl. destruct (find_new _ _ y_model Hl) as (m' & Hm & Rm). destruct m' as [l'|s']; [|destruct Rm]. pose proof (dev_leaf L' c' (inl y e) l' He' Hm) as X. cbn [inl e_name e_model e_pins e_params] in X.
          replace (map (fun pn => (fst pn, rename_net (er c) (snd pn))) pins) with (map (fun pn => (fst pn, net_of c' (snd pn))) (thr (e_pins y) (e_pins e))); [exact X|].
          clear X. apply F2_map_l in Hp. assert (Hy : forall p v, In (p, v) (e_pins y) -> net_of ckt v = Port v /\ In v (sb_pins ckt)) by (intros p v Hv; split; [exact (net_of_ckt p v Hv)|exact (Hports p v Hv)]).
          clear Hd Hd0 He' Hlen. revert pins Hp Hy. induction (e_pins y) as [|(p, v) yp IHp]; intros pins Hp Hy; inversion Hp as [|? (q, r) ? ps (E1 & E2) Hr]; subst; [reflexivity|]. cbn [thr map fst snd] in *. subst q.
          destruct (Hy p v (or_introl eq_refl)) as (Ev & Iv). rewrite Ev in E2. cbn [outside] in E2. destruct (Hkey v Iv) as (w & Ew). rewrite Ew in *. cbn [option_map val] in *. injection E2 as <-. rewrite er_net_of, (net_of_rel c c' w Hpins). f_equal. apply (IHp (fun a b Hab => proj2 (Hy a b (or_intror Hab))) ps Hr). intros a b Hab. exact (Hy a b (or_intror Hab)).
        * rewrite Hs1. destruct (find_new _ _ y_model Hs1) as (m' & Hm & Rm). destruct m' as [l'|s1']; [destruct Rm|]. assert (Hs1L : In (Sub s1) L) by exact (proj1 (lfind_in _ _ _ Hs1)).
          specialize (IH s1 d1 s1' ltac:(simpl in Hlen; lia) Hs1L Hd1 Rm). change (e_name e) with (e_name (inl y e)). apply (dev_sub L' c' (inl y e) s1' (rename (er s1) d1)); [assumption|assumption|assumption|].
          cbn [rename dv_pins]. apply F2_map_l. apply F2_map_r. refine (F2_impl _ _ _ _ _ (F2_comp _ _ _ _ _ Hp1 Hp)). intros (p, r) (q, t) _ ((p1, r1) & (E1 & E2) & (E3 & E4)). cbn [fst snd] in *. subst p1 q. split; [reflexivity|].
          destruct r as [v|path m]; cbn [outside] in E2.
          -- destruct (sget (e_pins y) v) as [w|] eqn:Ew; [|discriminate]. cbn [option_map] in E2. injection E2 as <-. apply sget_in in Ew as Hw. rewrite (net_of_ckt _ _ Hw) in E4. cbn [outside] in E4. destruct (sget (e_pins e) w) as [x|] eqn:Ex; [|discriminate]. injection E4 as <-.
             cbn [rename_net outside inl e_pins]. rewrite sget_thr, Ew. cbn [option_map]. rewrite Ex. cbn [val]. rewrite er_net_of, (net_of_rel c c' x Hpins). reflexivity.
          -- injection E2 as <-. cbn [outside] in E4. injection E4 as <-. cbn [rename_net outside inl e_name]. rewrite er_cons, Em, String.eqb_refl, Hs1 by assumption. reflexivity.
      + rewrite Hs. destruct (find_new _ _ Em Hs) as (m' & Hm & Rm). destruct m' as [l'|s']; [destruct Rm|]. assert (HsL : In (Sub s) L) by exact (proj1 (lfind_in _ _ _ Hs)).
        assert (He' : In e (sb_elems c')) by (apply (in_rw _ _ _ R); exists e; split; [assumption|]; unfold rw; now rewrite (proj2 (String.eqb_neq _ _) Em)).
        specialize (IH s d0 s' ltac:(simpl in Hlen; lia) HsL Hd0 Rm). apply (dev_sub L' c' e s' (rename (er s) d0)); [assumption|assumption|assumption|]. cbn [rename dv_pins]. apply F2_map_l. apply F2_map_r. refine (F2_impl _ _ _ _ _ Hp).
        intros (p, r) (q, t) _ (E1 & E2). cbn [fst snd] in *. subst q. split; [reflexivity|]. destruct r as [v|path m]; cbn [outside] in E2.
        * destruct (sget (e_pins e) v) as [w|] eqn:Ew; [|discriminate]. cbn [option_map] in E2. injection E2 as <-. cbn [rename_net outside]. rewrite Ew. cbn [option_map]. rewrite er_net_of, (net_of_rel c c' w Hpins). reflexivity.
        * injection E2 as <-. cbn [rename_net outside]. rewrite er_cons, (proj2 (String.eqb_neq _ _) Em), Hs by assumption. reflexivity.
  Qed.

  Lemma flat_backward c' d' : device_of L' c' d' -> forall c, In (Sub c) L -> cell_rel (Sub c) (Sub c') -> exists d, device_of L c d /\ d' = rename (er c) d.
  Proof.
    intros Hd. induction Hd as [c' e' l' He' Hl'|c' e' s' d' pins He' Hs' Hd' IH Hp]; intros c Hc R; assert (Hpins : sb_pins c' = sb_pins c) by (destruct R as (_ & H & _); exact H);
      apply (in_rw _ _ _ R) in He' as (e & He & Ee); unfold rw in Ee; destruct (String.eqb_spec (e_model e) dh) as [Em|Em]; subst e'; cbn [inl e_name e_model e_pins e_params] in *.
    - destruct (find_old _ _ Hl') as (_ & [l|s] & Hl & Rl); [|destruct Rl]. cbn [cell_rel] in Rl. subst l'.
      assert (Hkey : forall v, In v (sb_pins ckt) -> exists w, sget (e_pins e) v = Some w) by (intros v Hv; apply sget_key, (inst_keys c e Hc He Em), Hv).
      exists (mkDev [e_name e; e_name y] (e_model y) (map (fun pv => (fst pv, net_of c (val (sget (e_pins e) (snd pv))))) (e_pins y)) (e_params y)). split.
      + apply (dev_sub L c e ckt (mkDev [e_name y] (e_model y) (map (fun pn => (fst pn, net_of ckt (snd pn))) (e_pins y)) (e_params y))); [assumption|now rewrite Em|exact (dev_leaf L ckt y l y_in Hl)|]. cbn [dv_pins]. apply F2_map_l, F2_map_r.
        assert (G : forall yp, incl yp (e_pins y) -> Forall2 (fun x z => fst (fst x, net_of ckt (snd x)) = fst (fst z, net_of c (val (sget (e_pins e) (snd z)))) /\ outside c e (snd (fst x, net_of ckt (snd x))) = Some (snd (fst z, net_of c (val (sget (e_pins e) (snd z)))))) yp yp).
        { induction yp as [|(p, v) yp IHp]; intros Hi; constructor; [|apply IHp; intros a Ha; apply Hi; now right]. cbn [fst snd]. split; [reflexivity|]. specialize (Hi (p, v) (or_introl eq_refl)). rewrite (net_of_ckt p v Hi). cbn [outside]. destruct (Hkey v (Hports p v Hi)) as (w & ->). reflexivity. }
        apply G, incl_refl.
      + unfold rename. cbn [dv_path dv_model dv_pins dv_params]. rewrite er_cons, Em, String.eqb_refl, Hl by assumption. f_equal. unfold thr. rewrite !map_map. cbn [fst snd]. apply map_ext. intros (p, v). cbn [fst snd]. rewrite er_net_of. f_equal. now apply net_of_rel.
    - destruct (find_old _ _ Hl') as (_ & [l|s] & Hl & Rl); [|destruct Rl]. cbn [cell_rel] in Rl. subst l'. eexists. split; [exact (dev_leaf L c e l He Hl)|]. unfold rename. cbn [dv_path dv_model dv_pins dv_params].
      rewrite er_cons, (proj2 (String.eqb_neq _ _) Em), Hl by assumption. f_equal. rewrite map_map. cbn [fst snd]. apply map_ext. intros (p, v). cbn [fst snd]. rewrite er_net_of. f_equal. now apply net_of_rel.
    - destruct (find_old _ _ Hs') as (_ & [l|s] & Hs & Rs); [destruct Rs|]. assert (HsL : In (Sub s) L) by exact (proj1 (lfind_in _ _ _ Hs)). destruct (IH s HsL Rs) as (d & Hd & ->).
      assert (Hkey : forall v, In v (sb_pins ckt) -> exists w, sget (e_pins e) v = Some w) by (intros v Hv; apply sget_key, (inst_keys c e Hc He Em), Hv).
      cbn [rename dv_pins dv_path dv_model dv_params] in *. apply F2_map_l in Hp.
      assert (F : Forall2 (fun a b => exists w, (exists u, (fst a = fst u /\ outside ckt y (snd a) = Some (snd u)) /\ (fst u = fst w /\ outside c e (snd u) = Some (snd w))) /\ b = (fst w, rename_net (er c) (snd w))) (dv_pins d) pins).
      { refine (F2_impl _ _ _ _ _ Hp). intros (p, r) (q, t) _ (E1 & E2). cbn [fst snd] in *. subst q. destruct r as [v|path m]; cbn [rename_net outside inl e_pins e_name] in E2.
        - rewrite sget_thr in E2. destruct (sget (e_pins y) v) as [w|] eqn:Ew; [|discriminate]. cbn [option_map] in E2. injection E2 as <-. apply sget_in in Ew as Hw. destruct (Hkey w (Hports _ _ Hw)) as (x & Ex).
          exists (p, net_of c x). split; [|cbn [fst snd]; rewrite er_net_of, Ex; cbn [val]; now rewrite (net_of_rel c c' x Hpins)]. exists (p, Port w). cbn [fst snd outside]. rewrite Ew, Ex. cbn [option_map]. now rewrite (net_of_ckt _ _ Hw).
        - injection E2 as <-. exists (p, Inner (e_name e :: e_name y :: path) m). split; [exists (p, Inner (e_name y :: path) m); cbn [fst snd outside]; auto|]. cbn [fst snd rename_net]. rewrite er_cons, Em, String.eqb_refl, Hs by assumption. reflexivity. }
      apply F2_pull in F as (b & Fb & ->). assert (exists b0, Forall2 (fun a u => fst a = fst u /\ outside ckt y (snd a) = Some (snd u)) (dv_pins d) b0 /\ Forall2 (fun u w => fst u = fst w /\ outside c e (snd u) = Some (snd w)) b0 b) as (b0 & F1 & F2).
      { clear - Fb. induction Fb as [|a w l b (u & H1 & H2) F (b0 & F1 & F2)]; [exists []; split; constructor|]. exists (u :: b0). split; constructor; assumption. }
      exists (mkDev (e_name e :: e_name y :: dv_path d) (dv_model d) b (dv_params d)). split.
      + apply (dev_sub L c e ckt (mkDev (e_name y :: dv_path d) (dv_model d) b0 (dv_params d))); [assumption|now rewrite Em| |exact F2]. apply (dev_sub L ckt y s d); [exact y_in|assumption|assumption|exact F1].
      + unfold rename. cbn [dv_path dv_model dv_pins dv_params]. rewrite er_cons, Em, String.eqb_refl, Hs by assumption. reflexivity.
    - destruct (find_old _ _ Hs') as (_ & [l|s] & Hs & Rs); [destruct Rs|]. assert (HsL : In (Sub s) L) by exact (proj1 (lfind_in _ _ _ Hs)). destruct (IH s HsL Rs) as (d & Hd & ->).
      cbn [rename dv_pins dv_path dv_model dv_params] in *. apply F2_map_l in Hp.
      assert (F : Forall2 (fun a b => exists w, (fst a = fst w /\ outside c e (snd a) = Some (snd w)) /\ b = (fst w, rename_net (er c) (snd w))) (dv_pins d) pins).
      { refine (F2_impl _ _ _ _ _ Hp). intros (p, r) (q, t) _ (E1 & E2). cbn [fst snd] in *. subst q. destruct r as [v|path m]; cbn [rename_net outside] in E2.
        - destruct (sget (e_pins e) v) as [w|] eqn:Ew; [|discriminate]. cbn [option_map] in E2. injection E2 as <-. exists (p, net_of c w). cbn [fst snd outside]. rewrite Ew, er_net_of, (net_of_rel c c' w Hpins). auto.
        - injection E2 as <-. exists (p, Inner (e_name e :: path) m). cbn [fst snd outside rename_net]. rewrite er_cons, (proj2 (String.eqb_neq _ _) Em), Hs by assumption. auto. }
      apply F2_pull in F as (b & Fb & ->). exists (mkDev (e_name e :: dv_path d) (dv_model d) b (dv_params d)). split; [exact (dev_sub L c e s d b He Hs Hd Fb)|]. unfold rename. cbn [dv_path dv_model dv_pins dv_params]. rewrite er_cons, (proj2 (String.eqb_neq _ _) Em), Hs by assumption. reflexivity.
  Qed.

  Lemma same_elem c e1 e2 : In (Sub c) L -> In e1 (sb_elems c) -> In e2 (sb_elems c) -> e_name e1 = e_name e2 -> e1 = e2.
  Proof.
    intros Hc H1 H2 E. pose proof (get_element_of _ _ (proj1 (proj2 Hwf c Hc)) H1) as G1. pose proof (get_element_of _ _ (proj1 (proj2 Hwf c Hc)) H2) as G2. rewrite E in G1. congruence.
  Qed.
  Lemma path_inj n : forall c d1 d2, (length (dv_path d1) <= n)%nat -> In (Sub c) L -> device_of L c d1 -> device_of L c d2 -> er c (dv_path d1) = er c (dv_path d2) -> dv_path d1 = dv_path d2.
  Proof.
    induction n as [|n IH]; intros c d1 d2 Hlen Hc H1 H2 E; [inversion H1; subst; simpl in Hlen; lia|].
    inversion H1 as [? e1 l1 I1 F1|? e1 s1 k1 ps1 I1 F1 D1 _]; subst; inversion H2 as [? e2 l2 I2 F2|? e2 s2 k2 ps2 I2 F2 D2 _]; subst; cbn [dv_path] in *; rewrite !er_cons in E by assumption; injection E as En E;
      assert (e1 = e2) as <- by (eapply same_elem; eassumption); [reflexivity|congruence|congruence|].
    rewrite F1 in F2. injection F2 as <-. f_equal. destruct (String.eqb_spec (e_model e1) dh) as [Em|Em].
    - rewrite Em, Hdh in F1. injection F1 as <-. inversion D1 as [? y1 l1 J1 G1|? y1 t1 h1 qs1 J1 G1 C1 _]; subst; inversion D2 as [? y2 l2 J2 G2|? y2 t2 h2 qs2 J2 G2 C2 _]; subst; cbn [dv_path] in *;
        rewrite Hone in J1, J2; destruct J1 as [<-|[]], J2 as [<-|[]]; [reflexivity|congruence|congruence|]. rewrite G1 in *. injection G2 as <-. f_equal. apply (IH t1); [simpl in Hlen; lia|exact (proj1 (lfind_in _ _ _ G1))|assumption|assumption|assumption].
    - rewrite F1 in E. apply (IH s1); [simpl in Hlen; lia|exact (proj1 (lfind_in _ _ _ F1))|assumption|assumption|assumption].
  Qed.
  (** Nets inside. *)
  Inductive occ : sub -> list string -> string -> Prop :=
  | occ_here c e p n : In e (sb_elems c) -> In (p, n) (e_pins e) -> ~ In n (sb_pins c) -> occ c [] n
  | occ_deep c e s path n : In e (sb_elems c) -> lfind L (e_model e) = Some (Sub s) -> occ s path n -> occ c (e_name e :: path) n.
  Lemma net_of_inner c n path m : net_of c n = Inner path m -> path = [] /\ m = n /\ ~ In n (sb_pins c).
  Proof. unfold net_of. destruct (in_dec _ _ _); [discriminate|]. intros E. injection E as <- <-. auto. Qed.
  Lemma device_occ c d : device_of L c d -> forall p path n, In (p, Inner path n) (dv_pins d) -> occ c path n.
  Proof.
    intros Hd. induction Hd as [c e l He Hl|c e s d pins He Hs Hd IH Hp]; intros p path n Hi; cbn [dv_pins] in Hi.
    - apply in_map_iff in Hi as ((q, m) & E & Hi). cbn [fst snd] in E. injection E as _ E. apply net_of_inner in E as (-> & -> & Hno). exact (occ_here c e q m He Hi Hno).
    - assert (G : exists a, In a (dv_pins d) /\ outside c e (snd a) = Some (Inner path n)).
      { clear - Hp Hi. induction Hp as [|a b l l' (H1 & H2) F IHF]; [destruct Hi|]. destruct Hi as [->|Hi]; [exists a; split; [now left|exact H2]|]. destruct (IHF Hi) as (a' & Ha & Ea). exists a'. split; [now right|assumption]. }
      destruct G as ((q, r) & Hq & E). cbn [snd] in E. destruct r as [v|path' m]; cbn [outside] in E.
      + destruct (sget (e_pins e) v) as [w|] eqn:Ew; [|discriminate]. cbn [option_map] in E. injection E as E. apply net_of_inner in E as (-> & -> & Hno). apply sget_in in Ew. exact (occ_here c e v w He Ew Hno).
      + injection E as <- <-. apply (occ_deep c e s path' m He Hs). exact (IH q path' m Hq).
  Qed.
  Lemma occ_ckt path n : occ ckt path n -> exists q s, path = e_name y :: q /\ lfind L (e_model y) = Some (Sub s) /\ occ s q n.
  Proof.
    intros H. inversion H as [? e p ? He Hp Hno|? e s q ? He Hs Ho]; subst; rewrite Hone in He; destruct He as [<-|[]]; [exfalso; exact (Hno (Hports p n Hp))|]. eauto.
  Qed.
  Lemma net_inj k : forall c p1 p2 n1 n2, (length p1 <= k)%nat -> In (Sub c) L -> occ c p1 n1 -> occ c p2 n2 -> er c p1 = er c p2 -> p1 = p2.
  Proof.
    induction k as [|k IH]; intros c p1 p2 n1 n2 Hlen Hc H1 H2 E; inversion H1 as [? e1 q1 ? I1 J1 N1|? e1 s1 q1 ? I1 F1 O1]; subst; inversion H2 as [? e2 q2 ? I2 J2 N2|? e2 s2 q2 ? I2 F2 O2]; subst; try reflexivity; try discriminate; try (simpl in Hlen; lia).
    rewrite !er_cons in E by assumption; injection E as En E. assert (e1 = e2) as <- by (eapply same_elem; eassumption). rewrite F1 in F2. injection F2 as <-. f_equal. destruct (String.eqb_spec (e_model e1) dh) as [Em|Em].
    - rewrite Em, Hdh in F1. injection F1 as <-. destruct (occ_ckt _ _ O1) as (r1 & t1 & -> & G1 & K1). destruct (occ_ckt _ _ O2) as (r2 & t2 & -> & G2 & K2). rewrite G1 in *. injection G2 as <-. f_equal.
      apply (IH t1 r1 r2 n1 n2); [simpl in Hlen; lia|exact (proj1 (lfind_in _ _ _ G1))|assumption|assumption|assumption].
    - rewrite F1 in E. apply (IH s1 q1 q2 n1 n2); [simpl in Hlen; lia|exact (proj1 (lfind_in _ _ _ F1))|assumption|assumption|assumption].
  Qed.

  Lemma step_same c c' : In (Sub c) L -> cell_rel (Sub c) (Sub c') -> same_flat L c L' c'.
  Proof.
    intros Hc R. exists (er c). split; [|split; [|split]].
    - intros d Hd. exact (flat_forward _ c d c' (le_n _) Hc Hd R).
    - intros d' Hd'. exact (flat_backward c' d' Hd' c Hc R).
    - intros d1 d2 H1 H2. exact (path_inj _ c d1 d2 (le_n _) Hc H1 H2).
    - intros d1 d2 p1 p2 r1 r2 H1 H2 I1 I2 E. destruct r1 as [q1|a1 n1], r2 as [q2|a2 n2]; cbn [rename_net] in E; try discriminate; [assumption|]. injection E as E <-. f_equal. exact (net_inj _ c a1 a2 n1 n1 (le_n _) Hc (device_occ _ _ H1 _ _ _ I1) (device_occ _ _ H2 _ _ _ I2) E).
  Qed.
End Step.

Lemma same_flat_refl L c : same_flat L c L c.
Proof.
  assert (E : forall d, rename (fun p => p) d = d).
  { intros (p, m, pins, ps). unfold rename. simpl. f_equal. erewrite map_ext; [apply map_id|]. intros (q, [|]); reflexivity. }
  exists (fun p => p). split; [intros d; now rewrite E|]. split; [intros d H; exists d; now rewrite E|]. split; [auto|]. intros d1 d2 p1 p2 [|] [|] _ _ _ _; simpl; congruence.
Qed.
Lemma same_flat_trans L c L1 c1 L2 c2 : same_flat L c L1 c1 -> same_flat L1 c1 L2 c2 -> same_flat L c L2 c2.
Proof.
  intros (f & F1 & F2 & F3 & F4) (g & G1 & G2 & G3 & G4).
  assert (E : forall d, rename g (rename f d) = rename (fun p => g (f p)) d).
  { intros (p, m, pins, ps). unfold rename. cbn [dv_path dv_model dv_pins dv_params]. f_equal. rewrite map_map. apply map_ext. intros (q, [|]); reflexivity. }
  exists (fun p => g (f p)). split; [|split; [|split]].
  - intros d H. rewrite <- E. auto.
  - intros d' H. destruct (G2 d' H) as (d1 & H1 & ->). destruct (F2 d1 H1) as (d & H0 & ->). exists d. now rewrite E.
  - intros d1 d2 H1 H2 X. apply F3; [assumption|assumption|]. exact (G3 (rename f d1) (rename f d2) (F1 _ H1) (F1 _ H2) X).
  - intros d1 d2 p1 p2 r1 r2 H1 H2 I1 I2 X. apply (F4 d1 d2 p1 p2 r1 r2 H1 H2 I1 I2).
    apply (G4 (rename f d1) (rename f d2) p1 p2 (rename_net f r1) (rename_net f r2) (F1 _ H1) (F1 _ H2)); [apply in_map_iff; exists (p1, r1); auto|apply in_map_iff; exists (p2, r2); auto|]. destruct r1, r2; exact X.
Qed.

(** * The loop *)

Definition params_nodup (L : lib) : Prop := forall c, In c L -> NoDup (map fst (cell_params c)).
Lemma perm_one {A} (l : list A) a : Permutation l [a] -> l = [a].
Proof. intros H. apply Permutation_sym, Permutation_length_1_inv in H. exact H. Qed.

Section Keep.
  Variables (L : lib) (dh : string) (ckt : sub) (y : elem).
  Hypothesis Hwf : well_formed L.
  Hypothesis Hparams : params_nodup L.
  Hypothesis Hac : acyclic L.
  Hypothesis Hdh : lfind L dh = Some (Sub ckt).
  Hypothesis Hone : sb_elems ckt = [y].
  Hypothesis Hports : forall p n, In (p, n) (e_pins y) -> In n (sb_pins ckt).
  Hypothesis Htr : transparent L dh.
  Variable L' : lib.
  Hypothesis Hrel : Forall2 (cell_rel dh y) (drop_cell L dh) L'.

  Lemma y_here : inside L dh y. Proof. exact (inside_here L dh ckt y Hdh Hone). Qed.
  Lemma find_old' n c' : lfind L' n = Some c' -> n <> dh /\ exists c, lfind L n = Some c /\ cell_rel dh y c c'.
  Proof. exact (find_old L dh y Hwf L' Hrel n c'). Qed.
  Lemma rw_one n c' y' : lfind L' n = Some (Sub c') -> sb_elems c' = [y'] -> n <> dh /\ exists c y1, lfind L n = Some (Sub c) /\ sb_elems c = [y1] /\ y' = rw dh y y1 /\ sb_pins c' = sb_pins c.
  Proof.
    intros Hf H1. destruct (find_old' _ _ Hf) as (Hn & c & Hc & R). split; [assumption|]. destruct c as [|c]; [destruct R|]. cbn in R. destruct R as (_ & Rp & _ & Rm). rewrite H1 in Rm. apply Permutation_length_1_inv in Rm.
    destruct (sb_elems c) as [|y1 [|? ?]] eqn:E; simpl in Rm; try discriminate. injection Rm as Rm. exists c, y1. auto.
  Qed.
  Lemma inside_old n z' : inside L' n z' -> exists z, inside L n z /\ e_params z = e_params z' /\ e_model z = e_model z'.
  Proof.
    intros H. induction H as [n c' y' Hf H1|n c' y' z' Hf H1 Hi (z & Hz & Ep & Em)]; destruct (rw_one _ _ _ Hf H1) as (Hn & c & y1 & Hc & H2 & -> & _).
    - unfold rw. destruct (String.eqb_spec (e_model y1) dh) as [E|E].
      + exists y. split; [|split; reflexivity]. apply (inside_deep L n c y1 y Hc H2). rewrite E. exact y_here.
      + exists y1. split; [exact (inside_here L n c y1 Hc H2)|split; reflexivity].
    - exists z. split; [|split; assumption]. apply (inside_deep L n c y1 z Hc H2). unfold rw in Hz. destruct (String.eqb_spec (e_model y1) dh) as [E|E]; [|assumption].
      rewrite E. exact (inside_deep L dh ckt y z Hdh Hone Hz).
  Qed.
  Lemma transparent_keep n : n <> dh -> transparent L n -> transparent L' n.
  Proof.
    intros Hn ((c & y1 & Hc & H1 & Hp) & Hi). split.
    - destruct (find_new L dh y L' Hrel n (Sub c) Hn Hc) as ([|c'] & Hc' & R); [destruct R|]. cbn in R. destruct R as (_ & Rp & _ & Rm). rewrite H1 in Rm. cbn [map] in Rm. apply perm_one in Rm.
      exists c', (rw dh y y1). split; [assumption|]. split; [assumption|]. rewrite Rp. intros p v. unfold rw. destruct (String.eqb_spec (e_model y1) dh) as [E|E]; [|apply Hp].
      cbn [inl e_pins]. intros Hv. unfold thr in Hv. apply in_map_iff in Hv as ((q, w) & Ev & Hq). cbn [fst snd] in Ev. injection Ev as _ Ev.
      assert (K : In w (map fst (e_pins y1))).
      { assert (Hy1 : In y1 (sb_elems c)) by (rewrite H1; now left). apply (inst_keys L dh ckt Hwf Hdh c y1 (proj1 (lfind_in _ _ _ Hc)) Hy1 E). exact (Hports q w Hq). }
      destruct (sget_key _ _ K) as (u & Hu). rewrite Hu in Ev. cbn [val] in Ev. subst v. apply sget_in in Hu. exact (Hp w u Hu).
    - intros o' e' z' Ho' He' Em Hz'. destruct (old_of L dh y L' Hrel _ Ho') as (o & Ho & Hon & R). destruct o as [|o]; [destruct R|]. apply (in_rw dh y o o' e' R) in He' as (e & He & ->).
      destruct (inside_old _ _ Hz') as (z & Hz & Ep & Ez).
      assert (M : forall x, may_name L x z -> may_name L' x z').
      { intros x Hx m' Hm'. rewrite <- Ez in Hm'. destruct (find_old' _ _ Hm') as (_ & m & Hm & Rm). rewrite (rel_prefix dh y m m' Rm). exact (Hx m Hm). }
      unfold rw in *. destruct (String.eqb_spec (e_model e) dh) as [E|E].
      + cbn [inl e_model] in Em. assert (Hz2 : inside L dh z) by (apply (inside_deep L dh ckt y z Hdh Hone); rewrite Em; exact Hz).
        assert (Hy : In y (sb_elems ckt)) by (rewrite Hone; now left).
        destruct (Hi ckt y z (proj1 (lfind_in _ _ _ Hdh)) Hy Em Hz) as (A & _). destruct (proj2 Htr o e z Ho He E Hz2) as (_ & B). split.
        * unfold agree in *. cbn [inl e_params]. rewrite <- Ep. exact A.
        * intros m Hm. exact (M e B m Hm).
      + destruct (Hi o e z Ho He Em Hz) as (A & B). split; [unfold agree in *; rewrite <- Ep; exact A|exact (M e B)].
  Qed.
End Keep.

Theorem loop_ok dhs : forall L top, well_formed L -> params_nodup L -> acyclic L -> NoDup dhs -> (forall n, In n dhs -> n <> top -> transparent L n) ->
  exists L', remove_dummies L dhs top = Some L' /\
    (~ In top dhs -> forall n, In n dhs -> lfind L' n = None) /\
    (forall n c, n = top \/ ~ In n dhs -> lfind L n = Some (Sub c) -> exists c', lfind L' n = Some (Sub c') /\ sb_pins c' = sb_pins c /\ sb_params c' = sb_params c /\ same_flat L c L' c') /\
    (forall n l, lfind L n = Some (Prim l) -> lfind L' n = Some (Prim l)) /\ (forall n, lfind L n = None -> lfind L' n = None).
Proof.
  induction dhs as [|dh tl IH]; intros L top W P A N T.
  { exists L. split; [reflexivity|]. split; [intros _ n []|]. split; [|auto]. intros n c _ Hc. exists c. split; [assumption|]. split; [reflexivity|]. split; [reflexivity|apply same_flat_refl]. }
  cbn [remove_dummies]. destruct (String.eqb_spec dh top) as [->|Et].
  { exists L. split; [reflexivity|]. split; [intros H; exfalso; apply H; now left|]. split; [|auto]. intros n c _ Hc. exists c. split; [assumption|]. split; [reflexivity|]. split; [reflexivity|apply same_flat_refl]. }
  inversion N as [|? ? N1 N2]; subst. pose proof (T dh (or_introl eq_refl) Et) as Td. destruct (proj1 Td) as (ckt & y & Hd & H1 & Hp).
  assert (Hi : forall o e, In (Sub o) L -> In e (sb_elems o) -> e_model e = dh -> agree e y /\ may_name L e y) by (intros o e Ho He Em; exact (proj2 Td o e y Ho He Em (y_here L dh ckt y Hd H1))).
  destruct (remove_dummy_ok L dh ckt y W P Hd H1 Hp Hi) as (L1 & HL1 & R). rewrite HL1.
  assert (T1 : forall n, In n tl -> n <> top -> transparent L1 n).
  { intros n Hn Hnt. apply (transparent_keep L dh ckt y W Hd H1 Hp Td L1 R); [intros ->; exact (N1 Hn)|]. apply T; [now right|assumption]. }
  pose proof (well_formed_new L dh ckt y W A Hd H1 Hp Hi L1 R) as W1. pose proof (params_new L dh y P L1 R) as P1. pose proof (acyclic_new L dh ckt y W A Hd H1 L1 R) as A1.
  destruct (IH L1 top W1 P1 A1 N2 T1) as (L' & HL' & K1 & K2 & K3 & K4). exists L'. split; [assumption|].
  assert (Z : lfind L1 dh = None).
  { destruct (lfind L1 dh) as [c|] eqn:E; [|reflexivity]. destruct (find_old L dh y W L1 R _ _ E) as (H & _). now destruct H. }
  split; [|split; [|split]].
  - intros Hn n [<-|Hin]; [exact (K4 dh Z)|]. apply K1; [intros Hx; apply Hn; now right|assumption].
  - intros n c Hn Hc. assert (Hnd : n <> dh) by (intros ->; destruct Hn as [E|Hn]; [congruence|apply Hn; now left]).
    destruct (find_new L dh y L1 R n (Sub c) Hnd Hc) as ([|c1] & Hc1 & R1); [destruct R1|].
    destruct (K2 n c1) as (c' & Hc' & Q1 & Q2 & S); [destruct Hn as [->|Hn]; [now left|right; intros Hx; apply Hn; now right]|assumption|].
    exists c'. split; [assumption|]. split; [rewrite Q1; exact (rel_pins dh y _ _ R1)|]. split; [rewrite Q2; exact (rel_params dh y _ _ R1)|].
    apply (same_flat_trans L c L1 c1 L' c'); [|assumption]. apply (step_same L dh ckt y W A Hd H1 Hp Hi L1 R c c1); [exact (proj1 (lfind_in _ _ _ Hc))|assumption].
  - intros n l Hl. apply K3. assert (Hnd : n <> dh) by congruence. destruct (find_new L dh y L1 R n (Prim l) Hnd Hl) as (c' & Hc' & R1). destruct c'; [cbn in R1; congruence|destruct R1].
  - intros n Hno. apply K4. destruct (lfind L1 n) as [c|] eqn:E; [|reflexivity]. destruct (find_old L dh y W L1 R _ _ E) as (_ & c0 & X & _). congruence.
Qed.
