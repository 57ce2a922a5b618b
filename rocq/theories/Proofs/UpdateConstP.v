(** Lists, pins and currents when a group becomes one instance. *)
From Coq Require Import String ZifyBool.
From Verif Require Import Base.Prelude Base.PyDict Model.RemoveDuplicates Model.Canvas Model.Netlist Model.Hier Model.UpdateConst Spec.HierSpec Spec.UpdateSpec Proofs.NetlistP Proofs.HierP Proofs.NewHierP.

Lemma others_in K l x : In x (others K l) <-> In x l /\ ~ In x K.
Proof. unfold others. rewrite filter_In. destruct (in_dec string_dec x K); intuition discriminate. Qed.
Lemma others_all K l : (forall x, In x l -> ~ In x K) -> others K l = l.
Proof. induction l as [|a l IH]; intros H; [reflexivity|]. unfold others in *. cbn. destruct (in_dec string_dec a K) as [i|i]; [exfalso; exact (H a (or_introl eq_refl) i)|]. rewrite IH; [reflexivity|]. intros x Hx. apply H. now right. Qed.
Lemma others_none K l : (forall x, In x l -> In x K) -> others K l = [].
Proof. induction l as [|a l IH]; intros H; [reflexivity|]. unfold others in *. cbn. destruct (in_dec string_dec a K) as [i|i]; [apply IH; intros x Hx; apply H; now right|]. exfalso. apply i, H. now left. Qed.
Lemma others_app K a b : others K (a ++ b) = others K a ++ others K b.
Proof. unfold others. apply filter_app. Qed.
Lemma others_others K1 K2 l : others K1 (others K2 l) = others (K2 ++ K1) l.
Proof.
  induction l as [|a l IH]; [reflexivity|]. unfold others in *. cbn. destruct (in_dec string_dec a K2) as [i|i]; cbn; destruct (in_dec string_dec a (K2 ++ K1)) as [j|j]; rewrite ?in_app_iff in j; try tauto.
  - destruct (in_dec string_dec a K1); [assumption|tauto].
  - destruct (in_dec string_dec a K1); [tauto|]. now rewrite IH.
Qed.

Lemma remove_others x l : NoDup l -> list_remove x l = others [x] l.
Proof.
  induction 1 as [|a l Ha Hl IH]; [reflexivity|]. unfold others in *. cbn [list_remove filter]. destruct (String.eqb_spec a x) as [->|n].
  - destruct (in_dec string_dec x [x]) as [i|i]; [|exfalso; apply i; now left]. symmetry. apply (others_all [x] l). intros y Hy [<-|[]]. contradiction.
  - destruct (in_dec string_dec a [x]) as [[i|[]]|i]; [congruence|]. now rewrite IH.
Qed.
Lemma others_nodup K l : NoDup l -> NoDup (others K l).
Proof. apply NoDup_filter. Qed.
Lemma fold_swap_false check new ks l : NoDup l -> fold_left (swap_step check new) ks (l, false) = (others ks l, false).
Proof.
  revert l. induction ks as [|k ks IH]; intros l Hl; cbn [fold_left].
  - unfold others. f_equal. symmetry. apply (others_all [] l). intros x _ [].
  - unfold swap_step at 2. cbn [andb]. rewrite remove_others by assumption. rewrite IH by now apply others_nodup. now rewrite others_others.
Qed.
Lemma replace_none l k new : ~ In k l -> list_replace l k new = l.
Proof. intros H. unfold list_replace. rewrite <- (map_id l) at 2. apply map_ext_in. intros a Ha. destruct (String.eqb_spec a k) as [->|]; [contradiction|reflexivity]. Qed.

Lemma upd_list_ok check new k0 ks l : NoDup l -> ~ In new l -> ~ In new (k0 :: ks) ->
  (In k0 l -> collapsed (k0 :: ks) new k0 l (upd_list check new (k0 :: ks) l)) /\ (~ In k0 l -> upd_list check new (k0 :: ks) l = others (k0 :: ks) l).
Proof.
  intros Nl Fl Fk. unfold upd_list.
  assert (Fs : fold_left (swap_step check new) (k0 :: ks) (l, true) = (fold_left (swap_step check new) ks (list_replace l k0 new, false))).
  { cbn [fold_left]. unfold swap_step at 2. assert (E : in_strs new l = false) by (destruct (in_strs new l) eqn:E; [apply in_strs_iff in E; contradiction|reflexivity]). rewrite E, andb_false_r. reflexivity. }
  split.
  - intros Hi. assert (Ex : existsb (fun x => in_strs x (k0 :: ks)) l = true) by (apply existsb_exists; exists k0; split; [assumption|]; apply in_strs_iff; now left). rewrite Ex, Fs.
    apply in_split in Hi as (p & s & ->). exists p, s. split; [reflexivity|]. assert (Np : ~ In k0 p /\ ~ In k0 s) by (apply NoDup_remove_2 in Nl; rewrite in_app_iff in Nl; tauto). destruct Np as (Np & Ns).
    assert (Er : list_replace (p ++ k0 :: s) k0 new = p ++ new :: s) by (unfold list_replace; rewrite map_app; cbn [map]; rewrite String.eqb_refl; f_equal; [exact (replace_none p k0 new Np)|f_equal; exact (replace_none s k0 new Ns)]). rewrite Er.
    rewrite fold_swap_false; cbn [fst].
    + rewrite others_app. f_equal; [|].
      * unfold others. apply filter_ext_in. intros a Ha. destruct (in_dec string_dec a ks) as [i|i], (in_dec string_dec a (k0 :: ks)) as [j|j]; try reflexivity; [exfalso; apply j; now right|destruct j as [->|j]; contradiction].
      * unfold others. cbn [filter]. destruct (in_dec string_dec new ks) as [i|i]; [exfalso; apply Fk; now right|]. f_equal. apply filter_ext_in. intros a Ha. destruct (in_dec string_dec a ks) as [i2|i2], (in_dec string_dec a (k0 :: ks)) as [j|j]; try reflexivity; [exfalso; apply j; now right|destruct j as [->|j]; contradiction].
    + apply NoDup_Add with (a := new) (l := p ++ s); [apply Add_app|]. split; [exact (NoDup_remove_1 _ _ _ Nl)|]. intros H. apply Fl. rewrite in_app_iff in *. simpl. tauto.
  - intros Hn. destruct (existsb _ _) eqn:Ex.
    + rewrite Fs, replace_none by assumption. rewrite fold_swap_false by assumption. cbn [fst]. unfold others. apply filter_ext_in. intros a Ha. destruct (in_dec string_dec a ks) as [i|i], (in_dec string_dec a (k0 :: ks)) as [j|j]; try reflexivity; [exfalso; apply j; now right|destruct j as [->|j]; contradiction].
    + symmetry. apply others_all. intros x Hx Hk. enough (X : existsb (fun x0 => in_strs x0 (k0 :: ks)) l = true) by congruence. apply existsb_exists. exists x. split; [assumption|]. now apply in_strs_iff.
Qed.

(** Pins. *)
Lemma cpin_eqb_ok a b : cpin_eqb a b = true <-> a = b.
Proof.
  destruct a as [x|i p], b as [y|j q]; cbn; try (split; discriminate).
  - rewrite String.eqb_eq. split; congruence.
  - rewrite andb_true_iff, !String.eqb_eq. split; [intros (-> & ->); reflexivity|intros [= -> ->]; auto].
Qed.
Lemma pin_eqb_ok a b : pin_eqb a b = true <-> a = b.
Proof. destruct a as [i p], b as [j q]. unfold pin_eqb. cbn. rewrite andb_true_iff, !String.eqb_eq. split; [intros (-> & ->); reflexivity|intros [= -> ->]; auto]. Qed.

Lemma child_pin_net c i q n : child_pin (Some c) i q = Some n -> child_net c i q n.
Proof. unfold child_pin. destruct (get_element (sb_elems c) i) as [e|] eqn:G; [|discriminate]. intros H. apply get_element_in in G as (He & En). exists e. split; [assumption|]. split; [assumption|]. now apply sget_in. Qed.

Section Pins.
  Variables (c : sub) (new : string) (m : dict).
  Hypothesis Fm : ~ In new (map fst m).
  Lemma pins_fold l : forall acc acc', foldO (pins_step (Some c) new m) l acc = Some acc' ->
    (forall p v, dget cpin_eqb acc p = Some v -> pin_goes c new m p v /\ exists i q n, p = InstPin i q /\ In i (map fst m) /\ v = InstPin new n) ->
    (forall p v, dget cpin_eqb acc' p = Some v -> pin_goes c new m p v /\ exists i q n, p = InstPin i q /\ In i (map fst m) /\ v = InstPin new n) /\
    (forall p, In p l \/ dget cpin_eqb acc p <> None -> dget cpin_eqb acc' p = None -> pin_goes c new m p p).
  Proof.
    induction l as [|p l IH]; intros acc acc' H Ha; cbn [foldO] in H.
    - injection H as <-. split; [assumption|]. intros p [[]|Hp] Hn. contradiction.
    - unfold pins_step at 1 in H. destruct (new_pin (Some c) new m p) as [[v|]|] eqn:Np; [| |discriminate].
      + assert (Hv : pin_goes c new m p v /\ exists i q n, p = InstPin i q /\ In i (map fst m) /\ v = InstPin new n).
        { unfold new_pin in Np. destruct p as [n|i q]; [discriminate|]. destruct (sget m i) as [ci|] eqn:Gi; [|discriminate]. destruct (child_pin (Some c) ci q) as [n|] eqn:Cp; [|discriminate]. injection Np as <-. apply sget_in in Gi. split; [exact (pin_in c new m i q ci n Gi (child_pin_net _ _ _ _ Cp))|]. exists i, q, n. split; [reflexivity|]. split; [apply in_map_iff; exists (i, ci); auto|reflexivity]. }
        destruct (IH _ _ H) as (A & B).
        { intros p2 v2 G. destruct (cpin_eqb p2 p) eqn:E; [apply cpin_eqb_ok in E; subst p2; unfold dset in G; rewrite (dget_dupd_same _ cpin_eqb_ok) in G; injection G as <-; assumption|]. unfold dset in G. rewrite (dget_dupd_other _ cpin_eqb_ok) in G; [exact (Ha _ _ G)|]. intros ->. rewrite (proj2 (cpin_eqb_ok p p) eq_refl) in E. discriminate. }
        split; [assumption|]. intros p2 [[<-|Hi]|Hp] Hn.
        * apply B; [|assumption]. right. unfold dset. rewrite (dget_dupd_same _ cpin_eqb_ok). discriminate.
        * apply B; [now left|assumption].
        * apply B; [|assumption]. right. unfold dset. destruct (cpin_eqb p2 p) eqn:E; [apply cpin_eqb_ok in E; subst p2; rewrite (dget_dupd_same _ cpin_eqb_ok); discriminate|]. rewrite (dget_dupd_other _ cpin_eqb_ok); [assumption|]. intros ->. rewrite (proj2 (cpin_eqb_ok p p) eq_refl) in E. discriminate.
      + destruct (IH _ _ H Ha) as (A & B). split; [assumption|]. intros p2 [[<-|Hi]|Hp] Hn; [|apply B; [now left|assumption]|apply B; [now right|assumption]].
        unfold new_pin in Np. destruct p as [n|i q]; [constructor|]. destruct (sget m i) as [ci|] eqn:Gi; [destruct (child_pin (Some c) ci q); discriminate|]. constructor. now apply sget_none.
  Qed.
  (** Replacements one after the other do not interfere. *)
  Lemma fold_replace acc : NoDup (map fst acc) -> (forall p v, In (p, v) acc -> ~ In v (map fst acc)) -> forall l, fold_left (fun l kv => pin_replace kv l) acc l = map (fun p => match dget cpin_eqb acc p with Some v => v | None => p end) l.
  Proof.
    induction acc as [|(k, v) acc IH]; intros Na Hv l; [cbn; now rewrite map_id|]. cbn [fold_left]. inversion Na as [|? ? Nk Na']; subst. rewrite IH; [|assumption|].
    - unfold pin_replace. rewrite map_map. apply map_ext_in. intros p Hp. cbn [fst snd dget]. destruct (cpin_eqb k p) eqn:E.
      + apply cpin_eqb_ok in E. subst p. rewrite (proj2 (cpin_eqb_ok k k) eq_refl). specialize (Hv k v (or_introl eq_refl)). destruct (dget cpin_eqb acc v) as [w|] eqn:G; [|reflexivity]. exfalso. apply Hv. right. apply (dget_in _ cpin_eqb_ok) in G. apply in_map_iff. exists (v, w). auto.
      + destruct (cpin_eqb p k) eqn:E2; [apply cpin_eqb_ok in E2; subst p; rewrite (proj2 (cpin_eqb_ok k k) eq_refl) in E; discriminate|]. reflexivity.
    - intros p w Hi Hk. apply (Hv p w); [now right|]. now right.
  Qed.
  Lemma pins_nodup l : forall acc acc', foldO (pins_step (Some c) new m) l acc = Some acc' -> NoDup (map fst acc) -> NoDup (map fst acc').
  Proof.
    induction l as [|p l IH]; intros acc acc' H N; cbn [foldO] in H; [injection H as <-; assumption|]. unfold pins_step at 1 in H. destruct (new_pin (Some c) new m p) as [[v|]|]; [|exact (IH _ _ H N)|discriminate]. apply (IH _ _ H). apply (dupd_nodup _ cpin_eqb_ok). assumption.
  Qed.
  Lemma upd_netpins_ok p1 p2 a b : length p1 = length p2 -> upd_netpins (Some c) new m p1 p2 = Some (a, b) -> Forall2 (pin_goes c new m) p1 a /\ Forall2 (pin_goes c new m) p2 b.
  Proof.
    intros Hl H. unfold upd_netpins in H. destruct (foldO _ _ _) as [acc|] eqn:F; [|discriminate].
    destruct (pins_fold _ _ _ F) as (A & B); [intros p v G; discriminate|]. pose proof (pins_nodup _ _ _ F ltac:(constructor)) as Na.
    assert (Z : forall l, (forall p, In p l -> In p (p1 ++ p2)) -> Forall2 (pin_goes c new m) l (map (fun p => match dget cpin_eqb acc p with Some v => v | None => p end) l)).
    { induction l as [|p l IH]; intros Hi; cbn [map]; constructor; [|apply IH; intros q Hq; apply Hi; now right]. destruct (dget cpin_eqb acc p) as [v|] eqn:G; [exact (proj1 (A p v G))|]. apply B; [left; apply Hi; now left|assumption]. }
    assert (Fr : forall l, fold_left (fun l kv => pin_replace kv l) acc l = map (fun p => match dget cpin_eqb acc p with Some v => v | None => p end) l).
    { apply fold_replace; [assumption|]. intros p v Hi Hv. destruct (A p v (in_dget _ cpin_eqb_ok _ _ _ Na Hi)) as (_ & i & q & n & _ & _ & ->). apply in_map_iff in Hv as ((p2', v2) & E & Hi2). cbn in E. subst p2'. destruct (A _ v2 (in_dget _ cpin_eqb_ok _ _ _ Na Hi2)) as (_ & i2 & q2 & n2 & E & Hm & _). injection E as <- _. contradiction. }
    assert (X : (a, b) = (map (fun p => match dget cpin_eqb acc p with Some v => v | None => p end) p1, map (fun p => match dget cpin_eqb acc p with Some v => v | None => p end) p2)).
    { destruct acc as [|kv acc'] eqn:Ea; [cbn; rewrite !map_id; congruence|]. rewrite <- Ea in *. destruct (Nat.ltb _ _); [discriminate|]. injection H as <- <-. rewrite !Fr, Hl, firstn_all, skipn_all, app_nil_r. reflexivity. }
    injection X as -> ->. split; apply Z; intros p Hp; apply in_app_iff; tauto.
  Qed.
End Pins.

(** Currents. *)
Lemma find_dget {V} (d : list (string * V)) k : dget String.eqb d k = match find (fun kv => String.eqb (fst kv) k) d with Some kv => Some (snd kv) | None => None end.
Proof. induction d as [|(a, v) d IH]; [reflexivity|]. cbn [dget find fst]. rewrite String.eqb_sym. destruct (String.eqb a k); [reflexivity|assumption]. Qed.
Lemma lands_eq c m e : lands c m e = match sget m (fst (fst e)) with Some ci => child_pin (Some c) ci (snd (fst e)) | None => None end.
Proof.
  unfold lands, sget. rewrite find_dget. destruct (find _ m) as [kv|]; [|reflexivity]. unfold child_pin, get_element. destruct (find _ (sb_elems c)) as [x|]; [|reflexivity]. unfold sget. now rewrite find_dget.
Qed.
Lemma add_ok n l : forall c, length l = n -> length c = n -> exists r, add_currents l c = Some r /\ length r = n /\ forall k, at_time k r = (at_time k l + at_time k c)%Z.
Proof.
  revert n. induction l as [|x l IH]; intros n c Hl Hc.
  - destruct c; [|simpl in *; lia]. exists []. split; [reflexivity|]. split; [assumption|]. intros [|k]; reflexivity.
  - destruct c as [|y c]; [simpl in *; lia|]. cbn [add_currents]. destruct n as [|n]; [discriminate|]. destruct (IH n c) as (r & Hr & Lr & Ar); [simpl in *; lia|simpl in *; lia|]. rewrite Hr. eexists. split; [reflexivity|]. split; [cbn; lia|]. intros [|k]; [reflexivity|]. exact (Ar k).
Qed.
Lemma total_app k a b : total k (a ++ b) = (total k a + total k b)%Z.
Proof. induction a as [|e a IH]; [reflexivity|]. unfold total in *. cbn [app fold_right]. rewrite IH. lia. Qed.
Lemma total_cons k e d : total k (e :: d) = (at_time k (snd e) + total k d)%Z.
Proof. reflexivity. Qed.
Lemma total_dset k d key v : total k (dset pin_eqb d key v) = (total k d - match dget pin_eqb d key with Some o => at_time k o | None => 0 end + at_time k v)%Z.
Proof.
  unfold dset. induction d as [|(a, w) d IH]; [cbn [dupd dget]; rewrite total_cons; change (total k []) with 0%Z; cbn [snd]; lia|]. cbn [dupd dget]. destruct (pin_eqb key a).
  - rewrite !total_cons. cbn [snd]. lia.
  - rewrite !total_cons, IH. lia.
Qed.
Lemma fold_dset_app (acc : flow) : NoDup (map fst acc) -> forall r, (forall key, In key (map fst acc) -> ~ In key (map fst r)) -> fold_left (fun r e => dset pin_eqb r (fst e) (snd e)) acc r = r ++ acc.
Proof.
  induction acc as [|(key, v) acc IH]; intros Na r Hd; cbn [fold_left]; [now rewrite app_nil_r|]. inversion Na as [|? ? Nk Na']; subst.
  assert (E : dset pin_eqb r key v = r ++ [(key, v)]).
  { assert (Hr : ~ In key (map fst r)) by (apply Hd; now left). clear - Hr. induction r as [|(a, w) r IH]; [reflexivity|]. unfold dset in *. cbn [dupd]. destruct (pin_eqb key a) eqn:E; [apply pin_eqb_ok in E; subst a; exfalso; apply Hr; now left|]. cbn. now rewrite IH by (intros H; apply Hr; now right). }
  cbn [fst snd]. rewrite E, IH; [now rewrite <- app_assoc|assumption|]. intros k2 H2. rewrite map_app, in_app_iff. cbn. intros [H|[H|[]]]; [apply (Hd k2); [now right|assumption]|]. subst k2. contradiction.
Qed.

Section Flow.
  Variables (c : sub) (new : string) (m : dict) (n : nat).
  Definition val (acc : flow) (q : string) (k : nat) : Z := match dget pin_eqb acc (new, q) with Some l => at_time k l | None => 0%Z end.
  Definition good (acc : flow) : Prop := NoDup (map fst acc) /\ (forall key l, In (key, l) acc -> fst key = new /\ length l = n).
  Definition grouped (e : (string * string) * list Z) : bool := shas m (fst (fst e)).
  Lemma flow_fold d : (forall e, In e d -> length (snd e) = n) -> forall acc acc', foldO (flow_step (Some c) new m) d acc = Some acc' -> good acc ->
    good acc' /\ (forall q k, val acc' q k = (val acc q k + inflow c m k q d)%Z) /\ (forall k, total k acc' = (total k acc + total k (filter grouped d))%Z) /\
    (forall q, In (new, q) (map fst acc') <-> In (new, q) (map fst acc) \/ exists e, In e d /\ lands c m e = Some q) /\
    (forall e, In e d -> grouped e = true -> lands c m e <> None).
  Proof.
    induction d as [|e d IH]; intros Hn acc acc' H G; cbn [foldO] in H.
    - injection H as <-. split; [assumption|]. split; [intros; cbn; lia|]. split; [intros; cbn; lia|]. split; [|intros e []]. intros q. split; [now left|]. intros [H|(e & [] & _)]. assumption.
    - assert (He : length (snd e) = n) by (apply Hn; now left). assert (Hd : forall x, In x d -> length (snd x) = n) by (intros x Hx; apply Hn; now right).
      unfold flow_step at 1 in H. unfold inflow. cbn [filter]. pose proof (lands_eq c m e) as Le. unfold grouped at 1, shas, dmem. change (dget String.eqb m (fst (fst e))) with (sget m (fst (fst e))). destruct (sget m (fst (fst e))) as [ci|] eqn:Gi.
      + destruct (child_pin (Some c) ci (snd (fst e))) as [np|] eqn:Cp; [|discriminate]. rewrite Le.
        assert (Z : exists v, (match dget pin_eqb acc (new, np) return option flow with Some old => match add_currents old (snd e) return option flow with Some s => Some (dset pin_eqb acc (new, np) s) | None => None end | None => Some (dset pin_eqb acc (new, np) (snd e)) end) = Some (dset pin_eqb acc (new, np) v) /\ length v = n /\ forall k, at_time k v = (val acc np k + at_time k (snd e))%Z).
        { unfold val. destruct (dget pin_eqb acc (new, np)) as [old|] eqn:Ga.
          - apply (dget_in _ pin_eqb_ok) in Ga. destruct (proj2 G _ _ Ga) as (_ & Lo). destruct (add_ok n old (snd e) Lo He) as (r & -> & Lr & Ar). exists r. auto.
          - exists (snd e). split; [reflexivity|]. split; [assumption|]. intros; lia. }
        destruct Z as (v & Zv & Lv & Av). rewrite Zv in H.
        assert (G' : good (dset pin_eqb acc (new, np) v)).
        { split; [apply (dupd_nodup _ pin_eqb_ok), G|]. intros key l Hi. pose proof (in_dget _ pin_eqb_ok _ _ _ (dupd_nodup _ pin_eqb_ok acc (new, np) (fun _ => v) (proj1 G)) Hi) as Gk. destruct (pin_eqb key (new, np)) eqn:E.
          - apply pin_eqb_ok in E. subst key. rewrite (dget_dupd_same _ pin_eqb_ok) in Gk. injection Gk as <-. auto.
          - rewrite (dget_dupd_other _ pin_eqb_ok) in Gk; [|intros ->; rewrite (proj2 (pin_eqb_ok _ _) eq_refl) in E; discriminate]. apply (dget_in _ pin_eqb_ok) in Gk. exact (proj2 G _ _ Gk). }
        destruct (IH Hd _ _ H G') as (A1 & A2 & A3 & A4 & A5). split; [assumption|]. split; [|split; [|split]].
        * intros q k. rewrite A2. unfold val at 1, dset. destruct (String.eqb_spec np q) as [->|ne].
          -- rewrite (dget_dupd_same _ pin_eqb_ok), Av. rewrite total_cons. unfold inflow. lia.
          -- rewrite (dget_dupd_other _ pin_eqb_ok) by congruence. reflexivity.
        * intros k. rewrite A3, total_dset. rewrite total_cons, Av. unfold val. destruct (dget pin_eqb acc (new, np)); lia.
        * intros q. rewrite A4. unfold dset. rewrite (dupd_keys_in _ pin_eqb_ok). split.
          -- intros [[E|E]|(x & Hx & Ex)]; [injection E as ->; right; exists e; split; [now left|assumption]|now left|right; exists x; split; [now right|assumption]].
          -- intros [E|(x & [<-|Hx] & Ex)]; [left; now right|left; left; congruence|right; eauto].
        * intros x [<-|Hx] Hg; [congruence|auto].
      + rewrite Le. destruct (IH Hd _ _ H G) as (A1 & A2 & A3 & A4 & A5). split; [assumption|]. split; [assumption|]. split; [assumption|]. split.
        * intros q. rewrite A4. split; [intros [E|(x & Hx & Ex)]; [now left|right; exists x; split; [now right|assumption]]|]. intros [E|(x & [<-|Hx] & Ex)]; [now left|congruence|right; eauto].
        * intros x [<-|Hx] Hg; [|auto]. unfold grouped, shas, dmem in Hg. change (dget String.eqb m (fst (fst e))) with (sget m (fst (fst e))) in Hg. rewrite Gi in Hg. discriminate.
  Qed.
  Lemma upd_flow_ok d d' : (forall e, In e d -> length (snd e) = n /\ fst (fst e) <> new) -> upd_flow (Some c) new m d = Some d' ->
    exists acc, d' = filter (fun e => negb (grouped e)) d ++ acc /\ good acc /\ (forall q k, val acc q k = inflow c m k q d) /\ (forall k, total k acc = total k (filter grouped d)) /\
      (forall q, In (new, q) (map fst acc) <-> exists e, In e d /\ lands c m e = Some q).
  Proof.
    intros Hn H. unfold upd_flow in H. destruct (foldO _ _ _) as [acc|] eqn:F; [|discriminate]. destruct (flow_fold d (fun e He => proj1 (Hn e He)) _ _ F) as (A1 & A2 & A3 & A4 & _); [split; [constructor|intros ? ? []]|].
    exists acc. split; [|split; [assumption|split; [|split]]].
    - injection H as <-. apply fold_dset_app; [exact (proj1 A1)|]. intros key Hk Hr. apply in_map_iff in Hk as ((k1, l1) & <- & H1). apply in_map_iff in Hr as ((k2, l2) & E & H2). cbn in E. subst k2. apply filter_In in H2 as (H2 & _). apply (proj2 (Hn _ H2)). exact (proj1 (proj2 A1 _ _ H1)).
    - intros q k. rewrite A2. unfold val. cbn. lia.
    - intros k. rewrite A3. cbn. lia.
    - intros q. rewrite A4. cbn. intuition.
  Qed.
End Flow.
