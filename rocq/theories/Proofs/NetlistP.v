(** Proofs about Model/Netlist.v: dictionaries, nets, parallel devices. *)
From Coq Require Import String Ascii ZifyBool.
From Verif Require Import Base.Prelude Base.PyDict Base.PyStr Model.RemoveDuplicates Model.Lef Model.Netlist Spec.NetlistSpec Proofs.LefP.
Local Open Scope Z_scope.

Lemma opt_eqb_ok a b : opt_eqb a b = true <-> a = b.
Proof.
  destruct a as [a|], b as [b|]; simpl; try (split; (discriminate || congruence)).
  rewrite String.eqb_eq. split; congruence.
Qed.
Lemma dict_eqb_ok a b : dict_eqb a b = true <-> forall k, sget a k = sget b k.
Proof.
  unfold dict_eqb. rewrite forallb_forall. split.
  - intros H k. destruct (in_dec String.string_dec k (map fst a ++ map fst b)) as [Hk|Hk]; [apply opt_eqb_ok, H, Hk|].
    rewrite in_app_iff in Hk. unfold sget.
    assert (E1 : dget String.eqb a k = None) by (apply (dget_none _ String.eqb_eq); tauto).
    assert (E2 : dget String.eqb b k = None) by (apply (dget_none _ String.eqb_eq); tauto). congruence.
  - intros H k _. now apply opt_eqb_ok.
Qed.
Lemma dict_eqb_refl a : dict_eqb a a = true.
Proof. now apply dict_eqb_ok. Qed.
Lemma dict_eqb_sym a b : dict_eqb a b = dict_eqb b a.
Proof. apply eq_true_iff_eq. rewrite !dict_eqb_ok. split; intros H k; now rewrite H. Qed.
Lemma dict_eqb_trans a b c : dict_eqb a b = true -> dict_eqb a c = dict_eqb b c.
Proof. rewrite dict_eqb_ok. intros H. apply eq_true_iff_eq. rewrite !dict_eqb_ok. split; intros H' k; rewrite <- H'; [symmetry|]; apply H. Qed.

Lemma sget_sset_same d k v : sget (sset d k v) k = Some v.
Proof. unfold sget, sset, dset. now rewrite (dget_dupd_same _ String.eqb_eq). Qed.
Lemma sget_sset_other d k v k' : k' <> k -> sget (sset d k v) k' = sget d k'.
Proof. intros H. unfold sget, sset, dset. now rewrite (dget_dupd_other _ String.eqb_eq). Qed.
Lemma sget_sset d k v k' : sget (sset d k v) k' = if String.eqb k' k then Some v else sget d k'.
Proof. destruct (String.eqb_spec k' k) as [->|H]; [apply sget_sset_same|now apply sget_sset_other]. Qed.
Lemma shas_ok d k : shas d k = true <-> exists v, sget d k = Some v.
Proof. unfold shas, dmem, sget. destruct (dget String.eqb d k); split; eauto; [discriminate|intros (v & E); discriminate]. Qed.
Lemma sget_none d k : sget d k = None <-> ~ In k (map fst d).
Proof. apply (dget_none _ String.eqb_eq). Qed.
Lemma shas_in d k : shas d k = true <-> In k (map fst d).
Proof.
  unfold shas, dmem. pose proof (sget_none d k) as H. unfold sget in H. destruct (dget String.eqb d k).
  - split; [intros _|reflexivity]. destruct (in_dec String.string_dec k (map fst d)) as [?|Hn]; [assumption|]. apply H in Hn. discriminate.
  - split; [discriminate|]. intros Hk. exfalso. now apply H.
Qed.
Lemma sset_same d k v : sget d k = Some v -> sset d k v = d.
Proof.
  unfold sget, sset, dset. induction d as [|(a, b) d IH]; simpl; [discriminate|]. destruct (String.eqb_spec k a) as [->|H].
  - intros [= ->]. reflexivity.
  - intros E. now rewrite IH.
Qed.

Lemma zstr_inj a b : zstr a = zstr b -> a = b.
Proof.
  unfold zstr. intros H. apply print_Z_inj. rewrite <- (list_ascii_of_string_of_list_ascii (print_Z a)), <- (list_ascii_of_string_of_list_ascii (print_Z b)).
  now rewrite H.
Qed.
Lemma uint_all_digits u : forallb is_digit (uint_chars u) = true.
Proof. induction u; simpl; auto. Qed.
Lemma uint_chars_cons_not_minus u c : uint_chars u <> "-"%char :: c.
Proof. destruct u; discriminate. Qed.

(** * The key of a device *)
Lemma fold_sset_get ps d k : NoDup (map fst ps) ->
  sget (fold_left (fun d p => sset d (fst p) (snd p)) ps d) k = match sget ps k with Some v => Some v | None => sget d k end.
Proof.
  revert d. induction ps as [|(a, b) ps IH]; intros d Hnd; [reflexivity|]. cbn [fold_left fst snd]. simpl in Hnd.
  apply NoDup_cons_iff in Hnd as (Hn & Hnd). rewrite IH by assumption.
  change (sget ((a, b) :: ps) k) with (if String.eqb k a then Some b else sget ps k).
  destruct (String.eqb_spec k a) as [->|H].
  - apply sget_none in Hn. rewrite Hn. apply sget_sset_same.
  - destruct (sget ps k); [reflexivity|]. now apply sget_sset_other.
Qed.
Lemma device_key_get e k : wf_elem e ->
  sget (device_key e) k = if String.eqb k "model" then Some (e_model e) else match sget (e_params e) k with Some v => Some v | None => sget (e_pins e) k end.
Proof.
  intros (_ & Hnd & _). unfold device_key. rewrite sget_sset. destruct (String.eqb k "model"); [reflexivity|]. now apply fold_sset_get.
Qed.

(** Equal keys: same model, pins and parameters. *)
Lemma device_key_eq a b : wf_elem a -> wf_elem b ->
  (dict_eqb (device_key a) (device_key b) = true -> e_model a = e_model b /\
   forall k, match sget (e_params a) k with Some v => Some v | None => sget (e_pins a) k end =
             match sget (e_params b) k with Some v => Some v | None => sget (e_pins b) k end).
Proof.
  intros Ha Hb H. rewrite dict_eqb_ok in H. split.
  - specialize (H "model"%string). rewrite !device_key_get in H by assumption. simpl in H. congruence.
  - intros k. destruct (String.eqb_spec k "model") as [->|Hk].
    + destruct Ha as (_ & _ & _ & Ha & _), Hb as (_ & _ & _ & Hb & _). rewrite in_app_iff in Ha, Hb.
      rewrite (proj2 (sget_none (e_params a) _)), (proj2 (sget_none (e_params b) _)), (proj2 (sget_none (e_pins a) _)), (proj2 (sget_none (e_pins b) _)) by tauto. reflexivity.
    + specialize (H k). rewrite !device_key_get in H by assumption. apply String.eqb_neq in Hk. now rewrite Hk in H.
Qed.
Lemma keq_parts a b : wf_elem a -> wf_elem b -> (e_model a = e_model b -> same_keys (e_pins a) (e_pins b) /\ same_keys (e_params a) (e_params b)) ->
  dict_eqb (device_key a) (device_key b) = true <->
  e_model a = e_model b /\ (forall k, sget (e_pins a) k = sget (e_pins b) k) /\ (forall k, sget (e_params a) k = sget (e_params b) k).
Proof.
  intros Ha Hb Hk. split.
  - intros H. destruct (device_key_eq a b Ha Hb H) as (Hm & Hall). destruct (Hk Hm) as (Kp & Kq). split; [assumption|].
    assert (Hd : forall e k, wf_elem e -> sget (e_params e) k = None \/ sget (e_pins e) k = None).
    { intros e k (_ & _ & Hd & _). destruct (in_dec String.string_dec k (map fst (e_pins e))) as [Hi|Hi].
      - left. apply sget_none. eauto.
      - right. now apply sget_none. }
    assert (Kp' : forall k, sget (e_pins a) k = None <-> sget (e_pins b) k = None) by (intros k; rewrite !sget_none, (Kp k); tauto).
    assert (Kq' : forall k, sget (e_params a) k = None <-> sget (e_params b) k = None) by (intros k; rewrite !sget_none, (Kq k); tauto).
    split; intros k; specialize (Hall k); specialize (Kp' k); specialize (Kq' k); destruct (Hd a k Ha) as [E|E]; rewrite E in *;
      destruct (sget (e_params b) k) as [vb|], (sget (e_pins b) k) as [wb|];
      try (destruct (Hd b k Hb); congruence); try congruence;
      try (destruct (sget (e_params a) k)); try (destruct (sget (e_pins a) k)); intuition congruence.
  - intros (Hm & Hp & Hq). apply dict_eqb_ok. intros k. rewrite !device_key_get by assumption. now rewrite Hm, Hp, Hq.
Qed.

Lemma touches_ok n e : wf_elem e -> touches n e = true <-> exists k, sget (e_pins e) k = Some n.
Proof.
  intros (Hnd & _). unfold touches. rewrite existsb_exists. split.
  - intros ((k, v) & Hi & E). apply String.eqb_eq in E. simpl in E. subst v. exists k. now apply (in_dget _ String.eqb_eq).
  - intros (k & E). exists (k, n). split; [now apply (dget_in _ String.eqb_eq)|apply String.eqb_refl].
Qed.
Lemma add_net_in l n x : In x (add_net l n) <-> In x l \/ x = n.
Proof.
  unfold add_net. destruct (existsb (String.eqb n) l) eqn:E.
  - apply existsb_exists in E as (y & Hy & E). apply String.eqb_eq in E. subst y. split; [tauto|]. intros [H| ->]; assumption.
  - rewrite in_app_iff. simpl. intuition.
Qed.
Lemma nets_in els x : In x (nets els) <-> exists e p, In e els /\ In p (e_pins e) /\ snd p = x.
Proof.
  unfold nets.
  assert (H1 : forall ps l, In x (fold_left (fun l p => add_net l (snd p)) ps l) <-> In x l \/ exists p : string * string, In p ps /\ snd p = x).
  { induction ps as [|p ps IH]; intros l; simpl; [split; [tauto|intros [H|(p & [] & _)]; assumption]|]. rewrite IH, add_net_in. split.
    - intros [[H| ->]|(p' & H & E)]; [tauto|right; exists p; auto|right; exists p'; auto].
    - intros [H|(p' & [<-|H] & E)]; [tauto|left; right; auto|right; exists p'; auto]. }
  assert (H2 : forall es l, In x (fold_left (fun l e => fold_left (fun l p => add_net l (snd p)) (e_pins e) l) es l) <->
                            In x l \/ exists e p, In e es /\ In p (e_pins e) /\ snd p = x).
  { induction es as [|e es IH]; intros l; simpl; [split; [tauto|intros [H|(e & p & [] & _)]; assumption]|]. rewrite IH, H1. split.
    - intros [[H|(p & H & E)]|(e' & p & H & Hp & E)]; [tauto|right; exists e, p; auto|right; exists e', p; auto].
    - intros [H|(e' & p & [<-|H] & Hp & E)]; [tauto|left; right; exists p; auto|right; exists e', p; auto]. }
  rewrite H2. simpl. split; [intros [[]|H]; assumption|auto].
Qed.
Lemma nets_nodup els : NoDup (nets els).
Proof.
  unfold nets.
  assert (H0 : forall l n, NoDup l -> NoDup (add_net l n)).
  { intros l n H. unfold add_net. destruct (existsb (String.eqb n) l) eqn:E; [assumption|].
    apply NoDup_Add with (a := n) (l := l); [pose proof (Add_app n l []) as HA; rewrite app_nil_r in HA; exact HA|]. split; [assumption|].
    intros Hi. assert (existsb (String.eqb n) l = true); [|congruence]. apply existsb_exists. exists n. split; [assumption|apply String.eqb_refl]. }
  assert (H1 : forall ps l, NoDup l -> NoDup (fold_left (fun l (p : string * string) => add_net l (snd p)) ps l)) by (induction ps; simpl; auto).
  assert (H2 : forall es l, NoDup l -> NoDup (fold_left (fun l e => fold_left (fun l p => add_net l (snd p)) (e_pins e) l) es l)) by (induction es; simpl; auto).
  apply H2. constructor.
Qed.

(** * Groups *)
Notation key := device_key.
Definition grp_inv (nb : list elem) (G : list (dict * list elem)) : Prop :=
  ForallOrdPairs (fun a b => dict_eqb (fst a) (fst b) = false) G /\
  (forall q l, In (q, l) G -> l = filter (fun x => dict_eqb (key x) q) nb /\ exists h t, l = h :: t /\ q = key h) /\
  (forall x, In x nb -> exists q l, In (q, l) G /\ In x l).

Lemma add_group_cases e G : (exists G1 p l G2, G = G1 ++ (p, l) :: G2 /\ dict_eqb (key e) p = true /\ add_group G e = G1 ++ (p, l ++ [e]) :: G2 /\
                               forall g, In g G1 -> dict_eqb (key e) (fst g) = false) \/
                            (add_group G e = G ++ [(key e, [e])] /\ forall g, In g G -> dict_eqb (key e) (fst g) = false).
Proof.
  induction G as [|(p, l) G IH]; simpl; [right; split; [reflexivity|intros ? []]|].
  destruct (dict_eqb (key e) p) eqn:E.
  - left. exists [], p, l, G. repeat split; auto. intros ? [].
  - destruct IH as [(G1 & p' & l' & G2 & -> & E' & -> & H)|(-> & H)].
    + left. exists ((p, l) :: G1), p', l', G2. repeat split; auto. intros g [<-|Hg]; auto.
    + right. split; [reflexivity|]. intros g [<-|Hg]; auto.
Qed.
Lemma fop_app {A} (R : A -> A -> Prop) l1 l2 : ForallOrdPairs R (l1 ++ l2) <->
  ForallOrdPairs R l1 /\ ForallOrdPairs R l2 /\ forall a b, In a l1 -> In b l2 -> R a b.
Proof.
  induction l1 as [|x l1 IH]; simpl.
  - split; [intros H; repeat split; auto; [constructor|intros ? ? []]|tauto].
  - split.
    + intros H. inversion H as [|? ? Hx Hl]; subst. apply IH in Hl as (H1 & H2 & H3). rewrite Forall_forall in Hx. split; [|split; [assumption|]].
      * constructor; [apply Forall_forall; intros y Hy; apply Hx, in_or_app; auto|assumption].
      * intros a b [<-|Ha] Hb; [apply Hx, in_or_app; auto|auto].
    + intros (H1 & H2 & H3). inversion H1 as [|? ? Hx Hl]; subst. constructor.
      * apply Forall_forall. intros y Hy. apply in_app_or in Hy as [Hy|Hy]; [rewrite Forall_forall in Hx; auto|auto].
      * apply IH. repeat split; auto.
Qed.
Lemma groups_inv nb : grp_inv nb (fold_left add_group nb []).
Proof.
  induction nb as [|e nb IH] using rev_ind.
  - split; [constructor|]. split; [intros ? ? []|intros ? []].
  - rewrite fold_left_app. simpl. set (G := fold_left add_group nb []) in *. destruct IH as (F & Hg & Hc).
    destruct (add_group_cases e G) as [(G1 & p & l & G2 & EG & E & -> & H1)|(-> & H1)].
    + rewrite EG in F, Hg, Hc. apply fop_app in F as (F1 & F2 & F12). inversion F2 as [|? ? Fx F2']; subst.
      assert (H2 : forall g, In g G2 -> dict_eqb (key e) (fst g) = false).
      { intros g Hi. rewrite Forall_forall in Fx. rewrite (dict_eqb_trans _ p _ E). exact (Fx g Hi). }
      split; [|split].
      * apply fop_app. split; [assumption|]. split; [constructor; [apply Forall_forall; intros g Hi; rewrite Forall_forall in Fx; exact (Fx g Hi)|assumption]|].
        intros a b Ha [<-|Hb]; [exact (F12 a (p, l) Ha (or_introl eq_refl))|exact (F12 a b Ha (or_intror Hb))].
      * intros q l' Hi. rewrite filter_app. simpl. apply in_app_or in Hi as [Hi|[Hi|Hi]].
        -- pose proof (H1 _ Hi) as Hf. simpl in Hf. rewrite Hf, app_nil_r. apply Hg, in_or_app. auto.
        -- injection Hi as <- <-. rewrite E. destruct (Hg p l) as (-> & h & t & Et & Eq); [apply in_or_app; right; left; reflexivity|].
           split; [reflexivity|]. exists h, (t ++ [e]). rewrite Et. split; [reflexivity|assumption].
        -- pose proof (H2 _ Hi) as Hf. simpl in Hf. rewrite Hf, app_nil_r. apply Hg, in_or_app. right. right. assumption.
      * intros x Hx. apply in_app_or in Hx as [Hx|[<-|[]]].
        -- destruct (Hc x Hx) as (q & l' & Hi & Hl). apply in_app_or in Hi as [Hi|[Hi|Hi]].
           ++ exists q, l'. split; [apply in_or_app; auto|assumption].
           ++ injection Hi as <- <-. exists p, (l ++ [e]). split; [apply in_elt|apply in_or_app; auto].
           ++ exists q, l'. split; [apply in_or_app; right; right; assumption|assumption].
        -- exists p, (l ++ [e]). split; [apply in_elt|apply in_or_app; right; left; reflexivity].
    + split; [|split].
      * apply fop_app. split; [assumption|]. split; [repeat constructor|]. intros a b Ha [<-|[]]. simpl. rewrite dict_eqb_sym. auto.
      * intros q l' Hi. rewrite filter_app. simpl. apply in_app_or in Hi as [Hi|[Hi|[]]].
        -- pose proof (H1 _ Hi) as Hf. simpl in Hf. rewrite Hf, app_nil_r. auto.
        -- injection Hi as <- <-. rewrite dict_eqb_refl. split; [|exists e, []; auto].
           replace (filter (fun x => dict_eqb (key x) (key e)) nb) with (@nil elem); [reflexivity|].
           symmetry. destruct (filter _ nb) as [|y tl] eqn:Ef; [reflexivity|].
           assert (Hy : In y (filter (fun x => dict_eqb (key x) (key e)) nb)) by (rewrite Ef; left; reflexivity).
           apply filter_In in Hy as (Hy & Ey). destruct (Hc y Hy) as (q & l' & Hi & Hl).
           destruct (Hg q l' Hi) as (El & _). rewrite El in Hl. apply filter_In in Hl as (_ & Eq).
           pose proof (H1 _ Hi) as Hf. simpl in Hf. rewrite dict_eqb_sym in Ey. rewrite (dict_eqb_trans _ _ q Ey) in Hf. congruence.
      * intros x Hx. apply in_app_or in Hx as [Hx|[<-|[]]].
        -- destruct (Hc x Hx) as (q & l' & Hi & Hl). exists q, l'. split; [apply in_or_app; auto|assumption].
        -- exists (key e), [e]. split; [apply in_or_app; right; left; reflexivity|left; reflexivity].
Qed.
