(** C59: constraints when elements are replaced by one instance (schema/translator.py:16-229). *)
From Coq Require Import String ZifyBool.
From Verif Require Import Base.Prelude Base.PyDict Model.RemoveDuplicates Model.Canvas Model.Netlist Model.Hier Model.UpdateConst Spec.HierSpec Spec.MatchSpec Spec.UpdateSpec Proofs.NetlistP Proofs.HierP Proofs.NewHierP Proofs.ResolveParamsP Proofs.GroupBlockP Proofs.ReplaceMatchP Proofs.UpdateConstP.

(** Lists of instances and rows of a floorplan.  When the first element of the group's map is in the
    list, it becomes the new instance and the rest of the group disappears. *)
Theorem C59_list check new k0 ks l : NoDup l -> ~ In new l -> ~ In new (k0 :: ks) -> In k0 l -> collapsed (k0 :: ks) new k0 l (upd_list check new (k0 :: ks) l).
Proof. intros H1 H2 H3. exact (proj1 (upd_list_ok check new k0 ks l H1 H2 H3)). Qed.
Print Assumptions C59_list.
(** Otherwise the group disappears and the new instance is not put in its place. *)
Theorem C59_dropped check new k0 ks l : NoDup l -> ~ In new l -> ~ In new (k0 :: ks) -> ~ In k0 l -> upd_list check new (k0 :: ks) l = others (k0 :: ks) l.
Proof. intros H1 H2 H3. exact (proj2 (upd_list_ok check new k0 ks l H1 H2 H3)). Qed.
Print Assumptions C59_dropped.
(** A group that is contiguous in the list is replaced where it stands. *)
Theorem C59_block check new k0 ks p g s : NoDup (p ++ g ++ s) -> ~ In new (p ++ g ++ s) -> ~ In new (k0 :: ks) -> In k0 g ->
  (forall x, In x g -> In x (k0 :: ks)) -> (forall x, In x p \/ In x s -> ~ In x (k0 :: ks)) ->
  upd_list check new (k0 :: ks) (p ++ g ++ s) = p ++ new :: s.
Proof.
  intros N F Fk Hk Hg Hps. destruct (C59_list check new k0 ks (p ++ g ++ s) N F Fk) as (a & b & E & ->); [rewrite !in_app_iff; tauto|].
  apply in_split in Hk as (g1 & g2 & ->). assert (X : p ++ g1 = a /\ g2 ++ s = b).
  { rewrite <- app_assoc in E. cbn [app] in E. rewrite app_assoc in E. assert (Na : ~ In k0 (p ++ g1)) by (rewrite <- app_assoc in N; cbn [app] in N; rewrite app_assoc in N; apply NoDup_remove_2 in N; rewrite in_app_iff in N; tauto). assert (Nb : ~ In k0 a) by (rewrite <- app_assoc in N; cbn [app] in N; rewrite app_assoc in N; rewrite E in N; apply NoDup_remove_2 in N; rewrite in_app_iff in N; tauto).
    revert E Na Nb. generalize (p ++ g1) (g2 ++ s). clear. intros u v. revert a. induction u as [|x u IH]; intros [|y a] E Na Nb; cbn in E.
    - injection E as <-. auto.
    - injection E as -> _. exfalso. apply Nb. now left.
    - injection E as -> _. exfalso. apply Na. now left.
    - injection E as -> E. destruct (IH a E) as (-> & ->); [intros H; apply Na; now right|intros H; apply Nb; now right|auto]. }
  destruct X as (<- & <-). rewrite !others_app, (others_none _ g1), (others_none _ g2), (others_all _ p), (others_all _ s); [now rewrite app_nil_r| | | |]; intros x Hx; (apply Hps; tauto) || (apply Hg; rewrite in_app_iff; simpl; tauto).
Qed.
Print Assumptions C59_block.
(** Instances that are not in the group stay, in the same order. *)
Theorem C59_order check new k0 ks l x y : NoDup l -> ~ In new l -> ~ In new (k0 :: ks) -> ~ In x (k0 :: ks) -> ~ In y (k0 :: ks) -> before l x y -> before (upd_list check new (k0 :: ks) l) x y.
Proof.
  intros N F Fk Hx Hy Hb. set (K := k0 :: ks) in *.
  assert (Bo : forall l, before l x y -> before (others K l) x y).
  { intros l0 (a & b & c & ->). exists (others K a), (others K b), (others K c). rewrite others_app. f_equal. unfold others at 1. cbn [filter]. destruct (in_dec string_dec x K); [contradiction|]. f_equal. fold (others K (b ++ y :: c)). rewrite others_app. f_equal. unfold others at 1. cbn [filter]. destruct (in_dec string_dec y K); [contradiction|]. reflexivity. }
  destruct (in_dec string_dec k0 l) as [Hi|Hi]; [|unfold K; rewrite C59_dropped by assumption; exact (Bo l Hb)].
  destruct (C59_list check new k0 ks l N F Fk Hi) as (p & s & E & Eu). fold K in Eu. rewrite Eu. assert (El : others K l = others K p ++ others K s) by (rewrite E, others_app; f_equal; unfold others; cbn [filter]; destruct (in_dec string_dec k0 K) as [i|i]; [reflexivity|exfalso; apply i; now left]).
  apply Bo in Hb as (a & b & c & Hb). rewrite El in Hb. clear - Hb. revert Hb. generalize (others K p) (others K s). intros u v. revert a. induction u as [|z u IH]; intros a E.
  - cbn in *. subst v. exists (new :: a), b, c. reflexivity.
  - destruct a as [|w a]; cbn [app] in E; injection E as E1 E.
    + subst z. revert E. clear. intros E. assert (exists b' , u ++ new :: v = b' ++ y :: c \/ exists c', u ++ new :: v = b' ++ y :: c') as (b' & Hb).
      { revert b E. induction u as [|z u IH]; intros b E.
        - cbn in *. subst v. exists (new :: b). now left.
        - destruct b as [|w b]; cbn [app] in E; injection E as E1 E.
          + subst z. exists []. right. exists (u ++ new :: v). reflexivity.
          + destruct (IH b E) as (b' & [H|(c' & H)]); exists (z :: b'); [left|right; exists c']; cbn; now rewrite H. }
      destruct Hb as [H|(c' & H)]; [exists [], b', c|exists [], b', c']; cbn; now rewrite H.
    + destruct (IH a E) as (a' & b' & c' & H). exists (z :: a'), b', c'. cbn. now rewrite H.
Qed.
Print Assumptions C59_order.

(** Pairs: the instances of a pair are the images of its instances, each once. *)
Theorem C59_pair new K p : p <> [] -> (length p <= 2)%nat -> NoDup p -> ~ In new p ->
  (forall y, In y (upd_pair new K p) <-> exists x, In x p /\ y = goes K new x) /\ NoDup (upd_pair new K p) /\ upd_pair new K p <> [].
Proof.
  intros Hp Hl N F. unfold goes.
  assert (Q : forall a, in_strs a K = if in_dec string_dec a K then true else false) by (intros a; destruct (in_strs a K) eqn:E; destruct (in_dec string_dec a K) as [i|i]; try reflexivity; [apply in_strs_iff in E; contradiction|apply in_strs_iff in i; congruence]).
  destruct p as [|a [|b [|c p]]]; [contradiction| | |simpl in Hl; lia]; unfold upd_pair; rewrite !Q.
  - split; [|split; [destruct (in_dec string_dec a K); repeat constructor; simpl; tauto|destruct (in_dec string_dec a K); discriminate]]. intros y. split.
    + intros H. exists a. split; [now left|]. destruct (in_dec string_dec a K); simpl in H; intuition.
    + intros (x & [<-|[]] & ->). destruct (in_dec string_dec a K); simpl; auto.
  - assert (Nab : a <> b) by (inversion N; subst; simpl in *; intuition). simpl in F. split; [|split].
    + intros y. split.
      * intros H. destruct (in_dec string_dec a K) as [i|i] eqn:Ea; [|assert (Ya : y = a -> exists x, In x [a; b] /\ y = (if in_dec string_dec x K then new else x)) by (intros ->; exists a; rewrite Ea; split; [now left|reflexivity])]; (destruct (in_dec string_dec b K) as [j|j] eqn:Eb; [|assert (Yb : y = b -> exists x, In x [a; b] /\ y = (if in_dec string_dec x K then new else x)) by (intros ->; exists b; rewrite Eb; split; [right; now left|reflexivity])]); cbn [andb In] in H.
        -- exists a. rewrite Ea. split; [now left|]. intuition.
        -- destruct H as [<-|[H|[]]]; [|auto]. exists a. rewrite Ea. split; [now left|reflexivity].
        -- destruct H as [H|[<-|[]]]; [auto|]. exists b. rewrite Eb. split; [right; now left|reflexivity].
        -- destruct H as [H|[H|[]]]; auto.
      * intros (x & [<-|[<-|[]]] & ->); destruct (in_dec string_dec a K), (in_dec string_dec b K); simpl; auto.
    + destruct (in_dec string_dec a K), (in_dec string_dec b K); simpl; repeat constructor; simpl; intuition congruence.
    + destruct (in_dec string_dec a K), (in_dec string_dec b K); discriminate.
Qed.
Print Assumptions C59_pair.

(** Pins of SymmetricNets: every pin goes to its place. *)
Theorem C59_pins c new m p1 p2 a b : ~ In new (map fst m) -> length p1 = length p2 -> upd_netpins (Some c) new m p1 p2 = Some (a, b) -> Forall2 (pin_goes c new m) p1 a /\ Forall2 (pin_goes c new m) p2 b.
Proof. intros F. exact (upd_netpins_ok c new m F p1 p2 a b). Qed.
Print Assumptions C59_pins.
(** For a replaced match (C58) the new pin is on the net the old pin was on, when the net it stands for
    is a pin of the template. *)
Theorem C59_pin_net p T c m mt new x i q n v : occurrence p T m -> NoDup (map e_name (sb_elems p)) -> (forall t, In t (sb_elems T) -> NoDup (map fst (e_pins t))) ->
  (forall d, In d (sb_elems c) -> exists t, In t (sb_elems T) /\ e_name t = e_name d /\ e_pins t = e_pins d) ->
  (forall k y, In (k, y) mt -> In (k, y) m) -> (forall r w, In (r, w) (e_pins x) <-> In (w, r) m /\ In r (sb_pins T)) ->
  (exists e, In e (sb_elems p) /\ e_name e = i /\ In (q, n) (e_pins e)) -> In i (map fst mt) -> pin_goes c new mt (InstPin i q) v ->
  exists r, v = InstPin new r /\ (In r (sb_pins T) -> In (r, n) (e_pins x)).
Proof.
  intros Oc Np Nt Hc Hm Hx (e & He & En & Hq) Hi Hv. inversion Hv as [|? ? Hn|? ? ci r Hci Hr]; subst; [contradiction|]. exists r. split; [reflexivity|]. intros Hp. apply Hx. split; [|assumption].
  destruct Hr as (d & Hd & Ed & Hdq). destruct (Hc d Hd) as (t & Ht & Et & Ept). apply Hm in Hci. rewrite <- Ed, <- Et in Hci. destruct (oc_elem _ _ _ Oc _ _ Hci Ht) as (e2 & He2 & En2 & _ & Hk).
  assert (e2 = e). { pose proof (get_element_of _ _ Np He2) as A. pose proof (get_element_of _ _ Np He) as B. congruence. } subst e2. destruct (Hk q n Hq) as (y & Hy & Hqy). rewrite <- Ept in Hdq. pose proof (in_sget _ _ _ (Nt t Ht) Hqy) as A. pose proof (in_sget _ _ _ (Nt t Ht) Hdq) as B. assert (y = r) by congruence. now subst y.
Qed.
Print Assumptions C59_pin_net.

(** Currents: pins outside the group keep theirs, the pin of the new instance carries the sum over the
    grouped pins on that net at every time, nothing else is added, and the total is kept. *)
Theorem C59_flow c new m n d d' : NoDup (map fst d) -> (forall e, In e d -> length (snd e) = n /\ fst (fst e) <> new) -> upd_flow (Some c) new m d = Some d' ->
  NoDup (map fst d') /\
  (forall i p cur, i <> new -> In ((i, p), cur) d' <-> In ((i, p), cur) d /\ ~ In i (map fst m)) /\
  (forall q, In (new, q) (map fst d') <-> exists e, In e d /\ lands c m e = Some q) /\
  (forall q cur k, In ((new, q), cur) d' -> at_time k cur = inflow c m k q d /\ length cur = n) /\
  (forall k, total k d' = total k d).
Proof.
  intros N Hn H. destruct (upd_flow_ok c new m n d d' Hn H) as (acc & -> & (Na & Ga) & V & T & Kq).
  assert (Gr : forall e, grouped m e = true <-> In (fst (fst e)) (map fst m)) by (intros e; apply shas_in).
  split; [|split; [|split; [|split]]].
  - rewrite map_app. assert (D : forall x, In x (map fst acc) -> ~ In x (map fst (filter (fun e => negb (grouped m e)) d))).
    { intros x Hx Hy. apply in_map_iff in Hx as ((kx, lx) & <- & Hx). apply in_map_iff in Hy as ((ky, ly) & E & Hy). cbn in E. subst ky. apply filter_In in Hy as (Hy & _). apply (proj2 (Hn _ Hy)). exact (proj1 (Ga _ _ Hx)). }
    assert (Nf : NoDup (map fst (filter (fun e => negb (grouped m e)) d))) by (apply nodup_map_filter; assumption). revert Nf D. generalize (map fst (filter (fun e => negb (grouped m e)) d)). intros l. induction l as [|z l IH]; intros Nl D; [exact Na|]. inversion Nl; subst. cbn. constructor.
    + rewrite in_app_iff. intros [E|E]; [contradiction|]. apply (D z E). now left.
    + apply IH; [assumption|]. intros x Hx Hy. apply (D x Hx). now right.
  - intros i p cur Hi. rewrite in_app_iff, filter_In. split.
    + intros [(Hd & Hg)|Ha]; [split; [assumption|]; intros Hk; apply (Gr ((i, p), cur)) in Hk; rewrite Hk in Hg; discriminate|]. exfalso. apply Hi. exact (proj1 (Ga _ _ Ha)).
    + intros (Hd & Hk). left. split; [assumption|]. destruct (grouped m ((i, p), cur)) eqn:E; [apply Gr in E; contradiction|reflexivity].
  - intros q. rewrite map_app, in_app_iff, Kq. split; [|tauto]. intros [E|E]; [|assumption]. exfalso. apply in_map_iff in E as ((k1, l1) & E & Hi). cbn in E. subst k1. apply filter_In in Hi as (Hi & _). exact (proj2 (Hn _ Hi) eq_refl).
  - intros q cur k Hi. apply in_app_iff in Hi as [Hi|Hi]; [exfalso; apply filter_In in Hi as (Hi & _); exact (proj2 (Hn _ Hi) eq_refl)|]. split; [|exact (proj2 (Ga _ _ Hi))]. rewrite <- V. unfold val. now rewrite (in_dget _ pin_eqb_ok _ _ _ Na Hi).
  - intros k. rewrite total_app, T. clear. induction d as [|e d IH]; [reflexivity|]. cbn [filter]. rewrite total_cons. destruct (grouped m e); cbn [negb]; rewrite total_cons; lia.
Qed.
Print Assumptions C59_flow.

(** Constraints of the parent that do not mention the group stay as they are. *)
Definition mentions (K : list string) (r : rule) : Prop :=
  match r with
  | KInst _ l => exists x, In x l /\ In x K
  | KPairs _ ps | KRegions _ ps => exists p x, In p ps /\ In x p /\ In x K
  | KFlow _ d => exists i q c, In ((i, q), c) d /\ In i K
  | KPins _ p1 p2 => exists i q, In i K /\ ((exists l, p1 = Some l /\ In (InstPin i q) l) \/ exists l, p2 = Some l /\ In (InstPin i q) l)
  | _ => False
  end.
Lemma list_frame check new K l : (forall x, In x l -> ~ In x K) -> upd_list check new K l = l.
Proof. intros H. unfold upd_list. destruct (existsb _ _) eqn:E; [|reflexivity]. apply existsb_exists in E as (x & Hx & Hk). apply in_strs_iff in Hk. exfalso. exact (H x Hx Hk). Qed.
Theorem C59_frame child new m r r' : ~ mentions (map fst m) r -> upd_rule child new m r = Some r' -> r' = r.
Proof.
  intros Hm H. destruct r as [t l|t l|t ps|t d|t p1 p2|t rs|t|t]; cbn [upd_rule mentions] in *; try congruence.
  - rewrite list_frame in H; [congruence|]. intros x Hx Hk. apply Hm. eauto.
  - assert (E : map (upd_pair new (map fst m)) ps = ps); [|congruence]. rewrite <- (map_id ps) at 2. apply map_ext_in. intros p Hp. assert (Q : forall a, In a p -> in_strs a (map fst m) = false) by (intros a Ha; destruct (in_strs a (map fst m)) eqn:E; [apply in_strs_iff in E; exfalso; apply Hm; eauto|reflexivity]).
    destruct p as [|a [|b [|c p]]]; cbn [upd_pair]; try reflexivity; rewrite !Q by (simpl; auto); reflexivity.
  - assert (Fo : forall l, (forall e, In e l -> In e d) -> foldO (flow_step child new m) l [] = Some []).
    { induction l as [|e l IH]; intros Hl; [reflexivity|]. cbn [foldO]. unfold flow_step at 1. assert (Se : sget m (fst (fst e)) = None). { apply sget_none. intros Hk. apply Hm. destruct e as ((i, q), c). exists i, q, c. split; [apply Hl; now left|assumption]. } rewrite Se. apply IH. intros x Hx. apply Hl. now right. }
    unfold upd_flow in H. rewrite Fo in H by auto. cbn [fold_left] in H. injection H as <-. f_equal. assert (E : forall l, (forall e, In e l -> In e d) -> filter (fun e => negb (shas m (fst (fst e)))) l = l); [|apply E; auto]. induction l as [|e l IH]; intros Hl; [reflexivity|]. cbn [filter]. destruct (shas m (fst (fst e))) eqn:E; [exfalso; apply shas_in in E; apply Hm; destruct e as ((i, q), c); exists i, q, c; split; [apply Hl; now left|assumption]|]. cbn [negb]. now rewrite IH by (intros x Hx; apply Hl; now right).
  - destruct p1 as [[|p p1]|]; try congruence. destruct p2 as [p2|]; [|discriminate].
    assert (Fo : forall l, (forall e, In e l -> In e (p :: p1) \/ In e p2) -> foldO (pins_step child new m) l [] = Some []).
    { induction l as [|e l IH]; intros Hl; [reflexivity|]. cbn [foldO]. unfold pins_step at 1. assert (Se : new_pin child new m e = Some None). { unfold new_pin. destruct e as [n|i q]; [reflexivity|]. assert (Si : sget m i = None); [|now rewrite Si]. apply sget_none. intros Hk. apply Hm. exists i, q. split; [assumption|]. destruct (Hl _ (or_introl eq_refl)) as [X|X]; [left|right]; eauto. } rewrite Se. apply IH. intros x Hx. apply Hl. now right. }
    unfold upd_netpins in H. rewrite Fo in H by (intros e He; apply in_app_iff in He; tauto). congruence.
  - assert (E : map (upd_list false new (map fst m)) rs = rs); [|congruence]. rewrite <- (map_id rs) at 2. apply map_ext_in. intros p Hp. apply list_frame. intros x Hx Hk. apply Hm. eauto.
Qed.
Print Assumptions C59_frame.
(** Constraints keep their number, order and kind. *)
Theorem C59_kinds child new m rs rs' : update_const child new m rs = Some rs' -> Forall2 (fun r r' => upd_rule child new m r = Some r') rs rs'.
Proof. intros H. exact (mapM_F2 _ _ _ H). Qed.
Print Assumptions C59_kinds.

(** The constraints given to a child that has none: lists of instances become the lists of the images of
    their grouped instances, in order. *)
Theorem C59_child prop minlen c m ps cs : top_to_bottom prop minlen c m [] ps = Some cs ->
  (forall t l', In (KInst t l') cs <-> l' <> [] /\ exists l, In (KInst t l) ps /\ l' = down_list m l) /\
  (forall t, In (KGlobal t) cs <-> In (KGlobal t) ps) /\ (forall t l', In (KInst t l') cs -> (minlen t <= length l')%nat) /\
  (forall t l', ~ In (KPairs t l') cs) /\ (forall t a b, ~ In (KPins t a b) cs) /\ (forall t l', ~ In (KRegions t l') cs).
Proof.
  unfold top_to_bottom. destruct (mapM (down_rule prop minlen m) ps) as [ds|] eqn:D; [|discriminate]. destruct (mapM (down_flow c m) ps) as [fl|] eqn:F; [|discriminate]. intros [= <-].
  pose proof (mapM_F2 _ _ _ D) as D2. pose proof (mapM_F2 _ _ _ F) as F2. clear D F.
  assert (Hf : forall r, In r (concat fl) -> exists t d, r = KFlow t d).
  { intros r Hr. apply in_concat in Hr as (x & Hx & Hr). destruct (Forall2_in_r _ _ _ _ F2 Hx) as (r0 & _ & E). destruct r0; cbn in E; try (injection E as <-; contradiction). destruct (foldO _ _ _); [|discriminate]. injection E as <-. destruct Hr as [<-|[]]. eauto. }
  assert (Hd : forall r, In r (concat ds) <-> exists r0 x, In r0 ps /\ down_rule prop minlen m r0 = Some x /\ In r x).
  { intros r. rewrite in_concat. split.
    - intros (x & Hx & Hr). destruct (Forall2_in_r _ _ _ _ D2 Hx) as (r0 & Hr0 & E). eauto.
    - intros (r0 & x & H0 & E & Hr). destruct (Forall2_in_l _ _ _ _ D2 H0) as (y & Hy & Ey). exists y. split; [assumption|]. congruence. }
  assert (Cl : forall r, (forall t d, r <> KFlow t d) -> In r (concat ds ++ concat fl) <-> In r (concat ds)) by (intros r Hr; rewrite in_app_iff; split; [|tauto]; intros [E|E]; [assumption|]; destruct (Hf r E) as (t & d & ->); exfalso; exact (Hr t d eq_refl)).
  assert (Ki : forall t l', In (KInst t l') (concat ds ++ concat fl) <-> (exists l, In (KInst t l) ps /\ l' = down_list m l /\ l' <> [] /\ (minlen t <= length l')%nat)).
  { intros t l'. rewrite Cl by discriminate. rewrite Hd. split.
    - intros (r0 & x & H0 & E & Hr). destruct r0 as [t0 l0|t0 l|t0 l0|t0 l0|t0 a b|t0 l0|t0|t0]; cbn [down_rule] in E; try (injection E as <-; destruct Hr); try discriminate; try contradiction; try (destruct (prop t0); [injection E as <-; destruct Hr as [Hr|[]]; discriminate|injection E as <-; destruct Hr]).
      destruct (down_list m l) as [|z zs] eqn:Dl; [injection E as <-; contradiction|]. rewrite <- Dl in *. destruct (Nat.ltb _ _) eqn:Lt; [discriminate|]. injection E as <-. destruct Hr as [[= <- <-]|[]]. apply Nat.ltb_ge in Lt. exists l. split; [assumption|]. split; [reflexivity|]. split; [rewrite Dl; discriminate|assumption].
    - intros (l & H0 & -> & Hn & Hm). exists (KInst t l), [KInst t (down_list m l)]. split; [assumption|]. split; [|now left]. cbn [down_rule]. destruct (down_list m l) as [|z zs] eqn:Dl; [contradiction|]. rewrite <- Dl in *. rewrite (proj2 (Nat.ltb_ge _ _) Hm). reflexivity. }
  split; [|split; [|split; [|split; [|split]]]].
  - intros t l'. rewrite Ki. split; [intros (l & A & B & C & _); split; [assumption|]; eauto|]. intros (Hn & l & H0 & ->). exists l. split; [assumption|]. split; [reflexivity|]. split; [assumption|].
    destruct (Forall2_in_l _ _ _ _ D2 H0) as (y & _ & Ey). cbn [down_rule] in Ey. destruct (down_list m l) as [|z zs] eqn:Dl; [contradiction|]. rewrite <- Dl in *. destruct (Nat.ltb _ _) eqn:Lt; [discriminate|]. now apply Nat.ltb_ge.
  - intros t. rewrite Cl by discriminate. rewrite Hd. split.
    + intros (r0 & x & H0 & E & Hr). destruct r0 as [t0 l0|t0 l|t0 l0|t0 l0|t0 a b|t0 l0|t0|t0]; cbn [down_rule] in E; try (injection E as <-; destruct Hr as [Hr|[]]; try discriminate; congruence); try (injection E as <-; contradiction).
      * destruct (down_list m l); [injection E as <-; contradiction|]. destruct (Nat.ltb _ _); [discriminate|]. injection E as <-. destruct Hr as [Hr|[]]; discriminate.
      * destruct (prop t0); injection E as <-; [destruct Hr as [Hr|[]]; discriminate|contradiction].
    + intros H. exists (KGlobal t), [KGlobal t]. split; [assumption|]. split; [reflexivity|now left].
  - intros t l' H. apply Ki in H as (l & _ & _ & _ & H). assumption.
  - intros t l' H. apply Cl in H; [|discriminate]. apply Hd in H as (r0 & x & H0 & E & Hr). destruct r0 as [t0 l0|t0 l|t0 l0|t0 l0|t0 a b|t0 l0|t0|t0]; cbn [down_rule] in E; try (injection E as <-; destruct Hr as [Hr|[]]; discriminate); try (injection E as <-; contradiction); [destruct (down_list m l); [injection E as <-; contradiction|]; destruct (Nat.ltb _ _); [discriminate|]; injection E as <-; destruct Hr as [Hr|[]]; discriminate|destruct (prop t0); injection E as <-; [destruct Hr as [Hr|[]]; discriminate|contradiction]].
  - intros t l' l2 H. apply Cl in H; [|discriminate]. apply Hd in H as (r0 & x & H0 & E & Hr). destruct r0 as [t0 l0|t0 l|t0 l0|t0 l0|t0 a b|t0 l0|t0|t0]; cbn [down_rule] in E; try (injection E as <-; destruct Hr as [Hr|[]]; discriminate); try (injection E as <-; contradiction); [destruct (down_list m l); [injection E as <-; contradiction|]; destruct (Nat.ltb _ _); [discriminate|]; injection E as <-; destruct Hr as [Hr|[]]; discriminate|destruct (prop t0); injection E as <-; [destruct Hr as [Hr|[]]; discriminate|contradiction]].
  - intros t l' H. apply Cl in H; [|discriminate]. apply Hd in H as (r0 & x & H0 & E & Hr). destruct r0 as [t0 l0|t0 l|t0 l0|t0 l0|t0 a b|t0 l0|t0|t0]; cbn [down_rule] in E; try (injection E as <-; destruct Hr as [Hr|[]]; discriminate); try (injection E as <-; contradiction); [destruct (down_list m l); [injection E as <-; contradiction|]; destruct (Nat.ltb _ _); [discriminate|]; injection E as <-; destruct Hr as [Hr|[]]; discriminate|destruct (prop t0); injection E as <-; [destruct Hr as [Hr|[]]; discriminate|contradiction]].
Qed.
Print Assumptions C59_child.
(** ... and the images are in the order of the list, each for a grouped instance. *)
Theorem C59_images m l : NoDup (map fst m) -> (forall y, In y (down_list m l) <-> exists x, In x l /\ In (x, y) m) /\
  (forall x1 x2 y1 y2, In (x1, y1) m -> In (x2, y2) m -> before l x1 x2 -> before (down_list m l) y1 y2).
Proof.
  intros N. unfold down_list. split.
  - intros y. rewrite in_flat_map. split.
    + intros (x & Hx & Hy). destruct (sget m x) as [z|] eqn:E; [|contradiction]. destruct Hy as [<-|[]]. exists x. split; [assumption|]. now apply sget_in.
    + intros (x & Hx & Hm). exists x. split; [assumption|]. rewrite (in_sget _ _ _ N Hm). now left.
  - intros x1 x2 y1 y2 H1 H2 (a & b & d & ->). rewrite flat_map_app. cbn [flat_map]. rewrite (in_sget _ _ _ N H1), flat_map_app. cbn [flat_map]. rewrite (in_sget _ _ _ N H2). cbn [app]. eexists _, _, _. reflexivity.
Qed.
Print Assumptions C59_images.
(** ... and the currents at the pins of a grouped instance become those of its image, each with its values. *)
Lemma down_flow_ok c m d : forall acc d', NoDup (map snd m) -> (forall i1 q i2 c1, In (i1, q) (map fst d) -> sget m i1 = Some c1 -> sget m i2 = Some c1 -> i1 = i2) -> NoDup (map fst d) ->
  (forall i q c1, In (i, q) (map fst d) -> sget m i = Some c1 -> dget pin_eqb acc (c1, q) = None) -> NoDup (map fst acc) -> foldO (down_flow_step c m) d acc = Some d' ->
  NoDup (map fst d') /\ (forall ci q v, In ((ci, q), v) d' <-> In ((ci, q), v) acc \/ exists i, sget m i = Some ci /\ In ((i, q), v) d).
Proof.
  induction d as [|((i, q), v) d IH]; intros acc d' Ns J N Ha Na H; cbn [foldO] in H; [injection H as <-; split; [assumption|intros ci q v; split; [tauto|intros [H|(i & _ & [])]; assumption]]|].
  unfold down_flow_step at 1 in H. cbn [fst snd] in H. cbn [map fst] in N. inversion N as [|? ? N1 N2]; subst. destruct (sget m i) as [ci|] eqn:E.
  - destruct (child_pin (Some c) ci q); [|discriminate]. pose proof (Ha i q ci (or_introl eq_refl) E) as G.
    assert (D : dset pin_eqb acc (ci, q) v = acc ++ [((ci, q), v)]).
    { revert G. clear. unfold dset. induction acc as [|(k, w) acc IH]; [reflexivity|]. cbn [dget dupd app]. destruct (pin_eqb (ci, q) k); [discriminate|]. intros G. f_equal. exact (IH G). }
    rewrite D in H. destruct (IH (acc ++ [((ci, q), v)]) d' Ns) with (5 := H) as (I1 & I2).
    + intros i1 q1 i2 c1 H1. apply (J i1 q1). now right.
    + assumption.
    + intros i1 q1 c1 H1 H2. destruct (dget pin_eqb (acc ++ [((ci, q), v)]) (c1, q1)) eqn:G1; [|reflexivity]. exfalso. apply (dget_in _ pin_eqb_ok) in G1. apply in_app_iff in G1 as [G1|[G1|[]]].
      * apply (in_map fst) in G1. exact (proj1 (dget_none _ pin_eqb_ok _ _) (Ha i1 q1 c1 (or_intror H1) H2) G1).
      * injection G1 as -> -> _. assert (i = i1) by (apply (J i q1 i1 c1); [now left|assumption|assumption]). subst i1. contradiction.
    + rewrite map_app. apply (Permutation_NoDup (Permutation_cons_append _ _)). constructor; [|assumption]. exact (proj1 (dget_none _ pin_eqb_ok _ _) G).
    + split; [assumption|]. intros ci1 q1 v1. rewrite I2, in_app_iff. split.
      * intros [[A|[A|[]]]|(i1 & A & B)]; [now left|right; injection A as -> -> ->; exists i; split; [assumption|now left]|right; exists i1; split; [assumption|now right]].
      * intros [A|(i1 & A & [B|B])]; [now left; left|injection B as -> -> ->; left; right; rewrite E in A; injection A as ->; now left|right; eauto].
  - destruct (IH acc d' Ns) with (5 := H) as (I1 & I2); [intros i1 q1 i2 c1 H1; apply (J i1 q1); now right|assumption|intros i1 q1 c1 H1; apply (Ha i1 q1 c1); now right|assumption|].
    split; [assumption|]. intros ci1 q1 v1. rewrite I2. split; [intros [A|(i1 & A & B)]; [now left|right; exists i1; split; [assumption|now right]]|]. intros [A|(i1 & A & [B|B])]; [now left|injection B as -> -> ->; congruence|right; eauto].
Qed.
Theorem C59_child_flow prop minlen c m ps cs : top_to_bottom prop minlen c m [] ps = Some cs -> NoDup (map fst m) -> NoDup (map snd m) -> (forall t d, In (KFlow t d) ps -> NoDup (map fst d)) ->
  let image d d' := NoDup (map fst d') /\ forall ci q v, In ((ci, q), v) d' <-> exists i, In (i, ci) m /\ In ((i, q), v) d in
  (forall t d, In (KFlow t d) ps -> exists d', In (KFlow t d') cs /\ image d d') /\ (forall t d', In (KFlow t d') cs -> exists d, In (KFlow t d) ps /\ image d d').
Proof.
  intros H N1 N2 Nd image. unfold top_to_bottom in H. destruct (mapM (down_rule prop minlen m) ps) as [ds|] eqn:D; [|discriminate]. destruct (mapM (down_flow c m) ps) as [fl|] eqn:F; [|discriminate]. injection H as <-.
  pose proof (mapM_F2 _ _ _ D) as D2. pose proof (mapM_F2 _ _ _ F) as F2. clear D F.
  assert (K : forall t d d', In (KFlow t d) ps -> foldO (down_flow_step c m) d [] = Some d' -> image d d').
  { intros t d d' Hp E. destruct (down_flow_ok c m d [] d') as (I1 & I2); try assumption; [|exact (Nd t d Hp)|reflexivity|constructor|].
    - intros i1 q i2 c1 _ S1 S2. apply sget_in in S1, S2. clear - N2 S1 S2. induction m as [|(a, b) m0 IH]; [destruct S1|]. cbn [map snd] in N2. inversion N2 as [|? ? A B]; subst. destruct S1 as [S1|S1], S2 as [S2|S2]; [congruence|injection S1 as -> ->; exfalso; apply A; exact (in_map snd _ _ S2)|injection S2 as -> ->; exfalso; apply A; exact (in_map snd _ _ S1)|auto].
    - split; [assumption|]. intros ci q v. rewrite I2. split; [intros [[]|(i & A & B)]; exists i; split; [now apply sget_in|assumption]|]. intros (i & A & B). right. exists i. split; [now apply in_sget|assumption]. }
  split.
  - intros t d Hp. destruct (Forall2_in_l _ _ _ _ F2 Hp) as (x & Hx & E). cbn [down_flow] in E. destruct (foldO (down_flow_step c m) d []) as [d'|] eqn:E2; [|discriminate]. injection E as <-. exists d'. split; [apply in_app_iff; right; apply in_concat; exists [KFlow t d']; split; [assumption|now left]|]. exact (K t d d' Hp E2).
  - intros t d' Hc. apply in_app_iff in Hc as [Hc|Hc]; apply in_concat in Hc as (x & Hx & Hc).
    + exfalso. destruct (Forall2_in_r _ _ _ _ D2 Hx) as (r0 & _ & E). destruct r0 as [t0 l0|t0 l|t0 l0|t0 l0|t0 a b|t0 l0|t0|t0]; cbn [down_rule] in E; try (injection E as <-; contradiction); [destruct (down_list m l); [injection E as <-; contradiction|]; destruct (Nat.ltb _ _); [discriminate|]; injection E as <-; destruct Hc as [Hc|[]]; discriminate|injection E as <-; destruct Hc as [Hc|[]]; discriminate|destruct (prop t0); injection E as <-; [destruct Hc as [Hc|[]]; discriminate|contradiction]].
    + destruct (Forall2_in_r _ _ _ _ F2 Hx) as (r0 & H0 & E). destruct r0; cbn [down_flow] in E; try (injection E as <-; contradiction). destruct (foldO (down_flow_step c m) d []) as [d1|] eqn:E2; [|discriminate]. injection E as <-. destruct Hc as [[= <- <-]|[]]. exists d. split; [assumption|]. exact (K t0 d d1 H0 E2).
Qed.
Print Assumptions C59_child_flow.

Local Open Scope string_scope.
Local Open Scope list_scope.
Definition grp59 : sub := mkSub "GRP" ["P0"; "P1"; "P3"] [] [mkElem "M0" "NMOS" [("D", "P0"); ("G", "P1"); ("S", "P2")] []; mkElem "M1" "NMOS" [("D", "P2"); ("G", "P1"); ("S", "P3")] []].
Definition map59 : dict := [("MA", "M0"); ("MB", "M1")].
Definition fl59 : flow := [(("MA", "G"), [1; 2]); (("MC", "D"), [5; 5]); (("MB", "G"), [10; 20])]%Z.
Example C59_nonvacuous :
  update_const (Some grp59) "X1" map59
    [KInst "Order" ["MC"; "MB"; "MA"; "MD"]; KPairs "SymmetricBlocks" [["MA"; "MB"]; ["MC"; "MD"]]; KFlow "ChargeFlow" fl59;
     KPins "SymmetricNets" (Some [InstPin "MA" "D"; NetPin "OUT"]) (Some [InstPin "MC" "D"; NetPin "IN"]); KRegions "Floorplan" [["MA"; "MC"]; ["MD"]]]
  = Some [KInst "Order" ["MC"; "X1"; "MD"]; KPairs "SymmetricBlocks" [["X1"]; ["MC"; "MD"]]; KFlow "ChargeFlow" [(("MC", "D"), [5; 5]); (("X1", "P1"), [11; 22])]%Z;
     KPins "SymmetricNets" (Some [InstPin "X1" "P0"; NetPin "OUT"]) (Some [InstPin "MC" "D"; NetPin "IN"]); KRegions "Floorplan" [["X1"; "MC"]; ["MD"]]] /\
  inflow grp59 map59 1 "P1" fl59 = 22%Z /\ NoDup (map fst fl59) /\ (forall e, In e fl59 -> length (snd e) = 2%nat /\ fst (fst e) <> "X1") /\
  top_to_bottom (fun _ => false) (fun _ => 2%nat) grp59 map59 [] [KInst "Order" ["MC"; "MB"; "MA"; "MD"]; KGlobal "BlockDistance"; KFlow "ChargeFlow" fl59]
  = Some [KInst "Order" ["M1"; "M0"]; KGlobal "BlockDistance"; KFlow "ChargeFlow" [(("M0", "G"), [1; 2]); (("M1", "G"), [10; 20])]%Z].
Proof.
  split; [vm_compute; reflexivity|]. split; [reflexivity|]. split; [simpl; repeat constructor; simpl; intuition discriminate|]. split; [|reflexivity].
  intros e He. simpl in He. repeat (destruct He as [<-|He]; [split; [reflexivity|discriminate]|]). contradiction.
Qed.

(** Finding: a list that has an instance of the group but not the first of the map loses it without
    getting the new instance.  After template matching (graph.py:217-218) the first may even be a net. *)
Theorem C59_lost_refuted : exists child new m l l', NoDup l /\ ~ In new l /\ ~ In new (map fst m) /\ (exists x, In x l /\ In x (map fst m)) /\
  update_const (Some child) new m [KInst "Order" l; KRegions "Floorplan" [l]] = Some [KInst "Order" l'; KRegions "Floorplan" [l']] /\ ~ In new l'.
Proof.
  exists grp59, "X1", map59, ["MB"; "MC"; "MD"], ["MC"; "MD"]. split; [repeat constructor; simpl; intuition discriminate|]. split; [simpl; intuition discriminate|]. split; [simpl; intuition discriminate|]. split; [exists "MB"; simpl; tauto|]. split; [reflexivity|]. simpl. intuition discriminate.
Qed.
Print Assumptions C59_lost_refuted.
(** Finding: for groups of capacitors the map starts with the name of the group (match_graph.py:323-325), so
    the group is never put in the place of its members. *)
Theorem C59_caps_refuted new ks l : NoDup l -> ~ In new l -> upd_list true new (new :: ks) l = others ks l.
Proof.
  intros N F. assert (E : others ks l = others (new :: ks) l).
  { unfold others. apply filter_ext_in. intros a Ha. destruct (in_dec string_dec a ks) as [i|i], (in_dec string_dec a (new :: ks)) as [j|j]; try reflexivity; [exfalso; apply j; now right|destruct j as [->|j]; contradiction]. }
  unfold upd_list. destruct (existsb _ _) eqn:Ex.
  - cbn [fold_left]. unfold swap_step at 2. assert (Q : in_strs new l = false) by (destruct (in_strs new l) eqn:Q; [apply in_strs_iff in Q; contradiction|reflexivity]). rewrite Q. cbn [andb negb]. rewrite replace_none by assumption. rewrite fold_swap_false by assumption. reflexivity.
  - rewrite E. symmetry. apply others_all. intros x Hx Hk. enough (X : existsb (fun x0 => in_strs x0 (new :: ks)) l = true) by congruence. apply existsb_exists. exists x. split; [assumption|]. now apply in_strs_iff.
Qed.
Print Assumptions C59_caps_refuted.
(** Finding: an Order of which exactly one instance is in the group cannot be translated: the child's
    constraint would have one instance, which the validator rejects. *)
Theorem C59_single_refuted prop minlen c m t l x rest : (2 <= minlen t)%nat -> down_list m l = [x] -> top_to_bottom prop minlen c m [] (KInst t l :: rest) = None.
Proof. intros H D. unfold top_to_bottom. cbn [mapM down_rule]. rewrite D. cbn [length]. rewrite (proj2 (Nat.ltb_lt _ _)) by lia. reflexivity. Qed.
Print Assumptions C59_single_refuted.
(** Finding: disjoint pairs may both come to contain the new instance. *)
Theorem C59_pairs_refuted : exists child new m ps ps', NoDup (concat ps) /\ ~ In new (concat ps) /\ ~ In new (map fst m) /\ update_const (Some child) new m [KPairs "SymmetricBlocks" ps] = Some [KPairs "SymmetricBlocks" ps'] /\ ~ NoDup (concat ps').
Proof.
  exists grp59, "X1", map59, [["MA"; "MC"]; ["MB"; "MD"]], [["X1"; "MC"]; ["X1"; "MD"]]. split; [simpl; repeat constructor; simpl; intuition discriminate|]. split; [simpl; intuition discriminate|]. split; [simpl; intuition discriminate|]. split; [reflexivity|]. intros N. inversion N as [|? ? H _]. apply H. simpl. tauto.
Qed.
Print Assumptions C59_pairs_refuted.
(** Finding: a current on a net inside the group is given to a pin the new instance does not have. *)
Theorem C59_internal_refuted : exists child new m d d' q, ~ In new (map fst m) /\ NoDup (map fst d) /\ upd_flow (Some child) new m d = Some d' /\ In (new, q) (map fst d') /\ ~ In q (sb_pins child).
Proof.
  exists grp59, "X1", map59, [(("MA", "S"), [1%Z])], [(("X1", "P2"), [1%Z])], "P2". split; [simpl; intuition discriminate|]. split; [repeat constructor; simpl; tauto|]. split; [reflexivity|]. split; [now left|]. simpl. intuition discriminate.
Qed.
Print Assumptions C59_internal_refuted.
(** Finding: renaming a group, which has no child (match_graph.py:242-244), fails when a current is given
    for its pins. *)
Theorem C59_rename_refuted new old t p cur rest : update_const None new [(old, new)] (KFlow t [((old, p), cur)] :: rest) = None.
Proof. unfold update_const. cbn [mapM upd_rule]. unfold upd_flow. cbn [foldO]. unfold flow_step, sget. cbn [dget fst snd]. rewrite String.eqb_refl. reflexivity. Qed.
Print Assumptions C59_rename_refuted.
