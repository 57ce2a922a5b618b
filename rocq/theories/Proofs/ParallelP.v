(** Proofs about merging parallel devices (Model/Netlist.v). *)
From Coq Require Import String Ascii ZifyBool.
From Verif Require Import Base.Prelude Base.PyDict Base.PyStr Model.RemoveDuplicates Model.Lef Model.Netlist Spec.NetlistSpec Proofs.LefP Proofs.NetlistP.
Local Open Scope Z_scope.

Definition inb (n : string) (l : list string) : bool := existsb (String.eqb n) l.
Lemma inb_ok n l : inb n l = true <-> In n l.
Proof. unfold inb. rewrite existsb_exists. split; [intros (x & H & E); apply String.eqb_eq in E; now subst|intros H; exists n; split; [assumption|apply String.eqb_refl]]. Qed.
Lemma inb_false n l : inb n l = false <-> ~ In n l.
Proof. rewrite <- inb_ok. destruct (inb n l); split; congruence. Qed.

Lemma remove_filter els n : NoDup (map e_name els) -> remove_elem els n = filter (fun e => negb (String.eqb (e_name e) n)) els.
Proof.
  induction els as [|e els IH]; intros Hnd; [reflexivity|]. simpl in Hnd. apply NoDup_cons_iff in Hnd as (Hn & Hnd). simpl.
  destruct (String.eqb_spec (e_name e) n) as [<-|H]; simpl; [|now rewrite IH].
  symmetry. rewrite <- (filter_ext_in (fun _ => true)).
  - clear. induction els; simpl; congruence.
  - intros x Hx. destruct (String.eqb_spec (e_name x) (e_name e)) as [E|]; [|reflexivity]. exfalso. apply Hn. rewrite <- E. now apply in_map.
Qed.
Lemma filter_nodup {A B} (f : A -> B) p l : NoDup (map f l) -> NoDup (map f (filter p l)).
Proof.
  induction l as [|x l IH]; simpl; [auto|]. intros H. apply NoDup_cons_iff in H as (Hn & H). destruct (p x); [|auto]. simpl. constructor; [|auto].
  intros Hi. apply Hn. apply in_map_iff in Hi as (y & E & Hy). apply filter_In in Hy as (Hy & _). rewrite <- E. now apply in_map.
Qed.
Lemma remove_fold ns els : NoDup (map e_name els) -> fold_left remove_elem ns els = filter (fun e => negb (inb (e_name e) ns)) els.
Proof.
  revert els. induction ns as [|n ns IH]; intros els Hnd; simpl.
  - induction els; simpl; [reflexivity|]. simpl in Hnd. apply NoDup_cons_iff in Hnd as (_ & Hnd). f_equal. auto.
  - rewrite remove_filter by assumption. rewrite IH by now apply filter_nodup. clear IH Hnd.
    induction els as [|e els IH]; simpl; [reflexivity|]. destruct (String.eqb (e_name e) n) eqn:E; simpl; [assumption|].
    destruct (negb (inb (e_name e) ns)); simpl; [f_equal|]; assumption.
Qed.

Definition act1 (pd : list elem) (e : elem) : list elem :=
  if (1 <? length pd)%nat then
    if inb (e_name e) (map e_name (tl pd)) then []
    else if String.eqb (e_name e) (least_name pd) then [set_param PARALLEL (zstr (Z.of_nat (length pd))) e] else [e]
  else [e].
Lemma sum_ones (l : list elem) a : fold_left Z.add (map (fun _ => 1) l) a = a + Z.of_nat (length l).
Proof. revert a. induction l as [|x l IH]; intros a; cbn [map fold_left length]; [lia|]. rewrite IH. lia. Qed.
Lemma merge_flat pd S : NoDup (map e_name S) -> merge_parallel S pd = flat_map (act1 pd) S.
Proof.
  intros Hnd. unfold merge_parallel, act1. destruct (1 <? length pd)%nat.
  - rewrite remove_fold.
    + rewrite sum_ones, Z.add_0_l. clear Hnd. induction S as [|e S IH]; [reflexivity|]. cbn [update map filter flat_map]. unfold update in IH.
      rewrite IH. destruct (String.eqb (e_name e) (least_name pd)); cbn [e_name set_param]; destruct (inb (e_name e) (map e_name (tl pd))); reflexivity.
    + unfold update. rewrite map_map.
      rewrite (map_ext _ e_name); [assumption|]. intros e. destruct (String.eqb (e_name e) (least_name pd)); reflexivity.
  - clear Hnd. induction S; simpl; congruence.
Qed.
Lemma act1_name pd e x : In x (act1 pd e) -> e_name x = e_name e.
Proof.
  unfold act1. destruct (1 <? length pd)%nat; [|intros [<-|[]]; reflexivity].
  destruct (inb _ _); [intros []|]. destruct (String.eqb _ _); intros [<-|[]]; reflexivity.
Qed.
Lemma act1_short pd e : (length (act1 pd e) <= 1)%nat.
Proof. unfold act1. destruct (1 <? length pd)%nat; [|simpl; lia]. destruct (inb _ _); [simpl; lia|]. destruct (String.eqb _ _); simpl; lia. Qed.
Lemma flat_names_nodup (f : elem -> list elem) S : (forall e x, In x (f e) -> e_name x = e_name e) -> (forall e, (length (f e) <= 1)%nat) ->
  NoDup (map e_name S) -> NoDup (map e_name (flat_map f S)).
Proof.
  intros Hf Hl. induction S as [|e S IH]; simpl; [auto|]. intros Hnd. apply NoDup_cons_iff in Hnd as (Hn & Hnd). specialize (Hl e).
  destruct (f e) as [|x [|y l]] eqn:E; simpl in Hl |- *; [auto| |lia]. constructor; [|auto].
  assert (Hx : e_name x = e_name e) by (apply Hf; rewrite E; left; reflexivity). rewrite Hx. intros Hi. apply Hn.
  apply in_map_iff in Hi as (z & Ez & Hz). apply in_flat_map in Hz as (w & Hw & Hz). rewrite <- Ez, (Hf _ _ Hz). now apply in_map.
Qed.

Lemma least_in pd : pd <> [] -> In (least_name pd) (map e_name pd).
Proof.
  unfold least_name. destruct pd as [|e pd]; [congruence|]. intros _.
  assert (H : forall l m, In m (map e_name (e :: pd)) -> (forall x, In x l -> In x (e :: pd)) ->
            In (fold_left (fun m x => if String.ltb (e_name x) m then e_name x else m) l m) (map e_name (e :: pd))).
  { induction l as [|x l IH]; intros m Hm Hl; [assumption|]. cbn [fold_left]. apply IH; [|intros; apply Hl; now right].
    destruct (String.ltb (e_name x) m); [|assumption]. apply in_map. apply Hl. now left. }
  apply H; [left; reflexivity|auto].
Qed.
Lemma act1_out pd e : ~ In (e_name e) (map e_name pd) -> act1 pd e = [e].
Proof.
  intros H. unfold act1. destruct (Nat.ltb_spec 1 (length pd)) as [Hl|Hl]; [|reflexivity].
  assert (Hn : inb (e_name e) (map e_name (tl pd)) = false).
  { apply inb_false. intros Hi. apply H. destruct pd; [destruct Hi|right; assumption]. }
  rewrite Hn. destruct (String.eqb_spec (e_name e) (least_name pd)) as [E|]; [|reflexivity].
  exfalso. apply H. rewrite E. apply least_in. destruct pd; [simpl in Hl; lia|discriminate].
Qed.

Definition disj (a b : list elem) : Prop := forall n, In n (map e_name a) -> In n (map e_name b) -> False.
Definition actG (Gs : list (list elem)) (e : elem) : list elem :=
  match find (fun g => inb (e_name e) (map e_name g)) Gs with Some g => act1 g e | None => [e] end.
Lemma actG_out Gs e : (forall g, In g Gs -> ~ In (e_name e) (map e_name g)) -> actG Gs e = [e].
Proof.
  intros H. unfold actG. destruct (find _ Gs) as [g|] eqn:E; [|reflexivity]. apply find_some in E as (Hg & E). apply inb_ok in E. exfalso. exact (H g Hg E).
Qed.
Lemma merge_fold Gs : forall S, NoDup (map e_name S) -> ForallOrdPairs disj Gs ->
  fold_left merge_parallel Gs S = flat_map (actG Gs) S.
Proof.
  induction Gs as [|g Gs IH]; intros S Hnd HG; simpl.
  - clear. induction S; simpl; [reflexivity|]. now rewrite <- IHS.
  - inversion HG as [|? ? Hg HG']; subst. rewrite merge_flat by assumption.
    rewrite IH; [|apply flat_names_nodup; [apply act1_name|apply act1_short|assumption]|assumption].
    rewrite flat_map_flat_map. apply flat_map_ext. intros e. unfold actG at 2. simpl.
    destruct (inb (e_name e) (map e_name g)) eqn:E.
    + assert (Ho : forall x, In x (act1 g e) -> actG Gs x = [x]).
      { intros x Hx. apply actG_out. intros g' Hg' Hi. rewrite (act1_name _ _ _ Hx) in Hi. apply inb_ok in E.
        rewrite Forall_forall in Hg. exact (Hg g' Hg' _ E Hi). }
      revert Ho. generalize (act1 g e). clear. induction l as [|x l IH]; intros Ho; [reflexivity|]. simpl. rewrite Ho by (left; reflexivity). simpl.
      f_equal. apply IH. intros y Hy. apply Ho. now right.
    + apply inb_false in E. rewrite act1_out by assumption. simpl. rewrite app_nil_r. reflexivity.
Qed.

Lemma in_name_inj S (a b : elem) : NoDup (map e_name S) -> In a S -> In b S -> e_name a = e_name b -> a = b.
Proof.
  induction S as [|x S IH]; [intros _ []|]. simpl. intros Hnd Ha Hb E. apply NoDup_cons_iff in Hnd as (Hn & Hnd).
  destruct Ha as [->|Ha], Hb as [->|Hb]; auto.
  - exfalso. apply Hn. rewrite E. now apply in_map.
  - exfalso. apply Hn. rewrite <- E. now apply in_map.
Qed.

(** One net: every device on it goes to its group. *)
Definition nbrs (net : string) (S : list elem) : list elem := filter (fun e => shas (e_params e) PARALLEL) (on_net net S).
Lemma step_flat net S : NoDup (map e_name S) -> parallel_step S net = flat_map (actG (parallel_groups net S)) S.
Proof.
  intros Hnd. unfold parallel_step. apply merge_fold; [assumption|]. unfold parallel_groups. fold (nbrs net S).
  destruct (groups_inv (nbrs net S)) as (F & Hg & _). revert F Hg. generalize (fold_left add_group (nbrs net S) []).
  induction l as [|(q, g) G IH]; intros F Hg; simpl; [constructor|]. inversion F as [|? ? Hx F']; subst. constructor.
  - apply Forall_forall. intros g' Hg'. apply in_map_iff in Hg' as ((q', g'') & <- & Hi). simpl. rewrite Forall_forall in Hx. specialize (Hx _ Hi). simpl in Hx.
    destruct (Hg q g (or_introl eq_refl)) as (E1 & _). destruct (Hg q' g'' (or_intror Hi)) as (E2 & _).
    intros n H1 H2. apply in_map_iff in H1 as (a & <- & Ha). apply in_map_iff in H2 as (b & Eb & Hb).
    rewrite E1 in Ha. rewrite E2 in Hb. apply filter_In in Ha as (Ha & Ka). apply filter_In in Hb as (Hb & Kb).
    assert (a = b).
    { apply (in_name_inj S); auto; unfold nbrs, on_net in *.
      - apply filter_In in Ha as (Ha & _). apply filter_In in Ha as (Ha & _). exact Ha.
      - apply filter_In in Hb as (Hb & _). apply filter_In in Hb as (Hb & _). exact Hb. }
    subst b. rewrite (dict_eqb_trans _ _ q' Ka) in Kb. congruence.
  - apply IH; [assumption|]. intros q' l Hi. apply Hg. now right.
Qed.
(** The group of a device. *)
Lemma group_of net S e : NoDup (map e_name S) -> In e (nbrs net S) ->
  actG (parallel_groups net S) e = act1 (filter (fun x => dict_eqb (key e) (key x)) (nbrs net S)) e.
Proof.
  intros Hnd He. destruct (groups_inv (nbrs net S)) as (F & Hg & Hc). unfold actG, parallel_groups. fold (nbrs net S).
  destruct (find (fun g => inb (e_name e) (map e_name g)) (map snd (fold_left add_group (nbrs net S) []))) as [g|] eqn:E.
  - apply find_some in E as (Hi & E). apply inb_ok in E. apply in_map_iff in Hi as ((q, g') & <- & Hi). simpl in *.
    destruct (Hg q g' Hi) as (El & _). apply in_map_iff in E as (x & Ex & Hx). rewrite El in Hx. apply filter_In in Hx as (Hx & Kx).
    assert (x = e).
    { apply (in_name_inj S); auto; unfold nbrs, on_net in *.
      - apply filter_In in Hx as (Hx & _). apply filter_In in Hx as (Hx & _). exact Hx.
      - apply filter_In in He as (He & _). apply filter_In in He as (He & _). exact He. }
    subst x. rewrite El. f_equal. apply filter_ext. intros a. rewrite dict_eqb_sym. symmetry. now apply dict_eqb_trans.
  - exfalso. destruct (Hc e He) as (q & l & Hi & Hl). apply (find_none _ _ E l) in Hi as Hf || pose proof (find_none _ _ E l (in_map snd _ _ Hi)) as Hf.
    simpl in Hf. apply inb_false in Hf. apply Hf. now apply in_map.
Qed.
Lemma group_none net S e : ~ In (e_name e) (map e_name (nbrs net S)) -> actG (parallel_groups net S) e = [e].
Proof.
  intros H. apply actG_out. intros g Hg Hi. apply H. unfold parallel_groups in Hg. fold (nbrs net S) in Hg.
  destruct (groups_inv (nbrs net S)) as (_ & Hgi & _). apply in_map_iff in Hg as ((q, l) & <- & Hg). destruct (Hgi q l Hg) as (El & _). simpl in Hi. rewrite El in Hi.
  apply in_map_iff in Hi as (x & Ex & Hx). apply filter_In in Hx as (Hx & _). rewrite <- Ex. now apply in_map.
Qed.

(** * The whole pass *)
Definition is_multi (e : elem) : bool := shas (e_params e) PARALLEL.
Lemma is_multi_ok e : is_multi e = true <-> multi e.
Proof. apply shas_ok. Qed.
Lemma set_param_wf k v e : In k (map fst (e_params e)) -> wf_elem e -> wf_elem (set_param k v e).
Proof.
  intros Hk (H1 & H2 & H3 & H4 & H5). unfold wf_elem. cbn [set_param e_pins e_params].
  assert (Ek : map fst (sset (e_params e) k v) = map fst (e_params e)).
  { unfold sset, dset. rewrite (dupd_keys _ (V := string)). apply shas_in in Hk. unfold shas in Hk. now rewrite Hk. }
  rewrite Ek. repeat split; auto.
Qed.
Lemma set_param_get k v e x : sget (e_params (set_param k v e)) x = if String.eqb x k then Some v else sget (e_params e) x.
Proof. apply sget_sset. Qed.
Lemma set_multi v e : is_multi (set_param PARALLEL v e) = true.
Proof. apply is_multi_ok. exists v. apply sget_sset_same. Qed.

Section Pass.
  Variable els : list elem.
  Hypothesis Hwf : wf_netlist els.
  Hypothesis ones : forall e v, In e els -> sget (e_params e) PARALLEL = Some v -> v = "1"%string.
  Hypothesis least : forall l1 a l2 b l3, els = l1 ++ a :: l2 ++ b :: l3 -> multi a -> multi b -> same_device a b -> String.ltb (e_name a) (e_name b) = true.

  Lemma Hnd : NoDup (map e_name els).
  Proof. exact (proj1 Hwf). Qed.
  Local Hint Resolve Hnd : core.
  Lemma wfe e : In e els -> wf_elem e.
  Proof. intros H. destruct Hwf as (_ & Hf & _). rewrite Forall_forall in Hf. auto. Qed.

  Definition cls (e : elem) : list elem := filter (fun x => is_multi x && dict_eqb (key e) (key x)) els.
  Definition isfirst (e : elem) : bool := match cls e with h :: _ => String.eqb (e_name h) (e_name e) | [] => false end.
  Definition touched (ns : list string) (e : elem) : bool := existsb (fun n => touches n e) ns.
  Definition merged (e : elem) : elem := set_param PARALLEL (zstr (Z.of_nat (length (cls e)))) e.
  Definition fe (ns : list string) (e : elem) : list elem :=
    if is_multi e && touched ns e then (if isfirst e then [merged e] else []) else [e].

  Lemma fe_name ns e x : In x (fe ns e) -> e_name x = e_name e.
  Proof. unfold fe. destruct (_ && _); [destruct (isfirst e)|]; simpl; intros H; (destruct H as [<-|[]]; reflexivity) || destruct H. Qed.
  Lemma fe_short ns e : (length (fe ns e) <= 1)%nat.
  Proof. unfold fe. destruct (_ && _); [destruct (isfirst e)|]; simpl; lia. Qed.
  Lemma state_nodup ns : NoDup (map e_name (flat_map (fe ns) els)).
  Proof. apply flat_names_nodup; [apply fe_name|apply fe_short|exact Hnd]. Qed.

  Lemma multi_in e : is_multi e = true -> In PARALLEL (map fst (e_params e)).
  Proof. apply shas_in. Qed.
  Lemma keys_ok a b : In a els -> In b els -> e_model a = e_model b -> same_keys (e_pins a) (e_pins b) /\ same_keys (e_params a) (e_params b).
  Proof. destruct Hwf as (_ & _ & H). apply H. Qed.
  (** Devices whose parameters other than the multiplicity come from the netlist. *)
  Definition from (e x : elem) : Prop := x = e \/ is_multi e = true /\ exists v, x = set_param PARALLEL v e.
  Lemma from_wf e x : In e els -> from e x -> wf_elem x.
  Proof. intros He [->|(Hm & v & ->)]; [now apply wfe|]. apply set_param_wf; [now apply multi_in|now apply wfe]. Qed.
  Lemma from_pins e x : from e x -> e_pins x = e_pins e.
  Proof. intros [->|(_ & v & ->)]; reflexivity. Qed.
  Lemma from_model e x : from e x -> e_model x = e_model e.
  Proof. intros [->|(_ & v & ->)]; reflexivity. Qed.
  Lemma from_keys e x : from e x -> same_keys (e_params x) (e_params e).
  Proof.
    intros [->|(Hm & v & ->)] k; [tauto|]. cbn [set_param e_params]. unfold sset, dset. rewrite (dupd_keys_in _ String.eqb_eq). apply multi_in in Hm. split; [intros [->|H]; assumption|auto].
  Qed.
  Lemma from_params e x k : from e x -> k <> PARALLEL -> sget (e_params x) k = sget (e_params e) k.
  Proof. intros [->|(_ & v & ->)] H; [reflexivity|]. rewrite set_param_get. apply String.eqb_neq in H. now rewrite H. Qed.
  Lemma from_keq a b x y : In a els -> In b els -> from a x -> from b y ->
    dict_eqb (key x) (key y) = true <-> same_device x y /\ sget (e_params x) PARALLEL = sget (e_params y) PARALLEL.
  Proof.
    intros Ha Hb Fa Fb. rewrite keq_parts; [|exact (from_wf a x Ha Fa)|exact (from_wf b y Hb Fb)|].
    - unfold same_device. split.
      + intros (H1 & H2 & H3). repeat split; auto.
      + intros ((H1 & H2 & H3) & H4). repeat split; auto. intros k. destruct (String.string_dec k PARALLEL) as [->|Hk]; auto.
    - rewrite (from_model a x Fa), (from_model b y Fb), (from_pins a x Fa), (from_pins b y Fb). intros Hm.
      destruct (keys_ok a b Ha Hb Hm) as (K1 & K2). split; [assumption|]. intros k. rewrite (from_keys a x Fa k), (from_keys b y Fb k). apply K2.
  Qed.
  Lemma from_same a b x y : In a els -> In b els -> from a x -> from b y -> same_device x y <-> same_device a b.
  Proof.
    intros Ha Hb Fa Fb. unfold same_device. rewrite (from_model a x Fa), (from_model b y Fb), (from_pins a x Fa), (from_pins b y Fb).
    split; intros (H1 & H2 & H3); (split; [assumption|split; [assumption|]]); intros k Hk; specialize (H3 k Hk);
      rewrite (from_params a x k Fa Hk), (from_params b y k Fb Hk) in * || rewrite <- (from_params a x k Fa Hk), <- (from_params b y k Fb Hk); assumption.
  Qed.
  Lemma key_orig a b : In a els -> In b els -> is_multi a = true -> is_multi b = true -> dict_eqb (key a) (key b) = true <-> same_device a b.
  Proof.
    intros Ha Hb Ma Mb. rewrite (from_keq a b a b Ha Hb (or_introl eq_refl) (or_introl eq_refl)). split; [tauto|]. intros H. split; [assumption|].
    apply is_multi_ok in Ma as (va & Ea), Mb as (vb & Eb). rewrite Ea, Eb. f_equal. rewrite (ones a va Ha Ea). symmetry. exact (ones b vb Hb Eb).
  Qed.
  Lemma same_touch n a b : In a els -> In b els -> same_device a b -> touches n a = touches n b.
  Proof.
    intros Ha Hb (_ & Hp & _). apply eq_true_iff_eq. rewrite (touches_ok n a (wfe a Ha)), (touches_ok n b (wfe b Hb)).
    split; intros (k & E); exists k; [rewrite <- Hp|rewrite Hp]; exact E.
  Qed.
  Lemma same_touched ns a b : In a els -> In b els -> same_device a b -> touched ns a = touched ns b.
  Proof.
    intros Ha Hb H. unfold touched. induction ns as [|n ns IH]; [reflexivity|]. simpl. rewrite IH. f_equal. now apply same_touch.
  Qed.
  Lemma from_touch n e x : from e x -> touches n x = touches n e.
  Proof. intros F. unfold touches. now rewrite (from_pins e x F). Qed.
  Lemma same_sym a b : same_device a b -> same_device b a.
  Proof. intros (H1 & H2 & H3). split; [auto|split; [auto|intros k Hk; symmetry; auto]]. Qed.
  Lemma same_trans a b c : same_device a b -> same_device b c -> same_device a c.
  Proof. intros (H1 & H2 & H3) (H4 & H5 & H6). split; [congruence|split; [intros k; rewrite H2; apply H5|intros k Hk; rewrite H3; auto]]. Qed.
  Lemma same_refl a : same_device a a.
  Proof. repeat split. Qed.

  Lemma cls_in e x : In e els -> is_multi e = true -> In x (cls e) <-> In x els /\ is_multi x = true /\ same_device e x.
  Proof.
    intros He Me. unfold cls. rewrite filter_In, andb_true_iff. split.
    - intros (Hx & Mx & K). apply (key_orig e x He Hx Me Mx) in K. auto.
    - intros (Hx & Mx & H). repeat split; auto. now apply key_orig.
  Qed.
  Lemma cls_self e : In e els -> is_multi e = true -> In e (cls e).
  Proof. intros He Me. apply cls_in; auto. split; [assumption|split; [assumption|apply same_refl]]. Qed.
  Lemma cls_eq a b : In a els -> In b els -> is_multi a = true -> is_multi b = true -> same_device a b -> cls a = cls b.
  Proof.
    intros Ha Hb Ma Mb H. unfold cls. apply filter_ext_in. intros x Hx. destruct (is_multi x) eqn:Mx; simpl; [|reflexivity].
    apply dict_eqb_trans. now apply key_orig.
  Qed.
  Lemma first_unique a b : In a els -> In b els -> is_multi a = true -> is_multi b = true -> same_device a b -> isfirst a = true -> isfirst b = true -> a = b.
  Proof.
    intros Ha Hb Ma Mb H. unfold isfirst. rewrite (cls_eq a b Ha Hb Ma Mb H). destruct (cls b) as [|h t]; [discriminate|].
    rewrite !String.eqb_eq. intros E1 E2. apply (in_name_inj els); auto; congruence.
  Qed.

  Lemma fe_from ns e x : In x (fe ns e) -> from e x.
  Proof.
    unfold fe. destruct (is_multi e) eqn:M; simpl; [|intros [<-|[]]; now left].
    destruct (touched ns e); [|intros [<-|[]]; now left]. destruct (isfirst e); [intros [<-|[]]|intros []]. right. split; [assumption|]. eexists. reflexivity.
  Qed.
  Lemma from_multi e x : from e x -> is_multi x = is_multi e.
  Proof. intros [->|(Hm & v & ->)]; [reflexivity|]. now rewrite set_multi. Qed.

  Lemma filter_flat (p : elem -> bool) (f g : elem -> list elem) l : (forall e, In e l -> filter p (f e) = g e) -> filter p (flat_map f l) = flat_map g l.
  Proof.
    induction l as [|e l IH]; intros H; [reflexivity|]. simpl. rewrite filter_app, IH by (intros; apply H; now right). f_equal. apply H. now left.
  Qed.
  Lemma flat_single (e0 y : elem) l : NoDup (map e_name l) -> In e0 l -> flat_map (fun e => if String.eqb (e_name e) (e_name e0) then [y] else []) l = [y].
  Proof.
    induction l as [|e l IH]; [intros _ []|]. simpl. intros Hn Hi. apply NoDup_cons_iff in Hn as (Hn & Hn'). destruct Hi as [->|Hi].
    - rewrite String.eqb_refl. simpl. f_equal. clear IH. induction l as [|x l IH]; [reflexivity|]. simpl in *.
      destruct (String.eqb_spec (e_name x) (e_name e0)) as [E|]; [exfalso; apply Hn; left; assumption|]. simpl. apply IH; [tauto|]. now apply NoDup_cons_iff in Hn'.
    - destruct (String.eqb_spec (e_name e) (e_name e0)) as [E|]; [exfalso; apply Hn; rewrite E; now apply in_map|]. simpl. auto.
  Qed.
  Lemma flat_if_filter (p : elem -> bool) l : flat_map (fun e => if p e then [e] else []) l = filter p l.
  Proof. induction l as [|e l IH]; [reflexivity|]. simpl. rewrite IH. destruct (p e); reflexivity. Qed.
  Lemma nbrs_filter n S : nbrs n S = filter (fun e => touches n e && is_multi e) S.
  Proof.
    unfold nbrs, on_net. induction S as [|e S IH]; [reflexivity|]. simpl. destruct (touches n e); simpl; [|assumption].
    fold (is_multi e). destruct (is_multi e); simpl; [f_equal|]; assumption.
  Qed.
  Lemma filter_filter {A} (p q : A -> bool) l : filter p (filter q l) = filter (fun x => q x && p x) l.
  Proof. induction l as [|x l IH]; [reflexivity|]. simpl. destruct (q x); simpl; [destruct (p x)|]; rewrite ?IH; reflexivity. Qed.

  Lemma ltb_asym a b : String.ltb a b = true -> String.ltb b a = false.
  Proof. unfold String.ltb. rewrite (String.compare_antisym b a). destruct (String.compare a b); simpl; congruence. Qed.
  Lemma least_first h t : (forall x, In x t -> String.ltb (e_name x) (e_name h) = false) -> least_name (h :: t) = e_name h.
  Proof.
    intros H. unfold least_name. cbn [fold_left].
    assert (Hh : String.ltb (e_name h) (e_name h) = false).
    { unfold String.ltb. destruct (String.compare (e_name h) (e_name h)) eqn:E; try reflexivity. exfalso.
      pose proof (String.compare_antisym (e_name h) (e_name h)) as A. rewrite E in A. discriminate A. }
    rewrite Hh. revert H. induction t as [|x t IH]; intros H; [reflexivity|]. cbn [fold_left]. rewrite (H x) by (left; reflexivity). apply IH. intros y Hy. apply H. now right.
  Qed.
  Lemma filter_split {A} (p : A -> bool) l h t x : filter p l = h :: t -> In x t -> exists l1 l2 l3, l = l1 ++ h :: l2 ++ x :: l3.
  Proof.
    revert h t. induction l as [|a l IH]; intros h t; [discriminate|]. simpl. destruct (p a).
    - intros [= <- <-] Hx. apply filter_In in Hx as (Hx & _). apply in_split in Hx as (l2 & l3 & ->). now exists [], l2, l3.
    - intros E Hx. destruct (IH h t E Hx) as (l1 & l2 & l3 & ->). now exists (a :: l1), l2, l3.
  Qed.
  Lemma cls_least e h t : In e els -> is_multi e = true -> cls e = h :: t -> least_name (h :: t) = e_name h /\ forall x, In x t -> e_name x <> e_name h.
  Proof.
    intros He Me E.
    assert (Hin : forall x, In x (h :: t) -> In x els /\ is_multi x = true /\ same_device e x) by (intros x Hx; apply cls_in; auto; rewrite E; assumption).
    assert (Hlt : forall x, In x t -> String.ltb (e_name h) (e_name x) = true).
    { intros x Hx. destruct (filter_split _ _ _ _ x E Hx) as (l1 & l2 & l3 & El). destruct (Hin h (or_introl eq_refl)) as (_ & Mh & Sh). destruct (Hin x (or_intror Hx)) as (_ & Mx & Sx).
      apply (least l1 h l2 x l3 El); [now apply is_multi_ok|now apply is_multi_ok|]. apply (same_trans h e x); [now apply same_sym|assumption]. }
    split.
    - apply least_first. intros x Hx. apply ltb_asym. auto.
    - intros x Hx En. pose proof (Hlt x Hx) as H1. pose proof (ltb_asym _ _ H1) as H2. rewrite En in H1, H2. congruence.
  Qed.

  Lemma merged_id e : In e els -> is_multi e = true -> length (cls e) = 1%nat -> merged e = e.
  Proof.
    intros He Me Hl. unfold merged. rewrite Hl. apply is_multi_ok in Me as (v & Ev). pose proof (ones e v He Ev) as ->.
    unfold set_param. change (zstr (Z.of_nat 1)) with "1"%string. rewrite sset_same by assumption. now destruct e.
  Qed.

  Lemma step_state ns n : parallel_step (flat_map (fe ns) els) n = flat_map (fe (n :: ns)) els.
  Proof.
    set (S := flat_map (fe ns) els). rewrite step_flat by apply state_nodup. unfold S at 2. rewrite flat_map_flat_map.
    assert (Hext : forall f g (l : list elem), (forall x, In x l -> f x = g x :> list elem) -> flat_map f l = flat_map g l).
    { intros f g l H. induction l as [|x l IH]; [reflexivity|]. simpl. rewrite H by (left; reflexivity). f_equal. apply IH. intros y Hy. apply H. now right. }
    apply Hext. intros e He.
    assert (HinS : forall x, In x (fe ns e) -> In x S) by (intros x Hx; apply in_flat_map; exists e; auto).
    assert (Hout : forall x, In x (fe ns e) -> touches n e && is_multi e = false -> actG (parallel_groups n S) x = [x]).
    { intros x Hx Hf. apply group_none. intros Hi. apply in_map_iff in Hi as (y & Ey & Hy). rewrite nbrs_filter in Hy. apply filter_In in Hy as (Hy & Ty).
      assert (y = x) by (apply (in_name_inj S); auto; apply state_nodup). subst y.
      rewrite (from_touch n e x (fe_from ns e x Hx)), (from_multi e x (fe_from ns e x Hx)) in Ty. congruence. }
    assert (Hnb : forall x, In x (fe ns e) -> touches n e && is_multi e = true -> In x (nbrs n S)).
    { intros x Hx Hf. rewrite nbrs_filter. apply filter_In. split; [auto|]. now rewrite (from_touch n e x (fe_from ns e x Hx)), (from_multi e x (fe_from ns e x Hx)). }
    unfold fe at 2. cbn [touched existsb]. fold (touched ns e).
    destruct (is_multi e) eqn:Me; cbn [andb].
    2:{ assert (Ef : fe ns e = [e]) by (unfold fe; now rewrite Me). rewrite Ef in *. simpl. rewrite Hout; [reflexivity|now left|]. now rewrite andb_false_r. }
    destruct (touched ns e) eqn:Te; rewrite ?orb_true_r, ?orb_false_r.
    - (* merged before *)
      destruct (isfirst e) eqn:Fe; assert (Ef : fe ns e = if isfirst e then [merged e] else []) by (unfold fe; now rewrite Me, Te); rewrite Fe in Ef; rewrite Ef in *; [|reflexivity].
      simpl. rewrite app_nil_r. destruct (touches n e) eqn:Tn; [|rewrite Hout; [reflexivity|now left|reflexivity]].
      rewrite group_of; [|apply state_nodup|apply Hnb; [now left|reflexivity]].
      assert (Eg : filter (fun x => dict_eqb (key (merged e)) (key x)) (nbrs n S) = [merged e]).
      { rewrite nbrs_filter, filter_filter. unfold S.
        rewrite (filter_flat _ _ (fun x => if String.eqb (e_name x) (e_name e) then [merged e] else [])); [apply flat_single; auto|].
        intros x Hx. destruct (String.eqb_spec (e_name x) (e_name e)) as [En|En].
        - assert (x = e) by (apply (in_name_inj els); auto). subst x. rewrite Ef. simpl.
          assert (Fm : from e (merged e)) by (apply (fe_from ns); rewrite Ef; left; reflexivity).
          rewrite (from_touch n e _ Fm), Tn, (from_multi e _ Fm), Me, dict_eqb_refl. reflexivity.
        - assert (Fm : from e (merged e)) by (apply (fe_from ns); rewrite Ef; left; reflexivity).
          assert (Hno : forall y, In y (fe ns x) -> touches n y && is_multi y && dict_eqb (key (merged e)) (key y) = false).
          { intros y Hy. destruct (dict_eqb (key (merged e)) (key y)) eqn:K; [|now rewrite andb_false_r]. pose proof (fe_from ns x y Hy) as Fy.
            apply (from_keq e x _ _ He Hx Fm Fy) in K as (K & _). apply (from_same e x _ _ He Hx Fm Fy) in K.
            rewrite (from_multi x y Fy). destruct (is_multi x) eqn:Mx; [|now rewrite !andb_false_r].
            exfalso. unfold fe in Hy. rewrite Mx, <- (same_touched ns e x He Hx K), Te in Hy. simpl in Hy. destruct (isfirst x) eqn:Fx; [|destruct Hy].
            apply En. now rewrite (first_unique e x He Hx Me Mx K Fe Fx). }
          revert Hno. generalize (fe ns x). induction l as [|y l IH]; intros Hno; [reflexivity|]. simpl. rewrite Hno by (left; reflexivity). apply IH. intros z Hz. apply Hno. now right. }
      rewrite Eg. reflexivity.
    - (* not touched before *)
      assert (Ef : fe ns e = [e]) by (unfold fe; now rewrite Me, Te). rewrite Ef in *. simpl. rewrite app_nil_r.
      destruct (touches n e) eqn:Tn; [|rewrite Hout; [reflexivity|now left|reflexivity]].
      rewrite group_of; [|apply state_nodup|apply Hnb; [now left|reflexivity]].
      assert (Eg : filter (fun x => dict_eqb (key e) (key x)) (nbrs n S) = cls e).
      { rewrite nbrs_filter, filter_filter. unfold S, cls. rewrite <- (flat_if_filter (fun x => is_multi x && dict_eqb (key e) (key x))). apply filter_flat. intros x Hx.
        destruct (is_multi x && dict_eqb (key e) (key x)) eqn:K.
        - apply andb_true_iff in K as (Mx & K). pose proof (proj1 (key_orig e x He Hx Me Mx) K) as Sx.
          assert (Ex : fe ns x = [x]) by (unfold fe; now rewrite <- (same_touched ns e x He Hx Sx), Te, andb_false_r). rewrite Ex. simpl.
          rewrite <- (same_touch n e x He Hx Sx), Tn, Mx, K. reflexivity.
        - assert (Hno : forall y, In y (fe ns x) -> touches n y && is_multi y && dict_eqb (key e) (key y) = false).
          { intros y Hy. pose proof (fe_from ns x y Hy) as Fy. destruct (dict_eqb (key e) (key y)) eqn:K'; [|now rewrite andb_false_r].
            apply (from_keq e x e y He Hx (or_introl eq_refl) Fy) in K' as (K' & _). apply (from_same e x e y He Hx (or_introl eq_refl) Fy) in K'.
            rewrite (from_multi x y Fy). destruct (is_multi x) eqn:Mx; [|now rewrite andb_false_r].
            exfalso. simpl in K. apply (key_orig e x He Hx Me Mx) in K'. congruence. }
          revert Hno. generalize (fe ns x). induction l as [|y l IH]; intros Hno; [reflexivity|]. simpl. rewrite Hno by (left; reflexivity). apply IH. intros z Hz. apply Hno. now right. }
      rewrite Eg. pose proof (cls_self e He Me) as Hse. destruct (cls e) as [|h t] eqn:Ec; [destruct Hse|].
      destruct (cls_least e h t He Me Ec) as (Hl & Hne).
      assert (Hh : In h els /\ is_multi h = true) by (destruct (proj1 (cls_in e h He Me)) as (? & ? & _); [rewrite Ec; left; reflexivity|auto]).
      unfold act1, isfirst. rewrite Ec. destruct (Nat.ltb_spec 1 (length (h :: t))) as [Hlen|Hlen].
      + cbn [tl]. destruct (String.eqb_spec (e_name h) (e_name e)) as [En|En].
        * assert (Hn : inb (e_name e) (map e_name t) = false).
          { apply inb_false. intros Hi. apply in_map_iff in Hi as (x & Ex & Hx). apply (Hne x Hx). congruence. }
          rewrite Hn, Hl, En, String.eqb_refl. unfold merged. now rewrite Ec.
        * assert (Hn : inb (e_name e) (map e_name t) = true).
          { apply inb_ok. destruct Hse as [->|Hse]; [congruence|]. now apply in_map. }
          now rewrite Hn.
      + destruct t; [|simpl in Hlen; lia]. destruct Hse as [->|[]]. rewrite String.eqb_refl. f_equal. symmetry. apply merged_id; auto. now rewrite Ec.
  Qed.

  Lemma pass_state ns : add_parallel_devices ns els = flat_map (fe (rev ns)) els.
  Proof.
    unfold add_parallel_devices. induction ns as [|n ns IH] using rev_ind.
    - simpl. transitivity (flat_map (fun e : elem => [e]) els).
      + clear. induction els; simpl; congruence.
      + apply flat_map_ext. intros e. unfold fe. simpl. now rewrite andb_false_r.
    - rewrite fold_left_app. cbn [fold_left]. rewrite IH, rev_app_distr. apply step_state.
  Qed.

  Lemma all_touched ns e : (forall n, In n ns <-> In n (nets els)) -> In e els -> touched (rev ns) e = true.
  Proof.
    intros Hns He. destruct (wfe e He) as (_ & _ & _ & _ & Hp). destruct (e_pins e) as [|(p, n) ps] eqn:Ep; [congruence|].
    unfold touched. apply existsb_exists. exists n. split.
    - rewrite <- in_rev. apply Hns. apply nets_in. exists e, (p, n). rewrite Ep. repeat split; [assumption|left; reflexivity].
    - unfold touches. rewrite Ep. simpl. now rewrite String.eqb_refl.
  Qed.
  Lemma pass_final ns : (forall n, In n ns <-> In n (nets els)) ->
    add_parallel_devices ns els = flat_map (fun e => if is_multi e then (if isfirst e then [merged e] else []) else [e]) els.
  Proof.
    intros Hns. rewrite pass_state.
    assert (H : forall l, (forall x, In x l -> In x els) -> flat_map (fe (rev ns)) l = flat_map (fun e => if is_multi e then (if isfirst e then [merged e] else []) else [e]) l).
    { induction l as [|e l IH]; intros Hl; [reflexivity|]. simpl. rewrite IH by (intros; apply Hl; now right). f_equal. unfold fe.
      rewrite (all_touched ns e Hns) by (apply Hl; now left). now rewrite andb_true_r. }
    now apply H.
  Qed.
  Lemma first_exists e : In e els -> is_multi e = true -> exists h, In h els /\ is_multi h = true /\ same_device e h /\ isfirst h = true.
  Proof.
    intros He Me. pose proof (cls_self e He Me) as Hse. destruct (cls e) as [|h t] eqn:Ec; [destruct Hse|]. exists h.
    destruct (proj1 (cls_in e h He Me)) as (Hh & Mh & Sh); [rewrite Ec; left; reflexivity|]. repeat split; auto; try apply Sh.
    unfold isfirst. rewrite <- (cls_eq e h He Hh Me Mh Sh), Ec. apply String.eqb_refl.
  Qed.
  Lemma cls_class e : In e els -> is_multi e = true -> class els e (cls e).
  Proof.
    intros He Me. split.
    - unfold cls. apply NoDup_filter. apply (NoDup_map_inv e_name). exact Hnd.
    - intros x. rewrite cls_in by assumption. now rewrite is_multi_ok.
  Qed.
  Lemma merged_same e : In e els -> is_multi e = true -> same_device e (merged e).
  Proof.
    intros He Me. apply (from_same e e e (merged e) He He (or_introl eq_refl)); [|apply same_refl]. right. split; [assumption|]. eexists. reflexivity.
  Qed.
End Pass.
