(** C57: grouping elements of a subcircuit (match_graph.py:128-223). *)
From Coq Require Import String.
From Verif Require Import Base.Prelude Base.PyDict Model.RemoveDuplicates Model.Canvas Model.Netlist Model.Hier Model.NewHier Model.GroupBlock Spec.HierSpec Spec.CircuitSpec Proofs.HierP Proofs.FindDummyP Proofs.NewHierP Proofs.FoldP Proofs.CircuitP Proofs.GroupBlockP.

(** The names of one grouping do not clash: a subcircuit that has the name of the group already has
    the same elements, it is not the parent, and the new instance is not called like an element that
    stays. *)
Definition no_clash (gname : list elem -> string) (L : lib) (pn iname : string) (names : list string) : Prop := forall p, lfind L pn = Some (Sub p) ->
  let ni := canon_insts (group_insts (sb_elems p) names) in
  (forall c, lfind L (gname ni) = Some c -> exists s, c = Sub s /\ sb_elems s = ni) /\ gname ni <> pn /\
  (forall e, In e (sb_elems p) -> ~ In (e_name e) names -> e_name e <> iname).
(** A sequence of groupings in one subcircuit. *)
Inductive groups (gname : list elem -> string) (pn : string) : lib -> list (string * list string) -> lib -> Prop :=
| groups_nil L : groups gname pn L [] L
| groups_cons L i ns gs L1 L2 : no_clash gname L pn i ns -> group_block gname L pn i ns = Some L1 -> groups gname pn L1 gs L2 -> groups gname pn L ((i, ns) :: gs) L2.

Lemma group_parent gname L pn i ns L' : group_block gname L pn i ns = Some L' -> exists p, lfind L pn = Some (Sub p).
Proof. unfold group_block. destruct (lfind L pn) as [[l|p]|]; try discriminate. eauto. Qed.

(** One grouping: every subcircuit of the library keeps its ports and its flat netlist; the library
    stays well formed and free of recursion. *)
Theorem C57_flat gname L pn iname names L' : well_formed L -> params_nodup L -> no_clash gname L pn iname names -> group_block gname L pn iname names = Some L' ->
  well_formed L' /\ (acyclic L -> acyclic L') /\
  (forall n c, lfind L n = Some (Sub c) -> exists c', lfind L' n = Some (Sub c') /\ sb_pins c' = sb_pins c /\ same_circuit L c L' c') /\
  (forall n l, lfind L n = Some (Prim l) -> lfind L' n = Some (Prim l)).
Proof.
  intros W Pn Hc H. destruct (group_parent _ _ _ _ _ _ H) as (p & Hp). destruct (Hc p Hp) as (C1 & C2 & C3). destruct (group_ok gname L pn iname names p W Hp C1 C2 Pn C3 L' H) as (A1 & A2 & A3 & A4 & _).
  split; [assumption|]. split; [assumption|]. split; [|assumption]. intros n c Hn. destruct (lfind_in _ _ _ Hn) as (Hi & En). cbn [cell_name] in En. subst n. exact (A3 c Hi).
Qed.
Print Assumptions C57_flat.

(** Any sequence of groupings. *)
Theorem C57_sequence gname pn L gs L' : groups gname pn L gs L' -> well_formed L -> params_nodup L ->
  well_formed L' /\ (acyclic L -> acyclic L') /\
  (forall n c, lfind L n = Some (Sub c) -> exists c', lfind L' n = Some (Sub c') /\ sb_pins c' = sb_pins c /\ same_circuit L c L' c') /\
  (forall n l, lfind L n = Some (Prim l) -> lfind L' n = Some (Prim l)).
Proof.
  induction 1 as [L|L i ns gs L1 L2 Hc H1 _ IH]; intros W Pn.
  - split; [assumption|]. split; [auto|]. split; [|auto]. intros n c Hn. exists c. split; [assumption|]. split; [reflexivity|]. apply same_circuit_refl.
  - destruct (C57_flat _ _ _ _ _ _ W Pn Hc H1) as (A1 & A2 & A3 & A4). assert (P1 : params_nodup L1).
    { destruct (group_parent _ _ _ _ _ _ H1) as (p & Hp). destruct (Hc p Hp) as (C1 & C2 & C3). exact (proj2 (proj2 (proj2 (proj2 (proj2 (proj2 (group_ok gname L pn i ns p W Hp C1 C2 Pn C3 L1 H1))))))). }
    destruct (IH A1 P1) as (B1 & B2 & B3 & B4). split; [assumption|]. split; [auto|]. split; [|auto]. intros n c Hn. destruct (A3 n c Hn) as (c1 & K1 & K2 & K3). destruct (B3 n c1 K1) as (c2 & K4 & K5 & K6). exists c2. split; [assumption|]. split; [congruence|]. exact (same_circuit_trans _ _ _ _ _ _ K3 K6).
Qed.
Print Assumptions C57_sequence.

(** It succeeds when some net of the group leaves it, the elements may be called M0, M1, …, and a
    subcircuit of that name, if there is one, has the pins of the group. *)
Theorem C57_completes gname L pn iname names p : well_formed L -> params_nodup L -> lfind L pn = Some (Sub p) -> (forall n, In n names -> In n (map e_name (sb_elems p))) -> (exists n, crosses p names n) ->
  (forall e m, In e (sb_elems p) -> In (e_name e) names -> lfind L (e_model e) = Some m -> cell_prefix m = EmptyString \/ cell_prefix m = "M"%string) ->
  let insts := group_insts (sb_elems p) names in
  lfind L (gname (canon_insts insts)) = None \/ (exists s, lfind L (gname (canon_insts insts)) = Some (Sub s) /\ forall q, In q (sb_pins s) <-> exists n, In n (group_pins p insts) /\ q = canon_net (group_nets insts) n) ->
  exists L', group_block gname L pn iname names = Some L'.
Proof.
  intros W Pn Hp Hn Hx Hpre insts Hc. unfold group_block. rewrite Hp. assert (E : forallb (fun n => in_strs n (map e_name (sb_elems p))) names = true) by (apply forallb_forall; intros n H; apply in_strs_iff; auto). rewrite E. cbn [negb]. fold insts.
  assert (G : exists L1 s, with_child gname L p insts = Some L1 /\ lfind L1 (gname (canon_insts insts)) = Some (Sub s) /\ forall q, In q (map fst (map (fun n => (canon_net (group_nets insts) n, n)) (group_pins p insts))) <-> In q (sb_pins s)).
  { assert (K : forall q, In q (map fst (map (fun n => (canon_net (group_nets insts) n, n)) (group_pins p insts))) <-> exists n, In n (group_pins p insts) /\ q = canon_net (group_nets insts) n) by (intros q; rewrite map_map, in_map_iff; cbn [fst]; split; intros (n & A & B); exists n; auto).
    unfold with_child. destruct Hc as [Hc|(s & Hc & Hs)].
    - rewrite Hc. destruct (group_pins p insts) as [|g0 gs] eqn:Eg; [destruct Hx as (n & Hx); apply (crosses_gp L pn names p W Hp) in Hx; fold insts in Hx; rewrite Eg in Hx; destruct Hx|]. rewrite <- Eg in *.
      set (M := L ++ _). assert (S : mapM (fun e => mk_inst M (e_name e) (e_model e) (e_pins e) (e_params e)) (canon_insts insts) = Some (canon_insts insts)).
      { rewrite (canon_twin insts (insts_nodup L pn names p W Hp)). assert (T : forall l, (forall e, In e l -> In e insts) -> mapM (fun e => mk_inst M (e_name e) (e_model e) (e_pins e) (e_params e)) (map (twin insts) l) = Some (map (twin insts) l)); [|apply T; auto].
        induction l as [|e l IH]; intros Hl; [reflexivity|]. cbn [map mapM]. destruct (twin_ok L pn names p W Hp e (Hl e (or_introl eq_refl))) as (_ & m & Hm & Hq & Hr). pose proof (Hl e (or_introl eq_refl)) as He. apply (insts_in names p) in He as (He & He2).
        rewrite mk_inst_ok with (c := m); [rewrite IH; [reflexivity|intros e' He'; apply Hl; now right]| | |exact Hq|exact Hr|].
        - unfold M, lfind in *. clear - Hm. induction L as [|a l0 IH]; cbn [app find] in *; [discriminate|]. destruct (String.eqb _ _); auto.
        - destruct (Hpre e m He He2 Hm) as [-> | ->]; [destruct (e_name _); reflexivity|]. cbn [twin canon_inst e_name fst String.append]. generalize (zstr (index_of (e_name e) (map e_name insts))) as t. intros [|a t]; reflexivity.
        - enough (X : NoDup (map fst (e_params (twin (group_insts (sb_elems p) names) e)))) by exact X. rewrite Hr. apply Pn. exact (proj1 (lfind_in _ _ _ Hm)). }
      rewrite S. do 2 eexists. split; [reflexivity|]. split; [rewrite find_app_one, Hc; cbn [sb_name]; now rewrite String.eqb_refl|]. intros q. rewrite map_map. reflexivity.
    - rewrite Hc. exists L, s. split; [reflexivity|]. split; [assumption|]. intros q. now rewrite K, Hs. }
  destruct G as (L1 & s & -> & Hs & Hq). destruct (remaining L pn names p W Hp) as (rest & R & _). fold insts in R. rewrite R. unfold mk_inst. rewrite Hs. cbn [cell_prefix cell_pins]. assert (Q : String.prefix EmptyString iname = true) by (destruct iname; reflexivity). rewrite Q. rewrite (proj2 (same_set_iff _ _) Hq). cbn [negb]. eauto.
Qed.
Print Assumptions C57_completes.

(** A new group holds exactly the elements named, called M0, M1, …, with the nets renamed one to one;
    its pins are exactly the nets that leave the group; and the instance that replaces them connects
    each pin to its net. *)
Theorem C57_child gname L pn iname names L' p : well_formed L -> params_nodup L -> no_clash gname L pn iname names -> lfind L pn = Some (Sub p) -> group_block gname L pn iname names = Some L' ->
  (forall e1 e2, In e1 (sb_elems p) -> In e2 (sb_elems p) -> ~ on e1 (e_name e2)) ->
  exists order rho crossing rest cn p' x,
    (forall e, In e order <-> In e (sb_elems p) /\ In (e_name e) names) /\ NoDup order /\
    (forall e1 e2 n1 n2, In e1 order -> In e2 order -> on e1 n1 -> on e2 n2 -> rho n1 = rho n2 -> n1 = n2) /\
    NoDup crossing /\ (forall n, In n crossing <-> crosses p names n) /\
    lfind L' pn = Some (Sub p') /\ sb_elems p' = rest ++ [x] /\ (forall e, In e rest <-> In e (sb_elems p) /\ ~ In (e_name e) names) /\
    e_name x = iname /\ e_model x = cn /\ e_pins x = map (fun n => (rho n, n)) crossing /\
    exists child, lfind L' cn = Some (Sub child) /\ (forall q, In q (sb_pins child) <-> In q (map rho crossing)) /\ length (sb_elems child) = length order /\
      forall i e, nth_error order i = Some e -> nth_error (sb_elems child) i = Some (mkElem ("M" ++ zstr (Z.of_nat i))%string (e_model e) (map (fun qn => (fst qn, rho (snd qn))) (e_pins e)) (e_params e)).
Proof.
  intros W Pn Hc Hp H D. destruct (Hc p Hp) as (C1 & C2 & C3). destruct (group_ok gname L pn iname names p W Hp C1 C2 Pn C3 L' H) as (_ & _ & _ & _ & (rest & child & x & p' & F1 & F2 & F3 & F4 & F5 & F6 & F7 & F8 & F9 & F10) & _ & _).
  set (insts := group_insts (sb_elems p) names) in *. exists insts, (canon_net (group_nets insts)), (group_pins p insts), rest, (gname (canon_insts insts)), p', x.
  split; [exact (insts_in names p)|]. split; [exact (NoDup_map_inv _ _ (insts_nodup L pn names p W Hp))|]. split.
  { intros e1 e2 n1 n2 H1 H2 O1 O2. apply canon_net_inj; apply (nets_in L pn names p W Hp); eauto. }
  split; [exact (gp_nd names p)|]. split.
  { intros n. split; [|exact (crosses_gp L pn names p W Hp n)]. intros Hn. apply filter_In in Hn as (Hn & Hf). apply (nets_in L pn names p W Hp) in Hn as (e & He & Ho). apply (insts_in names p) in He as (He & Hen). exists e. split; [assumption|]. split; [assumption|]. split; [assumption|]. apply orb_true_iff in Hf as [Hf|Hf]; [right|left; now apply in_strs_iff].
    apply negb_true_iff in Hf. assert (X : exists y, In y (neighbors (sb_elems p) n) /\ ~ In y (map e_name insts)).
    { clear - Hf. revert Hf. generalize (neighbors (sb_elems p) n) as l. induction l as [|y l IH]; cbn [forallb]; intros Hf; [discriminate|]. destruct (in_strs y (map e_name insts)) eqn:E; [destruct (IH Hf) as (z & Hz & Hn); exists z; split; [now right|assumption]|]. exists y. split; [now left|]. intros H. apply in_strs_iff in H. congruence. }
    destruct X as (y & Hy & Hny). apply neighbors_in in Hy as [(e2 & He2 & E2 & _)|(e2 & He2 & E2 & O2)]; [exfalso; apply (D e e2 He He2); congruence|]. exists e2. split; [assumption|]. split; [|assumption]. intros Hi. apply Hny. rewrite <- E2. apply in_map. apply (insts_in names p). auto. }
  split; [assumption|]. split; [assumption|]. split; [assumption|]. split; [assumption|]. split; [assumption|]. split; [assumption|]. exists child. split; [assumption|]. split; [assumption|]. rewrite F2. unfold canon_insts. rewrite map_length.
  assert (En : forall (l : list elem) k, length (enum k l) = length l /\ forall i e, nth_error l i = Some e -> nth_error (enum k l) i = Some ((k + Z.of_nat i)%Z, e)).
  { induction l as [|a l IH]; intros k; [split; [reflexivity|intros [|i] e; discriminate]|]. cbn [enum length]. destruct (IH (k + 1)%Z) as (I1 & I2). split; [now rewrite I1|]. intros [|i] e E; [injection E as <-; cbn; now rewrite Z.add_0_r|]. cbn [nth_error]. rewrite (I2 i e E). do 2 f_equal. lia. }
  destruct (En insts 0%Z) as (N1 & N2). split; [assumption|]. intros i e E. rewrite nth_error_map, (N2 i e E). reflexivity.
Qed.
Print Assumptions C57_child.

(** The group does not depend on the names: with other names of the instances and of the nets, one to one,
    the canonical elements, and so the name of the group, are the same. *)
Definition renamed (f g : string -> string) (e : elem) : elem := mkElem (f (e_name e)) (e_model e) (map (fun qn => (fst qn, g (snd qn))) (e_pins e)) (e_params e).
Lemma ksorted_map {A B} (h : A -> B) k1 k2 l : (forall x, In x l -> k2 (h x) = k1 x) -> ksorted k2 (map h l) = map h (ksorted k1 l).
Proof.
  unfold ksorted. assert (P : forall l, Permutation (fold_right (kinsert k1) [] l) l) by exact (ksorted_perm k1).
  induction l as [|x l IH]; intros H; [reflexivity|]. cbn [map fold_right]. rewrite IH by (intros; apply H; now right).
  assert (K : forall m, (forall y, In y m -> k2 (h y) = k1 y) -> kinsert k2 (h x) (map h m) = map h (kinsert k1 x m)).
  { induction m as [|y m IHm]; intros Hm; [reflexivity|]. cbn [map kinsert]. rewrite (H x (or_introl eq_refl)), (Hm y (or_introl eq_refl)). destruct (String.leb (k1 x) (k1 y)); [reflexivity|]. cbn [map]. f_equal. apply IHm. intros; apply Hm; now right. }
  apply K. intros y Hy. apply H. right. exact (Permutation_in _ (P l) Hy).
Qed.
Lemma keys_map (g : string -> string) (d : dict) : map fst (map (fun qn => (fst qn, g (snd qn))) d) = map fst d.
Proof. rewrite map_map. reflexivity. Qed.
Lemma at_key_map (g : string -> string) (d : dict) k : In k (map fst d) -> at_key (map (fun qn => (fst qn, g (snd qn))) d) k = g (at_key d k) /\ In (at_key d k) (map snd d).
Proof.
  unfold at_key, sget. induction d as [|(q, n) d IH]; intros H; [destruct H|]. cbn [map dget fst snd]. destruct (String.eqb_spec q k) as [->|Hn]; [rewrite ?String.eqb_refl; split; [reflexivity|now left]|]. destruct H as [H|H]; [contradiction|].
  destruct (IH H) as (I1 & I2). destruct (String.eqb_spec k q) as [E|_]; [congruence|]. split; [exact I1|right; exact I2].
Qed.
Lemma sorted_keys_in d k : In k (sorted_keys d) <-> In k (map fst d).
Proof. unfold sorted_keys. split; apply Permutation_in; [|symmetry]; apply ksorted_perm. Qed.
Lemma eqb_inj (g : string -> string) a b : (g a = g b -> a = b) -> String.eqb (g a) (g b) = String.eqb a b.
Proof. intros H. destruct (String.eqb_spec a b) as [->|N]; [apply String.eqb_refl|]. apply String.eqb_neq. auto. Qed.
Section Canonical.
  Variables (f g : string -> string) (els : list elem) (names : list string).
  Hypothesis Hf : forall e n, In e els -> In n names -> f (e_name e) = f n -> e_name e = n.
  Hypothesis Hg : forall e1 e2 n1 n2, In e1 els -> In e2 els -> In n1 (map snd (e_pins e1)) -> In n2 (map snd (e_pins e2)) -> g n1 = g n2 -> n1 = n2.
  Lemma key_renamed e : In e els -> inst_key (renamed f g e) = inst_key e.
  Proof.
    intros He. unfold inst_key, renamed. cbn [e_pins e_params]. f_equal. unfold pin_id, sorted_keys. rewrite keys_map. f_equal. apply map_ext_in. intros k Hk. apply (sorted_keys_in (e_pins e)) in Hk.
    assert (F : forall l, (forall k', In k' l -> In k' (map fst (e_pins e))) -> find (fun k' => String.eqb (at_key (map (fun qn => (fst qn, g (snd qn))) (e_pins e)) k') (at_key (map (fun qn => (fst qn, g (snd qn))) (e_pins e)) k)) l = find (fun k' => String.eqb (at_key (e_pins e) k') (at_key (e_pins e) k)) l).
    { induction l as [|k' l IH]; intros Hl; [reflexivity|]. cbn [find]. destruct (at_key_map g (e_pins e) k Hk) as (-> & I1). destruct (at_key_map g (e_pins e) k' (Hl k' (or_introl eq_refl))) as (-> & I2). rewrite eqb_inj by (intros E; exact (Hg e e _ _ He He I2 I1 E)). destruct (String.eqb _ _); [reflexivity|]. rewrite <- IH by (intros; apply Hl; now right). destruct (at_key_map g (e_pins e) k Hk) as (-> & _). reflexivity. }
    rewrite F; [reflexivity|]. intros k' Hk'. apply (sorted_keys_in (e_pins e)). exact Hk'.
  Qed.
  Lemma group_renamed : group_insts (map (renamed f g) els) (map f names) = map (renamed f g) (group_insts els names).
  Proof.
    unfold group_insts. rewrite <- (ksorted_map (renamed f g) inst_key inst_key); [|intros e He; apply filter_In in He as (He & _); exact (key_renamed e He)]. f_equal.
    assert (K : forall l, (forall e, In e l -> In e els) -> filter (fun e => in_strs (e_name e) (map f names)) (map (renamed f g) l) = map (renamed f g) (filter (fun e => in_strs (e_name e) names) l)); [|apply K; auto].
    induction l as [|e l IH]; intros Hl; [reflexivity|]. cbn [map filter]. assert (E : in_strs (e_name (renamed f g e)) (map f names) = in_strs (e_name e) names).
    { cbn [renamed e_name]. destruct (in_strs (e_name e) names) eqn:B; [apply in_strs_iff; apply in_strs_iff in B; now apply in_map|]. destruct (in_strs (f (e_name e)) (map f names)) eqn:B2; [|reflexivity]. apply in_strs_iff, in_map_iff in B2 as (n & En & Hn). assert (X : e_name e = n) by (apply Hf; [apply Hl; now left|assumption|congruence]). subst n. apply in_strs_iff in Hn. congruence. }
    rewrite E. rewrite IH by (intros; apply Hl; now right). destruct (in_strs (e_name e) names); reflexivity.
  Qed.
  Definition net_of (n : string) : Prop := exists e, In e els /\ In n (map snd (e_pins e)).
  Lemma uniq_map l : (forall n, In n l -> net_of n) -> uniq (map g l) = map g (uniq l).
  Proof.
    intros Hl. assert (J : forall a b, In a l -> In b l -> g a = g b -> a = b) by (intros a b Ha Hb; destruct (Hl a Ha) as (e1 & I1 & J1), (Hl b Hb) as (e2 & I2 & J2); exact (Hg e1 e2 a b I1 I2 J1 J2)). clear Hl.
    unfold uniq. enough (K : forall m d, (forall a, In a d \/ In a m -> In a l) -> fold_left (fun d x => if in_strs x d then d else d ++ [x]) (map g m) (map g d) = map g (fold_left (fun d x => if in_strs x d then d else d ++ [x]) m d)) by (apply (K l []); intros a [[]|H]; exact H).
    induction m as [|x m IH]; intros d Hd; [reflexivity|]. cbn [map fold_left]. assert (E : in_strs (g x) (map g d) = in_strs x d).
    { destruct (in_strs x d) eqn:B; [apply in_strs_iff; apply in_strs_iff in B; now apply in_map|]. destruct (in_strs (g x) (map g d)) eqn:B2; [|reflexivity]. apply in_strs_iff, in_map_iff in B2 as (y & Ey & Hy). assert (X : y = x) by (apply J; [apply Hd; now left|apply Hd; right; now left|assumption]). subst y. apply in_strs_iff in Hy. congruence. }
    rewrite E. destruct (in_strs x d); [apply IH; intros a [Ha|Ha]; apply Hd; [now left|right; now right]|]. change [g x] with (map g [x]). rewrite <- map_app. apply IH. intros a [Ha|Ha]; [apply in_app_iff in Ha as [Ha|[<-|[]]]; apply Hd; [now left|right; now left]|apply Hd; right; now right].
  Qed.
  Lemma index_map x l : (forall n, In n l -> net_of n) -> net_of x -> index_of (g x) (map g l) = index_of x l.
  Proof.
    intros Hl (ex & X1 & X2). induction l as [|y l IH]; [reflexivity|]. cbn [map index_of]. destruct (Hl y (or_introl eq_refl)) as (e & I1 & J1). rewrite eqb_inj by (intros E; exact (Hg e ex y x I1 X1 J1 X2 E)). destruct (String.eqb y x); [reflexivity|]. f_equal. apply IH. intros; apply Hl; now right.
  Qed.
End Canonical.
Theorem C57_canonical f g els names : (forall e n, In e els -> In n names -> f (e_name e) = f n -> e_name e = n) ->
  (forall e1 e2 n1 n2, In e1 els -> In e2 els -> In n1 (map snd (e_pins e1)) -> In n2 (map snd (e_pins e2)) -> g n1 = g n2 -> n1 = n2) ->
  canon_insts (group_insts (map (renamed f g) els) (map f names)) = canon_insts (group_insts els names).
Proof.
  intros Hf Hg. rewrite (group_renamed f g els names Hf Hg). set (I := group_insts els names). assert (HI : forall e, In e I -> In e els) by (intros e He; apply (Permutation_in _ (ksorted_perm _ _)), filter_In in He; tauto).
  assert (FM : forall l, (forall e, In e l -> In e els) -> flat_map (fun e => map (at_key (e_pins e)) (sorted_keys (e_pins e))) (map (renamed f g) l) = map g (flat_map (fun e => map (at_key (e_pins e)) (sorted_keys (e_pins e))) l)).
  { induction l as [|e l IH]; intros Hl; [reflexivity|]. cbn [map flat_map]. rewrite map_app, IH by (intros; apply Hl; now right). f_equal. cbn [renamed e_pins]. unfold sorted_keys at 1. rewrite keys_map, map_map. apply map_ext_in. intros k Hk. apply (sorted_keys_in (e_pins e)) in Hk. exact (proj1 (at_key_map g (e_pins e) k Hk)). }
  assert (FN : forall n, In n (flat_map (fun e => map (at_key (e_pins e)) (sorted_keys (e_pins e))) I) -> net_of els n).
  { intros n Hn. apply in_flat_map in Hn as (e & He & Hn). apply in_map_iff in Hn as (k & <- & Hk). apply sorted_keys_in in Hk. exists e. split; [auto|]. exact (proj2 (at_key_map (fun x => x) (e_pins e) k Hk)). }
  assert (GN : group_nets (map (renamed f g) I) = map g (group_nets I)) by (unfold group_nets; rewrite FM by assumption; exact (uniq_map g els Hg _ FN)).
  unfold canon_insts. rewrite GN. enough (K : forall J i, (forall e, In e J -> In e els) -> map (canon_inst (map g (group_nets I))) (enum i (map (renamed f g) J)) = map (canon_inst (group_nets I)) (enum i J)) by exact (K I 0%Z HI).
  induction J as [|e J IH]; intros i HJ; [reflexivity|]. cbn [map enum]. f_equal; [|apply IH; intros; apply HJ; now right].
  unfold canon_inst. cbn [fst snd renamed e_model e_pins e_params]. f_equal. rewrite map_map. apply map_ext_in. intros (q, n) Hq. cbn [fst snd]. unfold canon_net. do 3 f_equal. apply (index_map g els Hg); [intros m Hm; apply FN; exact (proj1 (uniq_in _ _) Hm)|]. exists e. split; [apply HJ; now left|]. apply in_map_iff. exists (q, n). auto.
Qed.
Print Assumptions C57_canonical.

(** A grouped parent: two transistors in series, a third one, and a parent of the parent. *)
Local Open Scope string_scope.
Local Open Scope list_scope.
Definition ex57 : lib :=
  [Prim (mkLeaf "NMOS" ["D"; "G"; "S"] [("W", "1")] "M");
   Sub (mkSub "T" ["A"; "B"; "C"] [] [mkElem "M1" "NMOS" [("D", "A"); ("G", "C"); ("S", "X")] [("W", "1")];
      mkElem "M2" "NMOS" [("D", "X"); ("G", "C"); ("S", "B")] [("W", "2")]; mkElem "M3" "NMOS" [("D", "A"); ("G", "C"); ("S", "B")] [("W", "1")]]);
   Sub (mkSub "U" ["A"] [] [mkElem "X1" "T" [("A", "A"); ("B", "Y"); ("C", "Y")] []])].
Definition nm57 (l : list elem) : string := "GRP_1".
Ltac wf57 := (split; [simpl; repeat constructor; simpl; intuition discriminate|]); intros c Hc; simpl in Hc;
  repeat (destruct Hc as [Hc|Hc]; [try discriminate; injection Hc as <-; (split; [simpl; repeat constructor; simpl; intuition discriminate|]; intros e He; simpl in He; repeat (destruct He as [He|He]; [subst e; split; [simpl; repeat constructor; simpl; intuition discriminate|]; eexists; split; [reflexivity|]; split; [intros q; simpl; tauto|reflexivity]|]); contradiction)|]); contradiction.
Example C57_nonvacuous : exists p L', well_formed ex57 /\ params_nodup ex57 /\ no_clash nm57 ex57 "T" "XG" ["M1"; "M2"] /\ lfind ex57 "T" = Some (Sub p) /\
  (forall e1 e2, In e1 (sb_elems p) -> In e2 (sb_elems p) -> ~ on e1 (e_name e2)) /\ crosses p ["M1"; "M2"] "A" /\
  (forall n, In n ["M1"; "M2"] -> In n (map e_name (sb_elems p))) /\
  (forall e m, In e (sb_elems p) -> In (e_name e) ["M1"; "M2"] -> lfind ex57 (e_model e) = Some m -> cell_prefix m = EmptyString \/ cell_prefix m = "M") /\
  lfind ex57 (nm57 []) = None /\
  group_block nm57 ex57 "T" "XG" ["M1"; "M2"] = Some L' /\
  lfind L' "GRP_1" = Some (Sub (mkSub "GRP_1" ["P0"; "P1"; "P3"] [] [mkElem "M0" "NMOS" [("D", "P0"); ("G", "P1"); ("S", "P2")] [("W", "1")]; mkElem "M1" "NMOS" [("D", "P2"); ("G", "P1"); ("S", "P3")] [("W", "2")]])) /\
  lfind L' "T" = Some (Sub (mkSub "T" ["A"; "B"; "C"] [] [mkElem "M3" "NMOS" [("D", "A"); ("G", "C"); ("S", "B")] [("W", "1")]; mkElem "XG" "GRP_1" [("P0", "A"); ("P1", "C"); ("P3", "B")] []])).
Proof.
  do 2 eexists. split; [wf57|]. split; [intros c H; simpl in H; repeat (destruct H as [<-|H]; [simpl; repeat constructor; simpl; intuition discriminate|]); contradiction|].
  split; [intros p H; injection H as <-; split; [intros c Hc; discriminate|]; split; [discriminate|]; intros e He Hn; simpl in He; repeat (destruct He as [<-|He]; [simpl; discriminate|]); contradiction|].
  split; [reflexivity|]. split; [intros e1 e2 H1 H2 (q & Ho); simpl in H1, H2; repeat (destruct H1 as [<-|H1]; [simpl in Ho; repeat (destruct H2 as [<-|H2]; [simpl in Ho; intuition discriminate|]); contradiction|]); contradiction|].
  split; [eexists; split; [left; reflexivity|]; split; [now left|]; split; [exists "D"; now left|left; now left]|].
  split; [simpl; intuition|]. split; [intros e m He _ Hm; simpl in He; repeat (destruct He as [<-|He]; [injection Hm as <-; now right|]); contradiction|]. split; [reflexivity|]. split; [vm_compute; reflexivity|]. split; reflexivity.
Qed.

(** Finding: the name of the group does not depend on which of its nets leave it.  The second of two
    groups with the same devices and connections, but with a net that leaves only the second, is
    given the subcircuit of the first, and the pins do not match. *)
Definition sh57 (b : string) : lib :=
  [Prim (mkLeaf "NMOS" ["D"; "S"] [] "M");
   Sub (mkSub "T" ["A"; "B"; b] [] [mkElem "M1" "NMOS" [("D", "A"); ("S", "X")] []; mkElem "M2" "NMOS" [("D", "X"); ("S", "B")] [];
      mkElem "M3" "NMOS" [("D", "A"); ("S", "Y")] []; mkElem "M4" "NMOS" [("D", "Y"); ("S", "B")] []])].
Theorem C57_shared_refuted : exists p L1, lfind (sh57 "Y") "T" = Some (Sub p) /\ well_formed (sh57 "Y") /\
  canon_insts (group_insts (sb_elems p) ["M1"; "M2"]) = canon_insts (group_insts (sb_elems p) ["M3"; "M4"]) /\
  group_block nm57 (sh57 "Y") "T" "X1" ["M1"; "M2"] = Some L1 /\ group_block nm57 L1 "T" "X2" ["M3"; "M4"] = None /\
  group_block nm57 (sh57 "Y") "T" "X2" ["M3"; "M4"] <> None /\
  (* without the extra port both can be grouped *)
  exists L2 L3, group_block nm57 (sh57 "Z") "T" "X1" ["M1"; "M2"] = Some L2 /\ group_block nm57 L2 "T" "X2" ["M3"; "M4"] = Some L3.
Proof.
  do 2 eexists. split; [reflexivity|]. split; [wf57|]. split; [reflexivity|]. split; [vm_compute; reflexivity|]. split; [reflexivity|]. split; [vm_compute; discriminate|]. do 2 eexists. split; vm_compute; reflexivity.
Qed.
(** Finding: elements whose model asks for another first letter than M cannot be grouped. *)
Theorem C57_prefix_refuted : exists L p, well_formed L /\ lfind L "T" = Some (Sub p) /\ crosses p ["R1"; "R2"] "A" /\ (forall gname, gname (canon_insts (group_insts (sb_elems p) ["R1"; "R2"])) = "GRP_1" -> no_clash gname L "T" "X1" ["R1"; "R2"] /\ group_block gname L "T" "X1" ["R1"; "R2"] = None).
Proof.
  exists [Prim (mkLeaf "RES" ["P"; "Q"] [] "R"); Sub (mkSub "T" ["A"; "B"] [] [mkElem "R1" "RES" [("P", "A"); ("Q", "X")] []; mkElem "R2" "RES" [("P", "X"); ("Q", "B")] []])]. eexists. split; [wf57|]. split; [reflexivity|].
  split; [eexists; split; [left; reflexivity|]; split; [now left|]; split; [exists "P"; now left|left; now left]|]. intros g Hg. cbn [sb_elems] in Hg. split.
  - intros p H. injection H as <-. cbn [sb_elems]. rewrite Hg. split; [discriminate|]. split; [discriminate|]. intros e He Hn. simpl in He. repeat (destruct He as [<-|He]; [simpl; discriminate|]). contradiction.
  - vm_compute in Hg. vm_compute. rewrite Hg. reflexivity.
Qed.
Print Assumptions C57_shared_refuted.
Print Assumptions C57_prefix_refuted.
