(** Lemmas about parasitic extraction. *)
From Coq Require Import String Ascii QArith ZifyBool.
From Verif Require Import Base.Prelude Base.PyDict Base.PyStr Model.Transformation Model.PySort Model.RemoveDuplicates Model.Pex
  Spec.RemoveDuplicatesSpec Spec.DrcSpec Spec.PexSpec Proofs.PySortP.
Local Open Scope Z_scope.

(** * Tiling *)
Lemma tiles_app pitch s m e l1 l2 : tiles pitch s m l1 -> tiles pitch m e l2 -> tiles pitch s e (l1 ++ l2).
Proof.
  revert s. induction l1 as [|(a, b) l1 IH]; simpl; intros s H1 H2; [now subst|].
  destruct H1 as (Ha & Hb & H1). auto.
Qed.

Lemma num_cells_bounds pitch s e : 0 < pitch -> s <= e ->
  let n := num_cells pitch s e in (n = 0%nat -> s = e) /\ e <= s + Z.of_nat n * pitch /\ ((0 < n)%nat -> s + (Z.of_nat n - 1) * pitch < e).
Proof.
  intros Hp Hse. unfold num_cells. cbv zeta.
  pose proof (Z.div_mod (- (e - s)) pitch ltac:(lia)) as D.
  pose proof (Z.mod_pos_bound (- (e - s)) pitch Hp) as M.
  set (k := (- (e - s)) / pitch) in *. assert (Hk : k <= 0) by nia.
  rewrite Z2Nat.id by lia. repeat split; intros; nia.
Qed.

Lemma stamp_tiles pitch s e : 0 < pitch -> s <= e -> tiles pitch s e (stamp pitch s e).
Proof.
  intros Hp Hse. unfold stamp. destruct (num_cells_bounds pitch s e Hp Hse) as (B0 & B1 & B2).
  cbv zeta in *. set (n := num_cells pitch s e) in *.
  set (f := fun i => _).
  assert (G : forall k i, (i + k = n)%nat -> tiles pitch (if (k =? 0)%nat then e else s + Z.of_nat i * pitch) e (map f (seq i k))).
  { induction k as [|k IH]; intros i Hi; [reflexivity|].
    cbn [seq map]. unfold f at 1. cbn [Nat.eqb]. cbn [tiles]. split; [reflexivity|].
    specialize (IH (Datatypes.S i) ltac:(lia)).
    destruct (Nat.eqb_spec i (n - 1)) as [E|E].
    - assert (k = 0%nat) by lia. subst k. cbn [Nat.eqb] in IH. split; [nia|exact IH].
    - assert ((k =? 0)%nat = false) as Ek by (apply Nat.eqb_neq; lia). rewrite Ek in IH. split; [nia|].
      replace (s + Z.of_nat i * pitch + pitch) with (s + Z.of_nat (Datatypes.S i) * pitch) by lia. exact IH. }
  specialize (G n 0%nat eq_refl). destruct (Nat.eqb_spec n 0) as [E|E].
  - rewrite (B0 E) at 1. exact G.
  - replace (s + Z.of_nat 0 * pitch) with s in G by lia. exact G.
Qed.

Lemma port_loop_some pitch s e ps : 0 < pitch ->
  StronglySorted Z.le ps -> forall p, p <= e -> Forall (Z.le p) ps -> tiles pitch p e (port_loop pitch s e (Some p) ps).
Proof.
  intros Hp Hs. induction Hs as [|a ps Hs IH Ha]; simpl; intros p Hpe Hge; [now apply stamp_tiles|].
  inversion Hge; subst. destruct (Z.ltb_spec e a); [now apply stamp_tiles|].
  eapply tiles_app; [apply stamp_tiles; assumption|]. apply IH; assumption.
Qed.

Lemma port_loop_none pitch s e ps : 0 < pitch -> s <= e -> StronglySorted Z.le ps ->
  ((forall p, In p ps -> p <= s) \/ (exists p, In p ps /\ s < p <= e)) -> tiles pitch s e (port_loop pitch s e None ps).
Proof.
  intros Hp Hse Hs. induction Hs as [|a ps Hs IH Ha]; simpl; intros Hc; [now apply stamp_tiles|].
  destruct (Z.ltb_spec s a).
  - assert (a <= e).
    { destruct Hc as [Hc|(p & [<-|Hin] & Hr)]; [specialize (Hc a (or_introl eq_refl)); lia|lia|].
      rewrite Forall_forall in Ha. specialize (Ha p Hin). lia. }
    eapply tiles_app; [apply stamp_tiles; [assumption|lia]|]. apply port_loop_some; assumption.
  - apply IH. destruct Hc as [Hc|(p & [<-|Hin] & Hr)]; [left; auto|lia|right; eauto].
Qed.

Fixpoint iv_sum (l : list (Z * Z)) : Z := match l with [] => 0 | (a, b) :: tl => (b - a) + iv_sum tl end.
Lemma tiles_sum pitch s e l : tiles pitch s e l -> iv_sum l = e - s.
Proof. revert s. induction l as [|(a, b) l IH]; simpl; intros s H; [lia|]. destruct H as (-> & Hb & H). rewrite (IH _ H). lia. Qed.

Lemma tiles_in pitch s e l : 0 < pitch -> tiles pitch s e l -> s <= e /\ forall a b, In (a, b) l -> s <= a /\ a < b /\ b <= e.
Proof.
  intros Hp. revert s. induction l as [|(a, b) l IH]; simpl; intros s H; [split; [lia|tauto]|].
  destruct H as (-> & Hb & H). destruct (IH _ H) as (I1 & I2). split; [lia|].
  intros a' b' [[= <- <-]|Hin]; [lia|]. specialize (I2 _ _ Hin). lia.
Qed.

Lemma tiles_nodup pitch s e l : 0 < pitch -> tiles pitch s e l -> NoDup (map fst l).
Proof.
  intros Hp. revert s. induction l as [|(a, b) l IH]; simpl; intros s H; [constructor|].
  destruct H as (-> & Hb & H). constructor; [|eauto].
  intros Hin. apply in_map_iff in Hin as ((a', b') & Ea & Hin). apply (tiles_in _ _ _ _ Hp H) in Hin. simpl in Ea. lia.
Qed.

(** * Node names *)
Lemma undash_id l : (forall c, In c l -> c <> "-"%char) -> map undash l = l.
Proof.
  induction l as [|c l IH]; simpl; intros H; [reflexivity|]. rewrite IH by auto. f_equal.
  unfold undash. destruct (Ascii.eqb_spec c "-"%char) as [E|E]; [exfalso; exact (H c (or_introl eq_refl) E)|reflexivity].
Qed.

Lemma digit_not_under c : is_digit c = true -> c <> "_"%char /\ c <> "-"%char.
Proof. intros H. split; intros ->; discriminate H. Qed.

Lemma printed_form z : exists (neg : bool) ds, map undash (print_Z z) = (if neg then ["_"%char] else []) ++ ds /\ print_Z z = (if neg then ["-"%char] else []) ++ ds /\
  ds <> [] /\ forallb is_digit ds = true.
Proof.
  destruct (print_Z_form z) as (neg & ds & E & Hne & Hd). exists neg, ds. split; [|auto].
  rewrite E, map_app. rewrite (undash_id ds).
  - destruct neg; reflexivity.
  - intros c Hc. rewrite forallb_forall in Hd. apply (digit_not_under c (Hd c Hc)).
Qed.

Definition no_under (l : chars) : Prop := forall c, In c l -> c <> "_"%char.
Lemma digits_no_under ds : forallb is_digit ds = true -> no_under ds.
Proof. intros H c Hc. rewrite forallb_forall in H. apply (digit_not_under c (H c Hc)). Qed.

Lemma split_under p1 d1 p2 d2 : no_under d1 -> no_under d2 ->
  p1 ++ "_"%char :: d1 = p2 ++ "_"%char :: d2 -> p1 = p2 /\ d1 = d2.
Proof.
  revert p2. induction p1 as [|a p1 IH]; intros [|b p2] H1 H2 E; simpl in E.
  - injection E as ->. auto.
  - injection E as <- E. exfalso. apply (H1 "_"%char); [|reflexivity]. rewrite E. apply in_or_app. right. now left.
  - injection E as -> E. exfalso. apply (H2 "_"%char); [|reflexivity]. rewrite <- E. apply in_or_app. right. now left.
  - injection E as -> E. destruct (IH p2 H1 H2 E) as (-> & ->). auto.
Qed.

Definition ends_well (l : chars) : Prop := exists p c, l = p ++ [c] /\ c <> "_"%char.

Lemma split_num p1 p2 a b : ends_well p1 -> ends_well p2 ->
  p1 ++ "_"%char :: map undash (print_Z a) = p2 ++ "_"%char :: map undash (print_Z b) -> p1 = p2 /\ a = b.
Proof.
  intros (q1 & c1 & -> & Hc1) (q2 & c2 & -> & Hc2).
  destruct (printed_form a) as (na & da & -> & Ea & _ & Da). destruct (printed_form b) as (nb & db & -> & Eb & _ & Db).
  apply digits_no_under in Da, Db. intros E.
  destruct na, nb; simpl in E.
  - change (("_"%char :: "_"%char :: da)) with (["_"%char] ++ "_"%char :: da) in E.
    change (("_"%char :: "_"%char :: db)) with (["_"%char] ++ "_"%char :: db) in E.
    rewrite !(app_assoc _ ["_"%char]) in E. apply split_under in E as (E & ->); auto.
    apply app_inj_tail in E as (-> & _). split; [reflexivity|]. apply print_Z_inj. congruence.
  - change (("_"%char :: "_"%char :: da)) with (["_"%char] ++ "_"%char :: da) in E.
    rewrite !(app_assoc _ ["_"%char] (_ :: da)) in E. apply split_under in E as (E & ->); auto.
    apply app_inj_tail in E as (_ & E). congruence.
  - change (("_"%char :: "_"%char :: db)) with (["_"%char] ++ "_"%char :: db) in E.
    rewrite !(app_assoc _ ["_"%char] (_ :: db)) in E. apply split_under in E as (E & ->); auto.
    apply app_inj_tail in E as (_ & E). congruence.
  - apply split_under in E as (E & ->); auto. split; [assumption|]. apply print_Z_inj. congruence.
Qed.

Lemma ends_well_num p z : ends_well (p ++ "_"%char :: map undash (print_Z z)).
Proof.
  destruct (printed_form z) as (n & ds & -> & _ & Hne & Hd).
  destruct (exists_last Hne) as (l & c & ->). exists (p ++ "_"%char :: (if n then ["_"%char] else []) ++ l), c. split.
  - rewrite <- app_assoc. simpl. now rewrite <- app_assoc.
  - rewrite forallb_app in Hd. cbn [forallb] in Hd. apply andb_true_iff in Hd as (_ & Hd). apply andb_true_iff in Hd as (Hd & _). apply (digit_not_under c Hd).
Qed.

Definition plain_layer (l : option string) : Prop := plain_name (match l with Some s => s | None => "None"%string end).

Lemma plain_show l : plain_layer l -> map undash (show_layer l) = show_layer l /\ no_under (show_layer l) /\ show_layer l <> [].
Proof.
  unfold plain_layer, show_layer, plain_name. destruct l as [s|].
  - intros (Hne & H). repeat split.
    + apply undash_id. intros c Hc. now apply H.
    + intros c Hc. now apply H.
    + destruct s; [congruence|discriminate].
  - intros _. repeat split; try discriminate. intros c Hc. repeat destruct Hc as [<-|Hc]; try discriminate. destruct Hc.
Qed.

Lemma node_name_shape n l x y : plain_layer l ->
  node_name n l x y = ((map undash (show_name n) ++ "_"%char :: show_layer l) ++ "_"%char :: map undash (print_Z x)) ++ "_"%char :: map undash (print_Z y).
Proof.
  intros Hl. destruct (plain_show l Hl) as (E & _). unfold node_name. rewrite !map_app. cbn [map]. rewrite E.
  change (undash "_"%char) with "_"%char. rewrite <- !app_assoc. simpl. rewrite <- ?app_assoc. reflexivity.
Qed.

Lemma node_name_inj n1 n2 l1 l2 x1 x2 y1 y2 : plain_layer l1 -> plain_layer l2 ->
  node_name n1 l1 x1 y1 = node_name n2 l2 x2 y2 -> show_layer l1 = show_layer l2 /\ x1 = x2 /\ y1 = y2.
Proof.
  intros H1 H2. rewrite !node_name_shape by assumption. intros E.
  apply split_num in E as (E & ->); [|apply ends_well_num..].
  destruct (plain_show _ H1) as (_ & U1 & N1). destruct (plain_show _ H2) as (_ & U2 & N2).
  assert (W : forall l, no_under l -> l <> [] -> forall p, ends_well (p ++ "_"%char :: l)).
  { intros l U Hne p. destruct (exists_last Hne) as (q & c & ->). exists (p ++ "_"%char :: q), c. split.
    - now rewrite <- app_assoc.
    - apply U. apply in_or_app. right. now left. }
  apply split_num in E as (E & ->); [|apply W; assumption..].
  apply split_under in E as (_ & E); auto.
Qed.

Lemma node_name_digit n l x y : exists p c, node_name n l x y = p ++ [c] /\ is_digit c = true.
Proof.
  unfold node_name. rewrite !app_assoc, map_app. destruct (printed_form y) as (ng & ds & -> & _ & Hne & Hd).
  destruct (exists_last Hne) as (q & c & ->). exists (map undash ((((((show_name n ++ ["_"%char]) ++ show_layer l) ++ ["_"%char]) ++ print_Z x) ++ ["_"%char])) ++ (if ng then ["_"%char] else []) ++ q), c.
  split; [now rewrite !app_assoc|].
  rewrite forallb_app in Hd. cbn [forallb] in Hd. apply andb_true_iff in Hd as (_ & Hd). apply andb_true_iff in Hd as (Hd & _). exact Hd.
Qed.

Lemma str_inj a b : str a = str b -> a = b.
Proof. intros E. rewrite <- (string_of_list_ascii_of_string a), <- (string_of_list_ascii_of_string b). unfold str in E. now rewrite E. Qed.

(** * The cell dictionary *)
Lemma key_eqb_ok a b : key_eqb a b = true <-> a = b.
Proof.
  destruct a as (a1, a2), b as (b1, b2). unfold key_eqb. cbn [fst snd]. rewrite andb_true_iff, !chars_eqb_ok.
  split; [intros (-> & ->); reflexivity|intros [= -> ->]; auto].
Qed.

Lemma dset_in d k (v : string * Rect) x : In x (dset key_eqb d k v) -> x = (k, v) \/ In x d.
Proof.
  unfold dset. induction d as [|(k', v') d IH]; simpl; [intuition|].
  destruct (key_eqb k k') eqn:E; simpl; [|intuition].
  apply key_eqb_ok in E as ->. intuition.
Qed.

Lemma dset_filter (P : key * (string * Rect) -> bool) d k v :
  P (k, v) = false -> (forall w, In (k, w) d -> P (k, w) = false) -> filter P (dset key_eqb d k v) = filter P d.
Proof.
  intros Hv. unfold dset. induction d as [|(k', v') d IH]; simpl; intros H; [now rewrite Hv|].
  destruct (key_eqb k k') eqn:E; simpl.
  - apply key_eqb_ok in E as ->. rewrite Hv, (H v') by auto. reflexivity.
  - rewrite IH by auto. reflexivity.
Qed.

Lemma dset_new d k (v : string * Rect) : ~ In k (map fst d) -> dset key_eqb d k v = d ++ [(k, v)].
Proof.
  unfold dset. induction d as [|(k', v') d IH]; simpl; intros H; [reflexivity|].
  destruct (key_eqb k k') eqn:E; [apply key_eqb_ok in E as ->; tauto|]. rewrite IH by tauto. reflexivity.
Qed.

Lemma nodup_app_l {A} (l1 l2 : list A) : NoDup (l1 ++ l2) -> NoDup l1.
Proof.
  induction l1 as [|a l1 IH]; simpl; intros H; [constructor|]. inversion H as [|? ? Hni Hnd]; subst. constructor; [|auto].
  intros Hin. apply Hni, in_or_app. auto.
Qed.

Lemma fold_dset_filter (P : key * (string * Rect) -> bool) (L : list (key * (string * Rect))) :
  NoDup (map fst (filter P L)) ->
  (forall a b, In a L -> In b L -> P a = true -> P b = false -> fst a <> fst b) ->
  let d := fold_left (fun d cl => dset key_eqb d (fst cl) (snd cl)) L [] in
  filter P d = filter P L /\ (forall x, In x d -> In x L).
Proof.
  cbv zeta. induction L as [|(k, v) L IH] using rev_ind; [simpl; auto|]. intros Hnd Hdis.
  rewrite filter_app, map_app in Hnd. rewrite fold_left_app. cbn [fold_left fst snd].
  destruct IH as (I1 & I2).
  { now apply nodup_app_l in Hnd. }
  { intros a b Ha Hb. apply Hdis; apply in_or_app; auto. }
  set (d := fold_left _ L []) in *. split.
  - rewrite filter_app. cbn [filter]. cbn [filter map] in Hnd. destruct (P (k, v)) eqn:E.
    + rewrite dset_new.
      * rewrite filter_app, I1. cbn [filter]. rewrite E. reflexivity.
      * intros Hin. apply in_map_iff in Hin as ((k', v') & Ek & Hin). simpl in Ek. subst k'.
        destruct (P (k, v')) eqn:E'.
        -- apply (NoDup_remove_2 _ _ _ Hnd). rewrite app_nil_r. apply in_map_iff. exists (k, v'). split; [reflexivity|].
           rewrite <- I1. apply filter_In. auto.
        -- apply (Hdis (k, v) (k, v')); auto; apply in_or_app; [right; now left|left; auto].
    + rewrite app_nil_r, dset_filter; [exact I1|exact E|].
      intros w Hw. destruct (P (k, w)) eqn:E'; [|reflexivity]. exfalso.
      apply (Hdis (k, w) (k, v)); auto; apply in_or_app; [left; auto|right; now left].
  - intros x Hx. apply in_or_app. apply dset_in in Hx as [->|Hx]; [right; now left|left; auto].
Qed.

(** * Distinct tags of nested loops *)
Lemma nodup_map_weak {A B C} (tag : A -> B) (key : A -> C) l :
  NoDup (map tag l) -> (forall a b, In a l -> In b l -> key a = key b -> tag a = tag b) -> NoDup (map key l).
Proof.
  induction l as [|a l IH]; simpl; intros Hnd H; [constructor|]. inversion Hnd as [|? ? Hni Hnd']; subst. constructor.
  - intros Hin. apply in_map_iff in Hin as (b & Eb & Hb). apply Hni. apply in_map_iff. exists b. split; [|assumption].
    apply H; auto.
  - apply IH; auto.
Qed.

Lemma nodup_app {A} (l1 l2 : list A) : NoDup l1 -> NoDup l2 -> (forall x, In x l1 -> ~ In x l2) -> NoDup (l1 ++ l2).
Proof.
  induction 1 as [|a l1 Ha _ IH]; simpl; intros H2 Hd; [assumption|]. constructor.
  - intros Hin. apply in_app_or in Hin as [Hin|Hin]; [contradiction|]. exact (Hd a (or_introl eq_refl) Hin).
  - apply IH; auto.
Qed.

Lemma nodup_flat_map {A B T K} (f : A -> list B) (tag : B -> T) (proj : T -> K) (okey : A -> K) l :
  NoDup (map okey l) -> (forall x, In x l -> NoDup (map tag (f x))) ->
  (forall x y, In x l -> In y (f x) -> proj (tag y) = okey x) -> NoDup (map tag (flat_map f l)).
Proof.
  induction l as [|a l IH]; simpl; intros Hnd Hi Hp; [constructor|]. inversion Hnd as [|? ? Hni Hnd']; subst.
  rewrite map_app. apply nodup_app; [auto|apply IH; auto|].
  intros t Ht Ht'. apply in_map_iff in Ht as (y & <- & Hy). apply in_map_iff in Ht' as (y' & Ey & Hy').
  apply in_flat_map in Hy' as (x & Hx & Hy'). apply Hni. apply in_map_iff. exists x. split; [|assumption].
  rewrite <- (Hp x y'), Ey; auto.
Qed.

(** * Ports *)
Lemma add_port_at t ly c v l' c' p :
  In p (ports_at (add_port t ly c v) l' c') <-> In p (ports_at t l' c') \/ (l' = ly /\ c' = c /\ p = v).
Proof.
  unfold ports_at, add_port.
  destruct (string_dec l' ly) as [->|Hl].
  - rewrite (dget_dupd_same _ String.eqb_eq). destruct (Z.eq_dec c' c) as [->|Hc].
    + rewrite (dget_dupd_same _ Z.eqb_eq). cbv zeta.
      set (L := match dget Z.eqb _ c with Some l => l | None => [] end).
      assert (EL : (match dget String.eqb t ly with None => [] | Some ls => match dget Z.eqb ls c with None => [] | Some l => l end end) = L).
      { unfold L. destruct (dget String.eqb t ly); reflexivity. }
      rewrite EL. destruct (existsb (Z.eqb v) L) eqn:E.
      * apply existsb_exists in E as (w & Hw & E). apply Z.eqb_eq in E. subst w.
        split; [auto|]. intros [H|(_ & _ & ->)]; assumption.
      * rewrite in_app_iff. simpl. intuition.
    + rewrite (dget_dupd_other _ Z.eqb_eq) by assumption. destruct (dget String.eqb t ly); intuition.
  - rewrite (dget_dupd_other _ String.eqb_eq) by assumption. intuition.
Qed.

Lemma sort_ports_at t l c : ports_at (sort_ports t) l c = sort_by (fun z : Z => z) (ports_at t l c).
Proof.
  unfold ports_at, sort_ports.
  assert (G : forall (f : list (Z * list Z) -> list (Z * list Z)) t', dget String.eqb (map (fun lv => (fst lv, f (snd lv))) t') l = option_map f (dget String.eqb t' l)).
  { intros f. induction t' as [|(k, v) t' IH]; simpl; [reflexivity|]. destruct (String.eqb l k); [reflexivity|exact IH]. }
  rewrite (G (fun vv => map (fun l0 => (fst l0, sort_by (fun z : Z => z) (snd l0))) vv)).
  destruct (dget String.eqb t l) as [ls|]; simpl; [|reflexivity].
  assert (G2 : forall (f : list Z -> list Z) t', dget Z.eqb (map (fun lv => (fst lv, f (snd lv))) t') c = option_map f (dget Z.eqb t' c)).
  { intros f. induction t' as [|(k, v) t' IH]; simpl; [reflexivity|]. destruct (c =? k); [reflexivity|exact IH]. }
  rewrite G2. destruct (dget Z.eqb ls c); reflexivity.
Qed.

(** [stamp_port] as a relation between the port sets. *)
Definition stamped (env : pxenv) (layer : option string) (x0 x1 : Z) (l : string) (c p : Z) : Prop :=
  layer = Some l /\ ((dget String.eqb (pe_layers env) l = Some DH /\ c = x0 * 2 /\ p = x1) \/
                     (exists d, dget String.eqb (pe_layers env) l = Some d /\ d <> DH /\ c = x1 * 2 /\ p = x0)).

Lemma stamp_port_at env t layer x0 x1 t' l c p : stamp_port env t layer x0 x1 = Some t' ->
  In p (ports_at t' l c) <-> In p (ports_at t l c) \/ stamped env layer x0 x1 l c p.
Proof.
  unfold stamp_port, stamped. destruct layer as [ly|]; [|intros [= <-]; intuition; discriminate].
  destruct (dget String.eqb (pe_layers env) ly) as [d|] eqn:E; [|discriminate].
  intros H. assert (K : t' = (match d with DH => add_port t ly (x0 * 2) x1 | _ => add_port t ly (x1 * 2) x0 end)) by (destruct d; congruence).
  subst t'. clear H. split.
  - intros H. destruct d; apply add_port_at in H as [H|(-> & -> & ->)]; auto; right; split; auto; right; eexists; repeat split; eauto; discriminate.
  - intros [H|(H & Hd)].
    + destruct d; apply add_port_at; auto.
    + injection H as ->. rewrite E in Hd. destruct Hd as [(Hd & -> & ->)|(d' & Hd & Hne & -> & ->)].
      * injection Hd as ->. apply add_port_at. auto.
      * injection Hd as <-. destruct d; [congruence| |]; apply add_port_at; auto.
Qed.

Definition via_stamped (env : pxenv) (vl : string) (cv : Z) (r : pxr) (l : string) (c p : Z) : Prop :=
  exists q, dget String.eqb (pe_pdk env) vl = Some q /\
  let x0 := (lly (px_rect r) + ury (px_rect r)) / 2 in let x1 := cv / 2 in
  stamped env (Some vl) x0 x1 l c p \/ stamped env (fst (q_stack q)) x0 x1 l c p \/ stamped env (snd (q_stack q)) x0 x1 l c p.

Lemma stamp_via_at env vl cv t r t' l c p : stamp_via env vl cv t r = Some t' ->
  In p (ports_at t' l c) <-> In p (ports_at t l c) \/ via_stamped env vl cv r l c p.
Proof.
  unfold stamp_via, via_stamped. cbv zeta. set (x0 := _ / 2). set (x1 := cv / 2).
  destruct (stamp_port env t (Some vl) x0 x1) as [t1|] eqn:E1; [|discriminate].
  destruct (dget String.eqb (pe_pdk env) vl) as [q|] eqn:Eq; [|discriminate].
  destruct (stamp_port env t1 (fst (q_stack q)) x0 x1) as [t2|] eqn:E2; [|discriminate].
  intros E3. rewrite (stamp_port_at _ _ _ _ _ _ _ _ _ E3), (stamp_port_at _ _ _ _ _ _ _ _ _ E2), (stamp_port_at _ _ _ _ _ _ _ _ _ E1).
  split.
  - intros [[[H|H]|H]|H]; [auto|right; exists q; auto..].
  - intros [H|(q' & [= <-] & [H|[H|H]])]; auto.
Qed.

Lemma foldM_at {X} (f : ports -> X -> option ports) (R : X -> Prop) (l : string) (c p : Z) L t t' :
  (forall e t t', In e L -> f t e = Some t' -> In p (ports_at t' l c) <-> In p (ports_at t l c) \/ R e) ->
  foldM f L t = Some t' -> In p (ports_at t' l c) <-> In p (ports_at t l c) \/ exists e, In e L /\ R e.
Proof.
  revert t. induction L as [|e L IH]; simpl; intros t Hf H.
  - injection H as <-. split; [auto|]. intros [H|(e & [] & _)]. exact H.
  - destruct (f t e) as [t1|] eqn:E; [|discriminate]. rewrite (IH t1); [|intros; apply Hf; auto|assumption]. rewrite (Hf e t t1) by auto. split.
    + intros [[H1|H1]|(e' & Hi & HR)]; [auto|right; eauto|right; eauto].
    + intros [H1|(e' & [->|Hi] & HR)]; eauto.
Qed.

Lemma compute_ports_at env sto t l c p : compute_ports env sto = Some t ->
  In p (ports_at t l c) <->
  exists vl vv cv rs r, In (vl, vv) sto /\ dget String.eqb (pe_layers env) vl = Some DStar /\ In (cv, rs) vv /\ In r rs /\ via_stamped env vl cv r l c p.
Proof.
  intros H. unfold compute_ports in H.
  eapply (foldM_at _ (fun lv => dget String.eqb (pe_layers env) (fst lv) = Some DStar /\ exists l0, In l0 (snd lv) /\ exists r, In r (snd l0) /\ via_stamped env (fst lv) (fst l0) r l c p)) in H.
  - rewrite H. unfold ports_at at 1. simpl. split.
    + intros [[]|((vl, vv) & Hin & Hd & (cv, rs) & Hl & r & Hr & HR)]. exists vl, vv, cv, rs, r. auto.
    + intros (vl & vv & cv & rs & r & Hin & Hd & Hl & Hr & HR). right. exists (vl, vv). split; [assumption|]. split; [assumption|].
      exists (cv, rs). split; [assumption|]. exists r. auto.
  - intros (vl, vv) t1 t2 _ Hs. cbn [fst snd] in *.
    destruct (dget String.eqb (pe_layers env) vl) as [d|]; [|discriminate].
    destruct d; [injection Hs as <-; split; [auto|intros [X|(X & _)]; [exact X|discriminate]]..|].
    eapply (foldM_at _ (fun l0 => exists r, In r (snd l0) /\ via_stamped env vl (fst l0) r l c p)) in Hs.
    + rewrite Hs. intuition. 
    + intros (cv, rs) t3 t4 _ Hs2. cbn [fst snd] in *.
      eapply (foldM_at _ (fun r => via_stamped env vl cv r l c p)) in Hs2; [exact Hs2|].
      intros r t5 t6 _. apply stamp_via_at.
Qed.

Lemma port_on_iff env sto t l c p : NoDup (map fst (pe_layers env)) -> NoDup (map fst (pe_pdk env)) -> compute_ports env sto = Some t ->
  In p (ports_at (sort_ports t) l c) <-> port_on env sto l c p.
Proof.
  intros Hnl Hnp H. rewrite sort_ports_at, sort_by_in, (compute_ports_at _ _ _ _ _ _ H). unfold port_on, via_stamped, stamped. cbv zeta. split.
  - intros (vl & vv & cv & rs & r & Hin & Hd & Hl & Hr & q & Hq & HR).
    exists vl, vv, q, cv, rs, r. apply (dget_in _ String.eqb_eq) in Hd, Hq. do 3 (split; [assumption|]).
    assert (HR' : (vl = l \/ fst (q_stack q) = Some l \/ snd (q_stack q) = Some l) /\
      (dget String.eqb (pe_layers env) l = Some DH /\ c = (lly (px_rect r) + ury (px_rect r)) / 2 * 2 /\ p = cv / 2 \/
       (exists d : sdir, dget String.eqb (pe_layers env) l = Some d /\ d <> DH /\ c = cv / 2 * 2 /\ p = (lly (px_rect r) + ury (px_rect r)) / 2))).
    { destruct HR as [(E & R)|[(E & R)|(E & R)]]; (split; [|exact R]); auto. left. congruence. }
    destruct HR' as (Hs & R). split; [exact Hs|]. split; [assumption|]. split; [assumption|].
    destruct R as [(E & -> & ->)|(d & E & Hne & -> & ->)]; apply (dget_in _ String.eqb_eq) in E.
    + left. repeat split; [assumption|lia].
    + right. exists d. repeat split; [assumption|assumption|lia].
  - intros (vl & vv & q & cv & rs & r & Hin & Hd & Hq & Hs & Hl & Hr & R).
    exists vl, vv, cv, rs, r. apply (in_dget _ String.eqb_eq) in Hd, Hq; [|assumption..]. do 4 (split; [assumption|]).
    exists q. split; [assumption|].
    assert (R' : (dget String.eqb (pe_layers env) l = Some DH /\ c = (lly (px_rect r) + ury (px_rect r)) / 2 * 2 /\ p = cv / 2 \/
       (exists d : sdir, dget String.eqb (pe_layers env) l = Some d /\ d <> DH /\ c = cv / 2 * 2 /\ p = (lly (px_rect r) + ury (px_rect r)) / 2))).
    { destruct R as [(E & -> & ->)|(d & E & Hne & -> & ->)]; apply (in_dget _ String.eqb_eq) in E; try assumption.
      - left. repeat split; [assumption|lia].
      - right. exists d. repeat split; [assumption|assumption|lia]. }
    destruct Hs as [->|[E|E]]; auto.
Qed.

Lemma ports_sorted t l c : StronglySorted Z.le (ports_at (sort_ports t) l c).
Proof. rewrite sort_ports_at. apply (sort_by_sorted (fun z : Z => z)). Qed.
