From Verif Require Import Base.Prelude Model.SeqEnum Model.SymmGroup Model.KeepOrder Spec.SeqEnumSpec Spec.KeepOrderSpec
  Proofs.SeqEnumP Proofs.SymmGroupP Proofs.SeqMovesP Proofs.SeqSwapP Proofs.KeepOrderP.

(** * The topological sort *)

Lemma has_cons x y l : has x (y :: l) = (x =? y) || has x l.
Proof. reflexivity. Qed.
Lemma after_in e v x : In x (after e v) <-> In (v, x) e.
Proof.
  unfold after. rewrite in_map_iff. split.
  - intros ([u w] & <- & H). apply filter_In in H as [H E]. apply Nat.eqb_eq in E. cbn in *. now subst.
  - intros H. exists (v, x). split; auto. apply filter_In. split; auto. apply Nat.eqb_refl.
Qed.
Lemma after_nodup e v : NoDup e -> NoDup (after e v).
Proof.
  intros Hn. unfold after. induction Hn as [|[u w] e Hx Hn IH]; cbn; [constructor|].
  destruct (Nat.eqb_spec u v) as [->|]; cbn; auto. constructor; auto. intros H. apply Hx. now apply after_in.
Qed.
Lemma releases L ind new : NoDup L -> 
  snd (fold_left release L (ind, new)) = new ++ filter (fun x => ind x - 1 =? 0) L /\
  forall x, fst (fold_left release L (ind, new)) x = if has x L then ind x - 1 else ind x.
Proof.
  intros Hn. revert ind new. induction Hn as [|y L Hy Hn IH]; intros ind new.
  - cbn [fold_left fst snd filter]. rewrite app_nil_r. split; auto.
  - cbn [fold_left]. unfold release at 2 4. cbn [fst snd]. destruct (IH (upd ind y (ind y - 1)) (if ind y - 1 =? 0 then new ++ [y] else new)) as [A B].
    split.
    + rewrite A. cbn [filter].
      assert (filter (fun x => upd ind y (ind y - 1) x - 1 =? 0) L = filter (fun x => ind x - 1 =? 0) L) as ->.
      { apply filter_ext_in. intros x Hx. unfold upd. destruct (Nat.eqb_spec x y) as [->|]; [tauto|reflexivity]. }
      destruct (ind y - 1 =? 0); [now rewrite <- app_assoc|reflexivity].
    + intros x. rewrite B. unfold upd. change (has x (y :: L)) with ((x =? y) || has x L).
      destruct (Nat.eqb_spec x y) as [->|]; cbn; auto. destruct (has y L) eqn:E; auto. apply has_iff in E. tauto.
Qed.

(** The edges into [v] that do not come from [out]. *)
Definition into (e : list edge) (out : list nat) (v : nat) : list edge := filter (fun x => (snd x =? v) && negb (has (fst x) out)) e.
Lemma into_in e out v u w : In (u, w) (into e out v) <-> w = v /\ In (u, v) e /\ ~ In u out.
Proof.
  unfold into. rewrite filter_In. cbn [fst snd]. rewrite andb_true_iff, Nat.eqb_eq, negb_true_iff, has_false.
  split; intros H; [destruct H as (A & -> & B)|destruct H as (-> & A & B)]; auto.
Qed.
Lemma into_nil e out v : length (into e out v) = 0 <-> forall u, In (u, v) e -> In u out.
Proof.
  split.
  - intros H u Hu. destruct (in_dec Nat.eq_dec u out) as [|Hn]; auto. exfalso.
    apply length_zero_iff_nil in H. assert (In (u, v) (into e out v)) as X by (apply into_in; auto). now rewrite H in X.
  - intros H. destruct (into e out v) as [|[u w] t] eqn:E; [reflexivity|]. exfalso.
    assert (In (u, w) (into e out v)) as X by (rewrite E; now left). apply into_in in X as (_ & X & Y). auto.
Qed.
Lemma into_snoc e out v x : NoDup e -> ~ In v out ->
  length (into e (out ++ [v]) x) = if has x (after e v) then length (into e out x) - 1 else length (into e out x).
Proof.
  intros Hn Hv.
  assert (length (into e out x) = length (into e (out ++ [v]) x) + (if has x (after e v) then 1 else 0)) as H.
  { induction Hn as [|[u w] e Hx Hn IH]; [reflexivity|].
    assert (has u (out ++ [v]) = has u out || (u =? v)) as E.
    { destruct (has u (out ++ [v])) eqn:A.
      - apply has_iff in A. apply in_app_iff in A as [A|[->|[]]]; [apply has_iff in A; rewrite A; auto|rewrite Nat.eqb_refl, orb_true_r; auto].
      - apply has_false in A. rewrite in_app_iff in A. cbn in A. destruct (has u out) eqn:B; [apply has_iff in B; tauto|].
        destruct (Nat.eqb_spec u v); [subst; tauto|reflexivity]. }
    unfold into in *. cbn [filter fst snd]. rewrite E. unfold after in *. cbn [filter fst].
    destruct (Nat.eqb_spec w x) as [->|Hw]; cbn [andb].
    - destruct (Nat.eqb_spec u v) as [->|].
      + rewrite orb_true_r. cbn [negb]. assert (has v out = false) as -> by now apply has_false. cbn [negb map snd has existsb length].
        rewrite IH. cbn [length]. rewrite Nat.eqb_refl. cbn [orb].
        destruct (has x (map snd (filter (fun x0 : nat * nat => fst x0 =? v) e))) eqn:F; [|lia].
        exfalso. apply Hx. apply has_iff in F. now apply (after_in e v x).
      + rewrite orb_false_r. destruct (has u out); cbn [negb length]; rewrite IH; lia.
    - destruct (u =? v); cbn [map snd]; auto.
      rewrite has_cons.
      destruct (Nat.eqb_spec x w); [congruence|]. exact IH. }
  rewrite H. destruct (has x (after e v)); lia.
Qed.

Record kstate (b : list nat) (e : list edge) (ind : nat -> nat) (q out : list nat) : Prop := KState {
  k_nodup : NoDup (out ++ q);
  k_in : incl (out ++ q) b;
  k_ind : forall v, ind v = length (into e out v);
  k_zero : forall v, In v b -> (ind v = 0 <-> In v (out ++ q));
  k_order : forall u v, In (u, v) e -> In v out -> precedes out u v
}.
Lemma precedes_app l r a b : precedes l a b -> precedes (l ++ r) a b.
Proof. intros (l1 & l2 & l3 & ->). exists l1, l2, (l3 ++ r). rewrite <- !app_assoc. cbn. now rewrite <- app_assoc. Qed.

Lemma kahn_state b e sh fuel ind q out :
  NoDup e -> (forall u v, In (u, v) e -> In u b /\ In v b) -> (forall v l, Permutation l (sh v l)) ->
  kstate b e ind q out -> length b <= fuel + length out ->
  exists ind', kstate b e ind' [] (kahn fuel sh e ind q out).
Proof.
  intros He Hw Hs. revert ind q out. induction fuel as [|fuel IH]; intros ind q out K Hf.
  - cbn [kahn]. exists ind. assert (q = []) as ->; [|exact K].
    pose proof (NoDup_incl_length (k_nodup _ _ _ _ _ K) (k_in _ _ _ _ _ K)) as H. rewrite app_length in H. destruct q; auto. cbn in *. lia.
  - destruct q as [|v q]; [exists ind; exact K|]. cbn [kahn]. destruct K as [K1 K2 K3 K4 K5].
    assert (~ In v out) as Hv. { intros X. apply (NoDup_remove_2 _ _ _ K1). apply in_or_app. now left. }
    assert (In v b) as Hvb by (apply K2, in_elt).
    set (L := sh v (after e v)).
    assert (forall x, In x L <-> In (v, x) e) as HL.
    { intros x. rewrite <- after_in. split; apply Permutation_in; [symmetry|]; apply Hs. }
    assert (NoDup L) as HnL by (eapply Permutation_NoDup; [apply Hs|now apply after_nodup]).
    destruct (releases L ind [] HnL) as [A B]. destruct (fold_left release L (ind, [])) as [ind' new]. cbn [fst snd app] in A, B. subst new.
    apply IH; [|rewrite app_length; cbn; lia].
    assert (forall x, ind' x = length (into e (out ++ [v]) x)) as Hind.
    { intros x. rewrite B, into_snoc by auto. rewrite K3. destruct (has x L) eqn:E1, (has x (after e v)) eqn:E2; auto; exfalso.
      - apply has_iff in E1. apply has_false in E2. rewrite after_in in E2. apply HL in E1. tauto.
      - apply has_iff in E2. apply has_false in E1. rewrite HL in E1. apply after_in in E2. tauto. }
    assert (forall x, In (v, x) e -> ind x <> 0) as Hpos.
    { intros x Hx E. rewrite K3 in E. rewrite into_nil in E. apply Hv, (E _ Hx). }
    split; auto.
    + rewrite <- app_assoc. cbn [app]. rewrite app_comm_cons, app_assoc.
      apply nodup_disj; [exact K1|now apply NoDup_filter|]. intros x Hx Hx'. apply filter_In in Hx' as [Hx' _]. apply HL in Hx'.
      apply (Hpos x Hx'). apply K4; auto.
    + rewrite <- app_assoc. cbn [app]. rewrite app_comm_cons, app_assoc. apply incl_app; [exact K2|].
      intros x Hx. apply filter_In in Hx as [Hx _]. apply HL in Hx. now apply Hw in Hx.
    + intros x Hx. rewrite <- app_assoc. cbn [app]. rewrite app_comm_cons, app_assoc, (in_app_iff (out ++ v :: q)). rewrite <- (K4 x Hx), filter_In, B, HL.
      rewrite Nat.eqb_eq. destruct (has x L) eqn:E.
      * apply has_iff, HL in E. specialize (Hpos x E). intuition lia.
      * apply has_false in E. rewrite HL in E. tauto.
    + intros u x Hux Hx. apply in_app_iff in Hx as [Hx|[<-|[]]]; [apply precedes_app; auto|].
      assert (ind v = 0) as Hz by (apply K4; [auto|apply in_elt]). rewrite K3 in Hz. rewrite into_nil in Hz. specialize (Hz _ Hux).
      apply in_split in Hz as (l1 & l2 & ->). exists l1, l2, []. now rewrite <- app_assoc.
Qed.

Theorem topo_spec b e sh : NoDup b -> NoDup e -> (forall u v, In (u, v) e -> In u b /\ In v b) -> (forall v l, Permutation l (sh v l)) ->
  let out := topo_sort sh b e in
  NoDup out /\ incl out b /\ (forall u v, In (u, v) e -> In v out -> precedes out u v) /\
  (forall v, In v b -> ~ In v out -> exists u, In (u, v) e /\ ~ In u out).
Proof.
  intros Hb He Hw Hs out.
  assert (forall v, indeg e v = length (into e [] v)) as Hi.
  { intros v. unfold indeg, into. f_equal. apply filter_ext. intros x. cbn. now rewrite andb_true_r. }
  destruct (kahn_state b e sh (length b + length e) (indeg e) (filter (fun v => indeg e v =? 0) b) []) as (ind' & [K1 K2 K3 K4 K5]); auto.
  - split; auto; cbn [app].
    + now apply NoDup_filter.
    + intros x Hx. now apply filter_In in Hx.
    + intros v Hv. rewrite filter_In, Nat.eqb_eq. tauto.
    + intros u v _ [].
  - cbn. lia.
  - fold (topo_sort sh b e) in *. fold out in K1, K2, K3, K4, K5. rewrite app_nil_r in *. repeat split; auto.
    intros v Hv Hn. specialize (K4 v Hv). assert (length (into e out v) <> 0) as Hz by (rewrite <- K3; tauto).
    destruct (into e out v) as [|[u w] t] eqn:E; [now cbn in Hz|]. exists u.
    assert (In (u, w) (into e out v)) as X by (rewrite E; now left). apply into_in in X as (_ & X & Y). auto.
Qed.
Theorem topo_listing b e sh : NoDup b -> NoDup e -> (forall u v, In (u, v) e -> In u b /\ In v b) -> (forall v l, Permutation l (sh v l)) ->
  acyclic e -> listing b e (topo_sort sh b e).
Proof.
  intros Hb He Hw Hs [rank Hr]. destruct (topo_spec b e sh Hb He Hw Hs) as (A & B & C & D). set (out := topo_sort sh b e) in *. clearbody out.
  assert (forall n v, rank v < n -> In v b -> In v out) as H.
  { induction n as [|n IH]; intros v Hv Hin; [lia|]. destruct (in_dec Nat.eq_dec v out) as [|Hn]; auto.
    destruct (D v Hin Hn) as (u & Hu & Hu'). destruct Hu'. apply IH; [apply Hr in Hu; lia|now apply Hw in Hu]. }
  split.
  - apply NoDup_Permutation; auto. intros x. split; [intros Hx; eapply H; eauto|apply B].
  - intros u v Huv. apply C; auto. eapply H; eauto. now apply Hw in Huv.
Qed.

(** * Writing back *)

Lemma old_places l b : NoDup l -> NoDup b -> incl b l -> sorted (map (at_ l) b) = places l b.
Proof.
  intros Hl Hb Hi. apply sorted_unique; [apply sorted_le|apply lt_le_sorted, places_sorted|].
  rewrite <- sorted_perm. apply NoDup_Permutation.
  - clear - Hb Hi. induction Hb as [|x b Hx Hb IH]; cbn; constructor.
    + rewrite in_map_iff. intros (y & E & Hy). apply Hx. destruct (at_in l x (Hi _ (or_introl eq_refl))) as [_ <-].
      rewrite <- E. destruct (at_in l y (Hi _ (or_intror Hy))) as [_ ->]. exact Hy.
    + apply IH. intros y Hy. apply Hi. now right.
  - apply SeqSwapP.sorted_nodup, places_sorted.
  - intros i. rewrite places_in, in_map_iff. split.
    + intros (x & <- & Hx). destruct (at_in l x (Hi _ Hx)) as [A B]. rewrite B. auto.
    + intros [A B]. exists (nth i l 0). split; auto. now apply at_nth.
Qed.
Lemma place_some l b out : NoDup l -> NoDup b -> incl b l -> NoDup out -> incl out b ->
  place l b out = Some (writes l (places l b) out).
Proof.
  intros Hl Hb Hi Ho Hob. unfold place. rewrite old_places by auto.
  assert (length (places l b) = length b) as HL.
  { rewrite <- old_places by auto. rewrite <- (Permutation_length (sorted_perm _)). apply map_length. }
  assert (length out <= length b) as H by now apply NoDup_incl_length.
  destruct (Nat.ltb_spec (length (places l b)) (length out)); [lia|]. cbn [orb].
  destruct (existsb _ _) eqn:E; auto. exfalso. apply existsb_exists in E as (i & Hin & E). apply Nat.leb_le in E.
  apply (In_nth _ _ 0) in Hin as (k & Hk & Hn). rewrite firstn_length in Hk.
  assert (In i (places l b)) as X.
  { rewrite <- Hn. rewrite <- (firstn_skipn (length out) (places l b)) at 2. apply in_or_app. left. apply nth_In. rewrite firstn_length. lia. }
  apply places_in in X. lia.
Qed.
Lemma place_listing l b out e : NoDup l -> NoDup b -> incl b l -> listing b e out ->
  exists r, place l b out = Some r /\ rearranged (fun x => In x b) l r /\ (forall u v, In (u, v) e -> precedes r u v).
Proof.
  intros Hl Hb Hi [Hp He]. exists (writes l (places l b) out).
  assert (NoDup out) as Ho by (eapply Permutation_NoDup; eauto).
  split; [apply place_some; auto; intros x Hx; eapply Permutation_in; [symmetry; eauto|auto]|].
  assert (forall p, In p (places l b) -> p < length l) as Hin by (intros p Hx; apply places_in in Hx; tauto).
  assert (length (places l b) = length out) as HL.
  { rewrite <- old_places by auto. rewrite <- (Permutation_length (sorted_perm _)), map_length. now apply Permutation_length. }
  pose proof (writes_in l (places l b) out Hin (SeqSwapP.sorted_nodup _ (places_sorted _ _)) HL) as W.
  set (r := writes l (places l b) out) in *.
  assert (length r = length l) as Hr by apply writes_len.
  assert (forall k, k < length out -> nth (nth k (places l b) 0) r 0 = nth k out 0) as HK.
  { intros k Hk. rewrite <- W. rewrite (nth_map_lt (fun i => nth i r 0)) by lia. reflexivity. }
  assert (Permutation l r) as HP.
  { apply NoDup_Permutation_bis; [auto|lia|]. intros x Hx. apply (In_nth _ _ 0) in Hx as (i & Hil & Ex).
    destruct (in_dec Nat.eq_dec i (places l b)) as [Hip|Hip].
    - apply places_in in Hip as [_ Hip]. rewrite Ex in Hip. assert (In x out) as Hxo by (eapply Permutation_in; eauto).
      rewrite <- W in Hxo. apply in_map_iff in Hxo as (j & <- & Hj). apply nth_In. rewrite Hr. auto.
    - rewrite <- Ex, <- (writes_out l (places l b) out i Hin Hip). apply nth_In. now rewrite Hr. }
  split; [split; [exact HP|]|].
  - intros i Hil Hni. apply writes_out; auto. intros X. apply places_in in X. tauto.
  - intros u v Huv. apply He in Huv. apply precedes_at in Huv as (Hlt & Hu & Hv); auto.
    destruct (at_in out u Hu) as [U1 U2], (at_in out v Hv) as [V1 V2].
    set (i := at_ out u) in *. set (j := at_ out v) in *. clearbody i j. rewrite <- U2, <- V2, <- (HK i), <- (HK j) by auto.
    assert (NoDup r) as Hnr by (eapply Permutation_NoDup; eauto).
    assert (nth i (places l b) 0 < length r /\ nth j (places l b) 0 < length r) as [R1 R2].
    { split; rewrite Hr; apply Hin, nth_In; lia. }
    apply at_precedes; [|now apply nth_In]. rewrite !at_nth by auto.
    pose proof (places_sorted l b) as HS. revert HS Hlt U1 V1. rewrite <- HL. clear. generalize (places l b) as ps.
    intros ps HS. revert i j. induction HS as [|p ps HS IH Hf]; intros i j Hlt U1 V1; cbn in *; [lia|].
    destruct j as [|j]; [lia|]. destruct i as [|i].
    + rewrite Forall_forall in Hf. apply Hf, nth_In. lia.
    + apply IH; lia.
Qed.

(** * The edges *)

Lemma link_in e u v x : In x (link e u v) <-> In x e \/ x = (u, v).
Proof.
  unfold link. destruct (is_edge e u v) eqn:E.
  - split; auto. intros [H| ->]; auto. apply existsb_exists in E as (y & Hy & E). apply pair_eqb_eq in E. now subst.
  - rewrite in_app_iff. cbn. intuition.
Qed.
Lemma is_edge_false e u v : is_edge e u v = false -> ~ In (u, v) e.
Proof.
  intros E H. unfold is_edge in E. assert (existsb (fun x => pair_eqb x (u, v)) e = true) as X; [|congruence].
  apply existsb_exists. exists (u, v). split; auto. now apply pair_eqb_eq.
Qed.
Lemma snoc_nodup A (l : list A) x : NoDup l -> ~ In x l -> NoDup (l ++ [x]).
Proof. intros Hn H. apply nodup_disj; auto; [constructor; [easy|constructor]|]. intros y Hy [->|[]]. auto. Qed.
Lemma link_nodup e u v : NoDup e -> NoDup (link e u v).
Proof. intros Hn. unfold link. destruct (is_edge e u v) eqn:E; auto. apply snoc_nodup; auto. now apply is_edge_false. Qed.

(** More edges, between the blocks [b], none of them twice. *)
Definition good (b : list nat) (e : list edge) : Prop := NoDup e /\ forall u v, In (u, v) e -> In u b /\ In v b.
Definition grows (b : list nat) (e e' : list edge) : Prop := (good b e -> good b e') /\ incl e e'.
Lemma grows_refl b e : grows b e e. Proof. split; auto. apply incl_refl. Qed.
Lemma grows_trans b e e' e'' : grows b e e' -> grows b e' e'' -> grows b e e''.
Proof. intros [A B] [C D]. split; auto. eapply incl_tran; eauto. Qed.
Lemma grows_link b e u v : In u b -> In v b -> grows b e (link e u v).
Proof.
  intros Hu Hv. split.
  - intros [A B]. split; [now apply link_nodup|]. intros x y H. apply link_in in H as [H|H]; auto. now injection H as -> ->.
  - intros x H. apply link_in. now left.
Qed.
Lemma grows_fold b A (f : list edge -> A -> list edge) l e : (forall e x, In x l -> grows b e (f e x)) -> grows b e (fold_left f l e).
Proof.
  revert e. induction l as [|x l IH]; intros e H; cbn; [apply grows_refl|]. eapply grows_trans; [apply H; now left|].
  apply IH. intros e' y Hy. apply H. now right.
Qed.
Lemma grows_if b (c : bool) e e1 e2 : grows b e e1 -> grows b e e2 -> grows b e (if c then e1 else e2).
Proof. now destruct c. Qed.

Ltac ifs := repeat match goal with |- grows _ _ (if _ then _ else _) => apply grows_if end.
Ltac links := repeat first [apply grows_refl | eapply grows_trans; [|apply grows_link; assumption]].

Lemma push_in l v x : In x (push_new l v) <-> In x l \/ x = v.
Proof.
  unfold push_new. destruct (has v l) eqn:E; [apply has_iff in E; intuition; now subst|]. rewrite in_app_iff. cbn. intuition.
Qed.
Lemma push_nodup l v : NoDup l -> NoDup (push_new l v).
Proof. intros Hn. unfold push_new. destruct (has v l) eqn:E; auto. apply snoc_nodup; auto. now apply has_false. Qed.
Lemma push_fold A (f : list nat -> A -> list nat) (P : A -> nat -> Prop) l b :
  (forall b x, In x l -> NoDup b -> NoDup (f b x)) -> (forall b x y, In x l -> (In y (f b x) <-> In y b \/ P x y)) -> NoDup b ->
  NoDup (fold_left f l b) /\ forall y, In y (fold_left f l b) <-> In y b \/ exists x, In x l /\ P x y.
Proof.
  revert b. induction l as [|x l IH]; intros b H1 H2 Hb; cbn.
  - split; auto. intros y. split; auto. intros [H|(x & [] & _)]; auto.
  - destruct (IH (f b x)) as [X Y]; [intros; apply H1; auto; now right|intros; apply H2; now right|apply H1; auto; now left|].
    split; auto. intros y. rewrite Y, H2 by now left. split.
    + intros [[H|H]|(z & Hz & H)]; [auto|right; exists x; auto|right; exists z; auto].
    + intros [H|(z & [->|Hz] & H)]; auto. right. eauto.
Qed.
Lemma order_blocks_spec os : NoDup (order_blocks os) /\ forall y, In y (order_blocks os) <-> exists o, In o os /\ (y = o_first o \/ y = o_second o).
Proof.
  destruct (push_fold _ (fun b o => push_new (push_new b (o_first o)) (o_second o)) (fun o y => y = o_first o \/ y = o_second o) os []) as [A B].
  - intros b x _ H. now apply push_nodup, push_nodup.
  - intros b x y _. rewrite !push_in. tauto.
  - constructor.
  - split; auto. intros y. unfold order_blocks. rewrite B. cbn. intuition.
Qed.
Lemma sym_blocks_spec gs b : NoDup b -> NoDup (sym_blocks gs b) /\
  forall y, In y (sym_blocks gs b) <-> In y b \/ exists g, In g gs /\ ((exists p, In p (g_pairs g) /\ (y = fst p \/ y = snd p)) \/ In y (selfs g)).
Proof.
  intros Hb. unfold sym_blocks. apply push_fold; auto.
  - intros b' g _ H. eapply push_fold with (P := fun x y => y = x); [intros; now apply push_nodup|intros; apply push_in|].
    eapply push_fold with (P := fun p y => y = fst p \/ y = snd p); auto; [intros; now apply push_nodup, push_nodup|intros; rewrite !push_in; tauto].
  - intros b' g y _.
    assert (forall l b0, In y (fold_left push_new l b0) <-> In y b0 \/ In y l) as H1.
    { induction l as [|x l IH]; intros b0; cbn; [tauto|]. rewrite IH, push_in. intuition. }
    rewrite H1. assert (forall l b0, In y (fold_left (fun (b : list nat) (p : nat * nat) => push_new (push_new b (fst p)) (snd p)) l b0) <-> In y b0 \/ exists p, In p l /\ (y = fst p \/ y = snd p)) as H2.
    { induction l as [|x l IH]; intros b0; cbn; [split; [auto|intros [H|(z & [] & _)]; auto]|]. rewrite IH, !push_in. split.
      - intros [[[H|H]|H]|(p & Hp & H)]; auto; right; eauto.
      - intros [H|(p & [->|Hp] & [H|H])]; auto; right; eauto. }
    rewrite H2. tauto.
Qed.

Lemma order_edges_grows b os e : (forall o, In o os -> In (o_first o) b /\ In (o_second o) b) ->
  grows b e (fold_left (fun e o => link e (o_first o) (o_second o)) os e).
Proof. intros H. apply grows_fold. intros e' o Ho. apply grows_link; now apply H. Qed.
Lemma order_edges_in os e o : In o os \/ In (o_first o, o_second o) e -> In (o_first o, o_second o) (fold_left (fun e o => link e (o_first o) (o_second o)) os e).
Proof.
  revert e. induction os as [|x os IH]; intros e H; cbn; [destruct H as [[]|]; auto|]. apply IH. rewrite link_in.
  destruct H as [[->|H]|H]; auto.
Qed.
Lemma order_edges_only os e u v : In (u, v) (fold_left (fun e o => link e (o_first o) (o_second o)) os e) -> In (u, v) e \/ exists o, In o os /\ u = o_first o /\ v = o_second o.
Proof.
  revert e. induction os as [|x os IH]; intros e H; cbn in H; [auto|]. apply IH in H as [H|(o & Ho & H)].
  - apply link_in in H as [H|H]; auto. injection H as -> ->. right. exists x. cbn; auto.
  - right. exists o. cbn; auto.
Qed.
Definition neg_first (o : ordering) : nat := match snd o with DirH => o_first o | DirV => o_second o end.
Definition neg_second (o : ordering) : nat := match snd o with DirH => o_second o | DirV => o_first o end.
Lemma neg_edges_eq os e : fold_left (fun e o => match snd o with DirH => link e (o_first o) (o_second o) | DirV => link e (o_second o) (o_first o) end) os e =
  fold_left (fun e o => link e (neg_first o) (neg_second o)) os e.
Proof. revert e. induction os as [|o os IH]; intros e; cbn; auto. rewrite IH. f_equal. unfold neg_first, neg_second. now destruct (snd o). Qed.
Lemma neg_edges_in os e o : In o os \/ In (neg_first o, neg_second o) e -> In (neg_first o, neg_second o) (fold_left (fun e o => link e (neg_first o) (neg_second o)) os e).
Proof.
  revert e. induction os as [|x os IH]; intros e H; cbn; [destruct H as [[]|]; auto|]. apply IH. rewrite link_in.
  destruct H as [[->|H]|H]; auto.
Qed.
Lemma neg_edges_only os e u v : In (u, v) (fold_left (fun e o => link e (neg_first o) (neg_second o)) os e) -> In (u, v) e \/ exists o, In o os /\ u = neg_first o /\ v = neg_second o.
Proof.
  revert e. induction os as [|x os IH]; intros e H; cbn in H; [auto|]. apply IH in H as [H|(o & Ho & H)].
  - apply link_in in H as [H|H]; auto. injection H as -> ->. right. exists x. cbn; auto.
  - right. exists o. cbn; auto.
Qed.

Lemma in_order_in b l p : In (fst p) b -> In (snd p) b -> In (fst (in_order l p)) b /\ In (snd (in_order l p)) b.
Proof. intros H1 H2. unfold in_order. destruct (_ <? _); auto. Qed.
Lemma pair_pair_grows b l e p q : In (fst p) b -> In (snd p) b -> In (fst q) b -> In (snd q) b -> grows b e (pair_pair l e p q).
Proof.
  intros A B C D. unfold pair_pair. destruct p as [u v]. pose proof (in_order_in b l q C D) as [X Y]. destruct (in_order l q) as [x y].
  cbn [fst snd] in *. cbv zeta.
  ifs; try apply grows_refl; links.
Qed.
Lemma link2_grows b e x y : In (fst x) b -> In (snd x) b -> In (fst y) b -> In (snd y) b -> grows b e (link2 e x y).
Proof.
  intros A B C D. unfold link2. apply grows_if; [apply grows_refl|]. links.
Qed.
Lemma pair_self_grows b l e p s : In (fst p) b -> In (snd p) b -> In s b -> grows b e (pair_self l e p s).
Proof.
  intros A B C. unfold pair_self. destruct p as [u v]. cbn [fst snd] in *. cbv zeta.
  ifs; try apply grows_refl; now apply link2_grows.
Qed.
Lemma pairs_grows b l ss e ps : (forall s, In s ss -> In s b) -> (forall p, In p ps -> In (fst p) b /\ In (snd p) b) -> grows b e (pairs_edges l ss e ps).
Proof.
  intros Hs. revert e. induction ps as [|p ps IH]; intros e Hp; cbn [pairs_edges]; [apply grows_refl|].
  assert (In (fst p) b /\ In (snd p) b) as [P1 P2] by (apply Hp; now left). destruct (in_order_in b l p P1 P2) as [Q1 Q2].
  cbv zeta. eapply grows_trans; [|apply IH; intros; apply Hp; now right].
  eapply grows_trans; [|apply grows_fold; intros; apply pair_self_grows; auto].
  eapply grows_trans; [|apply grows_fold; intros e' q Hq; apply pair_pair_grows; auto; apply Hp; now right].
  apply grows_if; [now apply grows_link|apply grows_refl].
Qed.
Lemma sym_grows b l e g : (forall s, In s (selfs g) -> In s b) -> (forall p, In p (g_pairs g) -> In (fst p) b /\ In (snd p) b) -> grows b e (sym_edges l e g).
Proof.
  intros Hs Hp. unfold sym_edges. destruct (g_axis g); [|now apply pairs_grows]. apply grows_fold. intros e' p H.
  destruct (Hp p H) as [P1 P2]. destruct (in_order_in b l p P1 P2) as [Q1 Q2]. cbv zeta. apply grows_if; [now apply grows_link|apply grows_refl].
Qed.
Lemma align_grows b l h e bs : grows b e (align_edges b l h e bs).
Proof.
  revert e. induction bs as [|x bs IH]; intros e; cbn [align_edges]; [apply grows_refl|]. eapply grows_trans; [|apply IH].
  apply grows_fold. intros e' y _. unfold align_edge. destruct (has x b) eqn:Ex, (has y b) eqn:Ey; cbn [andb]; try apply grows_refl.
  apply has_iff in Ex, Ey. destruct (at_ l y <? at_ l x); apply grows_if; try apply grows_refl; apply grows_if; now apply grows_link.
Qed.
Lemma neg_blocks_spec d : NoDup (neg_blocks d) /\ (forall o, In o (o_orders d) -> In (o_first o) (neg_blocks d) /\ In (o_second o) (neg_blocks d)) /\
  (forall l, holds_all d l -> incl (neg_blocks d) l).
Proof.
  unfold neg_blocks. destruct (order_blocks_spec (o_orders d)) as [A B]. destruct (sym_blocks_spec (o_syms d) _ A) as [C D].
  split; [exact C|]. split.
  - intros o Ho. split; apply D; left; apply B; eauto.
  - intros l (H1 & H2 & _) x Hx. apply D in Hx as [Hx|(g & Hg & [(p & Hp & Hx)|Hx])].
    + apply B in Hx as ([[a b] m] & Ho & Hx). apply H1 in Ho. unfold o_first, o_second in Hx. cbn in Hx. intuition; now subst.
    + destruct (H2 g Hg) as [H _]. destruct p as [a b]. apply H in Hp. cbn in Hx. intuition; now subst.
    + now apply (proj2 (H2 g Hg)).
Qed.
Theorem neg_edges_good d l : good (neg_blocks d) (neg_edges d l) /\ forall o, In o (o_orders d) -> In (neg_first o, neg_second o) (neg_edges d l).
Proof.
  destruct (neg_blocks_spec d) as (A & B & _). unfold neg_edges, order_edges_neg. rewrite neg_edges_eq.
  match goal with |- good _ (fold_left _ _ (fold_left _ _ ?e0)) /\ _ => set (e := e0) end.
  assert (good (neg_blocks d) e) as He.
  { apply (grows_fold (neg_blocks d) _ (fun e o => link e (neg_first o) (neg_second o)) (o_orders d) []).
    - intros e' o Ho. apply B in Ho as [H1 H2]. unfold neg_first, neg_second. destruct (snd o); now apply grows_link.
    - split; [constructor|intros u v []]. }
  assert (forall o, In o (o_orders d) -> In (neg_first o, neg_second o) e) as Ho by (intros o H; apply neg_edges_in; auto).
  match goal with |- good _ ?e2 /\ _ => assert (grows (neg_blocks d) e e2) as [G1 G2] end.
  { eapply grows_trans; [apply grows_fold; intros e' al _; apply align_grows|]. apply grows_fold. intros e' g Hg.
    destruct (order_blocks_spec (o_orders d)) as [X Y]. destruct (sym_blocks_spec (o_syms d) _ X) as [_ D].
    apply sym_grows.
    - intros s Hs. apply D. right. eauto.
    - intros p Hp. split; apply D; right; exists g; split; auto; left; eauto. }
  split; auto.
Qed.

(** The positive sequence: with alignments, edges may leave the blocks of the ordering. *)
Lemma chain_nodup e c : NoDup e -> NoDup (chain_edges e c) /\ incl e (chain_edges e c).
Proof.
  revert e. induction c as [|u c IH]; intros e He; [split; [auto|apply incl_refl]|]. destruct c as [|v c]; [split; [auto|apply incl_refl]|].
  cbn [chain_edges]. destruct (is_edge e u v || is_edge e v u) eqn:E; [now apply IH|].
  apply orb_false_iff in E as [E _]. destruct (IH (e ++ [(u, v)])) as [A B]; [apply snoc_nodup; auto; now apply is_edge_false|].
  split; auto. intros x Hx. apply B, in_or_app. now left.
Qed.
Lemma pos_edges_nodup d l : NoDup (pos_edges d l) /\ incl (order_edges (o_orders d)) (pos_edges d l).
Proof.
  unfold pos_edges. assert (NoDup (order_edges (o_orders d))) as H.
  { unfold order_edges. destruct (order_blocks_spec (o_orders d)) as [_ B].
    refine (proj1 (proj1 (order_edges_grows (order_blocks (o_orders d)) (o_orders d) [] _) _)); [|split; [constructor|intros u v []]].
    intros o Ho. split; apply B; eauto. }
  revert H. generalize (order_edges (o_orders d)) as e. generalize (o_aligns d) as als. intros als. induction als as [|al als IH]; intros e He; cbn [fold_left]; [split; [auto|apply incl_refl]|].
  destruct (fst al); [|now apply IH]. match goal with |- context[chain_edges e ?c] => destruct (chain_nodup e c He) as [A B] end.
  destruct (IH _ A) as [C D]. split; auto. eapply incl_tran; eauto.
Qed.
Lemma pos_edges_order d l o : In o (o_orders d) -> In (o_first o, o_second o) (pos_edges d l).
Proof. intros Ho. apply pos_edges_nodup. apply order_edges_in. auto. Qed.
