(** Insertion-ordered dictionaries (python [dict], [OrderedDict], [defaultdict]) as association
    lists, and [defaultdict(list)] grouping.  No model content; used by several models. *)
From Verif Require Import Base.Prelude.

Section Dict.
  Context {K V : Type} (eqb : K -> K -> bool).

  (** [d.get(k)]. *)
  Fixpoint dget (d : list (K * V)) (k : K) : option V :=
    match d with
    | [] => None
    | (k', v) :: tl => if eqb k k' then Some v else dget tl k
    end.

  (** [d[k] = f(d.get(k))]: in place when the key exists, else appended at the end. *)
  Fixpoint dupd (d : list (K * V)) (k : K) (f : option V -> V) : list (K * V) :=
    match d with
    | [] => [(k, f None)]
    | (k', v) :: tl => if eqb k k' then (k', f (Some v)) :: tl else (k', v) :: dupd tl k f
    end.

  (** [d[k] = v]. *)
  Definition dset d k v := dupd d k (fun _ => v).

  (** [k in d]. *)
  Definition dmem d k : bool := match dget d k with Some _ => true | None => false end.
End Dict.

(** [defaultdict(list)]: [d[k].append(x)]. *)
Definition dappend {K A} (eqb : K -> K -> bool) (d : list (K * list A)) k (x : A) :=
  dupd eqb d k (fun o => match o with Some l => l ++ [x] | None => [x] end).

(** A loop appending every element to the bucket of its key. *)
Definition group_by {K A} (eqb : K -> K -> bool) (key : A -> K) (l : list A) : list (K * list A) :=
  fold_left (fun d x => dappend eqb d (key x) x) l [].

Section DictP.
  Context {K V : Type} (eqb : K -> K -> bool).
  Hypothesis eqb_ok : forall a b, eqb a b = true <-> a = b.
  Implicit Types (d : list (K * V)).

  Lemma eqb_refl' a : eqb a a = true.
  Proof. now apply eqb_ok. Qed.

  Lemma eqb_neq a b : a <> b -> eqb a b = false.
  Proof. intros H. destruct (eqb a b) eqn:E; [apply eqb_ok in E; contradiction|reflexivity]. Qed.

  Lemma eqb_false a b : eqb a b = false -> a <> b.
  Proof. intros H ->. rewrite eqb_refl' in H. discriminate. Qed.

  Lemma dget_in d k v : dget eqb d k = Some v -> In (k, v) d.
  Proof.
    induction d as [|(k', v') d IH]; simpl; [discriminate|].
    destruct (eqb k k') eqn:E.
    - apply eqb_ok in E as ->. intros [= ->]. now left.
    - intros H. right. auto.
  Qed.

  Lemma dget_none d k : dget eqb d k = None <-> ~ In k (map fst d).
  Proof.
    induction d as [|(k', v') d IH]; simpl; [tauto|].
    destruct (eqb k k') eqn:E.
    - apply eqb_ok in E as ->. split; [discriminate|]. intros H. exfalso. tauto.
    - apply eqb_false in E. rewrite IH. split; intros H; intuition congruence.
  Qed.

  Lemma dget_some_in d k : In k (map fst d) -> exists v, dget eqb d k = Some v.
  Proof.
    intros H. destruct (dget eqb d k) eqn:E; [eauto|]. apply dget_none in E. contradiction.
  Qed.

  Lemma in_dget d k v : NoDup (map fst d) -> In (k, v) d -> dget eqb d k = Some v.
  Proof.
    induction d as [|(k', v') d IH]; simpl; [tauto|].
    intros Hnd [H|H]; inversion Hnd; subst.
    - injection H as -> ->. now rewrite eqb_refl'.
    - rewrite eqb_neq; [auto|]. intros ->.
      match goal with Hn : ~ In _ _ |- _ => apply Hn end. apply in_map_iff. exists (k', v). auto.
  Qed.

  Lemma dget_dupd_same d k f : dget eqb (dupd eqb d k f) k = Some (f (dget eqb d k)).
  Proof.
    induction d as [|(k', v') d IH]; simpl; [now rewrite eqb_refl'|].
    destruct (eqb k k') eqn:E; simpl; rewrite E; auto.
  Qed.

  Lemma dget_dupd_other d k k2 f : k2 <> k -> dget eqb (dupd eqb d k f) k2 = dget eqb d k2.
  Proof.
    intros Hne. induction d as [|(k', v') d IH]; simpl; [now rewrite eqb_neq|].
    destruct (eqb k k') eqn:E; simpl.
    - apply eqb_ok in E as ->. rewrite eqb_neq by assumption. reflexivity.
    - destruct (eqb k2 k'); auto.
  Qed.

  Lemma dupd_keys d k f :
    map fst (dupd eqb d k f) = if dmem eqb d k then map fst d else map fst d ++ [k].
  Proof.
    unfold dmem. induction d as [|(k', v') d IH]; simpl; [reflexivity|].
    destruct (eqb k k') eqn:E; simpl; [reflexivity|]. rewrite IH.
    destruct (dget eqb d k); reflexivity.
  Qed.

  Lemma dupd_keys_in d k f x : In x (map fst (dupd eqb d k f)) <-> x = k \/ In x (map fst d).
  Proof.
    rewrite dupd_keys. unfold dmem. destruct (dget eqb d k) eqn:E.
    - split; [tauto|]. intros [->|H]; [|assumption]. apply dget_in in E.
      apply in_map_iff. exists (k, v). auto.
    - rewrite in_app_iff. simpl. intuition.
  Qed.

  Lemma dupd_nodup d k f : NoDup (map fst d) -> NoDup (map fst (dupd eqb d k f)).
  Proof.
    intros H. rewrite dupd_keys. unfold dmem. destruct (dget eqb d k) eqn:E; [assumption|].
    apply dget_none in E. apply NoDup_Add with (a := k) (l := map fst d).
    - pose proof (Add_app k (map fst d) []) as HA. rewrite app_nil_r in HA. exact HA.
    - auto.
  Qed.
End DictP.

Section GroupP.
  Context {K A : Type} (eqb : K -> K -> bool) (key : A -> K).
  Hypothesis eqb_ok : forall a b, eqb a b = true <-> a = b.

  Lemma group_by_snoc l x :
    group_by eqb key (l ++ [x]) = dappend eqb (group_by eqb key l) (key x) x.
  Proof. unfold group_by. rewrite fold_left_app. reflexivity. Qed.

  Lemma group_by_get l k :
    dget eqb (group_by eqb key l) k =
    match filter (fun x => eqb (key x) k) l with [] => None | b => Some b end.
  Proof.
    induction l as [|x l IH] using rev_ind; [reflexivity|].
    rewrite group_by_snoc, filter_app. cbn [filter]. unfold dappend.
    destruct (eqb (key x) k) eqn:E.
    - apply eqb_ok in E. subst k. rewrite (dget_dupd_same eqb eqb_ok), IH.
      destruct (filter _ l); reflexivity.
    - rewrite app_nil_r. rewrite (dget_dupd_other eqb eqb_ok); [assumption|].
      intros ->. rewrite (eqb_refl' eqb eqb_ok) in E. discriminate.
  Qed.

  Lemma group_by_nodup l : NoDup (map fst (group_by eqb key l)).
  Proof.
    induction l as [|x l IH] using rev_ind; [constructor|].
    rewrite group_by_snoc. now apply dupd_nodup.
  Qed.

  Lemma group_by_in l k b :
    In (k, b) (group_by eqb key l) <-> b = filter (fun x => eqb (key x) k) l /\ b <> [].
  Proof.
    split.
    - intros H. apply (in_dget eqb eqb_ok) in H; [|apply group_by_nodup].
      rewrite group_by_get in H. destruct (filter _ l) eqn:E; [discriminate|].
      injection H as <-. split; congruence.
    - intros [-> H]. apply (dget_in eqb eqb_ok). rewrite group_by_get.
      destruct (filter _ l); [contradiction|reflexivity].
  Qed.

  Lemma group_by_elem l x : In x l -> exists b, In (key x, b) (group_by eqb key l) /\ In x b.
  Proof.
    intros H. exists (filter (fun y => eqb (key y) (key x)) l). split.
    - apply group_by_in. split; [reflexivity|].
      intros E. assert (In x []) as []. rewrite <- E. apply filter_In. split; auto.
      now apply eqb_ok.
    - apply filter_In. split; auto. now apply eqb_ok.
  Qed.

  (** Appending a whole bucket. *)
  Lemma fold_dappend_bucket (b : list A) k d :
    (forall x, In x b -> key x = k) -> b <> [] -> dget eqb d k = None ->
    fold_left (fun d x => dappend eqb d (key x) x) b d = d ++ [(k, b)].
  Proof.
    intros Hk Hne Hd.
    assert (G : forall b' pre, (forall x, In x b' -> key x = k) ->
              fold_left (fun d x => dappend eqb d (key x) x) b' (d ++ [(k, pre)]) = d ++ [(k, pre ++ b')]).
    { induction b' as [|x b' IH]; intros pre Hk'; simpl; [now rewrite app_nil_r|].
      rewrite (Hk' x) by now left.
      assert (E : dappend eqb (d ++ [(k, pre)]) k x = d ++ [(k, pre ++ [x])]).
      { clear -Hd eqb_ok. unfold dappend. induction d as [|(k', v) d IH]; simpl.
        - now rewrite (eqb_refl' eqb eqb_ok).
        - simpl in Hd. destruct (eqb k k'); [discriminate|]. f_equal. auto. }
      rewrite E, IH by (intros; apply Hk'; now right). now rewrite <- app_assoc. }
    destruct b as [|x b]; [contradiction|]. simpl. rewrite (Hk x) by now left.
    assert (E : dappend eqb d k x = d ++ [(k, [x])]).
    { clear -Hd. unfold dappend. induction d as [|(k', v) d IH]; simpl; [reflexivity|].
      simpl in Hd. destruct (eqb k k'); [discriminate|]. f_equal. auto. }
    rewrite E, G by (intros; apply Hk; now right). reflexivity.
  Qed.

  (** Grouping the concatenation of already grouped buckets gives them back. *)
  Lemma group_by_concat (d : list (K * list A)) :
    NoDup (map fst d) -> (forall k b, In (k, b) d -> b <> [] /\ forall x, In x b -> key x = k) ->
    group_by eqb key (concat (map snd d)) = d.
  Proof.
    intros Hnd Hb. unfold group_by.
    assert (G : forall d2 d1, NoDup (map fst (d1 ++ d2)) ->
              (forall k b, In (k, b) d2 -> b <> [] /\ forall x, In x b -> key x = k) ->
              fold_left (fun d x => dappend eqb d (key x) x) (concat (map snd d2)) d1 = d1 ++ d2).
    { induction d2 as [|(k, b) d2 IH]; intros d1 H1 H2; simpl; [now rewrite app_nil_r|].
      rewrite fold_left_app.
      destruct (H2 k b) as [Hne Hk]; [now left|].
      assert (Hd : dget eqb d1 k = None); [|rewrite (fold_dappend_bucket b k d1 Hk Hne Hd)].
      2:{ rewrite IH; [now rewrite <- app_assoc| |].
        + now rewrite <- app_assoc.
        + intros; apply H2; now right. }
      apply (dget_none eqb eqb_ok). intros Hin. rewrite map_app in H1. simpl in H1.
        apply NoDup_remove_2 in H1. apply H1. apply in_app_iff. now left. }
    apply (G d []); auto.
  Qed.
End GroupP.
