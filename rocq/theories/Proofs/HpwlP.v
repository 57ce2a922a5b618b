(** Flattening, the top-down and the bottom-up computation. *)
From Coq Require Import String ZifyBool.
From Verif Require Import Base.Prelude Base.PyDict Model.Transformation Model.RemoveDuplicates Model.Topo Model.Hpwl
  Spec.Geometry Spec.TopoSpec Spec.HpwlSpec Proofs.TransformationP Proofs.SemiP Proofs.TopoP.
Local Open Scope Z_scope.

(** * Generic lemmas *)
Lemma fold_dset_nodup {K V} (eqb : K -> K -> bool) (ok : forall a b, eqb a b = true <-> a = b) (l d : list (K * V)) :
  NoDup (map fst (d ++ l)) -> fold_left (fun d p => dset eqb d (fst p) (snd p)) l d = d ++ l.
Proof.
  revert d. induction l as [|(k, v) l IH]; intros d H; simpl; [now rewrite app_nil_r|].
  assert (E : dset eqb d k v = d ++ [(k, v)]).
  { assert (Hk : ~ In k (map fst d)).
    { rewrite map_app in H. simpl in H. apply NoDup_remove_2 in H. intros Hin. apply H, in_or_app. auto. }
    clear -Hk ok. unfold dset. induction d as [|(k', v') d IH]; simpl in *; [reflexivity|].
    destruct (eqb k k') eqn:E; [apply ok in E; subst; tauto|]. rewrite IH by tauto. reflexivity. }
  rewrite E. rewrite IH; rewrite <- app_assoc; [reflexivity|exact H].
Qed.

Lemma dict_of_id {V} (l : list (string * V)) : NoDup (map fst l) -> dict_of l = l.
Proof. intros H. unfold dict_of. now rewrite (fold_dset_nodup _ String.eqb_eq). Qed.

Lemma hname_eqb_ok a b : hname_eqb a b = true <-> a = b.
Proof.
  revert b. induction a as [|x a IH]; intros [|y b]; simpl; try (split; congruence).
  rewrite andb_true_iff, String.eqb_eq, IH. split; [intros (-> & ->); reflexivity|intros [= -> ->]; auto].
Qed.
Lemma pair_eqb_ok a b : pair_eqb a b = true <-> a = b.
Proof.
  destruct a as (a1, a2), b as (b1, b2). unfold pair_eqb. simpl. rewrite andb_true_iff, !String.eqb_eq.
  split; [intros (-> & ->); reflexivity|intros [= -> ->]; auto].
Qed.

Fixpoint zsum {A} (f : A -> Z) (l : list A) : Z := match l with [] => 0 | x :: tl => f x + zsum f tl end.

Lemma zsum_app {A} (f : A -> Z) a b : zsum f (a ++ b) = zsum f a + zsum f b.
Proof. induction a as [|x a IH]; simpl; [reflexivity|]. rewrite IH. lia. Qed.
Lemma zsum_map {A B} (g : A -> B) (f : B -> Z) l : zsum f (map g l) = zsum (fun x => f (g x)) l.
Proof. induction l as [|x l IH]; simpl; [reflexivity|]. now rewrite IH. Qed.
Lemma zsum_ext {A} (f g : A -> Z) l : (forall x, In x l -> f x = g x) -> zsum f l = zsum g l.
Proof. induction l as [|x l IH]; simpl; intros H; [reflexivity|]. now rewrite (H x), IH by auto. Qed.
Lemma zsum_perm {A} (f : A -> Z) a b : Permutation a b -> zsum f a = zsum f b.
Proof. induction 1; simpl; lia. Qed.
Lemma zsum_flat_map {A B} (f : B -> Z) (g : A -> list B) l : zsum f (flat_map g l) = zsum (fun x => zsum f (g x)) l.
Proof. induction l as [|x l IH]; simpl; [reflexivity|]. now rewrite zsum_app, IH. Qed.
Lemma fold_left_zsum {A} (f : A -> Z) l z : fold_left (fun acc x => acc + f x) l z = z + zsum f l.
Proof. revert z. induction l as [|x l IH]; intros z; simpl; [lia|]. rewrite IH. lia. Qed.

(** Two duplicate-free lists agreeing on the elements with a non-zero value have the same sum. *)
Lemma zsum_cover {A} (f : A -> Z) K1 K2 : NoDup K1 -> NoDup K2 -> (forall k, f k <> 0 -> (In k K1 <-> In k K2)) -> zsum f K1 = zsum f K2.
Proof.
  intros N1 N2 H.
  assert (G : forall l, zsum f l = zsum f (filter (fun k => negb (f k =? 0)) l)).
  { induction l as [|x l IH]; simpl; [reflexivity|]. destruct (Z.eqb_spec (f x) 0); simpl; lia. }
  rewrite (G K1), (G K2). apply zsum_perm, NoDup_Permutation; [now apply NoDup_filter..|].
  intros k. rewrite !filter_In. split; intros (Hin & Hf); (split; [|assumption]); apply H; auto; lia.
Qed.

Section Hier.
  Variable P : pvd.
  Hypothesis HO : hier_ok P.
  Variable rank : string -> nat.
  Hypothesis HR : forall m i, In m (pv_mods P) -> In i (md_insts m) -> (rank (mi_ctn i) < rank (md_name m))%nat.

  Notation G := (pv_globals P).

  Lemma modules_eq : modules P = map (fun m => (md_name m, m)) (pv_mods P).
  Proof.
    unfold modules.
    assert (E : forall l d, fold_left (fun d m => dset String.eqb d (md_name m) m) l d =
                            fold_left (fun d p => dset String.eqb d (fst p) (snd p)) (map (fun m => (md_name m, m)) l) d).
    { induction l as [|m l IH]; intros d; simpl; [reflexivity|]. apply IH. }
    rewrite E, (fold_dset_nodup _ String.eqb_eq); [reflexivity|]. simpl. rewrite map_map. simpl. apply HO.
  Qed.

  Lemma mod_get m : In m (pv_mods P) -> dget String.eqb (modules P) (md_name m) = Some m.
  Proof.
    intros H. apply (in_dget _ String.eqb_eq).
    - rewrite modules_eq, map_map. apply HO.
    - rewrite modules_eq. apply in_map_iff. exists m. auto.
  Qed.
  Lemma mod_get_inv c m : dget String.eqb (modules P) c = Some m -> In m (pv_mods P) /\ md_name m = c.
  Proof.
    intros H. apply (dget_in _ String.eqb_eq) in H. rewrite modules_eq in H. apply in_map_iff in H as (m' & [= <- ->] & H). auto.
  Qed.
  Lemma mod_get_none c : dget String.eqb (modules P) c = None -> forall m, In m (pv_mods P) -> md_name m <> c.
  Proof. intros H m Hm <-. rewrite (mod_get m Hm) in H. discriminate. Qed.

  Definition inst_pairs : list ((string * string) * minst) := flat_map (fun m => map (fun i => ((md_name m, mi_name i), i)) (md_insts m)) (pv_mods P).
  Lemma inst_pairs_nodup : NoDup (map fst inst_pairs).
  Proof.
    unfold inst_pairs. pose proof (ho_mods P HO) as Hm. pose proof (ho_insts P HO) as Hi. clear HR. revert Hm Hi.
    induction (pv_mods P) as [|m l IH]; simpl; intros Hm Hi; [constructor|]. inversion Hm as [|? ? Hni Hm']; subst.
    rewrite map_app, map_map. apply nodup_app'.
    - simpl. specialize (Hi m (or_introl eq_refl)). clear -Hi. induction (md_insts m) as [|i is IH]; simpl in *; [constructor|].
      inversion Hi as [|? ? Hn Hi']; subst. constructor; [|auto]. intros H. apply in_map_iff in H as (j & [= E] & Hj). apply Hn, in_map_iff. eauto.
    - exact (IH Hm' (fun m0 H0 => Hi m0 (or_intror H0))).
    - intros x Hx Hx'. simpl in Hx. apply in_map_iff in Hx as (i & <- & _). apply in_map_iff in Hx' as ((k, j) & Ek & Hj). simpl in Ek. subst k.
      apply in_flat_map in Hj as (m' & Hm'' & Hj). apply in_map_iff in Hj as (i' & [= E _ _] & _). apply Hni, in_map_iff. eauto.
  Qed.
  Lemma instances_eq : instances P = inst_pairs.
  Proof.
    unfold instances.
    assert (E : forall ms d, fold_left (fun d m => fold_left (fun d i => dset pair_eqb d (md_name m, mi_name i) i) (md_insts m) d) ms d =
       fold_left (fun d p => dset pair_eqb d (fst p) (snd p)) (flat_map (fun m => map (fun i => ((md_name m, mi_name i), i)) (md_insts m)) ms) d).
    { induction ms as [|m ms IH]; intros d; simpl; [reflexivity|]. rewrite fold_left_app. rewrite IH. f_equal.
      generalize d. induction (md_insts m) as [|i is IHi]; intros d0; simpl; [reflexivity|]. apply IHi. }
    rewrite E. fold inst_pairs. rewrite (fold_dset_nodup _ pair_eqb_ok); [reflexivity|]. simpl. apply inst_pairs_nodup.
  Qed.
  Lemma inst_get m i : In m (pv_mods P) -> In i (md_insts m) -> dget pair_eqb (instances P) (md_name m, mi_name i) = Some i.
  Proof.
    intros Hm Hi. rewrite instances_eq. apply (in_dget _ pair_eqb_ok); [apply inst_pairs_nodup|].
    apply in_flat_map. exists m. split; [assumption|]. apply in_map_iff. exists i. auto.
  Qed.

  (** * Flattening *)
  Definition up (i : minst) (k : hname) : hname :=
    match k with
    | [x] => if smem x G then [x] else match dget String.eqb (mi_fa i) x with Some a => [a] | None => [mi_name i; x] end
    | _ => mi_name i :: k
    end.
  Definition contrib (child : modl -> list (hname * Rect)) (i : minst) : list (hname * Rect) :=
    match dget String.eqb (modules P) (mi_ctn i) with
    | Some m' => map (fun kr => (up i (fst kr), place (mi_tr i) (snd kr))) (child m')
    | None => flat_map (fun p => map (fun r => ([snd p], place (mi_tr i) r)) (leaf_terminals P (mi_ctn i) (fst p))) (mi_fa i)
    end.
  Fixpoint flat (n : nat) (m : modl) : list (hname * Rect) :=
    match n with 0%nat => [] | Datatypes.S n' => flat_map (contrib (flat n')) (md_insts m) end.
  Definition fl (m : modl) : list (hname * Rect) := flat (Datatypes.S (rank (md_name m))) m.

  Lemma flat_map_ext_in' {A B} (f g : A -> list B) l : (forall x, In x l -> f x = g x) -> flat_map f l = flat_map g l.
  Proof. induction l as [|a l IH]; simpl; intros H; [reflexivity|]. rewrite H, IH by auto. reflexivity. Qed.

  Lemma flat_stable n : forall n' m, In m (pv_mods P) -> (rank (md_name m) < n)%nat -> (rank (md_name m) < n')%nat -> flat n m = flat n' m.
  Proof.
    induction n as [|n IH]; intros [|n'] m Hm H1 H2; try lia. cbn [flat]. apply flat_map_ext_in'. intros i Hi.
    unfold contrib. destruct (dget String.eqb (modules P) (mi_ctn i)) as [m'|] eqn:E; [|reflexivity].
    apply mod_get_inv in E as (Hm' & En). pose proof (HR m i Hm Hi). rewrite (IH n' m') by (auto; rewrite En; lia). reflexivity.
  Qed.

  Lemma fl_eq m : In m (pv_mods P) -> fl m = flat_map (contrib fl) (md_insts m).
  Proof.
    intros Hm. unfold fl at 1. cbn [flat]. apply flat_map_ext_in'. intros i Hi.
    unfold contrib. destruct (dget String.eqb (modules P) (mi_ctn i)) as [m'|] eqn:E; [|reflexivity].
    apply mod_get_inv in E as (Hm' & En). pose proof (HR m i Hm Hi).
    f_equal. unfold fl. apply flat_stable; [assumption|rewrite En; lia|lia].
  Qed.

  (** Induction over the hierarchy. *)
  Lemma hier_ind (Q : modl -> Prop) :
    (forall m, In m (pv_mods P) -> (forall i m', In i (md_insts m) -> dget String.eqb (modules P) (mi_ctn i) = Some m' -> Q m') -> Q m) ->
    forall m, In m (pv_mods P) -> Q m.
  Proof.
    intros H. assert (A : forall n m, (rank (md_name m) < n)%nat -> In m (pv_mods P) -> Q m).
    { induction n as [|n IH]; intros m Hn Hm; [lia|]. apply H; [assumption|]. intros i m' Hi E.
      apply mod_get_inv in E as (Hm' & En). pose proof (HR m i Hm Hi). apply IH; [rewrite En; lia|assumption]. }
    intros m Hm. apply (A (Datatypes.S (rank (md_name m)))); [lia|assumption].
  Qed.

  Lemma up_nonempty i k : up i k <> [].
  Proof. unfold up. destruct k as [|x [|y k]]; try discriminate. destruct (smem x G); [discriminate|]. destruct (dget _ _ x); discriminate. Qed.

  Lemma fl_ok m : In m (pv_mods P) -> forall k r, In (k, r) (fl m) -> k <> [] /\ canonical r = r.
  Proof.
    intros Hm k r. rewrite (fl_eq m Hm). intros H. apply in_flat_map in H as (i & Hi & H). unfold contrib in H.
    destruct (dget String.eqb (modules P) (mi_ctn i)).
    - apply in_map_iff in H as ((k', r') & [= <- <-] & _). split; [apply up_nonempty|apply canonical_place].
    - apply in_flat_map in H as ((f, a) & _ & H). apply in_map_iff in H as (r' & [= <- <-] & _). split; [discriminate|apply canonical_place].
  Qed.

  (** * Top-down *)
  Definition sub (tr : list (string * hname)) (prefix k : hname) : hname :=
    match k with
    | [x] => if smem x G then [x] else match dget String.eqb tr x with Some h => h | None => prefix ++ [x] end
    | _ => prefix ++ k
    end.
  Definition pr (top : string) (pin : hname) : list Rect := match pin_rects P top pin with Some rs => rs | None => [] end.
  Definition expand (top : string) (NL : list (hname * hname)) : list (hname * Rect) :=
    flat_map (fun hp => map (pair (fst hp)) (pr top (snd hp))) NL.

  Lemma walk_app c t p q : walk P c t (p ++ q) = match walk P c t p with Some (c', t') => walk P c' t' q | None => None end.
  Proof.
    revert c t. induction p as [|n p IH]; intros c t; simpl; [reflexivity|].
    destruct (dget pair_eqb (instances P) (c, n)); [apply IH|reflexivity].
  Qed.

  Lemma concatM_ok {A B} (f : A -> option (list B)) l : (forall a, In a l -> exists x, f a = Some x) ->
    concatM f l = Some (flat_map (fun a => match f a with Some x => x | None => [] end) l).
  Proof.
    induction l as [|a l IH]; simpl; intros H; [reflexivity|]. destruct (H a (or_introl eq_refl)) as (x & ->). now rewrite IH by auto.
  Qed.

  Lemma smem_ok' x l : smem x l = true <-> In x l. Proof. apply smem_ok. Qed.

  Lemma gen_pairs_keys prefix tr fa : map fst (gen_pairs P prefix tr fa) = map fst fa.
  Proof. unfold gen_pairs. rewrite map_map. reflexivity. Qed.

  Lemma gen_pairs_get prefix tr fa x : dget String.eqb (gen_pairs P prefix tr fa) x =
    option_map (fun a => if smem a G then [a] else match dget String.eqb tr a with Some h => h | None => prefix ++ [a] end) (dget String.eqb fa x).
  Proof. induction fa as [|(f, a) fa IH]; simpl; [reflexivity|]. destruct (String.eqb x f); [reflexivity|exact IH]. Qed.

  Lemma sub_up i prefix tr k : k <> [] -> sub (gen_pairs P prefix tr (mi_fa i)) (prefix ++ [mi_name i]) k = sub tr prefix (up i k).
  Proof.
    intros Hk. destruct k as [|x [|y k]]; [congruence| |].
    - simpl. destruct (smem x G) eqn:Ex; [simpl; now rewrite Ex|]. rewrite gen_pairs_get.
      destruct (dget String.eqb (mi_fa i) x) as [a|]; simpl; [|now rewrite <- app_assoc]. destruct (smem a G); reflexivity.
    - simpl. now rewrite <- app_assoc.
  Qed.

  Lemma net_flat top : forall n m prefix tr T, In m (pv_mods P) -> (rank (md_name m) < n)%nat -> unit_tr T ->
    walk P top tr_default prefix = Some (md_name m, T) ->
    (forall k, In k (map fst tr) -> In k (md_params m)) -> (prefix <> [] -> forall p, In p (md_params m) -> In p (map fst tr)) ->
    exists NL, net_aux n P m prefix tr = Some NL /\ (forall h pin, In (h, pin) NL -> exists rs, pin_rects P top pin = Some rs) /\
      expand top NL = map (fun kr => (sub tr prefix (fst kr), place T (snd kr))) (fl m).
  Proof.
    induction n as [|n IH]; intros m prefix tr T Hm Hn HT HW HK1 HK2; [lia|]. cbn [net_aux].
    assert (Hguard : forallb (fun k => smem k (md_params m)) (map fst tr) &&
       (match prefix with [] => true | _ => forallb (fun p => smem p (map fst tr)) (md_params m) end) = true).
    { apply andb_true_iff. split.
      - apply forallb_forall. intros k Hk. now apply smem_ok, HK1.
      - destruct prefix; [reflexivity|]. apply forallb_forall. intros k Hk. apply smem_ok, HK2; [discriminate|assumption]. }
    rewrite Hguard. clear Hguard.
    match goal with |- context [concatM ?X _] => set (F := X) end.
    assert (FI : forall i, In i (md_insts m) -> exists NL, F i = Some NL /\ (forall h pin, In (h, pin) NL -> exists rs, pin_rects P top pin = Some rs) /\
      expand top NL = map (fun kr => (sub tr prefix (fst kr), place T (snd kr))) (contrib fl i)).
    { intros i Hi. unfold F, contrib.
      assert (HW' : walk P top tr_default (prefix ++ [mi_name i]) = Some (mi_ctn i, mult T (mi_tr i))).
      { rewrite walk_app, HW. cbn [walk]. rewrite (inst_get m i Hm Hi). reflexivity. }
      destruct (dget String.eqb (modules P) (mi_ctn i)) as [m'|] eqn:E.
      - pose proof E as E0. apply mod_get_inv in E as (Hm' & En). pose proof (HR m i Hm Hi) as Hlt. rewrite <- En in Hlt.
        rewrite dict_of_id by (rewrite gen_pairs_keys; apply (ho_formals P HO m); assumption).
        destruct (IH m' (prefix ++ [mi_name i]) (gen_pairs P prefix tr (mi_fa i)) (mult T (mi_tr i))) as (NL & E1 & E2 & E3).
        + assumption.
        + lia.
        + apply unit_tr_mult; [assumption|apply (ho_tr P HO m i); assumption].
        + rewrite HW', En. reflexivity.
        + intros k Hk. rewrite gen_pairs_keys in Hk. apply (ho_params P HO m i m'); auto.
        + intros _ p Hp. rewrite gen_pairs_keys. apply (ho_params P HO m i m'); auto.
        + exists NL. split; [exact E1|]. split; [exact E2|]. rewrite E3, map_map. apply map_ext_in. intros (k, r) Hkr. simpl.
          destruct (fl_ok m' Hm' k r Hkr) as (Hne & _). rewrite sub_up by assumption. rewrite place_mult by assumption. reflexivity.
      - eexists. split; [reflexivity|].
        assert (PR : forall f, pin_rects P top (prefix ++ [mi_name i; f]) = Some (map (place (mult T (mi_tr i))) (leaf_terminals P (mi_ctn i) f))).
        { intros f. unfold pin_rects. replace (prefix ++ [mi_name i; f]) with ((prefix ++ [mi_name i]) ++ [f]) by now rewrite <- app_assoc.
          rewrite removelast_last, HW', last_last. reflexivity. }
        split.
        + intros h pin H. apply in_map_iff in H as ((f, h') & [= <- <-] & _). simpl. rewrite PR. eauto.
        + unfold expand. rewrite flat_map_concat_map, map_map. unfold gen_pairs. rewrite map_map. rewrite (flat_map_concat_map _ (mi_fa i)).
          rewrite concat_map, map_map. f_equal. apply map_ext. intros (f, a). cbn [fst snd]. unfold pr. rewrite PR. rewrite !map_map.
          apply map_ext. intros r. cbn [fst snd]. rewrite place_mult by assumption. reflexivity. }
    exists (flat_map (fun i => match F i with Some x => x | None => [] end) (md_insts m)). split; [|split].
    - apply concatM_ok. intros i Hi. destruct (FI i Hi) as (NL & E & _). eauto.
    - intros h pin H. apply in_flat_map in H as (i & Hi & H). destruct (FI i Hi) as (NL & E & E2 & _). rewrite E in H. eauto.
    - rewrite (fl_eq m Hm). unfold expand.
      assert (FM : forall is, (forall i, In i is -> In i (md_insts m)) ->
        flat_map (fun hp => map (pair (fst hp)) (pr top (snd hp))) (flat_map (fun i => match F i with Some x => x | None => [] end) is) =
        map (fun kr => (sub tr prefix (fst kr), place T (snd kr))) (flat_map (contrib fl) is)).
      { induction is as [|i is IHi]; intros Hs; [reflexivity|]. cbn [flat_map]. rewrite flat_map_app, map_app, IHi by (intros; apply Hs; now right).
        f_equal. destruct (FI i (Hs i (or_introl eq_refl))) as (NL & E & _ & E3). rewrite E. exact E3. }
      apply FM. auto.
  Qed.

  Definition rects_of (k : hname) (L : list (hname * Rect)) : list Rect := map snd (filter (fun kr => hname_eqb (fst kr) k) L).
  Lemma rects_of_in k L r : In r (rects_of k L) <-> In (k, r) L.
  Proof.
    unfold rects_of. rewrite in_map_iff. split.
    - intros ((k', r') & <- & H). apply filter_In in H as (H & E). apply hname_eqb_ok in E. simpl in *. now subst.
    - intros H. exists (k, r). split; [reflexivity|]. apply filter_In. split; [assumption|]. now apply hname_eqb_ok.
  Qed.

  (** The wire length of net [k] of module [m]. *)
  Definition len (m : modl) (k : hname) : Z := sp_dist (sp_of (box (rects_of k (fl m)))).

  Lemma len_nonzero m k : len m k <> 0 -> exists r, In (k, r) (fl m).
  Proof.
    unfold len. destruct (rects_of k (fl m)) as [|r l] eqn:E; [intros H; exfalso; apply H; reflexivity|].
    intros _. exists r. apply rects_of_in. rewrite E. now left.
  Qed.

  Lemma top_down_sum m n skip : In m (pv_mods P) -> (rank (md_name m) < n)%nat ->
    exists nets, gen_netlist n P (md_name m) = Some nets /\
    exists K, NoDup K /\ (forall k, In k K -> (skip && is_global P k) = false) /\
      (forall k, len m k <> 0 -> (skip && is_global P k) = false -> In k K) /\
      top_down P (md_name m) nets skip = Some (zsum (len m) K).
  Proof.
    intros Hm Hn. unfold gen_netlist. rewrite (mod_get m Hm).
    destruct (net_flat (md_name m) n m [] [] tr_default Hm Hn unit_tr_default eq_refl) as (NL & E1 & E2 & E3); [intros k []|congruence|].
    rewrite E1. eexists. split; [reflexivity|].
    assert (EX : forall k r, In (k, r) (expand (md_name m) NL) <-> In (k, r) (fl m)).
    { intros k r. rewrite E3, in_map_iff. split.
      - intros ((k', r') & [= <- <-] & H). destruct (fl_ok m Hm k' r' H) as (Hne & Hc). cbn [fst snd].
        rewrite place_default, Hc. replace (sub [] [] k') with k'; [assumption|]. destruct k' as [|x [|y k']]; simpl; [congruence| |reflexivity].
        destruct (smem x G); reflexivity.
      - intros H. exists (k, r). destruct (fl_ok m Hm k r H) as (Hne & Hc). cbn [fst snd]. split; [|assumption].
        rewrite place_default, Hc. f_equal. destruct k as [|x [|y k]]; simpl; [congruence| |reflexivity]. destruct (smem x G); reflexivity. }
    set (gb := group_by hname_eqb fst NL).
    set (K := filter (fun k => negb (skip && is_global P k)) (map fst gb)).
    exists K. split; [|split; [|split]].
    - apply NoDup_filter, (group_by_nodup _ fst hname_eqb_ok).
    - intros k Hk. apply filter_In in Hk as (_ & Hk). now apply negb_true_iff.
    - intros k Hk Hs. apply filter_In. rewrite Hs. split; [|reflexivity].
      destruct (len_nonzero m k Hk) as (r & Hr). apply EX in Hr. unfold expand in Hr. apply in_flat_map in Hr as ((h, pin) & Hin & Hr).
      apply in_map_iff in Hr as (r' & [= -> ->] & _).
      destruct (group_by_elem _ fst hname_eqb_ok NL (k, pin) Hin) as (b & Hb & _). apply in_map_iff. exists (k, b). auto.
    - unfold top_down.
      assert (FM : forall l acc, (forall g, In g l -> In g gb) ->
        foldM (fun acc (net : hname * list hname) =>
          if skip && is_global P (fst net) then Some acc
          else match concatM (pin_rects P (md_name m)) (snd net) with
               | None => None
               | Some rs => Some (acc + sp_dist (fold_left sp_addRect rs sp_empty))
               end) (map (fun g => (fst g, map snd (snd g))) l) acc =
        Some (acc + zsum (len m) (filter (fun k => negb (skip && is_global P k)) (map fst l)))).
      { induction l as [|(h, ps) l IH]; intros acc Hl; [simpl; f_equal; lia|]. cbn [map foldM fst snd filter].
        destruct (skip && is_global P h) eqn:Es; cbn [negb].
        - apply IH. intros; apply Hl; now right.
        - specialize (IH (acc + len m h) (fun g Hg => Hl g (or_intror Hg))).
          assert (Hh : In (h, ps) gb) by (apply Hl; now left).
          apply (group_by_in _ fst hname_eqb_ok) in Hh as (Eb & _).
          assert (Hps : forall pin, In pin (map snd ps) -> In (h, pin) NL).
          { intros pin Hp. apply in_map_iff in Hp as ((h', pin') & <- & Hp). rewrite Eb in Hp. apply filter_In in Hp as (Hp & E). apply hname_eqb_ok in E.
            simpl in *. now subst. }
          rewrite concatM_ok by (intros pin Hp; apply (E2 h); auto). rewrite fold_add_empty.
          match goal with |- context [box ?L] => replace (box L) with (box (rects_of h (fl m))) end.
          + fold (len m h). rewrite IH. cbn [zsum]. f_equal. lia.
          + apply box_ext. intros r. rewrite rects_of_in, <- EX. unfold expand. rewrite in_flat_map, in_flat_map. split.
            * intros ((h', pin) & Hin & Hr). apply in_map_iff in Hr as (r' & [= -> ->] & Hr). exists pin. split; [|exact Hr].
              apply in_map_iff. exists (h, pin). split; [reflexivity|]. rewrite Eb. apply filter_In. split; [assumption|]. now apply hname_eqb_ok.
            * intros (pin & Hp & Hr). exists (h, pin). split; [auto|]. apply in_map_iff. exists r. auto. }
      rewrite (FM gb 0) by auto. reflexivity.
  Qed.

  (** * Bottom-up *)
  Hypothesis NC : no_clash P.

  (** The rectangles of pin [x] of template [c], in its own coordinates. *)
  Definition pins (c x : string) : list Rect :=
    match dget String.eqb (modules P) c with Some m' => rects_of [x] (fl m') | None => leaf_terminals P c x end.

  Definition all_pairs (i : minst) : list (string * string) := mi_fa i ++ map (fun g => (g, g)) (nodup string_dec G).

  Lemma inst_boxes_pairs cn b i : inst_boxes P cn b i =
    fold_left (fun b (p : string * string) => bset b (cn, snd p) (sp_update (b (cn, snd p)) (b (mi_ctn i, fst p)) (mi_tr i))) (all_pairs i) b.
  Proof.
    unfold inst_boxes, all_pairs. rewrite fold_left_app.
    generalize (fold_left (fun b (p : string * string) => bset b (cn, snd p) (sp_update (b (cn, snd p)) (b (mi_ctn i, fst p)) (mi_tr i))) (mi_fa i) b).
    induction (nodup string_dec G) as [|g l IH]; intros b0; simpl; [reflexivity|]. apply IH.
  Qed.

  Definition from_pairs (i : minst) (L : list (string * string)) (a : string) : list Rect :=
    flat_map (fun p => if String.eqb (snd p) a then map (place (mi_tr i)) (pins (mi_ctn i) (fst p)) else []) L.

  Lemma bset_same b k s : bset b k s k = s.
  Proof. unfold bset. now rewrite (proj2 (pair_eqb_ok k k) eq_refl). Qed.
  Lemma bset_other b k s k' : k' <> k -> bset b k s k' = b k'.
  Proof. intros H. unfold bset. destruct (pair_eqb k' k) eqn:E; [apply pair_eqb_ok in E; contradiction|reflexivity]. Qed.

  Lemma pairs_boxes cn i L b (B : string -> list Rect) : unit_tr (mi_tr i) -> mi_ctn i <> cn ->
    (forall a, b (cn, a) = sp_of (box (B a))) -> (forall x, b (mi_ctn i, x) = sp_of (box (pins (mi_ctn i) x))) ->
    let b' := fold_left (fun b (p : string * string) => bset b (cn, snd p) (sp_update (b (cn, snd p)) (b (mi_ctn i, fst p)) (mi_tr i))) L b in
    (forall a, b' (cn, a) = sp_of (box (B a ++ from_pairs i L a))) /\ (forall c a, c <> cn -> b' (c, a) = b (c, a)).
  Proof.
    intros Ht Hne. revert b B. induction L as [|(f, a0) L IH]; intros b B HB HC; cbn [fold_left].
    - split; [|reflexivity]. intros a. unfold from_pairs. simpl. now rewrite app_nil_r.
    - cbn [fst snd]. set (b1 := bset b (cn, a0) _).
      assert (H1 : forall a, b1 (cn, a) = sp_of (box (B a ++ (if String.eqb a0 a then map (place (mi_tr i)) (pins (mi_ctn i) f) else [])))).
      { intros a. unfold b1. destruct (String.eqb_spec a0 a) as [->|Hna].
        - rewrite bset_same, HB, HC, update_join by apply okbox_box. rewrite box_app, box_place by assumption. reflexivity.
        - rewrite bset_other by congruence. rewrite HB, app_nil_r. reflexivity. }
      assert (H2 : forall x, b1 (mi_ctn i, x) = sp_of (box (pins (mi_ctn i) x))).
      { intros x. unfold b1. rewrite bset_other by congruence. apply HC. }
      destruct (IH b1 _ H1 H2) as (I1 & I2). split.
      + intros a. rewrite I1. unfold from_pairs. cbn [flat_map fst snd]. now rewrite <- app_assoc.
      + intros c a Hc. rewrite I2 by assumption. unfold b1. apply bset_other. congruence.
  Qed.

  Lemma insts_boxes cn is b (B : string -> list Rect) :
    (forall i, In i is -> unit_tr (mi_tr i) /\ mi_ctn i <> cn /\ forall x, b (mi_ctn i, x) = sp_of (box (pins (mi_ctn i) x))) ->
    (forall a, b (cn, a) = sp_of (box (B a))) ->
    let b' := fold_left (inst_boxes P cn) is b in
    (forall a, b' (cn, a) = sp_of (box (B a ++ flat_map (fun i => from_pairs i (all_pairs i) a) is))) /\ (forall c a, c <> cn -> b' (c, a) = b (c, a)).
  Proof.
    revert b B. induction is as [|i is IH]; intros b B Hi HB; cbn [fold_left].
    - split; [|reflexivity]. intros a. simpl. now rewrite app_nil_r.
    - destruct (Hi i (or_introl eq_refl)) as (Ht & Hne & HC). rewrite inst_boxes_pairs.
      destruct (pairs_boxes cn i (all_pairs i) b B Ht Hne HB HC) as (P1 & P2).
      match goal with |- context [fold_left ?f (all_pairs i) b] => set (b1 := fold_left f (all_pairs i) b) in * end.
      destruct (IH b1 _ (fun j Hj => let '(conj A1 (conj A2 A3)) := Hi j (or_intror Hj) in conj A1 (conj A2 (fun x => eq_trans (P2 _ x A2) (A3 x)))) P1) as (I1 & I2).
      split.
      + intros a. rewrite I1. cbn [flat_map]. now rewrite <- app_assoc.
      + intros c a Hc. rewrite I2, P2 by assumption. reflexivity.
  Qed.

  Lemma dget_fa m i x a : In m (pv_mods P) -> In i (md_insts m) -> dget String.eqb (mi_fa i) x = Some a <-> In (x, a) (mi_fa i).
  Proof.
    intros Hm Hi. split; [apply (dget_in _ String.eqb_eq)|]. apply (in_dget _ String.eqb_eq). apply (ho_formals P HO m); assumption.
  Qed.

  (** What the pairs of the instances contribute to net [a] is what flattening gives. *)
  Lemma pairs_are_flat m a r : In m (pv_mods P) ->
    In r (flat_map (fun i => from_pairs i (all_pairs i) a) (md_insts m)) <-> In ([a], r) (fl m).
  Proof.
    intros Hm. rewrite (fl_eq m Hm), !in_flat_map. split.
    - intros (i & Hi & H). exists i. split; [assumption|]. unfold from_pairs in H. apply in_flat_map in H as ((f, a') & Hp & H). cbn [fst snd] in H.
      destruct (String.eqb_spec a' a) as [->|]; [|destruct H]. apply in_map_iff in H as (r0 & <- & Hr0).
      unfold pins in Hr0. unfold contrib. unfold all_pairs in Hp. apply in_app_or in Hp.
      destruct (dget String.eqb (modules P) (mi_ctn i)) as [m'|] eqn:E.
      + apply rects_of_in in Hr0. apply in_map_iff. exists ([f], r0). split; [|assumption]. cbn [fst snd]. f_equal. simpl.
        destruct Hp as [Hp|Hp].
        * destruct (smem f G) eqn:Ef.
          -- apply smem_ok in Ef. now rewrite (nc_formal P NC m i f a Hm Hi Hp Ef).
          -- now rewrite (proj2 (dget_fa m i f a Hm Hi) Hp).
        * apply in_map_iff in Hp as (g & [= <- <-] & Hg). apply nodup_In, smem_ok in Hg. now rewrite Hg.
      + destruct Hp as [Hp|Hp].
        * apply in_flat_map. exists (f, a). split; [assumption|]. apply in_map_iff. exists r0. auto.
        * apply in_map_iff in Hp as (g & [= <- <-] & Hg). apply nodup_In in Hg.
          pose proof Hr0 as Hr1. unfold leaf_terminals in Hr1. apply in_flat_map in Hr1 as (lf & Hlf & Hr1).
          destruct (String.eqb_spec (lf_name lf) (mi_ctn i)) as [El|]; [|destruct Hr1].
          apply in_map_iff in Hr1 as ((t, r1) & Er1 & Ht). apply filter_In in Ht as (Ht & Et). apply String.eqb_eq in Et. simpl in Et, Er1. subst t r1.
          assert (Hf := nc_leaf P NC m i lf g r0 Hm Hi Hlf (eq_sym El) Ht Hg). apply in_map_iff in Hf as ((f, a) & Ef & Hf). simpl in Ef. subst f.
          rewrite (nc_formal P NC m i g a Hm Hi Hf Hg) in Hf.
          apply in_flat_map. exists (g, g). split; [assumption|]. apply in_map_iff. exists r0. auto.
    - intros (i & Hi & H). exists i. split; [assumption|]. unfold contrib in H. unfold from_pairs, all_pairs.
      destruct (dget String.eqb (modules P) (mi_ctn i)) as [m'|] eqn:E.
      + apply in_map_iff in H as ((k, r0) & [= Ek <-] & H). cbn [fst snd] in Ek.
        pose proof E as E0. apply mod_get_inv in E0 as (Hm' & _). destruct (fl_ok m' Hm' k r0 H) as (Hne & _).
        destruct k as [|x [|y k]]; [congruence| |simpl in Ek; discriminate]. simpl in Ek.
        assert (HP : exists f, In (f, a) (mi_fa i ++ map (fun g => (g, g)) (nodup string_dec G)) /\ f = x).
        { destruct (smem x G) eqn:Ex.
          - injection Ek as ->. exists a. split; [|reflexivity]. apply in_or_app. right. apply in_map_iff. exists a. split; [reflexivity|]. now apply nodup_In, smem_ok.
          - destruct (dget String.eqb (mi_fa i) x) as [a'|] eqn:Ed; [|discriminate]. injection Ek as ->. exists x. split; [|reflexivity].
            apply in_or_app. left. now apply (dget_fa m i x a Hm Hi). }
        destruct HP as (f & Hf & ->). apply in_flat_map. exists (x, a). split; [assumption|]. cbn [fst snd]. rewrite String.eqb_refl.
        apply in_map. unfold pins. rewrite E. now apply rects_of_in.
      + apply in_flat_map in H as ((f, a') & Hp & H). apply in_map_iff in H as (r0 & [= -> <-] & Hr0). cbn [fst snd] in *.
        apply in_flat_map. exists (f, a). split; [apply in_or_app; auto|]. cbn [fst snd]. rewrite String.eqb_refl. apply in_map. unfold pins. now rewrite E.
  Qed.

  (** * Hidden nets *)
  Definition hidden (m : modl) (k : hname) : Prop := k <> [] /\ forall a, k = [a] -> ~ In a (md_params m) /\ ~ In a G.
  Definition hidden_sum (m : modl) (v : Z) : Prop :=
    exists K, NoDup K /\ (forall k, In k K -> hidden m k) /\ (forall k, hidden m k -> len m k <> 0 -> In k K) /\ v = zsum (len m) K.

  (** Rectangles of a child's hidden net. *)
  Lemma child_net m i m' k r : In m (pv_mods P) -> In i (md_insts m) -> dget String.eqb (modules P) (mi_ctn i) = Some m' -> k <> [] ->
    In (mi_name i :: k, r) (fl m) <-> (hidden m' k /\ In r (map (place (mi_tr i)) (rects_of k (fl m')))).
  Proof.
    intros Hm Hi E Hk. pose proof E as E0. apply mod_get_inv in E0 as (Hm' & En). rewrite (fl_eq m Hm), in_flat_map. split.
    - intros (j & Hj & H). unfold contrib in H. destruct (dget String.eqb (modules P) (mi_ctn j)) as [mj|] eqn:Ej.
      + apply in_map_iff in H as ((k', r') & [= Eu <-] & H). cbn [fst snd] in *.
        assert (Hup : j = i /\ k' = k /\ hidden m' k).
        { pose proof Ej as Ej0. apply mod_get_inv in Ej0 as (Hmj & Enj). destruct (fl_ok mj Hmj k' r' H) as (Hk' & _).
          assert (Hn : mi_name j = mi_name i -> j = i).
          { intros Hn. pose proof (inst_get m i Hm Hi) as A. pose proof (inst_get m j Hm Hj) as B. rewrite Hn in B. congruence. }
          destruct k' as [|x [|y k']]; [congruence| |].
          - simpl in Eu. destruct (smem x G) eqn:Ex; [injection Eu as _ Eu; congruence|].
            destruct (dget String.eqb (mi_fa j) x) eqn:Ed; [injection Eu as _ Eu; congruence|]. injection Eu as Eu <-.
            specialize (Hn Eu). subst j. split; [reflexivity|]. split; [reflexivity|]. split; [discriminate|]. intros a [= <-]. split.
            + intros Hp. apply (ho_params P HO m i m' Hm Hi Hm' (eq_sym En)) in Hp. apply (dget_none _ String.eqb_eq) in Ed. contradiction.
            + intros Hg. apply smem_ok in Hg. congruence.
          - simpl in Eu. injection Eu as Eu <-. specialize (Hn Eu). subst j. split; [reflexivity|]. split; [reflexivity|]. split; [discriminate|]. intros a. discriminate. }
        destruct Hup as (-> & -> & Hh). split; [assumption|]. rewrite E in Ej. injection Ej as <-. apply in_map. now apply rects_of_in.
      + exfalso. apply in_flat_map in H as (p & _ & H). apply in_map_iff in H as (r0 & [= _ Hc _] & _). congruence.
    - intros (Hh & H). exists i. split; [assumption|]. unfold contrib. rewrite E. apply in_map_iff in H as (r0 & <- & H). apply rects_of_in in H.
      apply in_map_iff. exists (k, r0). split; [|assumption]. cbn [fst snd]. f_equal. destruct k as [|x [|y k]]; [congruence| |reflexivity].
      simpl. destruct Hh as (_ & Hh). destruct (Hh x eq_refl) as (Hp & Hg).
      destruct (smem x G) eqn:Ex; [apply smem_ok in Ex; contradiction|].
      destruct (dget String.eqb (mi_fa i) x) eqn:Ed; [|reflexivity]. exfalso. apply Hp. apply (ho_params P HO m i m' Hm Hi Hm' (eq_sym En)).
      apply (dget_in _ String.eqb_eq) in Ed. apply in_map_iff. eexists. split; [|exact Ed]. reflexivity.
  Qed.

  Lemma child_len m i m' k : In m (pv_mods P) -> In i (md_insts m) -> dget String.eqb (modules P) (mi_ctn i) = Some m' -> hidden m' k ->
    len m (mi_name i :: k) = len m' k.
  Proof.
    intros Hm Hi E Hh. unfold len. replace (box (rects_of (mi_name i :: k) (fl m))) with (box (map (place (mi_tr i)) (rects_of k (fl m')))).
    - pose proof (ho_tr P HO m i Hm Hi). rewrite box_place by assumption. apply dist_place; [assumption|apply okbox_box].
    - apply box_ext. intros r. rewrite rects_of_in, (child_net m i m' k r Hm Hi E) by apply Hh. tauto.
  Qed.

  Lemma local_sum m b locs : In m (pv_mods P) ->
    (forall a, b (md_name m, a) = sp_of (box (rects_of [a] (fl m)))) ->
    (forall i m', In i (md_insts m) -> dget String.eqb (modules P) (mi_ctn i) = Some m' -> exists v, dget String.eqb locs (mi_ctn i) = Some v /\ hidden_sum m' v) ->
    (forall i, In i (md_insts m) -> dget String.eqb (modules P) (mi_ctn i) = None -> dget String.eqb locs (mi_ctn i) = None) ->
    hidden_sum m (local_hpwl P m b locs).
  Proof.
    intros Hm Hb Hch Hlf. unfold local_hpwl.
    set (LA := filter _ _).
    assert (EL : fold_left (fun acc a => acc + sp_dist (b (md_name m, a))) LA 0 = zsum (len m) (map (fun a => [a]) LA)).
    { rewrite fold_left_zsum, zsum_map. simpl. apply zsum_ext. intros a _. unfold len. now rewrite Hb. }
    rewrite EL. clear EL.
    assert (CK : forall is, (forall i, In i is -> In i (md_insts m)) -> NoDup (map mi_name is) ->
      exists K, NoDup K /\ (forall κ, In κ K -> exists i k m', In i is /\ κ = mi_name i :: k /\ dget String.eqb (modules P) (mi_ctn i) = Some m' /\ hidden m' k) /\
        (forall i k m', In i is -> dget String.eqb (modules P) (mi_ctn i) = Some m' -> hidden m' k -> len m' k <> 0 -> In (mi_name i :: k) K) /\
        fold_left (fun acc i => match dget String.eqb locs (mi_ctn i) with Some v => acc + v | None => acc end) is 0 = zsum (len m) K).
    { assert (FA : forall is z, fold_left (fun acc i => match dget String.eqb locs (mi_ctn i) with Some v => acc + v | None => acc end) is z =
                                z + fold_left (fun acc i => match dget String.eqb locs (mi_ctn i) with Some v => acc + v | None => acc end) is 0).
      { induction is as [|i is IH]; intros z; simpl; [lia|]. destruct (dget String.eqb locs (mi_ctn i)); [|apply IH]. rewrite (IH (z + z0)), (IH z0). lia. }
      induction is as [|i is IH]; intros Hs Hn.
      - exists []. split; [constructor|]. split; [intros ? []|]. split; [intros ? ? ? []|reflexivity].
      - inversion Hn as [|? ? Hni Hn']; subst. destruct (IH (fun j Hj => Hs j (or_intror Hj)) Hn') as (K & K1 & K2 & K3 & K4).
        cbn [fold_left]. assert (Hi : In i (md_insts m)) by (apply Hs; now left).
        destruct (dget String.eqb (modules P) (mi_ctn i)) as [m'|] eqn:E.
        + destruct (Hch i m' Hi E) as (v & Ev & Kc & C1 & C2 & C3 & C4). rewrite Ev.
          exists (map (cons (mi_name i)) Kc ++ K). split; [|split; [|split]].
          * apply nodup_app'; [|assumption|].
            -- clear -C1. induction C1; simpl; constructor; [|assumption]. intros H'. apply in_map_iff in H' as (y & [= ->] & Hy). contradiction.
            -- intros κ H1 H2. apply in_map_iff in H1 as (k & <- & _). destruct (K2 _ H2) as (j & k' & mj & Hj & [= Ej _] & _). apply Hni. rewrite Ej. now apply in_map.
          * intros κ H. apply in_app_or in H as [H|H].
            -- apply in_map_iff in H as (k & <- & Hk). exists i, k, m'. split; [now left|]. auto.
            -- destruct (K2 κ H) as (j & k & mj & Hj & X). exists j, k, mj. split; [now right|]. exact X.
          * intros j k mj [<-|Hj] Ej Hh Hl; apply in_or_app.
            -- left. apply in_map. rewrite E in Ej. injection Ej as <-. apply C3; assumption.
            -- right. eapply K3; eauto.
          * rewrite FA, K4, zsum_app, zsum_map. f_equal. simpl. rewrite C4. apply zsum_ext. intros k Hk. symmetry. apply (child_len m i m' k Hm Hi E). auto.
        + rewrite (Hlf i Hi E). exists K. split; [assumption|]. split; [|split; [|exact K4]].
          * intros κ H. destruct (K2 κ H) as (j & k & mj & Hj & X). exists j, k, mj. split; [now right|]. exact X.
          * intros j k mj [<-|Hj] Ej; [congruence|]. eapply K3; eauto. }
    destruct (CK (md_insts m) (fun i Hi => Hi) (ho_insts P HO m Hm)) as (K & K1 & K2 & K3 & K4). rewrite K4.
    assert (LAin : forall a, In a LA <-> (exists i, In i (md_insts m) /\ In a (map snd (mi_fa i))) /\ ~ In a (md_params m) /\ ~ In a G).
    { intros a. unfold LA. rewrite filter_In, nodup_In, in_flat_map, negb_true_iff, orb_false_iff.
      rewrite <- (smem_ok a (md_params m)), <- (smem_ok a G). split; intros (A & B1 & B2); (split; [assumption|]); split; try congruence;
        [destruct (smem a (md_params m)); congruence|destruct (smem a G); congruence]. }
    exists (K ++ map (fun a => [a]) LA). split; [|split; [|split]].
    - apply nodup_app'; [assumption| |].
      + assert (NL : NoDup LA) by (apply NoDup_filter, NoDup_nodup). clear -NL. induction NL; simpl; constructor; [|assumption].
        intros H'. apply in_map_iff in H' as (y & [= ->] & Hy). contradiction.
      + intros κ H1 H2. apply in_map_iff in H2 as (a & <- & _). destruct (K2 _ H1) as (i & k & m' & _ & [= _ <-] & _ & (Hne & _)). congruence.
    - intros κ H. apply in_app_or in H as [H|H].
      + destruct (K2 κ H) as (i & k & m' & _ & -> & _ & (Hne & _)). split; [discriminate|]. intros a [= _ Ek]. congruence.
      + apply in_map_iff in H as (a & <- & Ha). split; [discriminate|]. intros a' [= <-]. apply LAin in Ha. tauto.
    - intros κ (Hne & Hh) Hl. apply in_or_app. destruct (len_nonzero m κ Hl) as (r & Hr).
      assert (Hsrc : exists i, In i (md_insts m) /\ In (κ, r) (contrib fl i)).
      { rewrite (fl_eq m Hm) in Hr. apply in_flat_map in Hr as (i & Hi & Hr). eauto. }
      destruct Hsrc as (i & Hi & Hc). unfold contrib in Hc.
      destruct (dget String.eqb (modules P) (mi_ctn i)) as [m'|] eqn:E.
      + apply in_map_iff in Hc as ((k', r') & [= Eu Er] & Hk'). cbn [fst snd] in *.
        pose proof E as E0. apply mod_get_inv in E0 as (Hm' & En). destruct (fl_ok m' Hm' k' r' Hk') as (Hk'ne & _).
        assert (Hlong : forall k, κ = mi_name i :: k -> k <> [] -> In κ K).
        { intros k -> Hkne. rewrite <- (rects_of_in _ (fl m)) in Hr. pose proof Hr as Hr2. apply rects_of_in in Hr2. apply (child_net m i m' k r Hm Hi E Hkne) in Hr2 as (Hhk & _).
          apply (K3 i k m' Hi E Hhk). rewrite <- (child_len m i m' k Hm Hi E Hhk). exact Hl. }
        destruct k' as [|x [|y k']]; [congruence| |].
        * simpl in Eu. destruct (smem x G) eqn:Ex.
          -- exfalso. destruct (Hh x (eq_sym Eu)) as (_ & Hg). apply Hg. now apply smem_ok.
          -- destruct (dget String.eqb (mi_fa i) x) as [a|] eqn:Ed.
             ++ right. subst κ. apply in_map_iff. exists a. split; [reflexivity|]. apply LAin. split; [|exact (Hh a eq_refl)].
                exists i. split; [assumption|]. apply (dget_in _ String.eqb_eq) in Ed. apply in_map_iff. exists (x, a). auto.
             ++ left. apply (Hlong [x]); [now symmetry|discriminate].
        * left. simpl in Eu. apply (Hlong (x :: y :: k')); [now symmetry|discriminate].
      + right. apply in_flat_map in Hc as ((f, a) & Hp & Hc). apply in_map_iff in Hc as (r0 & [= <- _] & _). cbn [snd] in *.
        apply in_map_iff. exists a. split; [reflexivity|]. apply LAin. split; [|exact (Hh a eq_refl)].
        exists i. split; [assumption|]. apply in_map_iff. exists (f, a). auto.
    - rewrite zsum_app. reflexivity.
  Qed.

  (** * The loop over the order *)
  Record bu_inv (done : list string) (b : boxes) (locs : list (string * Z)) : Prop := {
    bi_done : forall m a, In m (pv_mods P) -> In (md_name m) done -> b (md_name m, a) = sp_of (box (rects_of [a] (fl m)));
    bi_todo : forall m a, In m (pv_mods P) -> ~ In (md_name m) done -> b (md_name m, a) = sp_empty;
    bi_leaf : forall c a, dget String.eqb (modules P) c = None -> b (c, a) = sp_of (box (leaf_terminals P c a));
    bi_loc : forall m, In m (pv_mods P) -> In (md_name m) done -> exists v, dget String.eqb locs (md_name m) = Some v /\ hidden_sum m v;
    bi_noloc : forall c, dget String.eqb (modules P) c = None -> dget String.eqb locs c = None }.

  Lemma bu_init : bu_inv [] (leaf_boxes P) [].
  Proof.
    split; try (intros; simpl in *; tauto); auto.
    - intros m a Hm _. unfold leaf_boxes. cbn [fst snd]. replace (leaf_terminals P (md_name m) a) with (@nil Rect); [reflexivity|].
      unfold leaf_terminals. pose proof (ho_leaves P HO) as HL.
      assert (A : forall l, (forall lf, In lf l -> lf_name lf <> md_name m) ->
        flat_map (fun lf => if String.eqb (lf_name lf) (md_name m) then map snd (filter (fun tm => String.eqb (fst tm) a) (lf_terms lf)) else []) l = []).
      { induction l as [|lf l IH]; simpl; intros H; [reflexivity|]. destruct (String.eqb_spec (lf_name lf) (md_name m)) as [E|_]; [exfalso; exact (H lf (or_introl eq_refl) E)|].
        apply IH. auto. }
      symmetry. apply A. intros lf Hlf. apply HL; assumption.
    - intros c a _. unfold leaf_boxes. cbn [fst snd]. apply fold_add_empty.
  Qed.

  Lemma bu_step_ok fm done b locs cn : bu_inv done b locs -> ~ In cn done ->
    (smem cn fm = true <-> dget String.eqb (modules P) cn <> None) ->
    (forall m i, In m (pv_mods P) -> md_name m = cn -> In i (md_insts m) -> In (mi_ctn i) done) ->
    exists b' locs', bu_step P fm (b, locs) cn = Some (b', locs') /\ bu_inv (done ++ [cn]) b' locs'.
  Proof.
    intros I Hnew Hfm Hch. unfold bu_step. destruct (smem cn fm) eqn:Ef.
    - destruct (dget String.eqb (modules P) cn) as [m|] eqn:E; [|exfalso; now apply Hfm].
      pose proof E as E0. apply mod_get_inv in E0 as (Hm & En). cbn [fst snd].
      set (b' := fold_left (inst_boxes P cn) (md_insts m) b).
      assert (HB : (forall a, b' (cn, a) = sp_of (box (flat_map (fun i => from_pairs i (all_pairs i) a) (md_insts m)))) /\ (forall c a, c <> cn -> b' (c, a) = b (c, a))).
      { apply (insts_boxes cn (md_insts m) b (fun _ => [])).
        - intros i Hi. split; [apply (ho_tr P HO m i); assumption|]. split.
          + intros Ec. pose proof (HR m i Hm Hi). rewrite Ec, En in H. lia.
          + intros x. unfold pins. destruct (dget String.eqb (modules P) (mi_ctn i)) as [m'|] eqn:Ei.
            * apply mod_get_inv in Ei as (Hm' & En'). rewrite <- En'. apply (bi_done _ _ _ I); [assumption|]. rewrite En'. apply (Hch m i); assumption.
            * apply (bi_leaf _ _ _ I). assumption.
        - intros a. rewrite <- En. rewrite (bi_todo _ _ _ I m a Hm); [reflexivity|]. now rewrite En. }
      destruct HB as (HB1 & HB2).
      assert (HB1' : forall a, b' (cn, a) = sp_of (box (rects_of [a] (fl m)))).
      { intros a. rewrite HB1. f_equal. apply box_ext. intros r. rewrite rects_of_in. now apply pairs_are_flat. }
      assert (HS : hidden_sum m (local_hpwl P m b' locs)).
      { apply local_sum.
        - assumption.
        - intros a. rewrite En. apply HB1'.
        - intros i m' Hi Ei. apply mod_get_inv in Ei as (Hm' & En'). rewrite <- En'. apply (bi_loc _ _ _ I); [assumption|]. rewrite En'. apply (Hch m i); assumption.
        - intros i Hi Ei. apply (bi_noloc _ _ _ I). assumption. }
      eexists _, _. split; [reflexivity|]. split.
      + intros m0 a Hm0 H. destruct (string_dec (md_name m0) cn) as [Ec|Ec].
        * rewrite Ec. assert (m0 = m) as -> by (apply mod_get in Hm0; rewrite Ec in Hm0; congruence). apply HB1'.
        * rewrite HB2 by assumption. apply (bi_done _ _ _ I); [assumption|]. apply in_app_or in H as [H|[H|[]]]; [assumption|congruence].
      + intros m0 a Hm0 H. assert (Ec : md_name m0 <> cn) by (intros Ec; apply H, in_or_app; right; left; congruence).
        rewrite HB2 by assumption. apply (bi_todo _ _ _ I); [assumption|]. intros Hd. apply H, in_or_app. auto.
      + intros c a Hc. rewrite HB2; [apply (bi_leaf _ _ _ I); assumption|]. intros ->. congruence.
      + intros m0 Hm0 H. unfold dset. destruct (string_dec (md_name m0) cn) as [Ec|Ec].
        * rewrite Ec, (dget_dupd_same _ String.eqb_eq). assert (m0 = m) as -> by (apply mod_get in Hm0; rewrite Ec in Hm0; congruence). eauto.
        * rewrite (dget_dupd_other _ String.eqb_eq) by assumption. apply (bi_loc _ _ _ I); [assumption|].
          apply in_app_or in H as [H|[H|[]]]; [assumption|congruence].
      + intros c Hc. unfold dset. rewrite (dget_dupd_other _ String.eqb_eq) by (intros ->; congruence). apply (bi_noloc _ _ _ I). assumption.
    - exists b, locs. split; [reflexivity|].
      assert (Hnm : forall m, In m (pv_mods P) -> md_name m <> cn).
      { apply mod_get_none. destruct (dget String.eqb (modules P) cn); [|reflexivity]. assert (X : false = true) by (apply Hfm; discriminate). discriminate X. }
      assert (HD : forall m, In m (pv_mods P) -> In (md_name m) (done ++ [cn]) <-> In (md_name m) done).
      { intros m Hm. rewrite in_app_iff. simpl. split; [intros [H|[H|[]]]; [assumption|exfalso; exact (Hnm m Hm (eq_sym H))]|auto]. }
      split; intros; try (apply (bi_leaf _ _ _ I); assumption); try (apply (bi_noloc _ _ _ I); assumption).
      + apply (bi_done _ _ _ I); [assumption|]. now apply HD.
      + apply (bi_todo _ _ _ I); [assumption|]. intros Hd. apply H0. now apply HD.
      + apply (bi_loc _ _ _ I); [assumption|]. now apply HD.
  Qed.

  Lemma bu_loop fm order : NoDup order ->
    (forall c, In c order -> smem c fm = true <-> dget String.eqb (modules P) c <> None) ->
    (forall l1 c l2, order = l1 ++ c :: l2 -> forall m i, In m (pv_mods P) -> md_name m = c -> In i (md_insts m) -> In (mi_ctn i) l1) ->
    exists b locs, foldM (bu_step P fm) order (leaf_boxes P, []) = Some (b, locs) /\ bu_inv order b locs.
  Proof.
    intros Hnd Hfm Hch.
    assert (A : forall rest done b locs, order = done ++ rest -> bu_inv done b locs ->
      exists b' locs', foldM (bu_step P fm) rest (b, locs) = Some (b', locs') /\ bu_inv order b' locs').
    { induction rest as [|c rest IH]; intros done b locs E I.
      - rewrite app_nil_r in E. subst done. exists b, locs. auto.
      - cbn [foldM]. destruct (bu_step_ok fm done b locs c I) as (b1 & l1 & E1 & I1).
        + rewrite E in Hnd. apply NoDup_remove_2 in Hnd. intros H. apply Hnd, in_or_app. auto.
        + apply Hfm. rewrite E. apply in_or_app. right. now left.
        + intros m i Hm Hc Hi. eapply Hch; eauto.
        + rewrite E1. apply (IH (done ++ [c])); [now rewrite <- app_assoc|assumption]. }
    apply (A order []); [reflexivity|apply bu_init].
  Qed.

  Lemma graph_keys : map fst (mod_graph P) = map md_name (pv_mods P).
  Proof. unfold mod_graph. rewrite modules_eq, map_map, map_map. reflexivity. Qed.
  Lemma graph_child c d : child (mod_graph P) c d <-> exists m i, In m (pv_mods P) /\ md_name m = c /\ In i (md_insts m) /\ mi_ctn i = d.
  Proof.
    unfold child, mod_graph. rewrite modules_eq, map_map. cbn [fst snd]. split.
    - intros (cs & H & Hd). apply in_map_iff in H as (m & [= <- <-] & Hm). apply in_map_iff in Hd as (i & <- & Hi). eauto 8.
    - intros (m & i & Hm & <- & Hi & <-). exists (map mi_ctn (md_insts m)). split; [|now apply in_map]. apply in_map_iff. exists m. auto.
  Qed.

  Lemma bottom_up_sum m n skip : In m (pv_mods P) -> (List.length (pv_mods P) < n)%nat ->
    exists K, NoDup K /\ (forall k, In k K -> (skip && is_global P k) = false) /\
      (forall k, len m k <> 0 -> (skip && is_global P k) = false -> In k K) /\
      bottom_up n P (md_name m) skip = Some (zsum (len m) K).
  Proof.
    intros Hm Hn. unfold bottom_up.
    assert (Hnd : NoDup (map fst (mod_graph P))) by (rewrite graph_keys; apply HO).
    destruct (topo_total (mod_graph P) (md_name m) Hnd n) as (tp & Et & T1 & T2 & T3 & T4 & T5 & (l & Tl)).
    { rewrite <- (map_length fst), graph_keys, map_length. exact Hn. }
    rewrite Et.
    assert (HK : forall c, In c (map fst (mod_graph P)) <-> dget String.eqb (modules P) c <> None).
    { intros c. rewrite graph_keys, in_map_iff. split.
      - intros (m0 & <- & Hm0). rewrite (mod_get m0 Hm0). discriminate.
      - intros H. destruct (dget String.eqb (modules P) c) as [m0|] eqn:E; [|congruence]. apply mod_get_inv in E as (Hm0 & <-). eauto. }
    destruct (bu_loop (t_mods tp) (t_order tp) T1) as (b & locs & Eb & I).
    - intros c Hc. rewrite smem_ok, T3, <- HK. apply T2 in Hc. tauto.
    - intros l1 c l2 E m0 i Hm0 <- Hi. apply (T5 rank) with (m := md_name m0) (l2 := l2); [|assumption|].
      + intros c d Hcd. apply graph_child in Hcd as (m1 & i1 & Hm1 & <- & Hi1 & <-). apply HR; assumption.
      + apply graph_child. eauto 8.
    - rewrite Eb, (mod_get m Hm).
      assert (Hin : In (md_name m) (t_order tp)) by (rewrite Tl; apply in_or_app; right; now left).
      destruct (bi_loc _ _ _ I m Hm Hin) as (v & Ev & K & K1 & K2 & K3 & K4). rewrite Ev.
      set (A := nodup string_dec (md_params m ++ G)).
      assert (FS : forall as_ z, fold_left (fun acc a => if skip && smem a G then acc else acc + sp_dist (b (md_name m, a))) as_ z =
                   z + zsum (len m) (map (fun a => [a]) (filter (fun a => negb (skip && smem a G)) as_))).
      { induction as_ as [|a as_ IH]; intros z; simpl; [lia|]. destruct (skip && smem a G); simpl; rewrite IH; [lia|].
        unfold len at 2. rewrite (bi_done _ _ _ I m a Hm Hin). fold (len m [a]). unfold len. lia. }
      rewrite FS. set (A' := filter _ A).
      exists (K ++ map (fun a => [a]) A'). split; [|split; [|split]].
      + apply nodup_app'; [assumption| |].
        * assert (NL : NoDup A') by (apply NoDup_filter, NoDup_nodup). clear -NL. induction NL; simpl; constructor; [|assumption].
          intros H'. apply in_map_iff in H' as (y & [= ->] & Hy). contradiction.
        * intros k H1 H2. apply in_map_iff in H2 as (a & <- & Ha). apply filter_In in Ha as (Ha & _). apply nodup_In, in_app_or in Ha.
          destruct (K2 _ H1) as (_ & Hh). destruct (Hh a eq_refl). tauto.
      + intros k H. apply in_app_or in H as [H|H].
        * destruct (K2 k H) as (_ & Hh). destruct k as [|x [|y k]]; simpl; try apply andb_false_r.
          destruct (smem x G) eqn:Ex; [|apply andb_false_r]. apply smem_ok in Ex. destruct (Hh x eq_refl). contradiction.
        * apply in_map_iff in H as (a & <- & Ha). apply filter_In in Ha as (_ & Ha). simpl. now apply negb_true_iff.
      + intros k Hl Hs. apply in_or_app.
        destruct (len_nonzero m k Hl) as (r & Hr). destruct (fl_ok m Hm k r Hr) as (Hne & _).
        destruct k as [|x [|y k]]; [congruence| |].
        * destruct (in_dec string_dec x (md_params m ++ G)) as [Hx|Hx].
          -- right. apply in_map_iff. exists x. split; [reflexivity|]. apply filter_In. split; [now apply nodup_In|]. simpl in Hs. now rewrite Hs.
          -- left. apply K3; [|assumption]. split; [discriminate|]. intros a [= <-]. rewrite in_app_iff in Hx. tauto.
        * left. apply K3; [|assumption]. split; [discriminate|]. intros a. discriminate.
      + rewrite zsum_app, K4. reflexivity.
  Qed.
End Hier.
