From Coq Require Import String ZifyBool.
From Verif Require Import Base.Prelude Base.PyDict Model.Transformation Model.RemoveDuplicates Model.Topo Model.Hpwl Model.PlacerPy
  Spec.TopoSpec Spec.PlacerPySpec Proofs.TopoP Proofs.HpwlP.
Local Open Scope nat_scope.

Definition has (st : gstore) m s := In s (gs_of st m).
Definition hasb (st : gstore) (p : string * string) := smem (snd p) (gs_of st (fst p)).
Lemma hasb_ok st p : hasb st p = true <-> has st (fst p) (snd p).
Proof. unfold hasb, has. apply smem_ok. Qed.

Lemma has_update st m G n s : has (gs_update st m G) n s <-> has st n s \/ (n = m /\ In s G).
Proof.
  unfold has, gs_of, gs_update. destruct (string_dec n m) as [->|Hne].
  - rewrite (dget_dupd_same _ String.eqb_eq). destruct (dget String.eqb st m); [rewrite in_app_iff|]; simpl; tauto.
  - rewrite (dget_dupd_other _ String.eqb_eq) by assumption. tauto.
Qed.

Section P.
Variable mods : list (string * modl).
Hypothesis Hnd : NoDup (map fst mods).

Notation U := (all_formals mods).
Definition remaining st := List.length (filter (fun p => negb (hasb st p)) U).
Definition le_st (a b : gstore) := forall n s, has a n s -> has b n s.

Lemma filter_le {A} (f g : A -> bool) l : (forall x, f x = true -> g x = true) -> List.length (filter f l) <= List.length (filter g l).
Proof.
  intros H. induction l as [|a l IH]; simpl; [lia|]. destruct (f a) eqn:E; [rewrite (H _ E); simpl; lia|].
  destruct (g a); simpl; lia.
Qed.
Lemma filter_lt {A} (f g : A -> bool) l x : (forall x, f x = true -> g x = true) -> In x l -> f x = false -> g x = true ->
  List.length (filter f l) < List.length (filter g l).
Proof.
  intros H. induction l as [|a l IH]; simpl; [tauto|]. intros [->|Hx] Hf Hg.
  - rewrite Hf, Hg. simpl. pose proof (filter_le f g l H). lia.
  - specialize (IH Hx Hf Hg). destruct (f a) eqn:E; [rewrite (H _ E); simpl; lia|]. destruct (g a); simpl; lia.
Qed.
Lemma remaining_le a b : le_st a b -> remaining b <= remaining a.
Proof.
  intros H. apply filter_le. intros p Hp. apply negb_true_iff in Hp. apply negb_true_iff.
  destruct (hasb a p) eqn:E; [|reflexivity]. apply hasb_ok in E. apply H in E. apply hasb_ok in E. congruence.
Qed.

Definition edge (m s n f : string) : Prop :=
  exists md i, In (m, md) mods /\ In i (md_insts md) /\ In (f, s) (mi_fa i) /\ mi_ctn i = n /\ In n (map fst mods).

Definition good st m G st' :=
  le_st st st' /\ (forall s, In s G -> has st' m s) /\
  (forall Q : string -> string -> Prop, (forall s, In s G -> Q m s) -> (forall a b c d, Q a b -> edge a b c d -> Q c d) ->
     forall n s, has st' n s -> has st n s \/ Q n s) /\
  (forall n s, (has st' n s /\ ~ has st n s) \/ (n = m /\ In s G) -> forall n' f, edge n s n' f -> has st' n' f).

Lemma dmem_in x : dmem String.eqb mods x = true <-> In x (map fst mods).
Proof.
  unfold dmem. destruct (dget String.eqb mods x) eqn:E.
  - split; [intros _|reflexivity]. apply (dget_in _ String.eqb_eq) in E. apply in_map_iff. eexists. split; [|exact E]. reflexivity.
  - apply (dget_none _ String.eqb_eq) in E. split; [discriminate|contradiction].
Qed.

Lemma propagate_good : forall fuel st m G, In m (map fst mods) -> remaining (gs_update st m G) < fuel ->
  exists st', propagate fuel mods st m G = Some st' /\ good st m G st'.
Proof.
  induction fuel as [|fuel IH]; intros st m G Hm Hf; [lia|].
  apply (dget_some_in _ String.eqb_eq) in Hm as (md & Hmd). cbn [propagate]. rewrite Hmd.
  pose proof (dget_in _ String.eqb_eq _ _ _ Hmd) as Hin.
  set (st1 := gs_update st m G) in *.
  assert (H1 : le_st st st1). { intros n s H. apply has_update. tauto. }
  assert (HG : forall s, In s G -> has st1 m s). { intros s H. apply has_update. tauto. }
  (* the loop *)
  set (step := fun (st : gstore) i =>
                 if dmem String.eqb mods (mi_ctn i) then
                   match to_propagate st G i with
                   | [] => Some st
                   | sigs => propagate fuel mods st (mi_ctn i) sigs
                   end
                 else Some st).
  assert (Hloop : forall l s0, incl l (md_insts md) -> le_st st1 s0 ->
    (forall Q : string -> string -> Prop, (forall s, In s G -> Q m s) -> (forall a b c d, Q a b -> edge a b c d -> Q c d) ->
       forall n s, has s0 n s -> has st n s \/ Q n s) ->
    (forall n s, has s0 n s -> ~ has st1 n s -> forall n' f, edge n s n' f -> has s0 n' f) ->
    exists s1, foldM step l s0 = Some s1 /\ le_st s0 s1 /\
      (forall Q : string -> string -> Prop, (forall s, In s G -> Q m s) -> (forall a b c d, Q a b -> edge a b c d -> Q c d) ->
         forall n s, has s1 n s -> has st n s \/ Q n s) /\
      (forall n s, has s1 n s -> ~ has st1 n s -> forall n' f, edge n s n' f -> has s1 n' f) /\
      (forall i f s, In i l -> In s G -> In (f, s) (mi_fa i) -> In (mi_ctn i) (map fst mods) -> has s1 (mi_ctn i) f)).
  { induction l as [|i l IHl]; intros s0 Hincl Hle Hsound Hclos.
    - exists s0. split; [reflexivity|]. split; [intros n s H; exact H|]. split; [assumption|]. split; [assumption|]. intros ? ? ? [].
    - assert (Hi : In i (md_insts md)) by (apply Hincl; left; reflexivity).
      assert (Hinc : incl l (md_insts md)) by (intros x Hx; apply Hincl; right; assumption).
      assert (Hstep : exists s1, step s0 i = Some s1 /\ le_st s0 s1 /\
        (forall Q : string -> string -> Prop, (forall s, In s G -> Q m s) -> (forall a b c d, Q a b -> edge a b c d -> Q c d) ->
           forall n s, has s1 n s -> has st n s \/ Q n s) /\
        (forall n s, has s1 n s -> ~ has st1 n s -> forall n' f, edge n s n' f -> has s1 n' f) /\
        (forall f s, In s G -> In (f, s) (mi_fa i) -> In (mi_ctn i) (map fst mods) -> has s1 (mi_ctn i) f)).
      { unfold step. destruct (dmem String.eqb mods (mi_ctn i)) eqn:Ed.
        2:{ exists s0. split; [reflexivity|]. split; [intros n s H; exact H|]. split; [assumption|]. split; [assumption|].
            intros f s _ _ Hc. apply dmem_in in Hc. congruence. }
        apply dmem_in in Ed.
        assert (Hsig : forall f, In f (to_propagate s0 G i) <-> exists a, In (f, a) (mi_fa i) /\ In a G /\ ~ has s0 (mi_ctn i) f).
        { intros f. unfold to_propagate. rewrite in_map_iff. split.
          - intros ((f' & a) & <- & H). apply filter_In in H as (H & Hb). cbn [fst snd] in *. apply andb_true_iff in Hb as (Hb1 & Hb2).
            exists a. split; [assumption|]. split; [now apply smem_ok|]. intros Hh. apply smem_ok in Hh. rewrite Hh in Hb2. discriminate.
          - intros (a & H & Ha & Hn). exists (f, a). split; [reflexivity|]. apply filter_In. split; [assumption|].
            cbn [fst snd]. apply andb_true_iff. split; [now apply smem_ok|]. apply negb_true_iff.
            destruct (smem f (gs_of s0 (mi_ctn i))) eqn:E; [|reflexivity]. apply smem_ok in E. contradiction. }
        destruct (to_propagate s0 G i) as [|f1 sg] eqn:Es.
        - exists s0. split; [reflexivity|]. split; [intros n s H; exact H|]. split; [assumption|]. split; [assumption|].
          intros f s Hs Hf' _. destruct (hasb s0 (mi_ctn i, f)) eqn:E; [apply hasb_ok in E; exact E|].
          exfalso. apply (Hsig f). exists s. split; [assumption|]. split; [assumption|]. intros Hh.
          change (has s0 (fst (mi_ctn i, f)) (snd (mi_ctn i, f))) in Hh. apply hasb_ok in Hh. congruence.
        -
          assert (Hf1 : exists a, In (f1, a) (mi_fa i) /\ In a G /\ ~ has s0 (mi_ctn i) f1) by (apply Hsig; left; reflexivity).
          destruct Hf1 as (a & Hfa & HaG & Hnew).
          destruct (IH s0 (mi_ctn i) (f1 :: sg) Ed) as (s1 & E1 & G1 & G2 & G3 & G4).
          { assert (Hlt : remaining (gs_update s0 (mi_ctn i) (f1 :: sg)) < remaining s0).
            { apply filter_lt with (x := (mi_ctn i, f1)).
              - intros p Hp. apply negb_true_iff in Hp. apply negb_true_iff. destruct (hasb s0 p) eqn:E; [|reflexivity].
                apply hasb_ok in E. assert (hasb (gs_update s0 (mi_ctn i) (f1 :: sg)) p = true); [|congruence].
                apply hasb_ok. apply has_update. tauto.
              - unfold all_formals. apply in_flat_map. exists (m, md). split; [assumption|]. apply in_flat_map. exists i. split; [assumption|].
                apply in_map_iff. exists (f1, a). auto.
              - apply negb_false_iff. apply hasb_ok. apply has_update. cbn [fst snd]. right. split; [reflexivity|left; reflexivity].
              - apply negb_true_iff. destruct (hasb s0 (mi_ctn i, f1)) eqn:E; [|reflexivity]. apply hasb_ok in E. contradiction. }
            pose proof (remaining_le _ _ Hle). lia. }
          exists s1. split; [exact E1|]. split; [exact G1|]. split; [|split].
          + intros Q HQ1 HQ2 n s Hs.
            assert (HQ : forall s, In s (f1 :: sg) -> Q (mi_ctn i) s).
            { intros x Hx. apply Hsig in Hx as (b & Hb & HbG & _). apply (HQ2 m b); [now apply HQ1|].
              exists md, i. auto 6. }
            destruct (G3 Q HQ HQ2 n s Hs) as [H|H]; [|right; assumption]. exact (Hsound Q HQ1 HQ2 n s H).
          + intros n s Hs Hns n' f He. destruct (hasb s0 (n, s)) eqn:E.
            * apply hasb_ok in E. cbn [fst snd] in E. apply G1. exact (Hclos n s E Hns n' f He).
            * apply (G4 n s); [|assumption]. left. split; [assumption|]. intros Hh.
              change (has s0 (fst (n, s)) (snd (n, s))) in Hh. apply hasb_ok in Hh. congruence.
          + intros f s HsG Hf' _. destruct (hasb s0 (mi_ctn i, f)) eqn:E.
            * apply hasb_ok in E. apply G1. exact E.
            * apply G2. apply Hsig. exists s. split; [assumption|]. split; [assumption|]. intros Hh.
              change (has s0 (fst (mi_ctn i, f)) (snd (mi_ctn i, f))) in Hh. apply hasb_ok in Hh. congruence. }
      destruct Hstep as (s1 & E1 & L1 & S1 & C1 & D1).
      assert (Hle1 : le_st st1 s1) by (intros n s H; apply L1; apply Hle; exact H).
      destruct (IHl s1 Hinc Hle1 S1 C1) as (s2 & E2 & L2 & S2 & C2 & D2).
      exists s2. split; [cbn [foldM]; rewrite E1; exact E2|]. split; [intros n s H; apply L2; apply L1; exact H|].
      split; [assumption|]. split; [assumption|].
      intros i' f s [<-|Hi'] Hs Hfa Hc; [apply L2; exact (D1 f s Hs Hfa Hc)|exact (D2 i' f s Hi' Hs Hfa Hc)]. }
  destruct (Hloop (md_insts md) st1) as (st' & E & L & S1 & C1 & D1).
  - intros x Hx; exact Hx.
  - intros n s H; exact H.
  - intros Q HQ _ n s H. apply has_update in H as [H|(-> & H)]; [left; assumption|right; apply HQ; assumption].
  - intros n s H Hn. contradiction.
  - exists st'. split; [exact E|]. split; [intros n s H; apply L; apply H1; exact H|].
    split; [intros s H; apply L; apply HG; exact H|]. split; [exact S1|].
    intros n s H n' f He.
    assert (Hcase : (n = m /\ In s G) \/ (has st' n s /\ ~ has st1 n s)).
    { destruct H as [(H & Hns)|H]; [|left; assumption].
      destruct (hasb st1 (n, s)) eqn:Eb.
      - apply hasb_ok in Eb. cbn [fst snd] in Eb. apply has_update in Eb. tauto.
      - right. split; [assumption|]. intros Hh. change (has st1 (fst (n, s)) (snd (n, s))) in Hh. apply hasb_ok in Hh. congruence. }
    destruct Hcase as [(-> & Hs)|(Ha & Hb)].
    + destruct He as (md' & i & Hm' & Hi & Hfa & <- & Hc).
      assert (md' = md). { apply (in_dget _ String.eqb_eq) in Hm'; [|assumption]. congruence. }
      subst md'. exact (D1 i f s Hi Hs Hfa Hc).
    + exact (C1 n s Ha Hb n' f He).
Qed.

Lemma propagate_exact top G fuel : In top (map fst mods) -> List.length U < fuel ->
  exists st', propagate fuel mods [] top G = Some st' /\ forall m s, In s (gs_of st' m) <-> sees mods top G m s.
Proof.
  intros Ht Hf. destruct (propagate_good fuel [] top G Ht) as (st' & E & L & HG & HS & HC).
  { apply Nat.le_lt_trans with (List.length U); [|assumption]. unfold remaining. generalize (fun p => negb (hasb (gs_update [] top G) p)). intros g.
    clear Hf. generalize U. intros l. induction l as [|x l IHl]; simpl; [lia|]. destruct (g x); simpl; lia. }
  exists st'. split; [assumption|]. intros m s. split.
  - intros H. destruct (HS (sees mods top G)) with (n := m) (s := s) as [[]|H']; try assumption.
    + intros x Hx. now apply sees_top.
    + intros a b c d Hab (md & i & H1 & H2 & H3 & <- & H5). eapply sees_inst; eauto.
  - intros H. induction H as [s Hs|m md i f s _ IHs H1 H2 H3 H4].
    + apply HG. assumption.
    + apply (HC m s); [left; split; [exact IHs|intros []]|]. exists md, i. auto 6.
Qed.

Lemma sees_mono top G G' m s : incl G G' -> sees mods top G m s -> sees mods top G' m s.
Proof. intros Hi H. induction H as [s Hs|m md i f s _ IHs H1 H2 H3 H4]; [apply sees_top; auto|eapply sees_inst; eauto]. Qed.

Lemma propagate_again top G1 G2 fuel st1 : In top (map fst mods) -> List.length U < fuel ->
  propagate fuel mods [] top G1 = Some st1 ->
  exists st2, propagate fuel mods st1 top G2 = Some st2 /\ forall m s, In s (gs_of st2 m) <-> sees mods top (G1 ++ G2)%list m s.
Proof.
  intros Ht Hf E1. destruct (propagate_exact top G1 fuel Ht Hf) as (st1' & E1' & H1). assert (st1' = st1) by congruence. subst st1'. clear E1'.
  destruct (propagate_good fuel st1 top G2 Ht) as (st' & E & L & HG & HS & HC).
  { apply Nat.le_lt_trans with (List.length U); [|assumption]. unfold remaining. generalize (fun p => negb (hasb (gs_update st1 top G2) p)). intros g.
    clear Hf. generalize U. intros l. induction l as [|x l IHl]; simpl; [lia|]. destruct (g x); simpl; lia. }
  exists st'. split; [assumption|]. intros m s. split.
  - intros H. destruct (HS (sees mods top (G1 ++ G2)%list)) with (n := m) (s := s) as [H'|H']; try assumption.
    + intros x Hx. apply sees_top. apply in_or_app; auto.
    + intros a b c d Hab (md & i & K1 & K2 & K3 & <- & K5). eapply sees_inst; eauto.
    + apply H1 in H'. eapply sees_mono; [|exact H']. apply incl_appl, incl_refl.
  - intros H. induction H as [s Hs|m md i f s _ IHs K1 K2 K3 K4].
    + apply in_app_iff in Hs as [Hs|Hs]; [|now apply HG]. apply L. apply H1. now apply sees_top.
    + destruct (hasb st1 (m, s)) eqn:Eb.
      * apply hasb_ok in Eb. apply H1 in Eb. apply L. apply H1. eapply sees_inst; eauto.
      * apply (HC m s); [left; split; [exact IHs|]|exists md, i; auto 6].
        intros Hh. change (has st1 (fst (m, s)) (snd (m, s))) in Hh. apply hasb_ok in Hh. congruence.
Qed.
End P.

(** * Trimming *)
Section T.
Context {A B : Type}.
Implicit Types D : pdata A B.

Lemma trim_graph_ok D : NoDup (map pd_conc (pd_modules D)) -> trim_graph D = map (fun m => (pd_conc m, pd_insts m)) (pd_modules D).
Proof.
  intros H. unfold trim_graph.
  assert (K : forall l d, NoDup (map fst d ++ map pd_conc l) ->
    fold_left (fun d (m : pelem A B) => dset String.eqb d (pd_conc m) (pd_insts m)) l d = (d ++ map (fun m => (pd_conc m, pd_insts m)) l)%list).
  { induction l as [|m l IH]; intros d Hd; cbn [fold_left map]; [now rewrite app_nil_r|].
    assert (E : dset String.eqb d (pd_conc m) (pd_insts m) = (d ++ [(pd_conc m, pd_insts m)])%list).
    { cbn [map] in Hd. apply NoDup_remove_2 in Hd. assert (Hn : ~ In (pd_conc m) (map fst d)) by (intros Hc; apply Hd; apply in_or_app; auto).
      clear -Hn. unfold dset. induction d as [|(k, v) d IH]; [reflexivity|]. simpl in *.
      destruct (String.eqb (pd_conc m) k) eqn:E; [apply String.eqb_eq in E; subst; tauto|]. rewrite IH by tauto. reflexivity. }
    rewrite E, IH; [now rewrite <- app_assoc|]. rewrite map_app, <- app_assoc. exact Hd. }
  rewrite K; [reflexivity|exact H].
Qed.


Lemma trim_ok D top fuel : NoDup (map pd_conc (pd_modules D)) -> List.length (pd_modules D) < fuel ->
  exists used, (forall n, smem n used = true <-> used_by D top n) /\
    trim fuel D top = Some (mkPd (map strip (filter (fun e => smem (pd_conc e) used) (pd_leaves D)))
                                 (map strip (filter (fun e => smem (pd_conc e) used) (pd_modules D)))).
Proof.
  intros Hnd Hf. unfold trim. rewrite (trim_graph_ok D Hnd). fold (hier D).
  assert (Hh : NoDup (map fst (hier D))) by (unfold hier; rewrite map_map; exact Hnd).
  assert (Hl : List.length (hier D) < fuel) by (unfold hier; rewrite map_length; exact Hf).
  assert (K : forall l, exists used,
    concatM (fun c => option_map (fun t => (t_mods t ++ t_leaves t)%list) (compute_topoorder fuel (hier D) c)) l = Some used /\
    forall n, In n used <-> exists c, In c l /\ reach (hier D) c n).
  { induction l as [|c l (u & E & Hu)]; [exists []; split; [reflexivity|]; intros n; split; [intros []|intros (c & [] & _)]|].
    destruct (topo_total (hier D) c Hh fuel Hl) as (s & Es & _ & _ & H3 & H4 & _).
    exists ((t_mods s ++ t_leaves s) ++ u)%list. split; [cbn [concatM]; rewrite Es, E; reflexivity|].
    intros n. rewrite !in_app_iff, H3, H4, Hu. split.
    - intros [[(H & _)|(H & _)]|(c' & Hc & H)]; [exists c|exists c|exists c']; simpl; auto.
    - intros (c' & [<-|Hc] & H); [|right; eauto]. left.
      destruct (in_dec string_dec n (map fst (hier D))); auto. }
  destruct (K (trim_tops D top)) as (used & E & Hu). exists used. split; [|rewrite E; reflexivity].
  intros n. rewrite smem_ok, Hu. unfold trim_tops, used_by. split.
  - intros (c & Hc & H). apply in_map_iff in Hc as (t & <- & Ht). apply filter_In in Ht as (Ht & Ha). apply String.eqb_eq in Ha. eauto.
  - intros (t & Ht & Ha & H). exists (pd_conc t). split; [|assumption]. apply in_map. apply filter_In. split; [assumption|]. now apply String.eqb_eq.
Qed.

Lemma strip_conc (e : pelem A B) : pd_conc (strip e) = pd_conc e. Proof. reflexivity. Qed.
Lemma strip_strip (e : pelem A B) : strip (strip e) = strip e. Proof. reflexivity. Qed.

Lemma child_used D top x y : used_by D top x -> child (hier D) x y -> used_by D top y.
Proof.
  intros (t & Ht & Ha & H) Hc. exists t. split; [assumption|]. split; [assumption|].
  apply reach_trans with x; [assumption|]. eapply reach_step; [exact Hc|apply reach_refl].
Qed.

Lemma trim_used D top fuel D' : NoDup (map pd_conc (pd_modules D)) -> List.length (pd_modules D) < fuel ->
  trim fuel D top = Some D' -> forall n, used_by D' top n <-> used_by D top n.
Proof.
  intros Hnd Hf E. destruct (trim_ok D top fuel Hnd Hf) as (used & Hu & E'). rewrite E in E'. injection E' as ->.
  set (D' := mkPd _ _).
  assert (Hmods : forall m, In m (pd_modules D') <-> exists m0, m = strip m0 /\ In m0 (pd_modules D) /\ used_by D top (pd_conc m0)).
  { intros m. unfold D'. cbn [pd_modules]. rewrite in_map_iff. split.
    - intros (m0 & <- & H). apply filter_In in H as (H & H2). apply Hu in H2. eauto.
    - intros (m0 & -> & H & H2). exists m0. split; [reflexivity|]. apply filter_In. split; [assumption|]. now apply Hu. }
  assert (Hchild : forall x y, child (hier D') x y <-> used_by D top x /\ child (hier D) x y).
  { intros x y. unfold child, hier. split.
    - intros (cs & H & Hy). apply in_map_iff in H as (m & Em & Hm). apply Hmods in Hm as (m0 & -> & Hm & Hm2).
      injection Em as <- <-. split; [exact Hm2|]. exists (pd_insts m0). split; [|exact Hy]. apply in_map_iff. exists m0. auto.
    - intros (Hx & cs & H & Hy). apply in_map_iff in H as (m & Em & Hm). injection Em as <- <-.
      exists (pd_insts m). split; [|exact Hy]. apply in_map_iff. exists (strip m). split; [reflexivity|]. apply Hmods. eauto. }
  intros n. split.
  - intros (t & Ht & Ha & H). apply Hmods in Ht as (t0 & -> & Ht & _). exists t0. split; [assumption|]. split; [exact Ha|].
    cbn in H. change (pd_conc (strip t0)) with (pd_conc t0) in H. clear -H Hchild. induction H as [x|x y z Hc _ IH]; [apply reach_refl|].
    apply Hchild in Hc as (_ & Hc). eapply reach_step; eauto.
  - intros (t & Ht & Ha & H).
    assert (Hut : used_by D top (pd_conc t)) by (exists t; split; [assumption|]; split; [assumption|apply reach_refl]).
    exists (strip t). split; [apply Hmods; eauto|]. split; [exact Ha|].
    change (pd_conc (strip t)) with (pd_conc t). clear -H Hut Hchild. induction H as [x|x y z Hc _ IH]; [apply reach_refl|].
    eapply reach_step; [apply Hchild; eauto|]. apply IH. eapply child_used; eauto.
Qed.

Lemma trim_idem D top fuel D' : NoDup (map pd_conc (pd_modules D)) -> List.length (pd_modules D) < fuel ->
  trim fuel D top = Some D' -> trim fuel D' top = Some D'.
Proof.
  intros Hnd Hf E. pose proof (trim_used D top fuel D' Hnd Hf E) as Hus.
  destruct (trim_ok D top fuel Hnd Hf) as (used & Hu & E'). rewrite E in E'. injection E' as ->.
  set (D' := mkPd _ _) in *.
  assert (Hnd' : NoDup (map pd_conc (pd_modules D'))).
  { unfold D'. cbn [pd_modules]. rewrite map_map. cbn. clear -Hnd. induction (pd_modules D) as [|m l IH]; simpl in *; [constructor|].
    apply NoDup_cons_iff in Hnd as (Hn & Hnd). destruct (smem (pd_conc m) used); simpl; [constructor; [|auto]|auto].
    intros Hc. apply Hn. apply in_map_iff in Hc as (m' & <- & Hc). apply filter_In in Hc. apply in_map. tauto. }
  assert (Hf' : List.length (pd_modules D') < fuel).
  { unfold D'. cbn [pd_modules]. rewrite map_length. eapply Nat.le_lt_trans; [|exact Hf].
    generalize (fun e : pelem A B => smem (pd_conc e) used). intros g. generalize (pd_modules D). intros l. clear.
    induction l as [|x l IH]; simpl; [lia|]. destruct (g x); simpl; lia. }
  destruct (trim_ok D' top fuel Hnd' Hf') as (used' & Hu' & E').
  rewrite E'. unfold D' at 3. f_equal.
  assert (K : forall l, map strip (filter (fun e => smem (pd_conc e) used') (map strip (filter (fun e : pelem A B => smem (pd_conc e) used) l)))
    = map strip (filter (fun e => smem (pd_conc e) used) l)).
  { induction l as [|e l IH]; [reflexivity|]. cbn [filter]. destruct (smem (pd_conc e) used) eqn:Ee; [|exact IH].
    cbn [map filter]. change (pd_conc (strip e)) with (pd_conc e).
    assert (He : smem (pd_conc e) used' = true) by (apply Hu'; apply Hus; apply Hu; exact Ee).
    rewrite He. cbn [map]. rewrite IH. reflexivity. }
  unfold D'. cbn [pd_leaves pd_modules]. rewrite !K. reflexivity.
Qed.
End T.

Lemma least_one r : least_box [r] r.
Proof.
  split; [intros x [->|[]]; unfold inside; lia|]. intros b' H. apply H. left. reflexivity.
Qed.
Lemma least_grow rs b r : rs <> [] -> least_box rs b -> least_box (rs ++ [r])%list (grow b r).
Proof.
  intros _ (H1 & H2). split.
  - intros x Hx. apply in_app_iff in Hx as [Hx|[<-|[]]]; [apply H1 in Hx|]; unfold inside, grow in *; simpl; lia.
  - intros b' H. assert (Ha : inside b b') by (apply H2; intros x Hx; apply H; apply in_app_iff; auto).
    assert (Hb : inside r b') by (apply H; apply in_app_iff; simpl; auto).
    unfold inside, grow in *; simpl; lia.
Qed.
Lemma pin_bbox_ok ts n : match dget String.eqb (pin_bbox ts) n with
  | Some b => pins_on ts n <> [] /\ least_box (pins_on ts n) b
  | None => pins_on ts n = [] end.
Proof.
  unfold pin_bbox. induction ts as [|t ts IH] using rev_ind; [reflexivity|].
  rewrite fold_left_app. cbn [fold_left]. unfold pins_on in *. rewrite filter_app, map_app. cbn [filter].
  destruct (lt_pin t); cbn [andb]; [|cbn [map]; now rewrite app_nil_r].
  destruct (String.eqb (lt_net t) n) eqn:E.
  - apply String.eqb_eq in E. subst n. rewrite (dget_dupd_same _ String.eqb_eq). cbn [map].
    destruct (dget String.eqb _ (lt_net t)) as [b|].
    + destruct IH as (H1 & H2). split; [|now apply least_grow]. intros H. apply app_eq_nil in H. tauto.
    + rewrite IH. split; [discriminate|apply least_one].
  - rewrite (dget_dupd_other _ String.eqb_eq); [cbn [map]; rewrite app_nil_r; exact IH|].
    intros Hc. rewrite Hc, String.eqb_refl in E. discriminate.
Qed.
