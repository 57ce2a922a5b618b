(** C21: grid constraints propagate exactly through the hierarchy. *)
From Coq Require Import String ZifyBool.
From Verif Require Import Base.Prelude Base.PyDict Model.Transformation Model.Hpwl Model.PlaceGrid Spec.Geometry Spec.HpwlSpec Spec.PlaceGridSpec Proofs.PlaceGridP.
Local Open Scope Z_scope.

(** The constraint of an instance seen from its parent: the parent placed by [T] satisfies it iff
    the instance placed by the composition satisfies its own. *)
Theorem C21_instance t c : pog_ok c -> unit_tr t ->
  exists c', lift_pog t c = Some c' /\ pog_ok c' /\ forall T, unit_tr T -> on_grid c' T <-> on_grid c (mult T t).
Proof. apply lift_ok. Qed.

(** One module: [cons c] are the constraints of template [c] at the time of the call. *)
Theorem C21_module G st m : gpl_ok G st -> In m (gp_mods G) ->
  exists st', gen_for_module G st m = Some st' /\ (forall c, c <> md_name m -> st' c = st c) /\
    forall T, unit_tr T -> all_on_grid (st' (md_name m)) T <->
      all_on_grid (st (md_name m)) T /\ forall i r, In i (md_insts m) -> given G st (mi_ctn i) r -> on_grid r (mult T (mi_tr i)).
Proof.
  intros HG Hm.
  assert (Hgv : forall i r, In i (md_insts m) -> In r (cons_of G st (mi_ctn i)) <-> given G st (mi_ctn i) r).
  { intros i r Hi. unfold cons_of, given. destruct (dget String.eqb (gp_leaves G) (mi_ctn i)) as [cs|] eqn:E.
    - pose proof E as E0. apply (dget_in _ String.eqb_eq) in E0. split; [intros H; left; eauto|]. intros [(cs' & Hin & Hr)|(Hn & _)].
      + apply (in_dget _ String.eqb_eq) in Hin; [|apply HG]. congruence.
      + exfalso. apply in_map_iff in Hn as (m' & En & Hm'). apply (go_disj G st HG m' Hm'). rewrite En. apply in_map_iff. eexists. split; [|exact E0]. reflexivity.
    - apply (dget_none _ String.eqb_eq) in E. split.
      + intros H. right. split; [|assumption]. destruct (go_known G st HG m i Hm Hi); [contradiction|assumption].
      + intros [(cs & Hin & _)|(_ & H)]; [|assumption]. exfalso. apply E. apply in_map_iff. eexists. split; [|exact Hin]. reflexivity. }
  destruct (gen_module_ok G st HG st m Hm) as (st' & E & A & _ & B).
  - intros i r Hi Hr. apply (Hgv i r Hi) in Hr as [(cs & Hin & Hr)|(Hn & Hr)].
    + eapply (go_lcons G st HG); eauto.
    + apply in_map_iff in Hn as (m' & En & Hm'). apply (go_mcons G st HG m'); [assumption|]. now rewrite En.
  - exists st'. split; [exact E|]. split; [exact A|]. intros T HT. rewrite (B T HT). unfold all_on_grid. split.
    + intros (H1 & H2). split; [assumption|]. intros i r Hi Hr. apply (H2 i Hi), (Hgv i r Hi), Hr.
    + intros (H1 & H2). split; [assumption|]. intros i Hi r Hr. apply (H2 i r Hi), (Hgv i r Hi), Hr.
Qed.

(** The whole pass: the top cell placed by [T] satisfies the computed constraints iff every
    occurrence of every template below it satisfies the constraints given for it. *)
Theorem C21_hierarchy G st top : gpl_ok G st -> In top (map md_name (gp_mods G)) ->
  exists n0, forall n, (n0 <= n)%nat -> exists st', gen_constraints n G st top = Some st' /\
    forall T, unit_tr T -> all_on_grid (st' top) T <->
      forall c T', occurs (gp_mods G) top T c T' -> forall r, given G st c r -> on_grid r T'.
Proof.
  intros HG Htop. destruct (go_acyclic G st HG) as (rank & HR). exists (Datatypes.S (List.length (gp_mods G))). intros n Hn.
  destruct (gen_constraints_ok G st HG rank HR n top Htop) as (st' & E & _ & X); [lia|]. exists st'. split; [exact E|]. intros T HT. rewrite (X T HT).
  assert (Hgv : forall c T', occurs (gp_mods G) top T c T' -> forall r, In r (cons_of G st c) <-> given G st c r).
  { assert (Kn : forall a t c T', occurs (gp_mods G) a t c T' -> In a (map fst (gp_leaves G)) \/ In a (map md_name (gp_mods G)) -> In c (map fst (gp_leaves G)) \/ In c (map md_name (gp_mods G))).
    { intros a t c T' H. induction H as [|m i t c' t' Hm Hi Ho IH]; intros Ha; [assumption|]. apply IH, (go_known G st HG m i Hm Hi). }
    intros c T' Ho r. unfold cons_of, given. destruct (dget String.eqb (gp_leaves G) c) as [cs|] eqn:E1.
    - pose proof E1 as E0. apply (dget_in _ String.eqb_eq) in E0. split; [intros H; left; eauto|]. intros [(cs' & Hin & Hr)|(Hn' & _)].
      + apply (in_dget _ String.eqb_eq) in Hin; [|apply HG]. congruence.
      + exfalso. apply in_map_iff in Hn' as (m' & En & Hm'). apply (go_disj G st HG m' Hm'). rewrite En. apply in_map_iff. eexists. split; [|exact E0]. reflexivity.
    - apply (dget_none _ String.eqb_eq) in E1. split.
      + intros H. right. split; [|assumption]. destruct (Kn _ _ _ _ Ho (or_intror Htop)); [contradiction|assumption].
      + intros [(cs & Hin & _)|(_ & H)]; [|assumption]. exfalso. apply E1. apply in_map_iff. eexists. split; [|exact Hin]. reflexivity. }
  unfold all_on_grid. split; intros H c T' Ho r Hr; apply (H c T' Ho), (Hgv c T' Ho r), Hr.
Qed.

(** Constraints only on leaves: the top constraint, with the top cell at the origin, holds iff
    the flat checker passes. *)
Theorem C21_checker G st top : gpl_ok G st -> In top (map md_name (gp_mods G)) -> (forall m, In m (gp_mods G) -> st (md_name m) = []) ->
  exists n0, forall n, (n0 <= n)%nat -> exists st' b, gen_constraints n G st top = Some st' /\ check_place_on_grid n G top = Some b /\
    (b = true <-> all_on_grid (st' top) tr_default).
Proof.
  intros HG Htop Hown. destruct (C21_hierarchy G st top HG Htop) as (n1 & H1). destruct (go_acyclic G st HG) as (rank & HR).
  apply in_map_iff in Htop as (m & En & Hm).
  exists (Nat.max n1 (Datatypes.S (rank top))). intros n Hn. destruct (H1 n) as (st' & E & X); [lia|]. exists st'.
  destruct (flatten_occurs G st HG rank HR n m Hm) as (fls & Ef & Hf); [rewrite En; lia|]. rewrite En in *.
  unfold check_place_on_grid. rewrite Ef. eexists. split; [exact E|]. split; [reflexivity|].
  assert (U : unit_tr tr_default) by (unfold unit_tr; simpl; auto). rewrite (X tr_default U). rewrite forallb_forall.
  assert (ID : forall t, mult tr_default t = t) by (intros [x1 y1 x2 y2]; unfold mult, tr_default; cbn [oX oY sX sY]; f_equal; lia).
  split.
  - intros H c T' Ho r [(cs & Hcs & Hr)|(Hn' & Hr)].
    + assert (Hlf : In c (map fst (gp_leaves G))) by (apply in_map_iff; exists (c, cs); auto).
      destruct (proj1 (Hf tr_default c T') (conj Hlf Ho)) as (h & t & Hin & ->). specialize (H (c, h, t) Hin). simpl in H.
      rewrite (in_dget _ String.eqb_eq _ _ _ (go_leaves G st HG) Hcs) in H. apply check_leaf_ok in H; [|intros q Hq; eapply (go_lcons G st HG); eauto].
      rewrite ID. now apply H.
    + apply in_map_iff in Hn' as (m' & <- & Hm'). rewrite (Hown m' Hm') in Hr. destruct Hr.
  - intros H ((c, h), t) Hin. destruct (dget String.eqb (gp_leaves G) c) as [cs|] eqn:Ec; [|reflexivity]. apply (dget_in _ String.eqb_eq) in Ec.
    apply check_leaf_ok; [intros q Hq; eapply (go_lcons G st HG); eauto|]. intros r Hr.
    destruct (proj2 (Hf tr_default c (mult tr_default t))) as (Hc & Ho); [eauto|]. rewrite ID in Ho. apply (H c t Ho r). left. eauto.
Qed.

(** Two levels with mirrored instances; pitches 4 and 6 merge. *)
Definition c21_G : gpl := (mkGpl
  [mkMod "top" [] [mkInst "u0" "sub" (mkTr 0 12 1 1) []; mkInst "u1" "sub" (mkTr 0 8 1 (-1)) []];
   mkMod "sub" [] [mkInst "a" "la" (mkTr 0 1 1 1) []; mkInst "b" "lb" (mkTr 0 5 1 (-1)) []]]
  [("la", [mkPog DH 4 [mkOt [1; 3] [1; -1]]]); ("lb", [mkPog DH 6 [mkOt [5; 3] [1; -1]]])])%string.

Example C21_nonvacuous : gpl_ok c21_G (fun _ => []) /\ In "top"%string (map md_name (gp_mods c21_G)) /\
  (exists st', gen_constraints 5 c21_G (fun _ => []) "top" = Some st' /\
     st' "sub"%string = [mkPog DH 12 [mkOt [4; 10] [1; -1]; mkOt [0; 6] [1]; mkOt [2; 8] [-1]]] /\
     st' "top"%string = [mkPog DH 12 [mkOt [0; 6] [1]; mkOt [2; 8] [-1]]]) /\
  check_place_on_grid 5 c21_G "top" = Some true.
Proof.
  assert (HM : forall m, In m (gp_mods c21_G) -> m = nth 0 (gp_mods c21_G) (mkMod "" [] []) \/ m = nth 1 (gp_mods c21_G) (mkMod "" [] [])).
  { intros m [<-|[<-|[]]]; auto. }
  split; [|split; [left; reflexivity|split; [|vm_compute; reflexivity]]].
  - split.
    + repeat constructor; simpl; intuition discriminate.
    + repeat constructor; simpl; intuition discriminate.
    + intros m Hm. destruct (HM m Hm) as [->| ->]; simpl; intuition discriminate.
    + intros m i Hm Hi. destruct (HM m Hm) as [->| ->]; simpl in Hi; destruct Hi as [<-|[<-|[]]]; simpl; auto.
    + intros m i Hm Hi. destruct (HM m Hm) as [->| ->]; simpl in Hi; destruct Hi as [<-|[<-|[]]]; unfold unit_tr; simpl; auto.
    + intros c cs r [[= <- <-]|[[= <- <-]|[]]] [<-|[]]; (split; [simpl; lia|]); intros t [<-|[]]; simpl; split; intros; lia.
    + intros m r _ [].
    + exists (fun s => if String.eqb s "top" then 2%nat else if String.eqb s "sub" then 1%nat else 0%nat).
      intros m i Hm Hi. destruct (HM m Hm) as [->| ->]; simpl in Hi; destruct Hi as [<-|[<-|[]]]; vm_compute; lia.
  - eexists. split; [vm_compute; reflexivity|]. split; reflexivity.
Qed.

Print Assumptions C21_instance.
Print Assumptions C21_module.
Print Assumptions C21_hierarchy.
Print Assumptions C21_checker.
