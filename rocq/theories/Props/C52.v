(** C52: splitting the pins of partially routed primitives. *)
From Coq Require Import String Ascii.
From Verif Require Import Base.Prelude Base.PyDict Model.Transformation Model.Hpwl Model.ManipHier Proofs.PexP.

Lemma by_net_get prp f :
  dget String.eqb (by_net prp) f = match filter (fun x => String.eqb (snd x) f) prp with [] => None | b => Some b end.
Proof. apply (group_by_get String.eqb snd String.eqb_eq). Qed.

(** Every entity is connected to what its net was connected to; other pins are kept; nothing else. *)
Theorem C52_exact prp fa e a :
  In (e, a) (partial_fa prp fa) <->
  (exists f, In (e, f) prp /\ In (f, a) fa) \/ (In (e, a) fa /\ forall e', ~ In (e', e) prp).
Proof.
  unfold partial_fa. rewrite in_flat_map. split.
  - intros ((f, a') & Hc & H). apply in_map_iff in H as (e' & E & He). simpl in *. injection E as -> ->. rewrite by_net_get in He.
    destruct (filter _ prp) as [|p l] eqn:Ef.
    + destruct He as [<-|[]]. right. split; [exact Hc|]. intros e' Hin.
      assert (In (e', f) []) as []. rewrite <- Ef. apply filter_In. split; [exact Hin|]. simpl. apply String.eqb_refl.
    + left. exists f. split; [|exact Hc]. rewrite <- Ef in He. apply in_map_iff in He as ((x, y) & <- & Hx). apply filter_In in Hx as (Hx & E).
      simpl in E. apply String.eqb_eq in E. now subst.
  - intros [(f & Hp & Hf)|(Hf & Hn)].
    + exists (f, a). split; [exact Hf|]. apply in_map_iff. exists e. split; [reflexivity|]. simpl. rewrite by_net_get.
      assert (In (e, f) (filter (fun x => String.eqb (snd x) f) prp)) as Hin by (apply filter_In; split; [exact Hp|apply String.eqb_refl]).
      destruct (filter _ prp) as [|q l]; [destruct Hin|]. apply in_map_iff. exists (e, f). now split.
    + exists (e, a). split; [exact Hf|]. apply in_map_iff. exists e. split; [reflexivity|]. simpl. rewrite by_net_get.
      destruct (filter _ prp) as [|(x, y) l] eqn:E; [now left|]. exfalso.
      assert (In (x, y) (filter (fun x => String.eqb (snd x) e) prp)) as Hin by (rewrite E; now left).
      apply filter_In in Hin as (Hin & Ey). simpl in Ey. apply String.eqb_eq in Ey. subst. exact (Hn x Hin).
Qed.
Print Assumptions C52_exact.

(** No pin is connected twice, unless an entity has the name of a pin that is not split. *)
Theorem C52_once prp fa :
  NoDup (map fst prp) -> NoDup (map fst fa) ->
  (forall e f, In (e, f) prp -> In e (map fst fa) -> exists e', In (e', e) prp) ->
  NoDup (map fst (partial_fa prp fa)).
Proof.
  intros Hp Hf Hc. unfold partial_fa.
  assert (E : forall fa : list (string * string), map fst (flat_map (fun c => map (fun e => (e, snd c)) (match dget String.eqb (by_net prp) (fst c) with Some l => map fst l | None => [fst c] end)) fa)
    = flat_map (fun f => match dget String.eqb (by_net prp) f with Some l => map fst l | None => [f] end) (map fst fa)).
  { clear. induction fa as [|c fa IH]; simpl; [reflexivity|]. rewrite map_app, IH, map_map. simpl. now rewrite map_id. }
  rewrite E. clear E. revert Hf Hc. generalize (map fst fa). clear fa. intros fs Hf Hc.
  assert (G : forall f e, In e (match dget String.eqb (by_net prp) f with Some l => map fst l | None => [f] end) ->
     In (e, f) prp \/ (e = f /\ forall e', ~ In (e', f) prp)).
  { intros f e He. rewrite by_net_get in He. destruct (filter _ prp) as [|p l] eqn:Ef.
    - destruct He as [<-|[]]. right. split; [reflexivity|]. intros e' Hin. assert (In (e', f) []) as []. rewrite <- Ef. apply filter_In. split; [exact Hin|]. apply String.eqb_refl.
    - left. rewrite <- Ef in He. apply in_map_iff in He as ((x, y) & <- & Hx). apply filter_In in Hx as (Hx & Ey). simpl in Ey. apply String.eqb_eq in Ey. now subst. }
  assert (G1 : forall e f f', In (e, f) prp -> In (e, f') prp -> f = f').
  { intros e f f' H1 H2. pose proof (in_dget _ String.eqb_eq prp e f Hp H1). pose proof (in_dget _ String.eqb_eq prp e f' Hp H2). congruence. }
  assert (G2 : forall f, NoDup (match dget String.eqb (by_net prp) f with Some l => map fst l | None => [f] end)).
  { intros f. rewrite by_net_get. destruct (filter _ prp) as [|p l] eqn:Ef; [repeat constructor; tauto|]. rewrite <- Ef. clear Ef G Hc G1.
    induction prp as [|q r IH]; simpl; [constructor|]. simpl in Hp. apply NoDup_cons_iff in Hp as (H1 & H2). destruct (String.eqb (snd q) f); simpl; [|auto].
    constructor; [|auto]. intros H. apply H1. apply in_map_iff in H as (z & <- & Hz). apply filter_In in Hz as (Hz & _). now apply in_map. }
  assert (H : forall l, incl l fs -> NoDup l -> NoDup (flat_map (fun f => match dget String.eqb (by_net prp) f with Some l => map fst l | None => [f] end) l)).
  { induction l as [|f l IH]; intros Hi Hn; simpl; [constructor|]. apply NoDup_cons_iff in Hn as (Hn1 & Hn2). apply nodup_app; [apply G2|apply IH; [intros x Hx; apply Hi; now right|exact Hn2]|].
    intros e He1 He2. apply in_flat_map in He2 as (f' & Hf' & He2). apply G in He1, He2.
    assert (f <> f') as Hne by (intros ->; contradiction).
    destruct He1 as [He1|(-> & He1)], He2 as [He2|(-> & He2)].
    - apply Hne. exact (G1 _ _ _ He1 He2).
    - destruct (Hc f' f He1 (Hi f' (or_intror Hf'))) as (e' & He'). exact (He2 e' He').
    - destruct (Hc f f' He2 (Hi f (or_introl eq_refl))) as (e' & He'). exact (He1 e' He').
    - now apply Hne. }
  apply H; [apply incl_refl|exact Hf].
Qed.
Print Assumptions C52_once.

(** Module and instance names, templates and placements are kept. *)
Theorem C52_frame prims S :
  map md_name (partial_routing prims S) = map md_name S /\ map md_params (partial_routing prims S) = map md_params S /\
  map (fun m => map (fun i => (mi_name i, mi_ctn i, mi_tr i)) (md_insts m)) (partial_routing prims S) =
  map (fun m => map (fun i => (mi_name i, mi_ctn i, mi_tr i)) (md_insts m)) S.
Proof.
  unfold partial_routing. repeat split; rewrite map_map; apply map_ext; intros m; try reflexivity. simpl. rewrite map_map. apply map_ext.
  intros i. now destruct (prims (mi_ctn i)).
Qed.
Print Assumptions C52_frame.

Definition ex_prp := [("S_0", "S"); ("S_1", "S"); ("D_0", "D")]%string.
Definition ex_fa := [("S", "gnd"); ("G", "in"); ("D", "out")]%string.
Example C52_nonvacuous :
  partial_fa ex_prp ex_fa = [("S_0", "gnd"); ("S_1", "gnd"); ("G", "in"); ("D_0", "out")]%string /\
  NoDup (map fst ex_prp) /\ NoDup (map fst ex_fa) /\
  (forall e f, In (e, f) ex_prp -> In e (map fst ex_fa) -> exists e', In (e', e) ex_prp).
Proof.
  split; [reflexivity|]. repeat split; try (repeat constructor; simpl; intuition discriminate).
  intros e f H1 H2. simpl in *. exfalso. intuition congruence.
Qed.

(** Finding: an entity named like another, unsplit pin gives that pin two connections. *)
Theorem C52_clash_refuted : exists prp fa, NoDup (map fst prp) /\ NoDup (map fst fa) /\
  partial_fa prp fa = [("G", "gnd"); ("G", "in")]%string.
Proof.
  exists [("G", "S")]%string, [("S", "gnd"); ("G", "in")]%string. repeat split; repeat constructor; simpl; intuition discriminate.
Qed.
Print Assumptions C52_clash_refuted.
