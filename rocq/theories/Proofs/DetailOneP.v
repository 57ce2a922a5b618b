(** When the places of the nodes are distinct. *)
From Coq Require Import ZArith ZifyBool.
From Verif Require Import Base.Prelude Model.GlobalGrid Model.AStar Model.DetailGrid Spec.AStarSpec Spec.DetailGridSpec Proofs.GlobalGridP Proofs.DetailGridP Proofs.DetailLinkP Proofs.DetailPlaceP.
Local Open Scope Z_scope.

Lemma nodup_app {A} (l r : list A) : NoDup l -> NoDup r -> (forall x, In x l -> ~ In x r) -> NoDup (l ++ r).
Proof.
  induction 1 as [|x l N H IH]; intros Hr Hd; [exact Hr|]. cbn. constructor; [|apply IH; [exact Hr|]; intros y Hy; apply Hd; now right]. intros Hx. apply in_app_or in Hx. destruct Hx as [Hx|Hx]; [now apply N|]. apply (Hd x); [now left|exact Hx].
Qed.
Lemma nodup_flat {A B} (f : A -> list B) l : NoDup l -> (forall x, In x l -> NoDup (f x)) -> (forall x x' y, In x l -> In x' l -> In y (f x) -> In y (f x') -> x = x') -> NoDup (flat_map f l).
Proof.
  induction 1 as [|x l N H IH]; intros Hf Hd; cbn; [constructor|]. apply nodup_app; [apply Hf; now left|apply IH; [intros y Hy; apply Hf; now right|intros y y' z Hy Hy'; apply Hd; now right]|].
  intros y Hy Hy'. apply in_flat_map in Hy'. destruct Hy' as (x' & Hx' & Hy'). apply N. rewrite (Hd x x' y); [exact Hx'|now left|now right|exact Hy|exact Hy'].
Qed.
Definition somes (l : list (option nat)) : list nat := flat_map (fun o => match o with Some i => [i] | None => [] end) l.
Lemma runs_starts cells : (forall s0 prev, map fst (runs_from (Some s0) prev cells) = s0 :: tl (map fst (runs_from (Some s0) prev cells)) /\ (forall s, In s (tl (map fst (runs_from (Some s0) prev cells))) -> In s (somes cells))) /\
  (forall prev s, In s (map fst (runs_from None prev cells)) -> In s (somes cells)).
Proof.
  induction cells as [|[c|] r [IHS IHN]]; cbn [runs_from].
  - split; [intros s0 prev; cbn; split; [reflexivity|intros s []]|intros prev s []].
  - split.
    + intros s0 prev. destruct (IHS s0 c) as [E I]. split; [exact E|]. intros s Hs. right. now apply I.
    + intros prev s H. destruct (IHS c c) as [E I]. rewrite E in H. destruct H as [<-|H]; [now left|right; now apply I].
  - split.
    + intros s0 prev. cbn. split; [reflexivity|]. intros s Hs. now apply (IHN prev).
    + intros prev s H. now apply (IHN prev).
Qed.
Lemma runs_nodup cells : NoDup (somes cells) -> (forall s0 prev, ~ In s0 (somes cells) -> NoDup (map fst (runs_from (Some s0) prev cells))) /\ (forall prev, NoDup (map fst (runs_from None prev cells))).
Proof.
  induction cells as [|[c|] r IH]; intros N; cbn [runs_from].
  - split; intros; repeat constructor. intros [].
  - change (somes (Some c :: r)) with (c :: somes r) in N |- *. inversion N as [|? ? N1 N2]; subst. destruct (IH N2) as [IHS IHN]. split; [intros s0 prev H; apply IHS; intros X; apply H; now right|]. intros prev. now apply IHS.
  - change (somes (None :: r)) with (somes r) in *. destruct (IH N) as [IHS IHN]. split; [|exact IHN]. intros s0 prev H. cbn [map fst]. constructor; [|apply IHN]. intros X. apply H. now apply (proj2 (runs_starts r)) in X.
Qed.
Lemma somes_nodup (f : nat -> option nat) (key : nat -> nat) l : NoDup l -> (forall y i, f y = Some i -> key i = y) -> NoDup (somes (map f l)).
Proof.
  intros N K. unfold somes. rewrite flat_map_concat_map, map_map, <- flat_map_concat_map. apply nodup_flat; [exact N| |].
  - intros y _. destruct (f y); repeat constructor. intros [].
  - intros y y' i _ _ H H'. destruct (f y) as [c|] eqn:E; [|destruct H]. destruct (f y') as [c'|] eqn:E'; [|destruct H']. destruct H as [<-|[]]. destruct H' as [<-|[]]. apply K in E, E'. congruence.
Qed.
Lemma nodup_fst {A B} (l : list (A * B)) : NoDup (map fst l) -> NoDup l.
Proof. apply NoDup_map_inv. Qed.
Lemma tracks_nodup a (P : placed a) m : NoDup (tracks a m).
Proof.
  assert (forall l x s e, In (s, e) (runs_from None O (column a l x)) -> tlayer (gr a) s = l /\ txi (gr a) s = x) as C.
  { intros l x s e H. apply (proj2 (runs_ok _)) in H. unfold column in H. apply run_at in H. destruct H as (i & k & _ & H & _). apply (cell_in a P) in H. tauto. }
  assert (forall l y s e, In (s, e) (runs_from None O (row a l y)) -> tlayer (gr a) s = l /\ tyi (gr a) s = y) as R.
  { intros l x s e H. apply (proj2 (runs_ok _)) in H. unfold row in H. apply run_at in H. destruct H as (i & k & _ & H & _). apply (cell_in a P) in H. tauto. }
  unfold tracks. apply nodup_flat; [apply seq_NoDup| |].
  - intros l _. destruct (existsb _ _); [|constructor]. destruct (vert (dr a) m); (apply nodup_flat; [apply seq_NoDup| |]).
    + intros x _. apply nodup_fst, runs_nodup. unfold column. apply (somes_nodup _ (tyi (gr a))); [apply seq_NoDup|]. intros y i H. apply (cell_in a P) in H. tauto.
    + intros x x' [s e] _ _ H H'. apply C in H, H'. destruct H, H'. congruence.
    + intros x _. apply nodup_fst, runs_nodup. unfold row. apply (somes_nodup _ (txi (gr a))); [apply seq_NoDup|]. intros y i H. apply (cell_in a P) in H. tauto.
    + intros x x' [s e] _ _ H H'. apply R in H, H'. destruct H, H'. congruence.
  - intros l l' [s e] _ _ H H'. destruct (existsb _ _); [|destruct H]. destruct (existsb _ (metals (gr a) l')); [|destruct H']. destruct (vert (dr a) m); apply in_flat_map in H, H'; destruct H as (x & _ & H); destruct H' as (x' & _ & H'); [apply C in H, H'|apply R in H, H']; destruct H, H'; congruence.
Qed.
Lemma sorted_nodup (l : list Z) : Sorted.StronglySorted Z.lt l -> NoDup l.
Proof. induction 1 as [|z l S IH F]; constructor; [|exact IH]. rewrite Forall_forall in F. intros H. specialize (F z H). lia. Qed.
Section One.
Variable a : args.
Notation d := (dr a).
Definition places (L : list (Z * list (Z * Z))) : list (Z * (Z * Z)) := flat_map (fun l => map (pair (fst l)) (snd l)) L.
Lemma build_places L : forall b, map (fun v => (metal v, (vx v, vy v))) (build a b L) = places L.
Proof.
  induction L as [|[m pts] L IH]; intros b; [reflexivity|]. cbn [build]. rewrite map_app, IH. unfold places. cbn [flat_map fst snd]. f_equal. generalize true as f. revert b. clear.
  induction pts as [|p pts IH]; intros b f; [reflexivity|]. cbn [line_nodes map]. destruct (node_geo (vert d m) m b f (is_nil pts) p) as (-> & -> & ->). rewrite IH. now destruct p.
Qed.
Lemma starts_sorted hi st : 0 < st -> forall f x, Sorted.StronglySorted Z.lt (starts_from f hi st x) /\ Forall (Z.le x) (starts_from f hi st x).
Proof.
  intros Hs. induction f as [|f IH]; intros x; cbn [starts_from]; [split; constructor|]. destruct (x <? hi); [|split; constructor]. destruct (IH (x + st)) as [S F]. rewrite Forall_forall in F.
  split; constructor; [exact S| |lia|]; apply Forall_forall; intros z Hz; specialize (F z Hz); lia.
Qed.
Lemma lines_nodup m lo hi : 0 < unit d m -> NoDup (lines d m lo hi).
Proof. intros U. unfold lines, upto, starts. apply sorted_nodup, starts_sorted, U. Qed.
Lemma places_in L m p : In (m, p) (places L) <-> exists pts, In (m, pts) L /\ In p pts.
Proof.
  unfold places. rewrite in_flat_map. split.
  - intros ([m' pts] & H & H'). cbn in H'. apply in_map_iff in H'. destruct H' as (q & E & H'). injection E as -> ->. eauto.
  - intros (pts & H & H'). exists (m, pts). split; [exact H|]. cbn. apply in_map_iff. eauto.
Qed.
Lemma places_flat {A} (f : A -> list (Z * list (Z * Z))) l : places (flat_map f l) = flat_map (fun x => places (f x)) l.
Proof. unfold places. induction l as [|x l IH]; [reflexivity|]. cbn. rewrite flat_map_app, IH. reflexivity. Qed.
Lemma range_nodup : NoDup (metal_range a).
Proof. unfold metal_range. apply FinFun.Injective_map_NoDup; [intros x y H; lia|apply seq_NoDup]. Qed.
Lemma track_nodup m p : proper a -> NoDup (places (track_lines a m p)).
Proof.
  intros Q. assert (forall adj cs, Sorted.StronglySorted Z.lt adj -> NoDup cs -> NoDup (places (map (pts_of a m adj) cs))) as K.
  { intros adj cs Ha Hc. unfold places. rewrite flat_map_concat_map, map_map, <- flat_map_concat_map. apply nodup_flat; [exact Hc| |].
    - intros c _. cbn. rewrite map_map. apply FinFun.Injective_map_NoDup; [intros z z' H; unfold place in H; destruct (vert d m); congruence|]. apply sorted_nodup, sorted_filter, Ha.
    - intros c c' y _ _ H H'. cbn in H, H'. rewrite map_map in H, H'. apply in_map_iff in H, H'. destruct H as (z & <- & _). destruct H' as (z' & E & _). unfold place in E. destruct (vert d m); congruence. }
  unfold track_lines. destruct (vert d m); destruct (_ =? _); try constructor; apply K; (apply adjacent_sorted || apply lines_nodup, (pr_unit a Q)).
Qed.
Lemma track_place m p m' pt : proper a -> In (m', pt) (places (track_lines a m p)) -> m' = m /\ crossing d m (fst pt) (snd pt) /\ inside (track_box a p) (fst pt) (snd pt).
Proof.
  intros Q H. apply places_in in H. destruct H as (pts & H & Hp). apply (track_line a Q) in H. cbv zeta in H. destruct H as (_ & -> & c & Hc & Hb & ->). split; [reflexivity|]. apply in_map_iff in Hp. destruct Hp as (z & <- & Hz). apply (adjacent_in a Q) in Hz. unfold crossing, inside, place. destruct (vert d m); cbn [fst snd]; tauto.
Qed.
Theorem single_ok : proper a -> placed a -> apart a -> single (Grid a).
Proof.
  intros Q P A. assert (NoDup (places (all_lines a))) as N.
  { unfold all_lines. rewrite places_flat. apply nodup_flat; [apply range_nodup| |].
    - intros m _. unfold metal_lines. rewrite places_flat. apply nodup_flat; [now apply tracks_nodup|intros p _; now apply track_nodup|].
      intros p p' [m' pt] Hp Hp' H H'. apply track_place in H, H'; try exact Q. destruct H as (_ & C & I1). destruct H' as (_ & _ & I2). now apply (A m p p' (fst pt) (snd pt)).
    - intros m m' [m0 pt] _ _ H H'. unfold metal_lines in H, H'. rewrite places_flat in H, H'. apply in_flat_map in H, H'. destruct H as (p & _ & H). destruct H' as (p' & _ & H'). apply track_place in H, H'; try exact Q. destruct H as (-> & _). destruct H' as (-> & _). reflexivity. }
  rewrite <- (build_places (all_lines a) 0), <- vertices_ok in N. rewrite NoDup_nth_error in N. intros u v m x y Hu Hv. apply grid_sits in Hu, Hv. destruct Hu as (n & Hu & E1 & E2 & E3). destruct Hv as (n' & Hv & F1 & F2 & F3).
  apply N; [rewrite map_length; apply nth_error_Some; congruence|]. rewrite !nth_error_map, Hu, Hv. cbn. congruence.
Qed.
End One.
