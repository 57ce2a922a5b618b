(** Trees of the global router: they connect all pins; the graph comes back unchanged. *)
From Coq Require Import ZArith ZifyBool.
From Verif Require Import Base.Prelude Model.GlobalGraph Spec.GlobalGraphSpec Proofs.DijkstraP Proofs.GlobalGraphP.
Local Open Scope Z_scope.

Lemma set_insert_in v l x : In x (set_insert v l) <-> x = v \/ In x l.
Proof.
  induction l as [|w l IH]; cbn [set_insert]; [cbn; intuition|]. destruct (v <? w)%nat; [cbn; intuition|]. destruct (Nat.eqb_spec v w) as [->|N]; [cbn; intuition|].
  cbn [In]. rewrite IH. clear. intuition.
Qed.
Lemma to_set_in l x : In x (to_set l) <-> In x l.
Proof. induction l as [|v l IH]; [reflexivity|]. cbn [to_set fold_right]. rewrite set_insert_in. fold (to_set l). rewrite IH. cbn. intuition. Qed.

Lemma filter_length_le {A} (f : A -> bool) l : (length (filter f l) <= length l)%nat.
Proof. induction l as [|a l IH]; cbn; [lia|]. destruct (f a); cbn; lia. Qed.
Lemma linked_mono pins es es' a b : incl es es' -> linked pins es a b -> linked pins es' a b.
Proof. intros I. induction 1; [eapply l_pin; eauto|apply l_edge; auto|now apply l_sym|eapply l_trans; eauto]. Qed.
Lemma linked_pins pins pins' es a b : incl pins pins' -> linked pins es a b -> linked pins' es a b.
Proof. intros I. induction 1; [eapply l_pin; [apply I|..]; eauto|now apply l_edge|now apply l_sym|eapply l_trans; eauto]. Qed.

(** The vertices of a walk. *)
Lemma walk_head ns a b p w : walk ns a b p w -> exists q, p = a :: q.
Proof. destruct 1; eauto. Qed.
Lemma walk_end ns a b p w : walk ns a b p w -> In a p /\ In b p.
Proof. induction 1; cbn; intuition. Qed.
Lemma walk_lt m g a b p w : proper m g -> (a < m)%nat -> walk (nodes g) a b p w -> forall x, In x p -> (x < m)%nat.
Proof.
  intros P Ha W. induction W as [a|a b c p w w' E W IH]; intros x Hx; [destruct Hx as [<-|[]]; exact Ha|]. destruct Hx as [<-|Hx]; [exact Ha|]. apply IH; [|exact Hx]. apply (p_edges m g P) in E. tauto.
Qed.
Lemma walk_steps ns a b p w : walk ns a b p w -> forall x y, In (x, y) (steps p) -> exists w', edge_of ns x y w'.
Proof.
  induction 1 as [a|a b c p w w' E W IH]; intros x y H; [destruct H|]. destruct (walk_head _ _ _ _ _ W) as [q ->]. cbn in H. destruct H as [H|H]; [injection H as <- <-; eauto|]. apply IH, H.
Qed.
Lemma walk_linked ns pins es a b p w : walk ns a b p w -> incl (steps p) es -> linked pins es a a -> forall x, In x p -> linked pins es a x.
Proof.
  induction 1 as [a|a b c p w w' E W IH]; intros I R x Hx; [destruct Hx as [<-|[]]; exact R|]. destruct (walk_head _ _ _ _ _ W) as [q ->]. cbn in I.
  assert (linked pins es a b) as Lab by (apply l_edge, I; now left). destruct Hx as [<-|Hx]; [exact R|]. eapply l_trans; [exact Lab|]. apply IH; [intros z Hz; apply I; now right| |exact Hx].
  eapply l_trans; [apply l_sym, Lab|exact Lab].
Qed.
Lemma walk_edges ns a b p w : walk ns a b p w -> incl (steps p) (Get_MST_Edges [p]) /\ forall x y, In (x, y) (Get_MST_Edges [p]) -> x = y \/ exists w', edge_of ns x y w'.
Proof.
  intros W. unfold Get_MST_Edges. cbn [flat_map]. rewrite app_nil_r. destruct p as [|v [|u q]]; [inversion W| |].
  - split; [intros z []|]. intros x y [[= <- <-]|[]]. now left.
  - split; [apply incl_refl|]. intros x y H. right. eapply walk_steps; eauto.
Qed.
Lemma steps_in p : forall x y, In (x, y) (steps p) -> In x p /\ In y p.
Proof. induction p as [|a [|b p] IH]; intros x y H; [destruct H|destruct H|]. destruct H as [[= <- <-]|H]; [split; [now left|right; now left]|]. destruct (IH x y H). split; now right. Qed.
Lemma edges_in p x y : In (x, y) (Get_MST_Edges [p]) -> In x p /\ In y p.
Proof.
  unfold Get_MST_Edges. cbn [flat_map]. rewrite app_nil_r. destruct p as [|v [|u q]]; [intros []| |apply steps_in]. intros [[= <- <-]|[]]. split; now left.
Qed.
Lemma edges_app ps p : Get_MST_Edges (ps ++ [p]) = Get_MST_Edges ps ++ Get_MST_Edges [p].
Proof. unfold Get_MST_Edges. now rewrite flat_map_app. Qed.

Section Tree.
Variables (m : nat) (g : graph) (pins : list (list nat)).
Hypothesis P : proper m g.
Hypothesis Hpins : forall p v, In p pins -> In v p -> (v < m)%nat.

Definition hit (path : list nat) (pa : list nat * bool) : bool := snd pa || existsb (fun v => existsb (Nat.eqb v) (fst pa)) path.
Lemma hit_true path pin b : hit path (pin, b) = true <-> b = true \/ exists v, In v path /\ In v pin.
Proof.
  unfold hit. cbn. rewrite orb_true_iff, existsb_exists. split; intros [H|(v & H1 & H2)]; auto; right; exists v; (split; [exact H1|]).
  - apply existsb_exists in H2. destruct H2 as (x & X1 & X2). apply Nat.eqb_eq in X2. now subst.
  - apply existsb_exists. exists v. split; [exact H2|apply Nat.eqb_refl].
Qed.
Lemma combine_hit path (ps : list (list nat)) (acc : list bool) : length acc = length ps ->
  combine ps (map (hit path) (combine ps acc)) = map (fun pa => (fst pa, hit path pa)) (combine ps acc).
Proof. revert acc. induction ps as [|p ps IH]; intros [|b acc] H; try reflexivity; try discriminate. cbn. f_equal. apply IH. cbn in H. lia. Qed.
Definition todo (ps : list (list nat)) (acc : list bool) : nat := length (filter (fun pa => negb (snd pa)) (combine ps acc)).
Lemma todo_less path (l : list (list nat * bool)) pin v : In (pin, false) l -> In v pin -> In v path ->
  (length (filter (fun pa => negb (snd pa)) (map (fun pa => (fst pa, hit path pa)) l)) < length (filter (fun pa => negb (snd pa)) l))%nat.
Proof.
  assert (forall l : list (list nat * bool), (length (filter (fun pa => negb (snd pa)) (map (fun pa => (fst pa, hit path pa)) l)) <= length (filter (fun pa => negb (snd pa)) l))%nat) as Le.
  { induction l0 as [|[q [|]] l0 IH]; cbn [map filter fst snd negb]; [lia|exact IH|]. destruct (hit path (q, false)); cbn [negb length]; lia. }
  intros Hin Hv Hp. induction l as [|[q b] l IH]; [destruct Hin|]. cbn [map filter fst snd]. destruct Hin as [[= -> ->]|Hin].
  - replace (hit path (pin, false)) with true by (symmetry; apply hit_true; right; eauto). cbn [negb length]. specialize (Le l). lia.
  - specialize (IH Hin). destruct b; cbn [negb].
    + replace (hit path (q, true)) with true by reflexivity. cbn [negb]. exact IH.
    + destruct (hit path (q, false)); cbn [negb length]; lia.
Qed.

(** What holds before each round; [r] is a vertex of the first pin. *)
Record good (r : nat) (src dst : list nat) (acc : list bool) (paths : list (list nat)) : Prop := {
  gd_len : length acc = length pins;
  gd_src : forall v, In v src -> (v < m)%nat /\ linked pins (Get_MST_Edges paths) r v;
  gd_pin : exists v, In v src /\ In v (concat pins);
  gd_acc : forall pin v, In (pin, true) (combine pins acc) -> In v pin -> linked pins (Get_MST_Edges paths) r v;
  gd_dst : forall v, In v dst <-> exists pin, In (pin, false) (combine pins acc) /\ In v pin;
  gd_edges : forall a b, In (a, b) (Get_MST_Edges paths) -> a = b \/ exists w, edge_of (nodes g) a b w;
  gd_range : forall a b, In (a, b) (Get_MST_Edges paths) -> (a < m /\ b < m)%nat }.
Lemma combine_pin (pin : list nat) (b : bool) acc : In (pin, b) (combine pins acc) -> In pin pins.
Proof. apply in_combine_l. Qed.
Lemma good_step r src dst acc paths p : good r src dst acc paths -> shortest (nodes g) src dst p ->
  let '(src', dst', acc') := ChangeSrcDest pins p acc in good r src' dst' acc' (paths ++ [p]) /\ (todo pins acc' < todo pins acc)%nat.
Proof.
  intros G (a & b & w & Ha & Hb & W & _). destruct G as [GL GS GP GA GD GE GR]. unfold ChangeSrcDest. cbn zeta.
  change (fun pa : list nat * bool => snd pa || existsb (fun v : nat => existsb (Nat.eqb v) (fst pa)) p) with (hit p). rewrite !(combine_hit p pins acc GL).
  destruct (walk_edges _ _ _ _ _ W) as [W1 W2]. destruct (GS a Ha) as [Ham La]. destruct (walk_end _ _ _ _ _ W) as [_ Hbp].
  assert (incl (Get_MST_Edges paths) (Get_MST_Edges (paths ++ [p]))) as I1 by (rewrite edges_app; apply incl_appl, incl_refl).
  assert (forall x, In x p -> linked pins (Get_MST_Edges (paths ++ [p])) r x) as Lp.
  { intros x Hx. apply (linked_mono _ _ _ _ _ I1) in La. eapply l_trans; [exact La|]. eapply walk_linked; [exact W| | |exact Hx].
    - rewrite edges_app. apply incl_appr, W1.
    - eapply l_trans; [apply l_sym, La|exact La]. }
  assert (forall pin v, In (pin, true) (map (fun pa => (fst pa, hit p pa)) (combine pins acc)) -> In v pin -> linked pins (Get_MST_Edges (paths ++ [p])) r v) as LA.
  { intros pin v H Hv. apply in_map_iff in H. destruct H as ([q bb] & E & Hq). cbn [fst] in E. injection E as -> Eh. apply hit_true in Eh. destruct Eh as [->|(x & X1 & X2)].
    - eapply linked_mono; [exact I1|]. eapply GA; eauto.
    - eapply l_trans; [apply Lp, X1|]. eapply l_pin; [eapply combine_pin, Hq|exact X2|exact Hv]. }
  destruct (proj1 (GD b) Hb) as (pb & Hpb & Hbpb).
  split.
  - constructor.
    + rewrite map_length, combine_length, GL. lia.
    + intros v Hv. rewrite to_set_in in Hv. apply in_app_or in Hv. destruct Hv as [Hv|Hv].
      * apply in_concat in Hv. destruct Hv as (pin & Hpin & Hv). apply in_map_iff in Hpin. destruct Hpin as ([q t] & E & Hq). cbn in E. subst q. apply filter_In in Hq. destruct Hq as [Hq Et]. cbn in Et. subst t.
        split; [|eapply LA; eauto]. apply in_map_iff in Hq. destruct Hq as ([q bb] & E & Hq). injection E as -> _. eapply Hpins; [eapply combine_pin, Hq|exact Hv].
      * split; [eapply (walk_lt m g); eauto|apply Lp, Hv].
    + exists b. split; [rewrite to_set_in; apply in_or_app; now right|]. apply in_concat. exists pb. split; [eapply combine_pin, Hpb|exact Hbpb].
    + rewrite (combine_hit p pins acc GL). exact LA.
    + intros v. rewrite to_set_in, in_concat, (combine_hit p pins acc GL). split.
      * intros (pin & Hpin & Hv). apply in_map_iff in Hpin. destruct Hpin as ([q t] & E & Hq). cbn in E. subst q. apply filter_In in Hq. destruct Hq as [Hq Et]. cbn in Et. destruct t; [discriminate|]. eauto.
      * intros (pin & Hpin & Hv). exists pin. split; [|exact Hv]. apply in_map_iff. exists (pin, false). split; [reflexivity|]. apply filter_In. split; [exact Hpin|reflexivity].
    + intros x y H. rewrite edges_app in H. apply in_app_or in H. destruct H as [H|H]; [apply GE, H|apply W2, H].
    + intros x y H. rewrite edges_app in H. apply in_app_or in H. destruct H as [H|H]; [apply GR, H|]. apply edges_in in H. destruct H. split; eapply (walk_lt m g); eauto.
  - unfold todo. rewrite (combine_hit p pins acc GL). eapply todo_less; eauto.
Qed.

Lemma mst_loop_ok r : forall fuel src dst acc paths, good r src dst acc paths -> (todo pins acc < fuel)%nat ->
  (mst_loop pins fuel g src dst acc paths = None /\ ~ routable (nodes g) pins) \/
  exists acc' src' paths', mst_loop pins fuel g src dst acc paths = Some (g, paths') /\ good r src' [] acc' paths'.
Proof.
  induction fuel as [|fuel IH]; intros src dst acc paths G L; [lia|]. cbn [mst_loop]. destruct dst as [|d0 dst]; [right; eauto|].
  set (dd := d0 :: dst) in *.
  assert (forall v, In v src -> (v < m)%nat) as Hs by (intros v Hv; now apply (gd_src _ _ _ _ _ G)).
  assert (forall v, In v dd -> (v < m)%nat) as Hd. { intros v Hv. apply (gd_dst _ _ _ _ _ G) in Hv. destruct Hv as (pin & H1 & H2). eapply Hpins; [eapply combine_pin, H1|exact H2]. }
  destruct (set_ok m g src dd P Hs Hd) as (g1 & E1 & _). rewrite E1.
  destruct (shortest_path m g src dd P Hs Hd g1 E1) as [[Ed Nr]|(p & Ed & Np & Sp)].
  - left. split; [destruct Ed as [-> | ->]; reflexivity|]. intros R. apply Nr. destruct (gd_pin _ _ _ _ _ G) as (v & Hv1 & Hv2).
    assert (In d0 dd) as Hd0 by now left. pose proof (proj1 (gd_dst _ _ _ _ _ G d0) Hd0) as (pin & H1 & H2).
    destruct (R v d0 Hv2) as (p & w & W); [apply in_concat; exists pin; split; [eapply combine_pin, H1|exact H2]|]. exists v, d0, p, w. auto.
  - rewrite Ed. destruct p as [|p0 p]; [contradiction|]. set (pp := p0 :: p) in *. rewrite (rm_ok m g src dd P Hs Hd g1 E1).
    pose proof (good_step r src dd acc paths pp G Sp) as St. destruct (ChangeSrcDest pins pp acc) as [[src' dst'] acc']. destruct St as [G' L'].
    apply IH; [exact G'|lia].
Qed.
Lemma good_connects r src acc paths : good r src [] acc paths -> connects (nodes g) pins (Get_MST_Edges paths).
Proof.
  intros G. split; [|apply (gd_edges _ _ _ _ _ G)].
  assert (forall q v, In q pins -> In v q -> linked pins (Get_MST_Edges paths) r v) as All.
  { intros q v Hq Hv. assert (exists bb, In (q, bb) (combine pins acc)) as [bb Hc].
    { pose proof (gd_len _ _ _ _ _ G) as GL. clear - GL Hq. revert acc GL. induction pins as [|x l IH]; intros [|y acc] GL; try discriminate; [destruct Hq|].
      destruct Hq as [->|Hq]; [exists y; now left|]. destruct (IH Hq acc) as [bb H]; [cbn in GL; lia|]. exists bb. now right. }
    destruct bb; [eapply (gd_acc _ _ _ _ _ G); eauto|]. exfalso. apply (proj2 (gd_dst _ _ _ _ _ G v)). eauto. }
  intros p q a b Hp Hq Ha Hb. eapply l_trans; [apply l_sym; eapply All; [exact Hp|exact Ha]|eapply All; eauto].
Qed.

Lemma mst_ok g' wl es : MST pins g = Some (g', wl, es) -> g' = g /\ connects (nodes g) pins es /\ forall a b, In (a, b) es -> (a < m /\ b < m)%nat.
Proof.
  unfold MST. destruct pins as [|p0 ps] eqn:Ep; [discriminate|]. cbn [InitialSrcDest hd tl]. rewrite <- Ep in *.
  assert (forall q v, In q ps -> In v q -> In v (to_set (concat ps))) as Din by (intros q v Hq Hv; rewrite to_set_in; apply in_concat; eauto).
  destruct (to_set (concat ps)) as [|d0 dd] eqn:Ed.
  - destruct (to_set p0) as [|s0 ss] eqn:Es; [discriminate|]. intros [= <- <- <-]. split; [reflexivity|].
    assert (In s0 p0) as Hs0 by (rewrite <- to_set_in, Es; now left).
    assert (forall q v, In q pins -> In v q -> q = p0) as One. { intros q v Hq Hv. rewrite Ep in Hq. destruct Hq as [<-|Hq]; [reflexivity|]. destruct (Din q v Hq Hv). }
    split; [split|].
    + intros p q a b Hp Hq Ha Hb. rewrite (One p a Hp Ha) in Ha. rewrite (One q b Hq Hb) in Hb. eapply l_pin; [rewrite Ep; now left|exact Ha|exact Hb].
    + intros a b [[= <- <-]|[]]. now left.
    + intros a b [[= <- <-]|[]]. assert (s0 < m)%nat by (eapply Hpins; [rewrite Ep; left; reflexivity|exact Hs0]). auto.
  - rewrite <- Ed. set (dst := to_set (concat ps)) in *. set (acc := true :: map (fun _ => false) ps).
    assert (exists s0, In s0 p0 \/ p0 = []) as [s0 Hs0] by (destruct p0 as [|x ?]; [exists 0%nat; now right|exists x; left; now left]).
    destruct Hs0 as [Hs0|Hs0].
    + assert (In p0 pins) as Hp0 by (rewrite Ep; now left).
      assert (good s0 (to_set p0) dst acc []) as G.
      { constructor.
        - unfold acc. rewrite Ep. cbn. now rewrite map_length.
        - intros v Hv. rewrite to_set_in in Hv. split; [eapply Hpins; eauto|]. eapply l_pin; eauto.
        - exists s0. split; [now rewrite to_set_in|]. apply in_concat. eauto.
        - unfold acc. rewrite Ep. cbn [combine]. intros pin v [[= <-]|Hc] Hv; [eapply l_pin; eauto; rewrite <- Ep; exact Hp0|]. exfalso.
          apply in_combine_r in Hc. apply in_map_iff in Hc. destruct Hc as (x & X & _). discriminate.
        - intros v. unfold dst, acc. rewrite to_set_in, in_concat, Ep. cbn [combine]. split.
          + intros (pin & H1 & H2). exists pin. split; [|exact H2]. right. clear - H1. induction ps as [|x ps IH]; [destruct H1|]. destruct H1 as [->|H1]; [now left|right; auto].
          + intros (pin & [H1|H1] & H2); [discriminate|]. exists pin. split; [eapply in_combine_l, H1|exact H2].
        - intros a b [].
        - intros a b []. }
      assert (todo pins acc < S (length pins))%nat as L. { unfold todo. pose proof (filter_length_le (fun pa : list nat * bool => negb (snd pa)) (combine pins acc)). rewrite combine_length in *. lia. }
      destruct (mst_loop_ok s0 (S (length pins)) (to_set p0) dst acc [] G L) as [[-> _]|(acc' & src' & paths' & -> & G')].
      * destruct dst; [discriminate|]. discriminate.
      * destruct dst; [discriminate|]. intros [= <- <- <-]. split; [reflexivity|]. split; [eapply good_connects, G'|apply (gd_range _ _ _ _ _ G')].
    + (* the first pin is empty: no source *)
      rewrite Hs0. destruct dst as [|d1 dst1] eqn:Edst; [discriminate|]. cbn [mst_loop to_set fold_right]. rewrite <- Edst in *.
      assert (forall v, In v dst -> (v < m)%nat) as Hd. { intros v Hv. unfold dst in Hv. rewrite to_set_in in Hv. apply in_concat in Hv. destruct Hv as (q & Q1 & Q2). eapply Hpins; [rewrite Ep; right; exact Q1|exact Q2]. }
      destruct (set_ok m g [] dst P ltac:(intros v []) Hd) as (g1 & E1 & _). rewrite E1.
      destruct (shortest_path m g [] dst P ltac:(intros v []) Hd g1 E1) as [[[-> | ->] _]|(p & _ & _ & a & b & w & Ha & _)]; try discriminate. destruct Ha.
Qed.
Lemma mst_some : hd [] pins <> [] -> routable (nodes g) pins -> exists wl es, MST pins g = Some (g, wl, es) .
Proof.
  intros Hh R. destruct (MST pins g) as [[[g' wl] es]|] eqn:E; [destruct (mst_ok _ _ _ E) as [-> _]; eauto|]. exfalso. revert E.
  unfold MST. destruct pins as [|p0 ps] eqn:Ep; [now cbn in Hh|]. cbn [InitialSrcDest hd tl] in *. rewrite <- Ep in *.
  assert (exists s0, In s0 p0) as [s0 Hs0] by (destruct p0 as [|x ?]; [contradiction|exists x; now left]).
  destruct (to_set (concat ps)) as [|d0 dd] eqn:Ed.
  - destruct (to_set p0) eqn:Es; [|discriminate]. exfalso. rewrite <- to_set_in, Es in Hs0. destruct Hs0.
  - rewrite <- Ed. set (dst := to_set (concat ps)) in *. set (acc := true :: map (fun _ => false) ps).
    assert (In p0 pins) as Hp0 by (rewrite Ep; now left).
    assert (good s0 (to_set p0) dst acc []) as G.
    { constructor.
      - unfold acc. rewrite Ep. cbn. now rewrite map_length.
      - intros v Hv. rewrite to_set_in in Hv. split; [eapply Hpins; eauto|]. eapply l_pin; eauto.
      - exists s0. split; [now rewrite to_set_in|]. apply in_concat. eauto.
      - unfold acc. rewrite Ep. cbn [combine]. intros pin v [[= <-]|Hc] Hv; [eapply l_pin; eauto; rewrite <- Ep; exact Hp0|]. exfalso.
        apply in_combine_r in Hc. apply in_map_iff in Hc. destruct Hc as (x & X & _). discriminate.
      - intros v. unfold dst, acc. rewrite to_set_in, in_concat, Ep. cbn [combine]. split.
        + intros (pin & H1 & H2). exists pin. split; [|exact H2]. right. clear - H1. induction ps as [|x ps IH]; [destruct H1|]. destruct H1 as [->|H1]; [now left|right; auto].
        + intros (pin & [H1|H1] & H2); [discriminate|]. exists pin. split; [eapply in_combine_l, H1|exact H2].
      - intros a b [].
      - intros a b []. }
    assert (todo pins acc < S (length pins))%nat as L. { unfold todo. pose proof (filter_length_le (fun pa : list nat * bool => negb (snd pa)) (combine pins acc)). rewrite combine_length in *. lia. }
    destruct (mst_loop_ok s0 (S (length pins)) (to_set p0) dst acc [] G L) as [[_ X]|(acc' & src' & paths' & -> & G')]; [contradiction|].
    destruct dst; [discriminate|]. discriminate.
Qed.
End Tree.
