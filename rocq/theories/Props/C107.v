(** The order in which the Hanan router joins the ports of a net. *)
From Coq Require Import ZArith ZifyBool.
From Verif Require Import Base.Prelude Model.HananGeom Model.HananNet Spec.HananGeomSpec Spec.HananNetSpec Proofs.HananNetP.
Local Open Scope Z_scope.

(** *** The distances of ports *)
Definition shape_of (p : port) (l : Z) (r : rect) : Prop := exists rs, In (l, rs) (p_shapes p) /\ In r rs.
Definition shaped (p : port) : Prop := exists l r, shape_of p l r.
Lemma flat_in p l r : In (l, r) (flat (p_shapes p)) <-> shape_of p l r.
Proof.
  unfold flat, shape_of. rewrite in_flat_map. split.
  - intros ([l' rs] & h1 & h2). apply in_map_iff in h2. destruct h2 as (r' & [= <- <-] & h2). exists rs. auto.
  - intros (rs & h1 & h2). exists (l, rs). split; [exact h1|]. apply in_map_iff. exists r. auto.
Qed.
Lemma shaped_flat p : shaped p -> flat (p_shapes p) <> [].
Proof. intros (l & r & h) e. apply flat_in in h. rewrite e in h. destruct h. Qed.
Lemma dmin_fold {A} (f : A -> Z) l : forall d, exists r, fold_left (fun d b => dmin (Some (f b)) d) l d = r /\
  (forall x, r = Some x -> (d = Some x \/ exists b, In b l /\ f b = x) /\ (forall b, In b l -> x <= f b) /\ forall y, d = Some y -> x <= y) /\ (r = None -> d = None /\ l = []).
Proof.
  induction l as [|b l IH]; intros d; cbn [fold_left].
  - exists d. split; [reflexivity|]. split; [|auto]. intros x ->. split; [auto|]. split; [intros ? []|]. intros y [= ->]. lia.
  - destruct (IH (dmin (Some (f b)) d)) as (r & e & h & g). exists r. split; [exact e|]. split.
    + intros x hx. destruct (h x hx) as (a1 & a2 & a3). destruct d as [y|]; cbn [dmin] in *.
      * specialize (a3 _ eq_refl). split; [|split; [intros c [<-|hc]; [lia|auto]|intros z [= <-]; lia]]. destruct a1 as [[= a]|(c & c1 & c2)]; [|right; exists c; cbn; auto].
        destruct (Z.min_spec (f b) y) as [[_ q]|[_ q]]; rewrite q in a; [right; exists b; cbn; auto|left; congruence].
      * specialize (a3 _ eq_refl). split; [|split; [intros c [<-|hc]; [lia|auto]|discriminate]]. right. destruct a1 as [[= a]|(c & c1 & c2)]; [exists b|exists c]; cbn; auto.
    + intros hr. destruct (g hr) as [q _]. destruct d; discriminate.
Qed.
Lemma dmin_fold2 {A B} (f : A -> B -> Z) l2 : l2 <> [] -> forall l1 d, exists r, fold_left (fun d a => fold_left (fun d b => dmin (Some (f a b)) d) l2 d) l1 d = r /\
  (forall x, r = Some x -> (d = Some x \/ exists a b, In a l1 /\ In b l2 /\ f a b = x) /\ (forall a b, In a l1 -> In b l2 -> x <= f a b) /\ forall y, d = Some y -> x <= y) /\ (r = None -> d = None /\ l1 = []).
Proof.
  intros ne. induction l1 as [|a l1 IH]; intros d; cbn [fold_left].
  - exists d. split; [reflexivity|]. split; [|auto]. intros x ->. split; [auto|]. split; [intros ? ? []|]. intros y [= ->]. lia.
  - destruct (dmin_fold (f a) l2 d) as (r1 & e1 & h1 & g1). rewrite e1. destruct (IH r1) as (r & e & h & g). exists r. split; [exact e|].
    destruct r1 as [y|]; [|destruct (g1 eq_refl); contradiction]. destruct (h1 y eq_refl) as (b1 & b2 & b3). split.
    + intros x hx. destruct (h x hx) as (a1 & a2 & a3). specialize (a3 _ eq_refl). split; [|split].
      * destruct a1 as [[= <-]|(c & c' & q1 & q2 & q3)]; [|right; exists c, c'; cbn; auto]. destruct b1 as [b1|(b & q1 & q2)]; [auto|right; exists a, b; cbn; auto].
      * intros c b [<-|hc] hb; [specialize (b2 b hb); lia|auto].
      * intros z hz. specialize (b3 z hz). lia.
    + intros hr. destruct (g hr). discriminate.
Qed.
(** The distance of two ports with shapes is that of their nearest shapes: Manhattan distance by the half perimeter of the net plus 0.03 for each layer between, all by ten if a port is virtual.
    In parts of 1 / (1000 h). *)
Theorem C107_dist h p q : 0 < h -> shaped p -> shaped q -> exists x, port_dist h p q = Some x /\ 0 <= x /\
  let k := if p_virtual p || p_virtual q then 1 else 10 in
  (exists l r l' r', shape_of p l r /\ shape_of q l' r' /\ x = k * (100 * Dist r r' + 3 * h * Z.abs (l - l'))) /\
  forall l r l' r', shape_of p l r -> shape_of q l' r' -> x <= k * (100 * Dist r r' + 3 * h * Z.abs (l - l')).
Proof.
  intros hh sp sq. apply shaped_flat in sp, sq. unfold port_dist. set (v := p_virtual p || p_virtual q). destruct (flat (p_shapes p)) as [|a0 l1] eqn:e1; [contradiction|]. rewrite <- e1 in *. destruct (flat (p_shapes q)) as [|b0 l2] eqn:e2; [contradiction|]. rewrite <- e2 in *.
  replace (h =? 0) with false by lia. destruct (dmin_fold2 (shape_dist h) (flat (p_shapes q)) sq (flat (p_shapes p)) None) as (r & e & hr & gr). rewrite e. clear e1 e2. destruct r as [x|]; [|destruct (gr eq_refl); contradiction].
  destruct (hr x eq_refl) as ([d|(a & b & i1 & i2 & d)] & m & _); [discriminate|]. exists (if v then x else 10 * x). split; [reflexivity|].
  assert (nn : 0 <= x). { subst x. unfold shape_dist. assert (0 <= Dist (snd a) (snd b)); [|nia]. unfold Dist, dist1. destruct (overlaps false (snd a) (snd b)); [lia|].
    repeat match goal with |- context [if ?c then _ else _] => destruct c end; lia. }
  split; [destruct v; lia|]. cbv zeta. split.
  - destruct a as [l r], b as [l' r']. exists l, r, l', r'. split; [apply flat_in; exact i1|]. split; [apply flat_in; exact i2|]. subst x. unfold shape_dist. cbn [fst snd]. destruct v; lia.
  - intros l r l' r' j1 j2. specialize (m (l, r) (l', r') (proj2 (flat_in _ _ _) j1) (proj2 (flat_in _ _ _) j2)). unfold shape_dist in m. cbn [fst snd] in m. destruct v; lia.
Qed.
Print Assumptions C107_dist.

(** *** The tree *)
Definition weight (ps : list port) (i j : nat) : Z := match matrix ps i j with Some x => x | None => 0 end.
Definition routable (ps : list port) : Prop := (2 <= length ps)%nat /\ (forall p, In p ps -> shaped p) /\ 0 < nethpwl ps.
Lemma matrix_sym ps u v : matrix ps u v = matrix ps v u.
Proof.
  unfold matrix. destruct (nth_error ps u) as [p|], (nth_error ps v) as [q|]; try reflexivity. rewrite (Nat.eqb_sym v u). destruct (Nat.eqb_spec u v); [reflexivity|].
  destruct (Nat.ltb_spec u v), (Nat.ltb_spec v u); try reflexivity; lia.
Qed.
Lemma matrix_ok ps u v : routable ps -> (u < length ps)%nat -> (v < length ps)%nat -> matrix ps u v = Some (weight ps u v) /\ 0 <= weight ps u v.
Proof.
  intros (_ & hs & hh) hu hv. unfold weight. assert (exists x, matrix ps u v = Some x /\ 0 <= x) as (x & -> & ?); [|auto]. unfold matrix.
  destruct (nth_error ps u) as [p|] eqn:ep; [|apply nth_error_None in ep; lia]. destruct (nth_error ps v) as [q|] eqn:eq; [|apply nth_error_None in eq; lia]. apply nth_error_In in ep, eq.
  destruct (u =? v)%nat; [exists 0; split; [reflexivity|lia]|]. destruct (u <? v)%nat; [destruct (C107_dist _ p q hh (hs _ ep) (hs _ eq)) as (x & ? & ? & _)|destruct (C107_dist _ q p hh (hs _ eq) (hs _ ep)) as (x & ? & ? & _)]; eauto.
Qed.
Lemma linked_perm es fs u v : Permutation es fs -> linked es u v -> linked fs u v.
Proof. intros p. apply linked_incl. intros e h. eapply Permutation_in; eassumption. Qed.
Lemma total_perm w es fs : Permutation es fs -> total w es = total w fs.
Proof. induction 1; try lia; rewrite !total_cons; lia. Qed.

(** The ports of a net with at least two ports, all with shapes, are joined by a spanning tree: one pair fewer than ports, and the nearest first. *)
Theorem C107_tree ps : routable ps -> exists es, reorderPorts ps = Some es /\ tree (length ps) es /\
  StronglySorted (fun a b => weight ps (fst a) (snd a) <= weight ps (fst b) (snd b)) es /\
  (forall E, among (length ps) E -> spans (length ps) E -> total (weight ps) es <= total (weight ps) E) /\
  (forall m u v, (u < length ps)%nat -> (v < length ps)%nat -> linked (up_to (weight ps) m (all_pairs (length ps))) u v -> linked (up_to (weight ps) m es) u v).
Proof.
  intros R. pose proof R as (hn & _). assert (ws : forall u v, weight ps u v = weight ps v u) by (intros; unfold weight; rewrite matrix_sym; reflexivity).
  destruct (prim_inv (length ps) (matrix ps) (weight ps) ws) as (sel & es0 & e & I & hl); [intros u v hu hv _; apply matrix_ok; assumption|exact hn|].
  unfold reorderPorts, order. destruct ps as [|p0 ps0] eqn:eps; [cbn in hn; lia|]. rewrite <- eps in *. rewrite e. eexists. split; [reflexivity|].
  match goal with |- context [sort_by ?f ?l] => set (lt := f); set (es := sort_by lt l) end. pose proof (sort_perm lt es0 : Permutation es0 es) as P.
  pose proof (inv_full _ _ _ _ I hl) as full.
  assert (am : among (length ps) es). { intros u v h. apply (i_am _ _ _ _ I). eapply Permutation_in; [symmetry; exact P|exact h]. }
  split; [split; [exact am|split]|split; [|split]].
  - intros u v hu hv. eapply linked_perm; [exact P|]. apply (i_link _ _ _ _ I); auto.
  - rewrite <- (Permutation_length P). pose proof (i_len _ _ _ _ I). lia.
  - assert (S : StronglySorted (fun a b => lt b a = false) es).
    { apply sort_sorted; unfold lt; intros a b; [|intros c]; destruct (matrix ps (fst a) (snd a)), (matrix ps (fst b) (snd b)); try destruct (matrix ps (fst c) (snd c)); cbn; intros; try congruence; try lia. }
    clear - S am R. induction S as [|a es S IH F]; [constructor|]. constructor; [apply IH; intros ? ? ?; apply am; right; assumption|]. rewrite Forall_forall in *. intros b hb. specialize (F b hb). unfold lt in F.
    destruct a as [a1 a2], b as [b1 b2]. destruct (am a1 a2 (or_introl eq_refl)) as (? & ? & _). destruct (am b1 b2 (or_intror hb)) as (? & ? & _). cbn [fst snd] in *.
    rewrite (proj1 (matrix_ok ps a1 a2 R ltac:(assumption) ltac:(assumption))), (proj1 (matrix_ok ps b1 b2 R ltac:(assumption) ltac:(assumption))) in F. cbn in F. lia.
  - intros E aE sE. destruct (i_ex _ _ _ _ I E sE aE) as (Q & _ & iQ & t & _). rewrite <- (total_perm _ _ _ P).
    assert (0 <= total (weight ps) Q); [|lia]. apply (total_nonneg _ (length ps)); [intros; apply matrix_ok; assumption|intros u v h; apply aE, iQ, h].
  - intros m u v hu hv h. pose proof (i_bot _ _ _ _ I m u v (full u hu) (full v hv) h) as k. revert k. apply linked_incl. intros [a b] q. apply up_to_in in q. apply up_to_in. split; [eapply Permutation_in; [exact P|]|]; tauto.
Qed.
Print Assumptions C107_tree.
(** The first pair is a nearest one of the net. *)
Theorem C107_first ps e es : routable ps -> reorderPorts ps = Some (e :: es) -> forall u v, (u < length ps)%nat -> (v < length ps)%nat -> u <> v -> weight ps (fst e) (snd e) <= weight ps u v.
Proof.
  intros R h u v hu hv ne. destruct (C107_tree ps R) as (es' & h' & _ & S & _ & B). rewrite h in h'. injection h' as <-.
  assert (K : linked (up_to (weight ps) (weight ps u v) (e :: es)) u v). { apply B; auto. apply linked_edge. left. apply up_to_in. split; [apply all_in; auto|lia]. }
  assert (exists f, In f (e :: es) /\ weight ps (fst f) (snd f) <= weight ps u v) as (f & i & l).
  { inversion K as [|? k ? [i|i] _]; subst; [contradiction|apply up_to_in in i|apply up_to_in in i]; destruct i as [i l]; eexists; (split; [exact i|exact l]). }
  destruct i as [<-|i]; [exact l|]. inversion S as [|? ? _ F]; subst. rewrite Forall_forall in F. specialize (F f i). cbv beta in F. lia.
Qed.
Print Assumptions C107_first.
(** A net of one port reads ports[-1]. *)
Theorem C107_single p : reorderPorts [p] = None.
Proof. reflexivity. Qed.
Print Assumptions C107_single.
Definition ex_port (x y : Z) (l : Z) (v : bool) : port := Port [(l, [Rect x y (x + 10) (y + 10)])] (Rect x y (x + 10) (y + 10)) v.
(** A port without shapes makes the loop run for ever; so do shapes that are all one point (ports[-1] is read then). *)
Theorem C107_stuck_refuted : reorderPorts [ex_port 0 0 1 false; ex_port 50 0 1 false; Port [] none false] = None /\
  reorderPorts (let p := Port [(1, [Rect 5 5 5 5])] (Rect 5 5 5 5) false in [p; p]) = None.
Proof. vm_compute. auto. Qed.
Print Assumptions C107_stuck_refuted.

(** *** Clock nets *)
Lemma others_after k : forall (ps : list pin) j, (k < j)%nat -> flat_map (fun ip => if (fst ip =? k)%nat then [] else snd (snd ip)) (combine (seq j (length ps)) ps) = flat_map snd ps.
Proof.
  induction ps as [|p ps IH]; intros j h; [reflexivity|]. cbn [length seq combine flat_map fst snd]. replace (j =? k)%nat with false by lia. rewrite IH by lia. reflexivity.
Qed.
Lemma find_perm driver : forall (ps : list pin) j k l, find_pin driver j ps = Some (k, l) -> (j <= k)%nat /\
  Permutation (flat_map snd ps) (l ++ flat_map (fun ip => if (fst ip =? k)%nat then [] else snd (snd ip)) (combine (seq j (length ps)) ps)).
Proof.
  induction ps as [|p ps IH]; intros j k l h; [discriminate|]. cbn [find_pin] in h. cbn [length seq combine flat_map fst snd]. destruct (fst p =? driver)%nat.
  - injection h as <- <-. split; [lia|]. rewrite Nat.eqb_refl, others_after by lia. reflexivity.
  - destruct (IH _ _ _ h) as [a b]. split; [lia|]. replace (j =? k)%nat with false by lia. rewrite b. rewrite !app_assoc. apply Permutation_app_tail, Permutation_app_comm.
Qed.
(** All ports of a clock net but the first of the driver are each joined once to that one, the farthest first. *)
Theorem C107_clock driver vpins pins k p0 r : find_pin driver 0 pins = Some (k, p0 :: r) ->
  let o := clockRouteOrder driver vpins pins in
  (forall e, In e o -> fst e = p0) /\ Permutation (p0 :: map snd o) (flat_map snd vpins ++ flat_map snd pins) /\
  StronglySorted (fun a b => Dist (p_bbox (fst b)) (p_bbox (snd b)) <= Dist (p_bbox (fst a)) (p_bbox (snd a))) o.
Proof.
  intros h. cbv zeta. unfold clockRouteOrder. rewrite h. match goal with |- context [sort_by ?f ?l] => pose proof (sort_perm f l) as P; assert (S : StronglySorted (fun a b => f b a = false) (sort_by f l)) end.
  { apply sort_sorted; cbv beta; intros; lia. }
  split; [|split].
  - intros e he. apply (Permutation_in _ (Permutation_sym P)) in he. apply in_map_iff in he. destruct he as (q & <- & _). reflexivity.
  - rewrite <- P. rewrite map_map. cbn [snd]. rewrite map_id. destruct (find_perm _ _ _ _ _ h) as [_ Q]. rewrite Q. unfold others. cbn [app].
    rewrite (Permutation_app_swap_app r). apply Permutation_cons_app. reflexivity.
  - clear P. induction S as [|a l S IH F]; constructor; [exact IH|]. eapply Forall_impl; [|exact F]. cbv beta. intros; lia.
Qed.
Print Assumptions C107_clock.
(** If no pin has the name of the driver, nothing is joined. *)
Theorem C107_clock_refuted : exists pins, (2 <= length (flat_map snd pins))%nat /\ clockRouteOrder 7 [] pins = [].
Proof. exists [(1%nat, [ex_port 0 0 1 false]); (2%nat, [ex_port 50 0 1 false])]. split; [cbn; lia|reflexivity]. Qed.
Print Assumptions C107_clock_refuted.

Definition ex_net : list port := [ex_port 0 0 1 false; ex_port 100 0 1 false; ex_port 40 0 2 false; ex_port 0 300 1 true].
Example C107_nonvacuous : routable ex_net /\ reorderPorts ex_net = Some [(0, 3); (3, 2); (3, 1)]%nat /\
  find_pin 2 0 [(1%nat, [ex_port 0 0 1 false]); (2%nat, [ex_port 50 0 1 false; ex_port 90 0 1 false])] = Some (1%nat, [ex_port 50 0 1 false; ex_port 90 0 1 false]).
Proof.
  split; [|split; reflexivity]. split; [cbn; lia|]. split; [|reflexivity]. intros p [<-|[<-|[<-|[<-|[]]]]]; (eexists _, _, _; split; [left; reflexivity|left; reflexivity]).
Qed.
