(** C106: the rectangles of the Hanan router. *)
From Coq Require Import ZArith ZifyBool.
From Verif Require Import Base.Prelude Model.HananGeom Spec.HananGeomSpec.
Local Open Scope Z_scope.

Ltac unf := unfold sane, within, inside, square, valid, contains, contains_pt, overlaps in *.
(** ** Operations *)
Theorem C106_rect x1 y1 x2 y2 : x1 < INT_MAX -> y1 < INT_MAX -> let r := Rect x1 y1 x2 y2 in
  sane r /\ inside r x1 y1 /\ inside r x2 y2 /\ forall b, inside b x1 y1 -> inside b x2 y2 -> within r b.
Proof.
  intros h1 h2 r. assert (e : r = Rc (Z.min x1 x2) (Z.min y1 y2) (Z.max x1 x2) (Z.max y1 y2)).
  { unfold r, Rect, fix_. cbn [xmin ymin xmax ymax]. replace ((x1 =? INT_MAX) || (y1 =? INT_MAX)) with false by lia.
    destruct (x2 <? x1) eqn:e1; cbn [xmin ymin xmax ymax]; destruct (y2 <? y1) eqn:e2; f_equal; lia. }
  rewrite e. clear e r. unf. cbn [xmin ymin xmax ymax]. split; [lia|]. split; [lia|]. split; [lia|]. intros b p q x y h. lia.
Qed.
Print Assumptions C106_rect.
Theorem C106_intersect a b x y : inside (fst (intersect a b)) x y <-> inside a x y /\ inside b x y.
Proof. unfold intersect. unf. cbn [fst xmin ymin xmax ymax]. lia. Qed.
Print Assumptions C106_intersect.
Theorem C106_overlaps a b : sane a -> sane b -> (overlaps false a b = true <-> exists x y, inside a x y /\ inside b x y) /\ (snd (intersect a b) = true <-> overlaps false a b = true) /\
  (xmin a < xmax a -> ymin a < ymax a -> xmin b < xmax b -> ymin b < ymax b -> (overlaps true a b = true <-> exists x y, square a x y /\ square b x y)).
Proof.
  intros ha hb. unfold intersect. unf. cbn [snd xmin ymin xmax ymax]. split; [|split].
  - split; [intros h; exists (Z.max (xmin a) (xmin b)), (Z.max (ymin a) (ymin b)); lia|intros (x & y & h); lia].
  - lia.
  - intros w1 w2 w3 w4. split; [intros h; exists (Z.max (xmin a) (xmin b)), (Z.max (ymin a) (ymin b)); lia|intros (x & y & h); lia].
Qed.
Print Assumptions C106_overlaps.
Theorem C106_contains a r : sane r -> (contains a r = true <-> within r a).
Proof.
  intros h. unf. split; [intros; lia|]. intros H. assert (h1 := H (xmin r) (ymin r) ltac:(lia)). assert (h2 := H (xmax r) (ymax r) ltac:(lia)). lia.
Qed.
Print Assumptions C106_contains.
Theorem C106_box a r : sane a -> sane r -> smallest (fun b => within a b /\ within r b) (merge a r) /\ (INT_MIN <= xmax r -> INT_MIN <= ymax r -> xmin r <= INT_MAX -> ymin r <= INT_MAX -> merge none r = r).
Proof.
  intros ha hr. split.
  - unfold smallest, merge. unf. cbn [xmin ymin xmax ymax]. split; [split; intros; lia|]. intros b [H1 H2] x y h.
    assert (p1 := H1 (xmin a) (ymin a) ltac:(lia)). assert (p2 := H1 (xmax a) (ymax a) ltac:(lia)). assert (p3 := H2 (xmin r) (ymin r) ltac:(lia)). assert (p4 := H2 (xmax r) (ymax r) ltac:(lia)). lia.
  - intros h1 h2 h3 h4. unfold merge. change (xmin none) with INT_MAX. change (ymin none) with INT_MAX. change (xmax none) with INT_MIN. change (ymax none) with INT_MIN. destruct r as [a1 a2 a3 a4]. cbn [xmin ymin xmax ymax] in *. f_equal; lia.
Qed.
Print Assumptions C106_box.
Lemma dist1_ok a1 a2 b1 b2 : a1 <= a2 -> b1 <= b2 -> (forall x x', a1 <= x <= a2 -> b1 <= x' <= b2 -> dist1 a1 a2 b1 b2 <= Z.abs (x - x')) /\ exists x x', a1 <= x <= a2 /\ b1 <= x' <= b2 /\ Z.abs (x - x') = dist1 a1 a2 b1 b2.
Proof.
  intros ha hb. unfold dist1. destruct ((a1 <=? b2) && (b1 <=? a2)) eqn:e.
  - split; [intros; lia|]. exists (Z.max a1 b1), (Z.max a1 b1). lia.
  - split; [intros; lia|]. destruct (Z_lt_ge_dec b2 a1); [exists a1, b2|exists a2, b1]; lia.
Qed.
(** The distance is that of the nearest points. *)
Theorem C106_dist a b : sane a -> sane b -> (forall x y x' y', inside a x y -> inside b x' y' -> Dist a b <= Z.abs (x - x') + Z.abs (y - y')) /\
  exists x y x' y', inside a x y /\ inside b x' y' /\ Dist a b = Z.abs (x - x') + Z.abs (y - y').
Proof.
  intros ha hb. unf. destruct ha as [h1 h2], hb as [h3 h4]. destruct (dist1_ok _ _ _ _ h1 h3) as [u (x & x' & p1 & p2 & p3)]. destruct (dist1_ok _ _ _ _ h2 h4) as [v (y & y' & q1 & q2 & q3)].
  assert (e : Dist a b = dist1 (xmin a) (xmax a) (xmin b) (xmax b) + dist1 (ymin a) (ymax a) (ymin b) (ymax b)).
  { unfold Dist, overlaps. destruct ((xmin a <=? xmax b) && (xmin b <=? xmax a) && (ymin a <=? ymax b) && (ymin b <=? ymax a)) eqn:o; [|reflexivity]. unfold dist1.
    replace ((xmin a <=? xmax b) && (xmin b <=? xmax a)) with true by lia. replace ((ymin a <=? ymax b) && (ymin b <=? ymax a)) with true by lia. reflexivity. }
  rewrite e. split.
  - intros a1 a2 b1 b2 H1 H2. specialize (u a1 b1 ltac:(lia) ltac:(lia)). specialize (v a2 b2 ltac:(lia) ltac:(lia)). lia.
  - exists x, y, x', y'. lia.
Qed.
Print Assumptions C106_dist.
(** A transform moves the points of a rectangle; twice the same mirror moves them back. *)
Theorem C106_transform t r x y : (s_x t = 1 \/ s_x t = -1) -> (s_y t = 1 \/ s_y t = -1) -> sane r ->
  o_x t + s_x t * xmin r < INT_MAX -> o_y t + s_y t * ymin r < INT_MAX ->
  let p := tr_pt t (x, y) in (inside (tr_rect t r) (fst p) (snd p) <-> inside r x y) /\ sane (tr_rect t r).
Proof.
  intros hx hy h b1 b2 p. unfold tr_rect, tr_pt, Rect, fix_ in *. subst p. cbn [fst snd xmin ymin xmax ymax] in *.
  replace ((o_x t + s_x t * xmin r =? INT_MAX) || (o_y t + s_y t * ymin r =? INT_MAX)) with false by lia.
  unf. destruct hx as [-> | ->], hy as [-> | ->];
  match goal with |- context [if ?c then Rc _ _ _ _ else Rc _ _ _ _] => destruct c eqn:e1 end; cbn [xmin ymin xmax ymax];
  match goal with |- context [if ?c then Rc _ _ _ _ else Rc _ _ _ _] => destruct c eqn:e2 end; cbn [xmin ymin xmax ymax]; lia.
Qed.
Print Assumptions C106_transform.
(** Snapping gives the smallest rectangle on the grid around one with no negative coordinates. *)
Definition on_grid (px py : Z) (r : rect) : Prop := (px | xmin r) /\ (px | xmax r) /\ (py | ymin r) /\ (py | ymax r).
Lemma snap1_ok p x : 0 < p -> 0 <= x -> (p | snap1 true p x) /\ (p | snap1 false p x) /\ snap1 true p x <= x <= snap1 false p x /\ x - p < snap1 true p x /\ snap1 false p x < x + p.
Proof.
  intros hp hx. unfold snap1. replace (p =? 0) with false by lia. pose proof (Z.quot_rem x p ltac:(lia)) as q. pose proof (Z.rem_bound_pos x p hx hp) as b.
  destruct (Z.rem x p =? 0) eqn:e; (split; [|split]); try lia.
  - exists (Z.quot x p). lia.
  - exists (Z.quot x p). lia.
  - exists (Z.quot x p). lia.
  - exists (Z.quot x p + 1). lia.
Qed.
Lemma multiple p a b : 0 < p -> (p | a) -> (p | b) -> a < b + p -> a <= b.
Proof. intros hp [u ->] [v ->] h. assert (u < v + 1) by nia. nia. Qed.
Theorem C106_snap px py r : 0 < px -> 0 < py -> sane r -> 0 <= xmin r -> 0 <= ymin r -> on_grid px py (snap px py r) /\ smallest (fun b => within r b /\ (on_grid px py b)) (snap px py r).
Proof.
  intros hx hy h x0 y0. destruct (snap1_ok px (xmin r) hx x0) as (a1 & _ & a3 & a4 & _). destruct (snap1_ok px (xmax r) hx ltac:(unf; lia)) as (_ & b2 & b3 & _ & b5).
  destruct (snap1_ok py (ymin r) hy y0) as (c1 & _ & c3 & c4 & _). destruct (snap1_ok py (ymax r) hy ltac:(unf; lia)) as (_ & d2 & d3 & _ & d5).
  assert (G : on_grid px py (snap px py r)) by (unfold on_grid, snap; cbn [xmin ymin xmax ymax]; tauto). split; [exact G|]. unfold smallest. split.
  - split; [|exact G]. unfold snap. unf. cbn [xmin ymin xmax ymax]. intros; lia.
  - intros b [W (g1 & g2 & g3 & g4)]. assert (p1 := W (xmin r) (ymin r) ltac:(unf; lia)). assert (p2 := W (xmax r) (ymax r) ltac:(unf; lia)). unfold snap. unf. cbn [xmin ymin xmax ymax]. intros x y q.
    assert (xmin b <= snap1 true px (xmin r)) by (apply (multiple px); [exact hx|exact g1|exact a1|lia]). assert (snap1 false px (xmax r) <= xmax b) by (apply (multiple px); [exact hx|exact b2|exact g2|lia]).
    assert (ymin b <= snap1 true py (ymin r)) by (apply (multiple py); [exact hy|exact g3|exact c1|lia]). assert (snap1 false py (ymax r) <= ymax b) by (apply (multiple py); [exact hy|exact d2|exact g4|lia]). lia.
Qed.
Print Assumptions C106_snap.
(** Finding: with negative coordinates a snapped rectangle may lose a part, and grows by too much at the other side. *)
Theorem C106_snap_refuted : exists r, sane r /\ ~ within r (snap 10 10 r) /\ xmax r + 10 <= xmax (snap 10 10 r).
Proof. exists (Rc (-15) 0 (-5) 10). change (snap 10 10 (Rc (-15) 0 (-5) 10)) with (Rc (-10) 0 10 10). unf. cbn [xmin ymin xmax ymax]. split; [lia|]. split; [intros H; specialize (H (-15) 0 ltac:(lia)); lia|lia]. Qed.
Print Assumptions C106_snap_refuted.

(** ** Merging layers *)
Lemma absorb_ok s ts : sane s -> Forall sane ts -> Forall sane (fst (absorb s ts)) /\ length (fst (absorb s ts)) = length ts /\
  (snd (absorb s ts) = true -> (forall x y, covered (fst (absorb s ts)) x y <-> covered ts x y \/ inside s x y) /\ (forall x y, filled (fst (absorb s ts)) x y <-> filled ts x y \/ square s x y)) /\
  (snd (absorb s ts) = false -> fst (absorb s ts) = ts).
Proof.
  intros hs F. induction ts as [|t r IH]; [cbn; repeat split; auto; discriminate|]. inversion F as [|? ? ht Fr]; subst. destruct (IH Fr) as (i1 & i2 & i3 & i4). clear IH. cbn [absorb].
  assert (cc : forall a b l l' : list rect, True) by auto. clear cc.
  assert (C : forall a l x y, covered (a :: l) x y <-> inside a x y \/ covered l x y).
  { intros a l x y. unfold covered. split; [intros (q & [<-|I] & h); [left; exact h|right; exists q; tauto]|intros [h|(q & I & h)]; [exists a; split; [left; reflexivity|exact h]|exists q; split; [right; exact I|exact h]]]. }
  assert (D : forall a l x y, filled (a :: l) x y <-> square a x y \/ filled l x y).
  { intros a l x y. unfold filled. split; [intros (q & [<-|I] & h); [left; exact h|right; exists q; tauto]|intros [h|(q & I & h)]; [exists a; split; [left; reflexivity|exact h]|exists q; split; [right; exact I|exact h]]]. }
  destruct (contains t s) eqn:e1; [|destruct (contains s t) eqn:e2; [|destruct (overlaps false t s && (xmin t =? xmin s) && (xmax t =? xmax s)) eqn:e3; [|destruct (overlaps false t s && (ymin t =? ymin s) && (ymax t =? ymax s)) eqn:e4]]]; cbn [fst snd length].
  - split; [constructor; assumption|]. split; [lia|]. split; [intros _|discriminate].
    assert (w : forall x y, inside s x y -> inside t x y) by (intros x y q; unf; lia). assert (w' : forall x y, square s x y -> square t x y) by (intros x y q; unf; lia).
    destruct (snd (absorb s r)) eqn:p.
    + destruct (i3 eq_refl) as [j1 j2]. split; intros x y; [rewrite !C, j1; specialize (w x y)|rewrite !D, j2; specialize (w' x y)]; tauto.
    + rewrite (i4 eq_refl). split; intros x y; [rewrite !C; specialize (w x y)|rewrite !D; specialize (w' x y)]; tauto.
  - split; [constructor; assumption|]. split; [lia|]. split; [intros _|discriminate].
    split; intros x y; [rewrite !C; assert (w : inside t x y -> inside s x y) by (unf; lia)|rewrite !D; assert (w : square t x y -> square s x y) by (unf; lia)]; tauto.
  - split; [constructor; [unf; cbn; lia|assumption]|]. split; [lia|]. split; [intros _|discriminate].
    split; intros x y; [rewrite !C; match goal with |- inside ?a x y \/ _ <-> _ => assert (w : inside a x y <-> inside t x y \/ inside s x y) by (unf; cbn [xmin ymin xmax ymax]; lia) end|rewrite !D; match goal with |- square ?a x y \/ _ <-> _ => assert (w : square a x y <-> square t x y \/ square s x y) by (unf; cbn [xmin ymin xmax ymax]; lia) end]; tauto.
  - split; [constructor; [unf; cbn; lia|assumption]|]. split; [lia|]. split; [intros _|discriminate].
    split; intros x y; [rewrite !C; match goal with |- inside ?a x y \/ _ <-> _ => assert (w : inside a x y <-> inside t x y \/ inside s x y) by (unf; cbn [xmin ymin xmax ymax]; lia) end|rewrite !D; match goal with |- square ?a x y \/ _ <-> _ => assert (w : square a x y <-> square t x y \/ square s x y) by (unf; cbn [xmin ymin xmax ymax]; lia) end]; tauto.
  - split; [constructor; assumption|]. split; [lia|]. split.
    + intros p. destruct (i3 p) as [j1 j2]. split; intros x y; [rewrite !C, j1|rewrite !D, j2]; tauto.
    + intros p. rewrite (i4 p). reflexivity.
Qed.
Lemma app_covered l l' x y : covered (l ++ l') x y <-> covered l x y \/ covered l' x y.
Proof. unfold covered. split; [intros (r & I & h); apply in_app_or in I; destruct I; [left|right]; exists r; tauto|intros [(r & I & h)|(r & I & h)]; exists r; rewrite in_app_iff; tauto]. Qed.
Lemma app_filled l l' x y : filled (l ++ l') x y <-> filled l x y \/ filled l' x y.
Proof. unfold filled. split; [intros (r & I & h); apply in_app_or in I; destruct I; [left|right]; exists r; tauto|intros [(r & I & h)|(r & I & h)]; exists r; rewrite in_app_iff; tauto]. Qed.
Lemma one_covered s x y : covered [s] x y <-> inside s x y.
Proof. unfold covered. split; [intros (r & [<-|[]] & h); exact h|intros h; exists s; split; [left; reflexivity|exact h]]. Qed.
Lemma one_filled s x y : filled [s] x y <-> square s x y.
Proof. unfold filled. split; [intros (r & [<-|[]] & h); exact h|intros h; exists s; split; [left; reflexivity|exact h]]. Qed.
Lemma add_ok ss : forall ts, Forall sane ss -> Forall sane ts -> let r := fold_left add ss ts in Forall sane r /\ (length r <= length ts + length ss)%nat /\
  forall x y, (covered r x y <-> covered (ts ++ ss) x y) /\ (filled r x y <-> filled (ts ++ ss) x y).
Proof.
  induction ss as [|s ss IH]; intros ts Fs Ft; [cbn; rewrite app_nil_r; repeat split; auto; lia|]. inversion Fs as [|? ? hs Fss]; subst. cbn [fold_left]. destruct (absorb_ok s ts hs Ft) as (a1 & a2 & a3 & a4).
  assert (A : Forall sane (add ts s) /\ (length (add ts s) <= S (length ts))%nat /\ forall x y, (covered (add ts s) x y <-> covered (ts ++ [s]) x y) /\ (filled (add ts s) x y <-> filled (ts ++ [s]) x y)).
  { unfold add. destruct (snd (absorb s ts)) eqn:p.
    - split; [exact a1|]. split; [lia|]. destruct (a3 eq_refl) as [j1 j2]. intros x y. rewrite j1, j2, app_covered, app_filled, one_covered, one_filled. tauto.
    - rewrite (a4 eq_refl). split; [apply Forall_app; split; [exact Ft|constructor; [exact hs|constructor]]|]. split; [rewrite app_length; cbn; lia|]. intros x y. tauto. }
  destruct A as (b1 & b2 & b3). destruct (IH (add ts s) Fss b1) as (c1 & c2 & c3). split; [exact c1|]. split; [cbn [length]; lia|]. intros x y. destruct (b3 x y) as [b4 b5]. destruct (c3 x y) as [c4 c5].
  rewrite c4, c5. replace (ts ++ s :: ss) with ((ts ++ [s]) ++ ss) by (rewrite <- app_assoc; reflexivity). rewrite !(app_covered _ ss), !(app_filled _ ss). tauto.
Qed.
(** The merged layer covers just what the two cover. *)
Theorem C106_merge l1 l2 b k : Forall (fun p => Forall sane (snd p)) l2 -> Forall sane (on l1 k) ->
  let r := on (fst (MergeLayerRects l1 l2 b)) k in Forall sane r /\ (length r <= length (on l1 k) + length (given l2 k))%nat /\
  forall x y, (covered r x y <-> covered (on l1 k) x y \/ covered (given l2 k) x y) /\ (filled r x y <-> filled (on l1 k) x y \/ filled (given l2 k) x y).
Proof.
  cbn [fst MergeLayerRects]. revert l1. induction l2 as [|[k' ss] l2 IH]; intros l1 F2 F1.
  - cbn. split; [exact F1|]. split; [lia|]. intros x y. assert (n : ~ covered [] x y) by (intros (q & [] & _)). assert (n' : ~ filled [] x y) by (intros (q & [] & _)). tauto.
  - inversion F2 as [|? ? Fs F2']; subst. cbn [snd] in Fs. cbn [fold_left].
    assert (A : Forall sane (on (merge_layer l1 (k', ss)) k) /\ (length (on (merge_layer l1 (k', ss)) k) <= length (on l1 k) + length (if (k' =? k)%Z then ss else []))%nat /\
      forall x y, (covered (on (merge_layer l1 (k', ss)) k) x y <-> covered (on l1 k) x y \/ covered (if k' =? k then ss else []) x y) /\ (filled (on (merge_layer l1 (k', ss)) k) x y <-> filled (on l1 k) x y \/ filled (if k' =? k then ss else []) x y)).
    { unfold merge_layer, on in *. cbn [fst snd]. rewrite (Z.eqb_sym k' k). destruct (k =? k').
      - destruct (l1 k) as [ts|].
        + destruct (add_ok ss ts Fs F1) as (c1 & c2 & c3). split; [exact c1|]. split; [lia|]. intros x y. destruct (c3 x y) as [c4 c5]. rewrite c4, c5, app_covered, app_filled. tauto.
        + split; [exact Fs|]. split; [cbn; lia|]. intros x y. assert (n : ~ covered [] x y) by (intros (q & [] & _)). assert (n' : ~ filled [] x y) by (intros (q & [] & _)). tauto.
      - split; [exact F1|]. split; [cbn; lia|]. intros x y. assert (n : ~ covered [] x y) by (intros (q & [] & _)). assert (n' : ~ filled [] x y) by (intros (q & [] & _)). tauto. }
    destruct A as (a1 & a2 & a3). destruct (IH _ F2' a1) as (c1 & c2 & c3). split; [exact c1|]. cbn [given flat_map fst snd]. fold (given l2 k). rewrite app_length. split; [lia|].
    intros x y. destruct (a3 x y) as [a4 a5]. destruct (c3 x y) as [c4 c5]. rewrite c4, c5, a4, a5, app_covered, app_filled. tauto.
Qed.
Print Assumptions C106_merge.
Lemma merge_all rs : forall b, sane b -> Forall sane rs -> sane (fold_left merge rs b) /\ smallest (fun c => within b c /\ forall r, In r rs -> within r c) (fold_left merge rs b).
Proof.
  induction rs as [|r rs IH]; intros b hb F.
  - cbn. split; [exact hb|]. split; [split; [intros x y h; exact h|intros r []]|]. intros c [h _]. exact h.
  - inversion F as [|? ? hr Fr]; subst. cbn [fold_left]. destruct (proj1 (C106_box b r hb hr)) as [[m1 m2] m3]. assert (hm : sane (merge b r)) by (unfold merge; unf; cbn; lia).
    destruct (IH _ hm Fr) as [s1 [[s2 s3] s4]]. split; [exact s1|]. split.
    + split; [intros x y h; apply s2, m1, h|]. intros q [<-|I]; [intros x y h; apply s2, m2, h|exact (s3 q I)].
    + intros c [w1 w2]. apply s4. split; [|intros q I; apply w2; right; exact I]. apply m3. split; [exact w1|apply w2; left; reflexivity].
Qed.
(** The box grows to the smallest that contains what is merged in. *)
Theorem C106_boxes l1 l2 b : sane b -> Forall (fun p => Forall sane (snd p)) l2 ->
  smallest (fun c => within b c /\ forall r, In r (flat_map snd l2) -> within r c) (snd (MergeLayerRects l1 l2 b)).
Proof.
  intros hb F. cbn [snd MergeLayerRects]. assert (e : fold_left (fun b l => fold_left merge (snd l) b) l2 b = fold_left merge (flat_map snd l2) b).
  { clear. revert b. induction l2 as [|p l2 IH]; intros b; [reflexivity|]. cbn [fold_left flat_map]. rewrite fold_left_app. apply IH. }
  rewrite e. apply merge_all; [exact hb|]. apply Forall_forall. intros r I. apply in_flat_map in I. destruct I as (p & I & h). rewrite Forall_forall in F. specialize (F p I). rewrite Forall_forall in F. exact (F r h).
Qed.
Print Assumptions C106_boxes.
(** Finding: rectangles may stay in the list which another one contains. *)
Theorem C106_redundant_refuted : exists l1 l2 a b, let rs := on (fst (MergeLayerRects l1 l2 none)) 1 in
  (forall u v i j, nth_error (on l1 1) i = Some u -> nth_error (on l1 1) j = Some v -> i <> j -> ~ within u v) /\ nth_error rs 0 = Some a /\ nth_error rs 1 = Some b /\ within b a.
Proof.
  exists (fun k => if k =? 1 then Some [Rc 0 0 1 1; Rc 2 2 3 3] else None), [(1, [Rc 0 0 5 5])], (Rc 0 0 5 5), (Rc 2 2 3 3). intros rs. split; [|split; [reflexivity|split; [reflexivity|]]].
  - intros u v i j hu hv n W. cbn in hu, hv. destruct i as [|[|[|i]]], j as [|[|[|j]]]; try discriminate; try congruence; cbn in hu, hv; injection hu as <-; injection hv as <-;
    [specialize (W 0 0 ltac:(unfold inside; cbn; lia))|specialize (W 2 2 ltac:(unfold inside; cbn; lia))]; unfold inside in W; cbn in W; lia.
  - unf. cbn [xmin ymin xmax ymax]. intros; lia.
Qed.
Print Assumptions C106_redundant_refuted.

Example C106_nonvacuous : let r := on (fst (MergeLayerRects (fun k => if k =? 1 then Some [Rc 0 0 4 1] else None) [(1, [Rc 4 0 6 1; Rc 0 0 1 9]); (2, [Rc 3 3 4 4])] none)) 1 in
  Forall sane [Rc 0 0 4 1; Rc 4 0 6 1; Rc 0 0 1 9] /\ r = [Rc 0 0 6 1; Rc 0 0 1 9] /\ Dist (Rc 0 0 1 1) (Rc 3 5 4 6) = 6 /\ snap 10 5 (Rc 3 3 12 12) = Rc 0 0 20 15 /\ tr_rect (T 10 0 (-1) 1) (Rc 1 2 3 4) = Rc 7 2 9 4.
Proof. cbn zeta. split; [repeat constructor; unfold sane; cbn; lia|]. vm_compute. auto. Qed.
