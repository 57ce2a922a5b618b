(** Rectangles, extension and vias of lines. *)
From Coq Require Import ZArith ZifyBool.
From Verif Require Import Base.Prelude Model.AStar Model.DetailGrid Model.WireDraw Spec.AStarSpec Spec.DetailGridSpec Spec.WireDrawSpec.
Local Open Scope Z_scope.

Lemma wire_drawn R l : level R l -> ~ is_point l -> drawn R l (wire_rect R l).
Proof.
  unfold level, is_point, drawn, wire_rect, across, along. intros L N. cbv zeta.
  destruct (l_y0 l =? l_y1 l) eqn:E; [destruct (l_x0 l <? l_x1 l) eqn:E2|destruct (l_y0 l <? l_y1 l) eqn:E2]; cbn [s_metal s_x0 s_y0 s_x1 s_y1]; destruct (r_vert R (l_metal l)); lia.
Qed.
Lemma metal_drawn R l : level R l -> drawn R l (metal_rect R l).
Proof.
  unfold level, drawn, metal_rect, across, along. intros L. cbv zeta.
  destruct (r_vert R (l_metal l)) eqn:V; [destruct (l_y0 l <=? l_y1 l) eqn:E|destruct (l_x0 l <=? l_x1 l) eqn:E]; cbn [s_metal s_x0 s_y0 s_x1 s_y1]; lia.
Qed.
Lemma extend_longer R l z : level R l -> exists p q, longer R p q l (extend_line R l z) /\ 0 <= p /\ 0 <= q /\
  let d := r_minL R (l_metal l) - line_len l in
  (d <= 0 \/ ~ 1 <= z <= 3 -> p = 0 /\ q = 0) /\ (0 < d -> (z = 1 -> p = q /\ 2 * p <= d <= 2 * p + 1) /\ (z = 2 -> p = 0 /\ q = d) /\ (z = 3 -> p = d /\ q = 0)).
Proof.
  intros L. unfold extend_line. set (d := r_minL R (l_metal l) - line_len l). clearbody d. cbv zeta.
  assert (forall p q, 0 <= p -> 0 <= q -> longer R p q l (if r_vert R (l_metal l) then extend_y p q l else extend_x p q l)) as K.
  { intros p q Hp Hq. unfold longer, level, across, along, extend_x, extend_y in *. destruct (r_vert R (l_metal l)) eqn:V; [destruct (l_y0 l <? l_y1 l) eqn:E|destruct (l_x0 l <? l_x1 l) eqn:E]; cbn [l_metal l_x0 l_y0 l_x1 l_y1]; rewrite V; repeat split; lia. }
  assert (longer R 0 0 l l) as K0 by (unfold longer, level in *; repeat split; try assumption; lia).
  destruct (d <=? 0) eqn:Ed; [exists 0, 0; split; [exact K0|]; repeat split; lia|].
  assert (2 * Z.quot d 2 <= d <= 2 * Z.quot d 2 + 1) as Q. { pose proof (Z.quot_rem' d 2). pose proof (Z.rem_bound_pos d 2). lia. }
  destruct (z =? 1) eqn:E1; [exists (Z.quot d 2), (Z.quot d 2); split; [apply K; lia|]; repeat split; lia|].
  destruct (z =? 2) eqn:E2; [exists 0, d; split; [apply K; lia|]; repeat split; lia|].
  destruct (z =? 3) eqn:E3; [exists d, 0; split; [apply K; lia|]; repeat split; lia|].
  exists 0, 0. split; [exact K0|]. repeat split; lia.
Qed.

(** *** Vias *)
Lemma via_less_total a b : via_less a b = false -> via_less b a = false -> a = b.
Proof. destruct a as (m & x & y), b as (m' & x' & y'). unfold via_less. cbn [fst snd]. destruct (m =? m') eqn:E1; destruct (m' =? m) eqn:E2; try lia. destruct (x =? x') eqn:E3; destruct (x' =? x) eqn:E4; try lia. intros. repeat f_equal; lia. Qed.
Lemma via_insert_in v l w : In w (via_insert v l) <-> w = v \/ In w l.
Proof.
  induction l as [|a l IH]; cbn [via_insert]; [cbn; intuition|]. destruct (via_less v a) eqn:E1; [cbn; intuition|]. destruct (via_less a v) eqn:E2; [cbn [In]; rewrite IH; intuition|].
  pose proof (via_less_total _ _ E1 E2) as ->. cbn. intuition.
Qed.
Definition vlt (a b : via) : Prop := via_less a b = true.
Lemma vlt_trans a b c : vlt a b -> vlt b c -> vlt a c.
Proof.
  destruct a as (m & x & y), b as (m' & x' & y'), c as (m2 & x2 & y2). unfold vlt, via_less. cbn [fst snd].
  destruct (m =? m') eqn:E1; destruct (m' =? m2) eqn:E2; destruct (m =? m2) eqn:E3; try lia; destruct (x =? x') eqn:E4; destruct (x' =? x2) eqn:E5; destruct (x =? x2) eqn:E6; lia.
Qed.
Lemma via_insert_sorted v l : Sorted.StronglySorted vlt l -> Sorted.StronglySorted vlt (via_insert v l).
Proof.
  intros H. induction H as [|a l Hs IH Hf]; cbn [via_insert]; [repeat constructor|]. destruct (via_less v a) eqn:E1.
  - constructor; [now constructor|]. constructor; [exact E1|]. eapply Forall_impl; [|exact Hf]. intros b Hb. eapply vlt_trans; [exact E1|exact Hb].
  - destruct (via_less a v) eqn:E2; [|now constructor]. constructor; [exact IH|]. apply Forall_forall. intros b Hb. apply via_insert_in in Hb. destruct Hb as [->|Hb]; [exact E2|]. rewrite Forall_forall in Hf. now apply Hf.
Qed.
Lemma via_fold l : forall s, Sorted.StronglySorted vlt s -> let r := fold_left (fun s v => via_insert v s) l s in Sorted.StronglySorted vlt r /\ forall w, In w r <-> In w s \/ In w l.
Proof.
  induction l as [|v l IH]; intros s Hs; cbn [fold_left]; [split; [exact Hs|]; intros w; cbn; tauto|]. destruct (IH (via_insert v s) (via_insert_sorted v s Hs)) as [H1 H2]. split; [exact H1|]. intros w. rewrite H2, via_insert_in. cbn [In]. intuition.
Qed.
Lemma vlt_nodup l : Sorted.StronglySorted vlt l -> NoDup l.
Proof. intros H. induction H as [|a l Hs IH Hf]; constructor; [|exact IH]. intros Hi. rewrite Forall_forall in Hf. specialize (Hf a Hi). unfold vlt, via_less in Hf. destruct (fst a =? fst a) eqn:E1; [|lia]. destruct (fst (snd a) =? fst (snd a)) eqn:E2; lia. Qed.
Lemma numbered_in {A} (l : list A) : forall n i a, In (i, a) (combine (seq n (length l)) l) <-> (n <= i)%nat /\ nth_error l (i - n) = Some a.
Proof.
  induction l as [|b l IH]; intros n i a; cbn [length seq combine In]; [split; [tauto|]; intros [_ H]; destruct (i - n)%nat; discriminate|]. rewrite IH. split.
  - intros [E|[H1 H2]]; [injection E as -> ->; split; [lia|]; now rewrite Nat.sub_diag|]. split; [lia|]. replace (i - n)%nat with (S (i - S n)) by lia. exact H2.
  - intros [H1 H2]. destruct (Nat.eq_dec i n) as [->|N]; [left; rewrite Nat.sub_diag in H2; cbn in H2; congruence|]. right. split; [lia|]. replace (i - n)%nat with (S (i - S n)) in H2 by lia. exact H2.
Qed.
Lemma pair_vias_ok a b m x y : In (m, (x, y)) (pair_vias a b) <-> m = l_metal a /\ share_end a b x y.
Proof.
  unfold pair_vias, share_end. destruct (l_metal a =? l_metal b - 1) eqn:E; [|split; [intros []|intros (_ & ? & _); lia]].
  assert (forall p q : Z * Z, In (m, (x, y)) (if (fst p =? fst q) && (snd p =? snd q) then [(l_metal a, p)] else []) <-> m = l_metal a /\ (x, y) = p /\ (x, y) = q) as K.
  { intros [px py] [qx qy]. cbn [fst snd]. destruct ((px =? qx) && (py =? qy)) eqn:Eq; cbn [In].
    - split; [intros [X|[]]; injection X as <- <- <-; repeat split; f_equal; lia|]. intros (-> & X & Y). left. now rewrite X.
    - split; [intros []|]. intros (_ & X & Y). injection X as -> ->. injection Y as -> ->. lia. }
  unfold ends. cbn [flat_map]. rewrite !app_nil_r, !in_app_iff, !K. split.
  - intros [[H|H]|[H|H]]; destruct H as (-> & X & Y); injection X as -> ->; injection Y as Y1 Y2; (split; [reflexivity|]); (split; [lia|]); split; lia.
  - intros (-> & Em & [[-> ->]|[-> ->]] & [[-> ->]|[-> ->]]); tauto.
Qed.
Lemma vias_ok ls : NoDup (Obtain_vias ls) /\ forall m x y, In (m, (x, y)) (Obtain_vias ls) <-> exists a b, In a ls /\ In b ls /\ l_metal a = m /\ share_end a b x y.
Proof.
  unfold Obtain_vias. match goal with |- NoDup (fold_left _ ?L []) /\ _ => destruct (via_fold L []) as [H1 H2]; [constructor|] end. split; [now apply vlt_nodup|]. intros m x y. rewrite H2. cbn [In]. rewrite in_flat_map. split.
  - intros [[]|((h & a) & Ha & H)]. apply in_flat_map in H. destruct H as ((k & b) & Hb & H). cbn [fst snd] in H. destruct (k =? h)%nat; [destruct H|]. apply pair_vias_ok in H. destruct H as [-> H]. apply in_combine_r in Ha, Hb. exists a, b. auto.
  - intros (a & b & Ha & Hb & Em & H). right. apply In_nth_error in Ha, Hb. destruct Ha as (h & Ha), Hb as (k & Hb). exists (h, a). split; [apply numbered_in; rewrite Nat.sub_0_r; split; [lia|exact Ha]|]. apply in_flat_map. exists (k, b). split; [apply numbered_in; rewrite Nat.sub_0_r; split; [lia|exact Hb]|].
    cbn [fst snd]. destruct (k =? h)%nat eqn:E; [|apply pair_vias_ok; auto]. apply Nat.eqb_eq in E. subst k. assert (a = b) as <- by congruence. destruct H as [H _]. lia.
Qed.
