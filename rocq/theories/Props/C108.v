(** The free ranges of the lines of the Hanan grid. *)
From Coq Require Import ZArith ZifyBool.
From Verif Require Import Base.Prelude Model.HananGeom Model.HananGrid.
Local Open Scope Z_scope.

Definition proper (r : range) : Prop := fst r <= snd r.
Definition on (r : range) (y : Z) : Prop := fst r <= y <= snd r.
Definition covered (s : list range) (y : Z) : Prop := exists r, In r s /\ on r y.
Definition within (a b : range) : Prop := fst b <= fst a /\ snd a <= snd b.
(** Ranges in order, and proper ones apart from each other. *)
Definition order (a b : range) : Prop := before a b = true /\ (proper a -> proper b -> snd a < fst b).
Definition apart (s : list range) : Prop := StronglySorted order s.
(** What clipping to the box leaves: proper ranges in it, and inverted ones below and above it. *)
Definition clipped (lo hi : Z) (r : range) : Prop := (lo - 1 <= fst r /\ fst r <= snd r /\ snd r <= hi) \/ (fst r = lo - 1 /\ snd r < lo - 1) \/ (hi < fst r /\ snd r = hi).

Lemma before_t a b : before a b = true -> fst a < fst b \/ (fst a = fst b /\ snd a < snd b).
Proof. unfold before. destruct (Z.eqb_spec (fst a) (fst b)); lia. Qed.
Lemma before_f a b : before a b = false -> fst b < fst a \/ (fst a = fst b /\ snd b <= snd a).
Proof. unfold before. destruct (Z.eqb_spec (fst a) (fst b)); lia. Qed.
Lemma before_i a b : fst a < fst b \/ (fst a = fst b /\ snd a < snd b) -> before a b = true.
Proof. unfold before. destruct (Z.eqb_spec (fst a) (fst b)); lia. Qed.
Ltac bf := repeat match goal with H : before _ _ = true |- _ => apply before_t in H | H : before _ _ = false |- _ => apply before_f in H end.
Lemma set_insert_in r s x : In x (set_insert r s) <-> x = r \/ In x s.
Proof.
  induction s as [|y s IH]; cbn; [intuition|]. destruct (before r y) eqn:a; [cbn; intuition|]. destruct (before y r) eqn:b; [cbn; rewrite IH; intuition|].
  assert (r = y) by (bf; destruct r, y; cbn [fst snd] in *; f_equal; lia). subst. cbn. intuition.
Qed.
Lemma set_insert_sorted r s : apart s -> (forall x, In x s -> proper x -> proper r -> snd x < fst r \/ snd r < fst x) -> apart (set_insert r s).
Proof.
  unfold apart. induction 1 as [|y s hs IH hy]; intros hd; cbn; [repeat constructor|]. destruct (before r y) eqn:a.
  - constructor; [constructor; assumption|]. rewrite Forall_forall in *. intros z hz. assert (bz : before r z = true).
    { destruct hz as [<-|hz]; [exact a|]. destruct (hy z hz) as [q _]. apply before_i. bf. lia. }
    split; [exact bz|]. intros p1 p2. destruct (hd z hz p2 p1) as [q|q]; [|exact q]. exfalso. bf. unfold proper in *. lia.
  - destruct (before y r) eqn:b; [|constructor; assumption]. constructor; [apply IH; intros; apply hd; [right; assumption|assumption|assumption]|]. rewrite Forall_forall in *. intros z hz. apply set_insert_in in hz.
    destruct hz as [->|hz]; [|auto]. split; [exact b|]. intros p1 p2. destruct (hd y (or_introl eq_refl) p1 p2) as [q|q]; [exact q|]. exfalso. bf. unfold proper in *. lia.
Qed.

(** The loop of insertRange. *)
Lemma scan_ok lo hi : lo <= hi -> forall s rc, apart s -> (forall x, In x s -> clipped lo hi x) -> clipped lo hi rc ->
  let k := scan s rc in
  clipped lo hi (snd k) /\ within rc (snd k) /\ (forall x, In x (fst k) -> In x s) /\ apart (fst k) /\
  (forall x, In x (fst k) -> proper x -> proper (snd k) -> snd x < fst (snd k) \/ snd (snd k) < fst x) /\
  (forall x, In x s -> In x (fst k) \/ within x (snd k)) /\
  (forall y, on (snd k) y -> on rc y \/ covered s y).
Proof.
  intros hb. induction s as [|it s IH]; intros rc ha hs hr; cbn [scan]; cbv zeta.
  - cbn [fst snd]. repeat split; auto; try lia; try (intros ? []).
  - apply StronglySorted_inv in ha. destruct ha as [ha hf]. rewrite Forall_forall in hf. assert (hi1 := hs it (or_introl eq_refl)). assert (hs' : forall x, In x s -> clipped lo hi x) by (intros; apply hs; right; assumption).
    destruct (Z.ltb_spec (snd rc) (fst it)) as [l|l].
    + cbn [fst snd]. split; [exact hr|]. split; [unfold within; lia|]. split; [auto|]. split; [constructor; [exact ha|apply Forall_forall; exact hf]|]. split; [|split; auto].
      intros x [<-|hx] _ _; [right; exact l|]. right. destruct (hf x hx) as [q _]. bf. lia.
    + destruct ((fst it <=? snd rc) && (fst rc <=? snd it)) eqn:o.
      * set (rc' := (Z.min (fst it) (fst rc), Z.max (snd it) (snd rc))).
        assert (pp : proper it /\ proper rc) by (unfold clipped, proper in *; lia).
        assert (hr' : clipped lo hi rc') by (unfold clipped, proper, rc' in *; cbn [fst snd]; lia).
        destruct (IH rc' ha hs' hr') as (k1 & k2 & k3 & k4 & k5 & k6 & k7). cbv zeta in *. split; [exact k1|]. split; [unfold within, rc' in *; cbn [fst snd] in *; lia|].
        split; [intros; right; auto|]. split; [exact k4|]. split; [exact k5|]. split.
        -- intros x [<-|hx]; [right; unfold within, rc' in *; cbn [fst snd] in *; lia|auto].
        -- intros y hy. destruct (k7 y hy) as [q|(x & x1 & x2)]; [|right; exists x; split; [right; exact x1|exact x2]].
           unfold on, rc' in q. cbn [fst snd] in q. destruct (Z_le_gt_dec (fst rc) y); [destruct (Z_le_gt_dec y (snd rc)); [left; unfold on; lia|]|]; right; exists it; (split; [left; reflexivity|]); unfold on; unfold proper in pp; lia.
      * destruct (IH rc ha hs' hr) as (k1 & k2 & k3 & k4 & k5 & k6 & k7). cbv zeta in *. cbn [fst snd]. split; [exact k1|]. split; [exact k2|]. split; [intros x [<-|hx]; [left; reflexivity|right; auto]|].
        split; [constructor; [exact k4|apply Forall_forall; auto]|]. split.
        -- intros x [<-|hx] px pk; [|auto]. (* the range grown later starts at rc or at a later range *)
           left. assert (nr : snd it < fst rc) by lia.
           destruct (Z_lt_le_dec (snd it) (fst (snd (scan s rc)))) as [q|q]; [exact q|exfalso].
           destruct (k7 (Z.max (fst (snd (scan s rc))) (fst it))) as [z|(z & z1 & z2)]; [unfold on, proper, within in *; lia|unfold on, proper, within in *; lia|].
           destruct (hf z z1) as [_ z3]. unfold on, proper in *. specialize (z3 px ltac:(lia)). lia.
        -- split; [intros x [<-|hx]; [left; left; reflexivity|destruct (k6 x hx); [left; right; assumption|right; assumption]]|].
           intros y hy. destruct (k7 y hy) as [q|(x & x1 & x2)]; [left; exact q|right; exists x; split; [right; exact x1|exact x2]].
Qed.
(** insertRange keeps the ranges of the set apart, adds the range and covers nothing else. *)
Theorem C108_insert lo hi s r : lo <= hi -> apart s -> (forall x, In x s -> clipped lo hi x) -> clipped lo hi r ->
  apart (insertRange s r) /\ (forall x, In x (insertRange s r) -> clipped lo hi x) /\ (forall y, covered (insertRange s r) y <-> on r y \/ covered s y) /\
  (forall x, x = r \/ In x s -> exists x', In x' (insertRange s r) /\ within x x').
Proof.
  intros hb ha hs hr. destruct (scan_ok lo hi hb s r ha hs hr) as (k1 & k2 & k3 & k4 & k5 & k6 & k7). cbv zeta in *. unfold insertRange. cbv zeta.
  assert (W : forall x, x = r \/ In x s -> exists x', In x' (set_insert (snd (scan s r)) (fst (scan s r))) /\ within x x').
  { intros x [->|hx]; [exists (snd (scan s r)); split; [apply set_insert_in; auto|exact k2]|]. destruct (k6 x hx) as [q|q]; [exists x; split; [apply set_insert_in; auto|unfold within; lia]|exists (snd (scan s r)); split; [apply set_insert_in; auto|exact q]]. }
  split; [apply set_insert_sorted; assumption|]. split; [intros x hx; apply set_insert_in in hx; destruct hx as [->|hx]; auto|]. split; [|exact W].
  intros y. split.
  - intros (x & h1 & h2). apply set_insert_in in h1. destruct h1 as [->|h1]; [auto|right; exists x; auto].
  - intros [h|(x & h1 & h2)]; [destruct (W r (or_introl eq_refl)) as (x' & q1 & q2)|destruct (W x (or_intror h1)) as (x' & q1 & q2)]; exists x'; (split; [exact q1|]); unfold on, within in *; lia.
Qed.
Print Assumptions C108_insert.

Lemma invert_in s g : forall o, In g (fold_left (fun o g => set_insert g o) s o) <-> In g s \/ In g o.
Proof. induction s as [|x s IH]; intros o; cbn [fold_left]; [cbn; intuition|]. rewrite IH, set_insert_in. cbn. intuition. Qed.
Lemma gaps_from hi y : forall s start g, y < start -> (forall x, In x s -> y < snd x) -> In g (gaps start hi s) -> y < fst g.
Proof.
  induction s as [|r s IH]; intros start g h hs hg; cbn [gaps] in hg; [destruct hg as [<-|[]]; exact h|]. apply in_app_or in hg. destruct hg as [hg|hg].
  - destruct (start <=? fst r); [destruct hg as [<-|[]]; exact h|destruct hg].
  - eapply IH; [|intros; apply hs; right; assumption|exact hg]. apply hs. left. reflexivity.
Qed.
Lemma gaps_sound lo hi y : lo <= y < hi -> forall s start g p, apart s -> (forall x, In x s -> clipped lo hi x) -> In g (gaps start hi s) -> on g y -> In p s -> fst p < y < snd p -> False.
Proof.
  intros hy. induction s as [|r s IH]; intros start g p ha hs hg og hp ip; [destruct hp|]. apply StronglySorted_inv in ha. destruct ha as [ha hf]. rewrite Forall_forall in hf.
  cbn [gaps] in hg. apply in_app_or in hg. destruct hg as [hg|hg].
  - destruct (start <=? fst r); [|destruct hg]. destruct hg as [<-|[]]. unfold on in og. cbn [fst snd] in og. destruct hp as [<-|hp]; [lia|]. destruct (hf p hp) as [q _]. bf. lia.
  - destruct hp as [<-|hp]; [|eapply (IH (snd r)); eauto; intros; apply hs; right; assumption].
    assert (y < fst g); [|unfold on in og; lia]. eapply gaps_from; [|intros x hx|exact hg]; [lia|]. destruct (hf x hx) as [q1 q2]. pose proof (hs x (or_intror hx)) as cx. pose proof (hs r (or_introl eq_refl)) as cr.
    bf. unfold clipped, proper in *. lia.
Qed.
Lemma gaps_complete lo hi y : lo <= y <= hi -> forall s start, start <= y -> (forall x, In x s -> clipped lo hi x) -> ~ covered s y -> exists g, In g (gaps start hi s) /\ on g y.
Proof.
  intros hy. induction s as [|r s IH]; intros start h hs nc; cbn [gaps]; [exists (start, hi); split; [left; reflexivity|unfold on; cbn; lia]|].
  destruct (Z_le_gt_dec y (fst r)) as [l|l].
  - exists (start, fst r). replace (start <=? fst r) with true by lia. split; [left; reflexivity|unfold on; cbn; lia].
  - assert (snd r < y). { destruct (Z_lt_le_dec (snd r) y) as [q|q]; [exact q|]. exfalso. apply nc. exists r. split; [left; reflexivity|]. unfold on. lia. }
    destruct (IH (snd r)) as (g & g1 & g2); [lia|intros; apply hs; right; assumption|intros (x & x1 & x2); apply nc; exists x; split; [right; exact x1|exact x2]|].
    exists g. split; [apply in_or_app; right; exact g1|exact g2].
Qed.

Lemma clip_ok b o : fst b <= snd b -> fst o <= snd o -> clipped (fst b) (snd b) (clip b o).
Proof. unfold clipped, clip. cbn [fst snd]. lia. Qed.
Definition crosses (vert : bool) (o : rect) (v : Z) : Prop := fst (across vert o) < v < snd (across vert o).
Definition sane (r : rect) : Prop := xmin r <= xmax r /\ ymin r <= ymax r.
Lemma blocked_ok vert b v : sane b -> forall obs, (forall o, In o obs -> sane o) ->
  let s := blocked vert b obs v in apart s /\ (forall x, In x s -> clipped (fst (along vert b)) (snd (along vert b)) x) /\
  (forall o, In o obs -> crosses vert o v -> exists x, In x s /\ within (clip (along vert b) (along vert o)) x) /\
  (forall y, covered s y -> exists o, In o obs /\ crosses vert o v /\ on (along vert o) y).
Proof.
  intros hb obs. cbv zeta. unfold blocked.  assert (sa : forall o, sane o -> fst (along vert o) <= snd (along vert o)) by (intros o []; destruct vert; cbn; lia).
  induction obs as [|o l IH] using rev_ind; intros ho'.
  - split; [constructor|]. split; [intros ? []|]. split; [intros ? []|]. intros y (x & [] & _).
  - rewrite fold_left_app. cbn [fold_left].
    assert (io : forall o', In o' (l ++ [o]) <-> o = o' \/ In o' l) by (intros; rewrite in_app_iff; cbn; tauto). assert (hoo : sane o) by (apply ho', io; auto).
    destruct (IH ltac:(intros; apply ho', io; right; assumption)) as (i1 & i2 & i3 & i4). clear IH. match goal with |- context [insertRange ?s0 _] => set (s := s0) in * end.
    destruct ((fst (across vert o) <? v) && (v <? snd (across vert o))) eqn:c.
    + destruct (C108_insert (fst (along vert b)) (snd (along vert b)) s (clip (along vert b) (along vert o))) as (j1 & j2 & j3 & j4); auto; [apply clip_ok; [auto|apply sa; exact hoo]|].
      split; [exact j1|]. split; [exact j2|]. split.
      * intros o' h cr; apply io in h; destruct h as [<-|h]; [apply j4; auto|]. destruct (i3 o' h cr) as (x & x1 & x2). destruct (j4 x (or_intror x1)) as (x' & y1 & y2). exists x'. split; [exact y1|unfold within in *; lia].
      * intros y h. apply j3 in h. destruct h as [h|h]; [exists o; split; [apply io; left; reflexivity|split; [unfold crosses; lia|unfold on, clip in *; cbn [fst snd] in *; lia]]|]. destruct (i4 y h) as (o' & q1 & q2). exists o'. split; [apply io; right; exact q1|exact q2].
    + split; [exact i1|]. split; [exact i2|]. split; [intros o' h cr; apply io in h; destruct h as [<-|h]; [unfold crosses in cr; lia|auto]|]. intros y h. destruct (i4 y h) as (o' & q1 & q2). exists o'. split; [apply io; right; exact q1|exact q2].
Qed.
Definition free (vert : bool) (b : rect) (obs : list rect) (v y : Z) : Prop := exists g, In g (line vert b obs v) /\ on g y.
Lemma line_free vert b obs v y o : sane b -> (forall o, In o obs -> sane o) -> fst (along vert b) <= y < snd (along vert b) -> free vert b obs v y -> In o obs -> crosses vert o v -> ~ (fst (along vert o) < y < snd (along vert o)).
Proof.
  intros hb ho hy (g & g1 & g2) io cr ins. destruct (blocked_ok vert b v hb obs ho) as (k1 & k2 & k3 & _). cbv zeta in *. destruct (k3 o io cr) as (x & x1 & x2).
  unfold line, invertRange in g1. apply invert_in in g1. destruct g1 as [g1|[]]. eapply (gaps_sound _ _ y hy); [exact k1|exact k2|exact g1|exact g2|exact x1|]. unfold within, clip in x2. cbn [fst snd] in x2. lia.
Qed.
Lemma line_complete vert b obs v y : sane b -> (forall o, In o obs -> sane o) -> on (along vert b) y -> (forall o, In o obs -> crosses vert o v -> ~ on (along vert o) y) -> free vert b obs v y.
Proof.
  intros hb ho hy no. destruct (blocked_ok vert b v hb obs ho) as (k1 & k2 & _ & k4). cbv zeta in *.
  destruct (gaps_complete _ _ y hy (blocked vert b obs v) (fst (along vert b))) as (g & g1 & g2); [unfold on in hy; lia|exact k2|intros c; destruct (k4 y c) as (o & o1 & o2 & o3); exact (no o o1 o2 o3)|].
  exists g. split; [unfold line, invertRange; apply invert_in; left; exact g1|exact g2].
Qed.
(** A point of a line, and points inside a rectangle. *)
Definition pt (vert : bool) (v y : Z) : Z * Z := if vert then (v, y) else (y, v).
Definition interior (r : rect) (p : Z * Z) : Prop := xmin r < fst p < xmax r /\ ymin r < snd p < ymax r.
(** A point of a free range, below the upper end of the box, is not inside an obstacle. *)
Theorem C108_free (vert : bool) b obs v y o : sane b -> (forall o, In o obs -> sane o) -> (if vert then ymin b <= y < ymax b else xmin b <= y < xmax b) -> free vert b obs v y -> In o obs -> ~ interior o (pt vert v y).
Proof.
  intros hb ho hy hf io [i1 i2]. apply (line_free vert b obs v y o hb ho); [destruct vert; exact hy|exact hf|exact io| |]; unfold crosses; destruct vert; cbn in *; assumption.
Qed.
Print Assumptions C108_free.
(** A point of the box that is on no obstacle strictly crossed by the line is in a free range. *)
Theorem C108_complete (vert : bool) b obs v y : sane b -> (forall o, In o obs -> sane o) -> (if vert then ymin b <= y <= ymax b else xmin b <= y <= xmax b) ->
  (forall o, In o obs -> ~ (if vert then xmin o < v < xmax o /\ ymin o <= y <= ymax o else ymin o < v < ymax o /\ xmin o <= y <= xmax o)) -> free vert b obs v y.
Proof.
  intros hb ho hy hn. apply line_complete; [exact hb|exact ho|destruct vert; exact hy|]. intros o io cr h. apply (hn o io). unfold crosses, on in *. destruct vert; cbn in *; split; assumption.
Qed.
Print Assumptions C108_complete.
(** The lines of the grid: in the box, and at the snapped sides of obstacles or at sources and targets; each with the free ranges above, the obstacles put round the box among the obstacles. *)
Theorem C108_grid prec bloat (vert : bool) b all obs pts v rs : In (v, rs) (grid prec bloat vert b all obs pts) ->
  let B := Rc (xmin b - 2 * bloat) (ymin b - 2 * bloat) (xmax b + 2 * bloat) (ymax b + 2 * bloat) in
  (if vert then xmin B <= v <= xmax B else ymin B <= v <= ymax B) /\ rs = line vert B (obs ++ frame B) v /\
  ((exists p, In p pts /\ v = if vert then fst p else snd p) \/
   exists o, In o (all ++ frame B) /\ overlaps false o B = true /\ let s := snap prec prec o in if vert then v = xmin s \/ v = xmax s else v = ymin s \/ v = ymax s).
Proof.
  cbv zeta. replace (Rc (xmin b - 2 * bloat) (ymin b - 2 * bloat) (xmax b + 2 * bloat) (ymax b + 2 * bloat)) with (grow bloat b) by (unfold grow; f_equal; lia).
  unfold grid. cbv zeta. intros h. apply in_map_iff in h. destruct h as (v' & [= <- <-] & h). apply filter_In in h. destruct h as [h1 h2]. split; [destruct vert; cbn [across fst snd] in h2; lia|]. split; [reflexivity|].
  unfold coords in h1. apply in_app_or in h1. destruct h1 as [h1|h1].
  - right. apply in_flat_map in h1. destruct h1 as (o & o1 & o2). exists o. destruct (overlaps false o (grow bloat b)); [|destruct o2]. split; [exact o1|]. split; [reflexivity|]. cbv zeta in o2. destruct vert; cbn [across fst snd] in o2; destruct o2 as [o2|[o2|[]]]; auto.
  - left. apply in_map_iff in h1. destruct h1 as (p & p1 & p2). exists p. auto.
Qed.
Print Assumptions C108_grid.
(** At the upper end of the box a point inside an obstacle is free; at the lower end it is not. *)
Theorem C108_top_refuted : exists b o, sane b /\ sane o /\ interior o (50, ymax b) /\ free true b [o] 50 (ymax b) /\ ~ free true b [Rc (xmin o) (ymin b - 10) (xmax o) (ymin b + 10)] 50 (ymin b).
Proof.
  exists (Rc 0 0 100 100), (Rc 40 90 60 120). unfold sane, interior. cbn [xmin xmax ymin ymax fst snd]. repeat split; try lia.
  - exists (100, 100). split; [vm_compute; auto|unfold on; cbn; lia].
  - intros (g & g1 & g2). change (line true (Rc 0 0 100 100) [Rc 40 (0 - 10) 60 (0 + 10)] 50) with [(10, 100)] in g1. destruct g1 as [<-|[]]. unfold on in g2. cbn in g2. lia.
Qed.
Print Assumptions C108_top_refuted.
(** Because of the obstacles put round the box free ranges leave it, and there they run through obstacles. *)
Theorem C108_outside_refuted : exists b o y, sane b /\ sane o /\ interior o (50, y) /\ ymax b < y /\ free true b ([o] ++ frame b) 50 y.
Proof.
  exists (Rc 0 0 100 100), (Rc 40 90 60 200), 120. unfold sane, interior. cbn [xmin xmax ymin ymax fst snd]. repeat split; try lia.
  exists (100, 150). split; [vm_compute; auto|unfold on; cbn; lia].
Qed.
Print Assumptions C108_outside_refuted.

Example C108_nonvacuous : let b := Rc 0 0 100 100 in let obs := [Rc 40 10 60 30; Rc 20 25 55 50; Rc 0 70 51 80] in
  line true b obs 50 = [(0, 10); (50, 70); (80, 100)] /\ line true b (obs ++ frame b) 50 = [(-50, 10); (50, 70); (80, 150); (100, 100)] /\
  sane b /\ (forall o, In o obs -> sane o) /\ grid 5 0 true b obs obs [(50, 1)] <> [].
Proof.
  cbv zeta. split; [reflexivity|]. split; [reflexivity|]. split; [unfold sane; cbn; lia|]. split; [|vm_compute; discriminate]. intros o [<-|[<-|[<-|[]]]]; unfold sane; cbn; lia.
Qed.
