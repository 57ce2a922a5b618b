(** C101: blocking of nodes near obstacles, and the wires drawn for a path. *)
From Coq Require Import ZArith QArith ZifyBool.
From Verif Require Import Base.Prelude Model.GlobalGrid Model.AStar Model.DetailGrid Model.WireDraw Spec.AStarSpec Spec.AStarLabel Spec.DetailGridSpec Spec.WireDrawSpec Proofs.DetailGridP Proofs.DetailLinkP Proofs.DetailOneP Proofs.WirePointsP Proofs.WireDrawP Proofs.WireClearP Props.C99 Props.C100.
Local Open Scope Z_scope.

(** A node is off exactly if it was, or it is the first one at a point near an obstacle, or it is node 0 and such a point has no node. *)
Theorem C101_nodes R obs vs u w : positive R -> Forall (broad R) obs -> nth_error (Grid_Inactive_new R obs vs) u = Some w ->
  exists v, nth_error vs u = Some v /\ fixed v w /\ via_up w = via_up v /\ via_down w = via_down v /\
    (active w = false <-> active v = false \/ exists o x y, In o obs /\ touched R o x y /\ (first_sits vs u (s_metal o) x y \/ u = O /\ forall k, ~ sits vs k (s_metal o) x y)).
Proof.
  intros P B H. rewrite (proj2 (inactive_nth R P obs vs)) in H. destruct (nth_error vs u) as [v|] eqn:E; [|discriminate]. cbn in H. injection H as <-. exists v. split; [reflexivity|].
  rewrite <- (hit_ok R P vs obs u B) by (apply nth_error_Some; congruence). destruct (hit R vs obs u); (split; [repeat split|]); (split; [reflexivity|]); (split; [reflexivity|]); cbn; intuition discriminate.
Qed.
(** Each wire of a path, extended as its label tells, keeps its space to each obstacle, unless a point near the obstacle was opened again. *)
Theorem C101_clear R a obs es j s f p ls : positive R -> matches R (dr a) -> proper a -> placed a -> single (Grid a) -> Forall (broad R) obs ->
  g j = edited es (Grid_Inactive_new R obs (Grid a)) -> (forall m, horizontal (t j) m = negb (vert (dr a) m)) -> (forall m, minL (t j) m = r_minL R m) -> (forall u, In u (source j) -> (u < size j)%nat) ->
  has_vias j -> clean s -> fst (A_star f j s) = Path p ls -> (1 < length p)%nat ->
  forall i l z, nth_error (physical j p) i = Some l -> nth_error ls i = Some z -> let l' := extend_line R l z in (l' = l \/ within_line a l') -> ~ is_point l' ->
  drawn R l' (wire_rect R l') /\ forall o, In o obs -> clear R (wire_rect R l') o \/ exists x y, touched R o x y /\ opened es (s_metal o) x y.
Proof. intros. eapply line_clear; eassumption. Qed.
(** The rectangle of a line is as long as the line, with half the width on both sides. *)
Theorem C101_rect R l : level R l -> drawn R l (metal_rect R l) /\ (~ is_point l -> drawn R l (wire_rect R l)).
Proof. intros H. split; [now apply metal_drawn|]. now apply wire_drawn. Qed.
(** Extension adds to the ends which the label tells; the line gets the least length, but 1 less for an odd difference and label 1. *)
Theorem C101_extend R l z : level R l -> exists p q, longer R p q l (extend_line R l z) /\ 0 <= p /\ 0 <= q /\ let d := r_minL R (l_metal l) - WireDraw.line_len l in
  (d <= 0 \/ ~ 1 <= z <= 3 -> p = 0 /\ q = 0) /\ (0 < d -> (z = 1 -> p = q /\ 2 * p <= d <= 2 * p + 1) /\ (z = 2 -> p = 0 /\ q = d) /\ (z = 3 -> p = d /\ q = 0)).
Proof. apply extend_longer. Qed.
(** The vias are exactly the points where two lines on metals next to each other have an end, each once. *)
Theorem C101_vias ls : NoDup (Obtain_vias ls) /\ forall m x y, In (m, (x, y)) (Obtain_vias ls) <-> exists a b, In a ls /\ In b ls /\ l_metal a = m /\ share_end a b x y.
Proof. apply vias_ok. Qed.
(** So each line of a path has a via to the next one. *)
Theorem C101_joined j s f p ls : wf j -> has_vias j -> clean s -> fst (A_star f j s) = Path p ls ->
  forall l1 a b l2, physical j p = l1 ++ a :: b :: l2 -> In (Z.min (l_metal a) (l_metal b), (l_x1 a, l_y1 a)) (Obtain_vias (physical j p)) /\ l_x1 a = l_x0 b /\ l_y1 a = l_y0 b.
Proof.
  intros W HV Cl E l1 a b l2 El. destruct (C99_lines j s f p ls W HV Cl E) as (rs & _ & Ep & _ & _ & _ & Hm & _).
  assert (meet a b) as (M1 & M2 & M3).
  { rewrite Ep in El. clear - El Hm. assert (exists r1 r r' r2, rs = r1 ++ r :: r' :: r2 /\ a = line_of j r /\ b = line_of j r') as (r1 & r & r' & r2 & Er & -> & ->); [|now apply (Hm r1 r r' r2)]. clear Hm.
    revert l1 El. induction rs as [|r0 rs IH]; intros [|x l1] El; try discriminate.
    - destruct rs as [|r1 rs]; [discriminate|]. cbn in El. injection El as <- <- _. exists [], r0, r1, rs. auto.
    - cbn in El. injection El as _ El. destruct (IH l1 El) as (r1 & r & r' & r2 & -> & Ha & Hb). exists (r0 :: r1), r, r', r2. auto. }
  split; [|now split]. apply (proj2 (vias_ok (physical j p))). assert (In a (physical j p) /\ In b (physical j p)) as [Ia Ib] by (rewrite El; split; apply in_or_app; right; [now left|right; now left]).
  assert (l_metal b = l_metal a + 1 \/ l_metal a = l_metal b + 1) as [X|X] by lia.
  - exists a, b. split; [exact Ia|]. split; [exact Ib|]. split; [lia|]. split; [exact X|]. split; [now right|left; auto].
  - exists b, a. split; [exact Ib|]. split; [exact Ia|]. split; [lia|]. split; [exact X|]. split; [left; auto|now right].
Qed.

(** *** Findings. *)
Definition tile (cx cy w h : Z) (ms : list Z) : gg := Gg (fun _ => cx) (fun _ => cy) (fun _ => w) (fun _ => h) (fun _ => O) (fun _ => O) (fun _ => O) 1 0 0 (fun _ => ms).
Definition one (un : Z -> Z) (o : Z) (w h : Z) : args := Args (tile (Z.quot w 2) (Z.quot h 2) w h [0; 1; 2]) [(0, 0)]%nat (Pdk Z.even un (fun _ => o) 3) 0 0 w h 0 2.
Definition rl (un : Z -> Z) (ml : Z) : rules := Rules Z.even un un (fun _ => 2) (fun _ => 1) (fun _ => ml) 3.
Definition tech1 (ml : Z) : tech := Tech Z.odd (fun _ => 1%Q) (fun _ => Some 1%Q) (fun _ => ml) (fun _ => 0) (fun _ => 0).
Definition job_of (vs : list vertex) (ml : Z) (s e : list nat) : job := Job vs (tech1 ml) 0 0 s e [].
Definition four : Z -> Z := fun _ => 4.
Definition ten : Z -> Z := fun m => if m =? 1 then 4 else 10.
Lemma one_proper un o w h : (forall m, 0 < un m) -> (forall m, 0 <= o < un m) -> proper (one un o w h).
Proof. intros U O. constructor; cbn; intros; auto; [|lia]. rewrite Z.even_add. cbn. now destruct (Z.even m). Qed.
Lemma one_placed un o w h : placed (one un o w h).
Proof. constructor; cbn; intros; intuition lia. Qed.
Lemma one_single un o w h : proper (one un o w h) -> single (Grid (one un o w h)).
Proof.
  intros P. apply single_ok; [exact P|apply one_placed|]. intros m p p' x y Hp Hp' _ _ _. unfold tracks in Hp, Hp'. cbn [one gr tile metals layer_num seq flat_map] in Hp, Hp'. rewrite app_nil_r in Hp, Hp'.
  destruct (existsb (Z.eqb m) [0; 1; 2]); [|destruct Hp]. destruct (vert (dr (one un o w h)) m); vm_compute in Hp, Hp'; destruct Hp as [<-|[]]; destruct Hp' as [<-|[]]; reflexivity.
Qed.
Lemma rl_positive un ml : (forall m, 0 < un m) -> positive (rl un ml).
Proof. intros U. constructor; cbn; intros; auto; lia. Qed.
Lemma rl_matches un ml w h : matches (rl un ml) (dr (one un 0 w h)).
Proof. constructor; cbn; intros; auto; lia. Qed.
Lemma tech1_dir ml m : horizontal (tech1 ml) m = negb (Z.even m).
Proof. cbn. symmetry. apply Z.negb_even. Qed.
(** An obstacle far from the grid takes node 0 out. *)
Theorem C101_zero_refuted : exists R a o w, positive R /\ matches R (dr a) /\ proper a /\ placed a /\ single (Grid a) /\ broad R o /\ nth_error (Grid_Inactive_new R [o] (Grid a)) 0 = Some w /\
  active w = false /\ ~ touched R o (vx w) (vy w) /\ 100 <= s_x0 o - vx w.
Proof.
  exists (rl four 0), (one four 0 16 16), (Sink 0 100 2 104 6). eexists. split; [now apply rl_positive|]. split; [apply rl_matches|]. assert (proper (one four 0 16 16)) as Q by (apply one_proper; unfold four; lia). split; [exact Q|]. split; [apply one_placed|]. split; [now apply one_single|]. split; [discriminate|].
  split; [vm_compute; reflexivity|]. split; [reflexivity|]. split; [|cbn; lia]. intros (_ & H & _). unfold across in H. cbn in H. lia.
Qed.
(** With offsets nothing of the obstacle is blocked, and the path goes over it. *)
Theorem C101_offset_refuted : exists R a o j p ls l, positive R /\ proper a /\ placed a /\ single (Grid a) /\ broad R o /\ (forall m, r_vert R m = vert (dr a) m /\ r_unit R m = unit (dr a) m /\ r_cross R m = unit (dr a) m) /\
  g j = Grid_Inactive_new R [o] (Grid a) /\ fst (A_star 100 j blank) = Path p ls /\ In l (physical j p) /\ overlap (wire_rect R l) o.
Proof.
  exists (rl four 0), (one four 2 16 16), (Sink 0 5 3 7 9), (job_of (Grid_Inactive_new (rl four 0) [Sink 0 5 3 7 9] (Grid (one four 2 16 16))) 0 [4%nat] [7%nat]). do 3 eexists. split; [now apply rl_positive|]. assert (proper (one four 2 16 16)) as Q by (apply one_proper; unfold four; lia). split; [exact Q|]. split; [apply one_placed|]. split; [now apply one_single|]. split; [discriminate|].
  split; [intros m; repeat split|]. split; [reflexivity|]. split; [vm_compute; reflexivity|]. split; [vm_compute; left; reflexivity|]. unfold overlap. vm_compute. repeat split.
Qed.
(** A narrow obstacle between the crossings of a horizontal metal is not blocked: the end of the loop is computed from the wrong coordinate. *)
Theorem C101_thin_refuted : exists R a o j p ls l, positive R /\ matches R (dr a) /\ proper a /\ placed a /\ single (Grid a) /\
  g j = Grid_Inactive_new R [o] (Grid a) /\ fst (A_star 100 j blank) = Path p ls /\ In l (physical j p) /\ overlap (wire_rect R l) o.
Proof.
  exists (rl ten 0), (one ten 0 30 8), (Sink 1 13 3 14 5), (job_of (Grid_Inactive_new (rl ten 0) [Sink 1 13 3 14 5] (Grid (one ten 0 30 8))) 0 [16%nat] [19%nat]). do 3 eexists. split; [apply rl_positive; unfold ten; intros; destruct (_ =? _); lia|]. split; [apply rl_matches|].
  assert (proper (one ten 0 30 8)) as Q by (apply one_proper; unfold ten; intros; destruct (_ =? _); lia). split; [exact Q|]. split; [apply one_placed|]. split; [now apply one_single|]. split; [reflexivity|]. split; [vm_compute; reflexivity|]. split; [vm_compute; left; reflexivity|]. unfold overlap. vm_compute. repeat split.
Qed.
(** Of two nodes at one place only the first is blocked. *)
Theorem C101_copy_refuted : exists R a o j p ls l, positive R /\ matches R (dr a) /\ proper a /\ placed a /\ regular a /\ broad R o /\
  g j = Grid_Inactive_new R [o] (Grid a) /\ fst (A_star 100 j blank) = Path p ls /\ In l (physical j p) /\ overlap (wire_rect R l) o.
Proof.
  exists (rl (fun _ => 2) 0), (wide 0 0), (Sink 0 3 1 5 3), (job_of (Grid_Inactive_new (rl (fun _ => 2) 0) [Sink 0 3 1 5 3] (Grid (wide 0 0))) 0 [9%nat] [11%nat]). do 3 eexists. split; [apply rl_positive; lia|]. split; [constructor; cbn; intros; auto; lia|]. split; [apply wide_proper; lia|]. split; [apply wide_placed|]. split; [apply wide_regular|]. split; [discriminate|].
  split; [reflexivity|]. split; [vm_compute; reflexivity|]. split; [vm_compute; left; reflexivity|]. unfold overlap. vm_compute. repeat split.
Qed.
(** With an odd difference a line that is extended at both ends stays too short. *)
Theorem C101_odd_refuted : exists R l, level R l /\ WireDraw.line_len l < r_minL R (l_metal l) /\ WireDraw.line_len (extend_line R l 1) < r_minL R (l_metal l).
Proof. exists (rl four 5), (Line 0 4 4 4 4). vm_compute. repeat split. Qed.
(** The search looks for room on other lines: a wire is extended beyond its track, out of the chip. *)
Theorem C101_escape_refuted : exists R a j p ls l z, positive R /\ matches R (dr a) /\ proper a /\ placed a /\ single (Grid a) /\ g j = Grid a /\ (forall m, horizontal (t j) m = negb (vert (dr a) m)) /\ (forall m, minL (t j) m = r_minL R m) /\
  fst (A_star 100 j blank) = Path p ls /\ In (l, z) (combine (physical j p) ls) /\ ax0 a <= Z.min (l_x0 l) (l_x1 l) /\ s_x0 (wire_rect R (extend_line R l z)) < ax0 a.
Proof.
  exists (rl ten 6), (one ten 0 8 16), (job_of (Grid (one ten 0 8 16)) 6 [2%nat] [12%nat]). do 4 eexists. split; [apply rl_positive; unfold ten; intros; destruct (_ =? _); lia|]. split; [apply rl_matches|].
  assert (proper (one ten 0 8 16)) as Q by (apply one_proper; unfold ten; intros; destruct (_ =? _); lia). split; [exact Q|]. split; [apply one_placed|]. split; [now apply one_single|]. split; [reflexivity|]. split; [intros m; apply tech1_dir|]. split; [reflexivity|]. split; [vm_compute; reflexivity|]. split; [vm_compute; right; left; reflexivity|]. split; [cbn; lia|]. vm_compute. reflexivity.
Qed.
(** A metal that is taken out is there again from the second connection of a net on. *)
Theorem C101_refresh_refuted : exists R a j0 j1 p ls u, positive R /\ matches R (dr a) /\ proper a /\ placed a /\ single (Grid a) /\
  g j0 = round_grid R [1] (fun _ => []) (fun _ => []) (Grid a) 0 /\ g j1 = round_grid R [1] (fun _ => []) (fun _ => []) (Grid a) 1 /\ source j0 = source j1 /\ dest j0 = dest j1 /\
  fst (A_star 300 j0 blank) = NoPath /\ fst (A_star 300 j1 blank) = Path p ls /\ In u p /\ metal (at_ j1 u) = 1.
Proof.
  exists (rl four 0), (one four 0 16 16), (job_of (round_grid (rl four 0) [1] (fun _ => []) (fun _ => []) (Grid (one four 0 16 16)) 0) 0 [10%nat] [64%nat]), (job_of (round_grid (rl four 0) [1] (fun _ => []) (fun _ => []) (Grid (one four 0 16 16)) 1) 0 [10%nat] [64%nat]). do 2 eexists. exists 27%nat.
  split; [now apply rl_positive|]. split; [apply rl_matches|]. assert (proper (one four 0 16 16)) as Q by (apply one_proper; unfold four; lia). split; [exact Q|]. split; [apply one_placed|]. split; [now apply one_single|]. split; [reflexivity|]. split; [reflexivity|]. split; [reflexivity|]. split; [reflexivity|]. split; [vm_compute; reflexivity|]. split; [vm_compute; reflexivity|]. split; [vm_compute; tauto|]. vm_compute. reflexivity.
Qed.

Example C101_nonvacuous : exists R a o j p ls l z, positive R /\ matches R (dr a) /\ proper a /\ placed a /\ single (Grid a) /\ broad R o /\ g j = edited [] (Grid_Inactive_new R [o] (Grid a)) /\
  (forall m, horizontal (t j) m = negb (vert (dr a) m)) /\ (forall m, minL (t j) m = r_minL R m) /\ (forall u, In u (source j) -> (u < size j)%nat) /\ has_vias j /\ clean blank /\
  fst (A_star 300 j blank) = Path p ls /\ p = [10; 27; 60; 61; 62; 63; 64; 47; 14]%nat /\ (exists w, nth_error (g j) 12 = Some w /\ active w = false) /\
  nth_error (physical j p) 1 = Some l /\ nth_error ls 1 = Some z /\ z = 1 /\ within_line a (extend_line R l z) /\ ~ is_point (extend_line R l z) /\ length (Obtain_vias (physical j p)) = 4%nat.
Proof.
  exists (rl four 6), (one four 0 16 16), (Sink 0 6 6 10 10), (job_of (Grid_Inactive_new (rl four 6) [Sink 0 6 6 10 10] (Grid (one four 0 16 16))) 6 [10%nat] [14%nat]). do 4 eexists. split; [now apply rl_positive|]. split; [apply rl_matches|]. assert (proper (one four 0 16 16)) as Q by (apply one_proper; unfold four; lia). split; [exact Q|]. split; [apply one_placed|]. split; [now apply one_single|]. split; [discriminate|]. split; [reflexivity|].
  split; [intros m; apply tech1_dir|]. split; [reflexivity|]. split; [intros u [<-|[]]; vm_compute; lia|]. split; [intros u _; discriminate|]. split; [apply blank_clean|]. split; [vm_compute; reflexivity|]. split; [reflexivity|]. split; [eexists; split; [vm_compute; reflexivity|reflexivity]|].
  split; [vm_compute; reflexivity|]. split; [reflexivity|]. split; [reflexivity|]. split; [|split; [|vm_compute; reflexivity]].
  - match goal with |- within_line _ ?l => let v := eval vm_compute in l in change l with v end. unfold within_line. cbn [l_metal l_x0 l_y0 l_x1 l_y1 dr one vert Z.even Z.min Z.max Z.compare Pos.compare Pos.compare_cont]. exists O, O, 0, 16.
    split; [apply (C100_tracks (one four 0 16 16) 1 0 0 (one_placed _ _ _ _)); vm_compute; now left|]. split; [reflexivity|]. split; [lia|]. split; [lia|]. split; [left; exists 0; reflexivity|]. split; [left; exists 4; reflexivity|]. split; [exists 0; reflexivity|]. split; unfold inside; vm_compute; intuition discriminate.
  - intros [X _]. vm_compute in X. discriminate.
Qed.

Print Assumptions C101_nodes.
Print Assumptions C101_clear.
Print Assumptions C101_rect.
Print Assumptions C101_extend.
Print Assumptions C101_vias.
Print Assumptions C101_joined.
Print Assumptions C101_zero_refuted.
Print Assumptions C101_offset_refuted.
Print Assumptions C101_thin_refuted.
Print Assumptions C101_copy_refuted.
Print Assumptions C101_odd_refuted.
Print Assumptions C101_escape_refuted.
Print Assumptions C101_refresh_refuted.
