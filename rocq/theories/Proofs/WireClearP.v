(** The wires of a path keep off the obstacles. *)
From Coq Require Import ZArith QArith ZifyBool.
From Verif Require Import Base.Prelude Model.GlobalGrid Model.AStar Model.DetailGrid Model.WireDraw Spec.AStarSpec Spec.AStarLabel Spec.DetailGridSpec Spec.WireDrawSpec Proofs.DetailUseP Proofs.DetailLinkP Proofs.WirePointsP Proofs.WireDrawP Proofs.WireHoldP Props.C99 Props.C100.
Local Open Scope Z_scope.

Lemma crosses_beside R d m z : matches R d -> (crosses d m z <-> exists m', beside R m m' /\ mult (r_cross R m') z).
Proof.
  intros [_ _ Mc Mo Ml Ms]. unfold crosses, on_line, beside, mult. rewrite Ml.
  assert (forall k, (exists q, z = off d k + q * unit d k) <-> exists q, z = q * r_cross R k) as K by (intros k; rewrite Mc, Mo; reflexivity).
  destruct (m =? 0) eqn:E0; [|destruct (m =? layers d - 1) eqn:E1].
  - rewrite K. split; [intros H; exists (m + 1); split; [lia|exact H]|]. intros (m' & [B|B] & H); [lia|]. now destruct B as [-> _].
  - rewrite K. split; [intros H; exists (m - 1); split; [lia|exact H]|]. intros (m' & [B|B] & H); [|lia]. now destruct B as [-> _].
  - rewrite (K (m - 1)), (K (m + 1)). split; [intros [H|H]; [exists (m - 1)|exists (m + 1)]; (split; [lia|exact H])|]. intros (m' & [[-> _]|[-> _]] & H); auto.
Qed.
Lemma geo R d o c lo hi lo' hi' : positive R -> matches R d -> broad R o -> on_line d (s_metal o) c -> crosses d (s_metal o) lo' -> crosses d (s_metal o) hi' -> lo' <= lo -> lo <= hi -> hi <= hi' ->
  let m := s_metal o in let h := Z.quot (r_width R m) 2 in
  c <= across R m (s_x0 o) (s_y0 o) - r_unit R m + h \/ across R m (s_x1 o) (s_y1 o) + r_unit R m - h <= c \/ hi < lo_end R o \/ hi_end R o < lo \/
  exists z, lo' <= z <= hi' /\ crosses d m z /\ touched R o (at_x d m c z) (at_y d m c z).
Proof.
  intros P M Br OL C1 C2 B1 B2 B3 m h.
  destruct (Z.le_gt_cases c (across R m (s_x0 o) (s_y0 o) - r_unit R m + h)) as [G1|G1]; [now left|]. destruct (Z.le_gt_cases (across R m (s_x1 o) (s_y1 o) + r_unit R m - h) c) as [G2|G2]; [right; now left|].
  destruct (Z.lt_ge_cases hi (lo_end R o)) as [G3|G3]; [do 2 right; now left|]. destruct (Z.lt_ge_cases (hi_end R o) lo) as [G4|G4]; [do 3 right; now left|]. do 4 right.
  assert (forall z m', lo' <= z <= hi' -> beside R m m' -> mult (r_cross R m') z -> (lo_end R o <= z <= hi_end R o \/ no_place R o m' /\ z <= lo_end R o < z + r_cross R m') -> exists z, lo' <= z <= hi' /\ crosses d m z /\ touched R o (at_x d m c z) (at_y d m c z)) as K.
  { intros z m' Bz Hb Mz H. exists z. split; [exact Bz|]. split; [apply (crosses_beside R d m z M); eauto|]. unfold touched. cbv zeta. fold m.
    assert (across R m (at_x d m c z) (at_y d m c z) = c /\ along R m (at_x d m c z) (at_y d m c z) = z) as [-> ->] by (unfold across, along, at_x, at_y; rewrite (ma_vert R d M); now destruct (vert d m)).
    split; [destruct OL as (k & ->); exists k; rewrite (ma_off R d M), (ma_unit R d M); reflexivity|]. split; [fold h; lia|]. exists m'. auto. }
  apply (crosses_beside R d _ _ M) in C1, C2. destruct C1 as (m1 & S1 & M1), C2 as (m2 & S2 & M2). fold m in S1, S2. pose proof (po_cross R P m1) as U.
  destruct (Z.le_gt_cases (lo_end R o) lo') as [L|L]; [apply (K lo' m1); [lia|exact S1|exact M1|left; lia]|].
  assert (nothing (lo_end R o) (hi_end R o) (r_cross R m1) \/ ~ nothing (lo_end R o) (hi_end R o) (r_cross R m1)) as [N|N] by (rewrite (nothing_iff _ _ _ U); lia).
  - destruct (floor_spec (lo_end R o) _ U) as [F1 F2]. apply (K (floor_to (lo_end R o) (r_cross R m1)) m1); [|exact S1|exact F1|right; split; [exact N|exact F2]].
    destruct (Z.lt_ge_cases (floor_to (lo_end R o) (r_cross R m1)) lo') as [X|X]; [pose proof (mult_gap _ _ _ U F1 M1 X); lia|lia].
  - rewrite (nothing_iff _ _ _ U) in N. destruct (ceil_spec (lo_end R o) _ U) as [F1 F2]. destruct (Z.le_gt_cases (ceil_to (lo_end R o) (r_cross R m1)) hi') as [X|X].
    + apply (K (ceil_to (lo_end R o) (r_cross R m1)) m1); [lia|exact S1|exact F1|left; lia].
    + apply (K hi' m2); [lia|exact S2|exact M2|left; lia].
Qed.

Lemma opened_dec es m x y : opened es m x y \/ ~ opened es m x y.
Proof.
  induction es as [|e es IH]; [right; intros (pl & [] & _)|]. destruct IH as [(pl & H1 & H2)|N]; [left; exists pl; split; [now right|exact H2]|].
  destruct e as [pl|pl|pl b]; [right; intros (q & [E|H] & Hq); [discriminate|apply N; now exists q]| |right; intros (q & [E|H] & Hq); [discriminate|apply N; now exists q]].
  destruct (in_dec (fun p q : Z * Z => match p, q with (a, b), (c, d) => ltac:(destruct (Z.eq_dec a c); [destruct (Z.eq_dec b d); [left; congruence|right; congruence]|right; congruence]) end) (x, y) (pl m)) as [I|I].
  - left. exists pl. split; [now left|exact I].
  - right. intros (q & [E|H] & Hq); [injection E as ->; contradiction|]. apply N. now exists q.
Qed.
Lemma room_less j sg u h h' : h <= h' -> room j sg u h' -> room j sg u h.
Proof. intros L [H|(k & H1 & H2 & H3)]; [left; lia|right]. exists k. split; [exact H1|]. split; [exact H2|]. lia. Qed.
Lemma path_active j p : consecutive (next j) p -> (1 < length p)%nat -> forall w, In w p -> active (at_ j w) = true.
Proof.
  intros C L w Hw. apply in_split in Hw. destruct Hw as (l1 & l2 & ->). destruct l2 as [|v l2].
  - destruct l1 as [|x l1] using rev_ind; [cbn in L; lia|]. clear IHl1. apply (C l1 x w []). now rewrite <- app_assoc.
  - apply (C l1 w v l2 eq_refl).
Qed.

Section M.
Variables (R : rules) (a : args) (obs : list sink) (es : list edit) (j : job).
Hypothesis P : positive R.
Hypothesis M : matches R (dr a).
Hypothesis Q : proper a.
Hypothesis Pl : placed a.
Hypothesis Sg : single (Grid a).
Hypothesis Br : Forall (broad R) obs.
Hypothesis Eg : g j = edited es (Grid_Inactive_new R obs (Grid a)).
Hypothesis Eh : forall m, horizontal (t j) m = negb (vert (dr a) m).
Hypothesis El : forall m, minL (t j) m = r_minL R m.
Hypothesis Es : forall u, In u (source j) -> (u < size j)%nat.
Let d := dr a.

Lemma as_list : exists pl, g j = edited (Block pl :: es) (Grid a) /\ forall o x y u, In o obs -> touched R o x y -> sits (Grid a) u (s_metal o) x y -> In (x, y) (pl (s_metal o)).
Proof.
  destruct (inactive_list R P (Grid a) obs Sg) as (pl & E & H); [|exact Br|].
  - intros v Hv. apply In_nth_error in Hv. destruct Hv as (u & Hu). destruct (grid_node a u v Hu) as (L1 & m & p1 & p & p2 & L2 & _ & _ & _ & _ & _ & A1 & _). exact A1.
  - exists pl. split; [|exact H]. rewrite Eg, E. reflexivity.
Qed.
Lemma job_wf : wf j.
Proof. destruct as_list as (pl & E & _). exact (edited_wf a _ j E Eh Es). Qed.
Lemma stretch_ok p rs r : route j p -> parts j p rs -> In r rs -> (forall w, In w p -> (w < size j)%nat) ->
  exists u l, r = u :: l /\ consecutive (stepped a j (metal (at_ j u)) (cc a (at_ j u))) (u :: l).
Proof.
  intros Ro Pa Hr Hlt. destruct as_list as (pl & E & _). destruct r as [|u l]; [now destruct (p_some j p rs Pa [] Hr)|]. exists u, l. split; [reflexivity|].
  assert (forall w, In w (u :: l) -> (w < size j)%nat /\ metal (at_ j w) = metal (at_ j u)) as Hw.
  { intros w Hw. split; [apply Hlt; rewrite <- (p_all j p rs Pa); apply in_concat; now exists (u :: l)|exact (p_metal j p rs Pa (u :: l) w Hr Hw)]. }
  assert (forall l0 x y b, u :: l = l0 ++ x :: y :: b -> stepped a j (metal (at_ j x)) (cc a (at_ j x)) x y) as K.
  { intros l0 x y b Ex. assert (In x (u :: l)) as Ix by (rewrite Ex; apply in_or_app; right; now left). assert (In y (u :: l)) as Iy by (rewrite Ex; apply in_or_app; right; right; now left).
    apply in_split in Hr. destruct Hr as (r1 & r2 & Er). pose proof (p_all j p rs Pa) as Ep. rewrite Er, concat_app in Ep. cbn [concat] in Ep. rewrite Ex in Ep.
    pose proof (r_steps j p Ro (concat r1 ++ l0) x y (b ++ concat r2)) as St. specialize (St ltac:(rewrite <- Ep; repeat (rewrite <- app_assoc || cbn [app]); reflexivity)). destruct St as (_ & _ & [St|[(St & _)|(St & _)]]).
    - apply (side_stepped a (Block pl :: es) j E Q x y); [now apply Hw|exact St].
    - destruct (w_up j job_wf x y (proj1 (Hw x Ix)) St) as (_ & X & _). destruct (Hw x Ix), (Hw y Iy). lia.
    - destruct (w_down j job_wf x y (proj1 (Hw x Ix)) St) as (_ & X & _). destruct (Hw x Ix), (Hw y Iy). lia. }
  intros l0. induction l0 as [|x l0 IH] using rev_ind; intros x' y b Ex.
  - cbn in Ex. injection Ex as <- ->. exact (K [] u y b eq_refl).
  - rewrite <- app_assoc in Ex. cbn [app] in Ex. specialize (IH x x' (y :: b) Ex). pose proof (K (l0 ++ [x]) x' y b ltac:(rewrite <- app_assoc; exact Ex)) as S2. rewrite (proj2 (st_metal _ _ _ _ _ _ IH)), (proj2 (st_line _ _ _ _ _ _ IH)) in S2. exact S2.
Qed.
Lemma line_clear s f p ls : has_vias j -> clean s -> fst (A_star f j s) = Path p ls -> (1 < length p)%nat ->
  forall i l z, nth_error (physical j p) i = Some l -> nth_error ls i = Some z -> let l' := extend_line R l z in (l' = l \/ within_line a l') -> ~ is_point l' ->
  drawn R l' (wire_rect R l') /\ forall o, In o obs -> clear R (wire_rect R l') o \/ exists x y, touched R o x y /\ opened es (s_metal o) x y.
Proof.
  intros HV Cl E Lp i l z Hl Hz l' Hw Np. destruct as_list as (pl & Eb & Hpl). pose proof job_wf as W.
  pose proof (C99_path j s f p ls W HV Cl E) as [Ro _]. destruct (C99_lines j s f p ls W HV Cl E) as (rs & Pa & Eph & Len & _ & Hst & _ & Hlab).
  pose proof (path_active j p (r_steps j p Ro) Lp) as Act.
  assert (forall w, In w p -> (w < size j)%nat) as Hlt. { intros w Hi. specialize (Act w Hi). unfold size, at_ in *. destruct (Nat.lt_ge_cases w (length (g j))) as [X|X]; [exact X|]. rewrite nth_overflow in Act by exact X. discriminate. }
  rewrite Eph, nth_error_map in Hl. destruct (nth_error rs i) as [r|] eqn:Er; [|discriminate]. cbn in Hl. injection Hl as <-. pose proof (nth_error_In _ _ Er) as Ir.
  pose proof (Hlab i r z Er Hz) as Ht. destruct (stretch_ok p rs r Ro Pa Ir Hlt) as (u & l & -> & C).
  assert (forall w, In w (u :: l) -> In w p) as Sub by (intros w Hi; rewrite <- (p_all j p rs Pa); apply in_concat; now exists (u :: l)).
  pose proof (Hlt u (Sub u (or_introl eq_refl))) as Lu.
  destruct (chain_held a j (metal (at_ j u)) (cc a (at_ j u)) l u Lu eq_refl eq_refl C) as (I1 & I2 & I3). fold d in I2.
  set (e := last (u :: l) O) in *. assert (In e (u :: l)) as Ie. { unfold e. clear. generalize u. induction l as [|v l IH]; intros x; [now left|]. right. apply IH. }
  change (hd O (u :: l)) with u in *. set (m := metal (at_ j u)) in *. set (c := cc a (at_ j u)) in *. set (zu := zc a (at_ j u)) in *. set (ze := zc a (at_ j e)) in *.
  destruct (I1 e Ie) as (Le & Eme & Ece).
  assert (l_metal (line_of j (u :: l)) = m) as Elm by reflexivity.
  assert (level R (line_of j (u :: l)) /\ across R m (l_x0 (line_of j (u :: l))) (l_y0 (line_of j (u :: l))) = c /\ along R m (l_x0 (line_of j (u :: l))) (l_y0 (line_of j (u :: l))) = zu /\ along R m (l_x1 (line_of j (u :: l))) (l_y1 (line_of j (u :: l))) = ze /\ line_len (line_of j (u :: l)) = dist j u e /\ dist j u e = Z.abs (zu - ze)) as (Lv & Ac & Az0 & Az1 & Eln & Edl).
  { unfold level, line_len, dist, across, along, line_of. change (hd O (u :: l)) with u. fold e. cbn [l_metal l_x0 l_y0 l_x1 l_y1]. fold m. clear - Ece Eme M. unfold zu, ze, c, zc, cc in *. fold m in Ece |- *. rewrite Eme in *. rewrite !(ma_vert R _ M). fold m. destruct (vert (dr a) m); repeat split; try lia. }
  assert (forall w, In w (u :: l) -> crosses d m (zc a (at_ j w)) /\ on_line d m c /\ lo_metal a <= m <= hi_metal a) as Hcr.
  { intros w Hi. destruct (I1 w Hi) as (Lw & Emw & Ecw). pose proof (at_sits a _ j Eb w m c (zc a (at_ j w)) Lw Emw Ecw eq_refl) as Sw. destruct (C100_nodes a m (at_x (dr a) m c (zc a (at_ j w))) (at_y (dr a) m c (zc a (at_ j w))) Q Pl) as [X _]. destruct X as (X1 & X2 & _); [now exists w|]. unfold crossing, at_x, at_y in X2. fold d in X2. destruct (vert d m); tauto. }
  destruct (Hcr u (or_introl eq_refl)) as (Cu & OL & Hm). destruct (Hcr e Ie) as (Ce & _). fold zu in Cu. fold ze in Ce.
  destruct (extend_longer R (line_of j (u :: l)) z Lv) as (p0 & q0 & Lg & Hp & Hq & Hd0 & Hd1). fold l' in Lg. rewrite Elm in *.
  assert (level R l' /\ l_metal l' = m) as [Lv' Em'] by (destruct Lg as (X & Y & _); split; [exact Y|exact X]).
  pose proof (wire_drawn R l' Lv' Np) as Dr. split; [exact Dr|]. intros o Ho.
  destruct (Z.eq_dec (s_metal o) m) as [Eo|No]; [|left; left; destruct Dr as (X & _); lia].
  destruct Lg as (_ & _ & Lc & Llo & Lhi). rewrite Elm in *. rewrite Ac in Lc. rewrite Az0, Az1 in Llo, Lhi.
  (* the nodes with the lower and the higher index *)
  assert (forall x y, In x (u :: l) -> In y (u :: l) -> (x <= y)%nat -> zc a (at_ j x) <= zc a (at_ j y)) as Mono.
  { intros x y Hx Hy L. replace y with (x + (y - x))%nat by lia. apply telescope. intros k Hk. apply (I3 x y Hx Hy). lia. }
  assert (In (Nat.min u e) (u :: l) /\ In (Nat.max u e) (u :: l) /\ zc a (at_ j (Nat.min u e)) = Z.min zu ze /\ zc a (at_ j (Nat.max u e)) = Z.max zu ze) as (In1 & In2 & Zmin & Zmax).
  { destruct (Nat.le_ge_cases u e) as [L|L]; [rewrite Nat.min_l, Nat.max_r by lia; pose proof (Mono u e (or_introl eq_refl) Ie L) as Mo|rewrite Nat.min_r, Nat.max_l by lia; pose proof (Mono e u Ie (or_introl eq_refl) L) as Mo]; fold zu in Mo |- *; fold ze in Mo |- *; repeat split; try assumption; try (now left); lia. }
  assert (exists lo' hi', crosses d m lo' /\ crosses d m hi' /\ lo' <= Z.min zu ze - p0 /\ Z.max zu ze + q0 <= hi' /\ held a j m c lo' hi' (fun w => active (at_ j w) = true)) as (lo' & hi' & Cl' & Ch' & Bl & Bh & Hh).
  { assert (held a j m c (Z.min zu ze) (Z.max zu ze) (fun w => active (at_ j w) = true)) as Mid by (intros y Hy Cy; destruct (I2 y Hy Cy) as (w & Hi & X); exists w; split; [now apply Act, Sub|exact X]).
    destruct Hw as [Hw|Hw].
    - assert (p0 = 0 /\ q0 = 0) as [-> ->] by (rewrite Hw in Llo, Lhi; rewrite Az0, Az1 in Llo, Lhi; lia). exists (Z.min zu ze), (Z.max zu ze). split; [rewrite <- Zmin; now apply Hcr|]. split; [rewrite <- Zmax; now apply Hcr|]. split; [lia|]. split; [lia|exact Mid].
    - assert (within a m c (Z.min zu ze - p0) (Z.max zu ze + q0)) as Wi. { unfold within_line in Hw. cbv zeta in Hw. rewrite Em' in Hw. unfold across, along in Lc, Llo, Lhi. rewrite (ma_vert R _ M) in Lc, Llo, Lhi. rewrite <- Llo, <- Lhi, <- Lc. destruct (vert (dr a) m); exact Hw. }
      assert (room j (-1) (Nat.min u e) p0 /\ room j 1 (Nat.max u e) q0) as [R1 R2].
      { destruct Ht as [T0 T1]. rewrite El, <- Eln in T1. change (metal (at_ j u)) with m in T1. set (dd := r_minL R m - line_len (line_of j (u :: l))) in *.
        assert (dd <= 0 \/ ~ 1 <= z <= 3 \/ 0 < dd /\ 1 <= z <= 3) as [X|[X|[X Y]]] by lia; [destruct Hd0 as [-> ->]; [now left|]; split; left; lia|destruct Hd0 as [-> ->]; [now right|]; split; left; lia|].
        assert ((0 < i /\ S i < length rs)%nat) as In0 by (destruct (Nat.lt_ge_cases 0 i); [destruct (Nat.lt_ge_cases (S i) (length rs)); [now split|]|]; exfalso; assert (z = 0) by (apply T0; lia); lia).
        destruct (T1 In0) as (_ & T2 & T3 & T4). destruct (Hd1 X) as (D1 & D2 & D3). assert (z = 1 \/ z = 2 \/ z = 3) as [Z1|[Z1|Z1]] by lia.
        - destruct (T2 Z1) as (h & Hh & Ra & Rb). destruct (D1 Z1) as [<- D]. split; [apply (room_less _ _ _ _ h); [lia|exact Ra]|apply (room_less _ _ _ _ h); [lia|exact Rb]].
        - destruct (D2 Z1) as [-> ->]. split; [left; lia|now apply T3].
        - destruct (D3 Z1) as [-> ->]. split; [now apply T4|left; lia]. }
      destruct (I1 _ In1) as (L1 & E1 & F1). destruct (I1 _ In2) as (L2 & E2 & F2). pose proof (proj1 (Hcr _ In1)) as K1. pose proof (proj1 (Hcr _ In2)) as K2.
      destruct (room_held a _ j Eb Q Pl Sg m c _ _ (Nat.min u e) (-1) p0 Hm Wi (or_intror eq_refl) L1 E1 F1 K1 ltac:(lia) R1 Hp ltac:(lia) (Act _ (Sub _ In1))) as (lo' & X1 & X2 & X3).
      destruct (room_held a _ j Eb Q Pl Sg m c _ _ (Nat.max u e) 1 q0 Hm Wi (or_introl eq_refl) L2 E2 F2 K2 ltac:(lia) R2 Hq ltac:(lia) (Act _ (Sub _ In2))) as (hi' & Y1 & Y2 & Y3).
      rewrite Zmin in X2, X3. rewrite Zmax in Y2, Y3. exists lo', hi'. split; [exact X1|]. split; [exact Y1|]. split; [lia|]. split; [lia|]. intros y Hy Cy.
      destruct (Z.le_gt_cases y (Z.min zu ze)) as [G|G]; [apply X3; [lia|exact Cy]|]. destruct (Z.le_gt_cases (Z.max zu ze) y) as [G'|G']; [apply Y3; [lia|exact Cy]|]. apply Mid; [lia|exact Cy]. }
  pose proof (proj1 (Forall_forall _ _) Br o Ho) as Bo.
  destruct (geo R d o c (Z.min zu ze - p0) (Z.max zu ze + q0) lo' hi' P M Bo) as [G|[G|[G|[G|(y & By & Cy & Ty)]]]]; rewrite ?Eo; try assumption; try lia.
  - left. unfold clear. rewrite Eo. destruct Dr as (_ & _ & _ & D4 & D5). rewrite Em' in *. rewrite Eo in G. right. left. rewrite D5, Lc. pose proof (Z.quot_rem' (r_width R m) 2) as X1. pose proof (Z.rem_bound_pos (r_width R m) 2 (po_width R P m)) as X2. clear - G X1 X2. lia.
  - left. unfold clear. rewrite Eo. destruct Dr as (_ & _ & _ & D4 & D5). rewrite Em' in *. rewrite Eo in G. right. right. left. rewrite D4, Lc. pose proof (Z.quot_rem' (r_width R m) 2) as X1. pose proof (Z.rem_bound_pos (r_width R m) 2 (po_width R P m)) as X2. clear - G X1 X2. lia.
  - left. unfold clear. rewrite Eo. destruct Dr as (_ & D2 & D3 & _). rewrite Em' in *. do 3 right. left. rewrite D3, Lhi. exact G.
  - left. unfold clear. rewrite Eo. destruct Dr as (_ & D2 & D3 & _). rewrite Em' in *. do 4 right. rewrite D2, Llo. exact G.
  - right. rewrite Eo in *. exists (at_x d m c y), (at_y d m c y). split; [exact Ty|]. destruct (opened_dec es m (at_x d m c y) (at_y d m c y)) as [O|O]; [exact O|exfalso].
    destruct (Hh y By Cy) as (w & Aw & Lw & Emw & Ecw & Ezw). pose proof (at_sits a _ j Eb w m c y Lw Emw Ecw Ezw) as Sw.
    destruct (sits_node a _ j Eb w _ _ _ Sw) as (_ & _ & Vx & Vy). fold d in Sw, Vx, Vy.
    unfold size, at_ in *. rewrite Eb in *. destruct (nth_error (edited (Block pl :: es) (Grid a)) w) as [n|] eqn:En; [|apply nth_error_None in En; lia]. rewrite (nth_of _ _ _ En) in *.
    destruct (C100_lists a (Block pl :: es) w n En) as (_ & _ & _ & B & _). rewrite Aw, Emw, Vx, Vy in B. assert (true = false) as X; [|discriminate]. apply B. exists [], pl, es. split; [reflexivity|]. split.
    + rewrite <- Eo in *. now apply (Hpl o _ _ w Ho).
    + intros pl' Hpl' X. apply O. now exists pl'.
Qed.
End M.
