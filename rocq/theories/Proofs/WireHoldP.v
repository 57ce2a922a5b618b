(** The nodes on which a wire of a path lies. *)
From Coq Require Import ZArith ZifyBool.
From Verif Require Import Base.Prelude Model.GlobalGrid Model.AStar Model.DetailGrid Model.WireDraw Spec.AStarSpec Spec.AStarLabel Spec.DetailGridSpec Spec.WireDrawSpec Proofs.DetailLinkP Proofs.DetailPlaceP Proofs.DetailUseP Props.C100.
Local Open Scope Z_scope.

Lemma nearest (P : Z -> Prop) (dec : forall z, P z \/ ~ P z) : forall n z T, T = z + 1 + Z.of_nat n -> P T -> exists z', z < z' <= T /\ P z' /\ forall w, z < w < z' -> ~ P w.
Proof.
  induction n as [|n IH]; intros z T E H.
  - exists T. repeat split; [lia|lia|exact H|]. intros w Hw. lia.
  - destruct (dec (z + 1)) as [D|D]; [exists (z + 1); repeat split; [lia|lia|exact D|]; intros w Hw; lia|].
    destruct (IH (z + 1) T ltac:(lia) H) as (z' & B & Pz & N). exists z'. repeat split; [lia|lia|exact Pz|]. intros w Hw. destruct (Z.eq_dec w (z + 1)) as [->|Nw]; [exact D|]. apply N. lia.
Qed.
Lemma nearest_above (P : Z -> Prop) z T : (forall z, P z \/ ~ P z) -> z < T -> P T -> exists z', z < z' <= T /\ P z' /\ forall w, z < w < z' -> ~ P w.
Proof. intros D L H. apply (nearest P D (Z.to_nat (T - z - 1)) z T); [lia|exact H]. Qed.
Lemma nearest_below (P : Z -> Prop) z T : (forall z, P z \/ ~ P z) -> T < z -> P T -> exists z', T <= z' < z /\ P z' /\ forall w, z' < w < z -> ~ P w.
Proof.
  intros D L H. destruct (nearest_above (fun w => P (- w)) (- z) (- T)) as (z' & B & Pz & N); [intros w; apply D|lia|now rewrite Z.opp_involutive|].
  exists (- z'). repeat split; [lia|lia|exact Pz|]. intros w Hw X. apply (N (- w)); [lia|]. now rewrite Z.opp_involutive.
Qed.

Section G.
Variables (a : args) (es : list edit) (j : job).
Hypothesis Eg : g j = edited es (Grid a).
Hypothesis Q : proper a.
Hypothesis Pl : placed a.
Hypothesis Sg : single (Grid a).
Let d := dr a.

Definition zc (n : vertex) : Z := if vert d (metal n) then vy n else vx n.
Definition cc (n : vertex) : Z := if vert d (metal n) then vx n else vy n.
Lemma on_line_dec m z : on_line d m z \/ ~ on_line d m z.
Proof.
  pose proof (pr_unit a Q m) as U. fold d in U. destruct (Z.eq_dec ((z - off d m) mod unit d m) 0) as [E|N]; [left|right].
  - exists ((z - off d m) / unit d m). pose proof (Z.div_mod (z - off d m) (unit d m)). lia.
  - intros (k & ->). apply N. replace (off d m + k * unit d m - off d m) with (k * unit d m) by lia. apply Z.mod_mul. lia.
Qed.
Lemma crosses_dec m z : crosses d m z \/ ~ crosses d m z.
Proof. unfold crosses. pose proof (on_line_dec (m + 1) z). pose proof (on_line_dec (m - 1) z). destruct (m =? 0); [tauto|]. destruct (m =? layers d - 1); tauto. Qed.
Lemma node_fixed u : (u < size j)%nat -> exists v, nth_error (Grid a) u = Some v /\ fixed v (at_ j u).
Proof.
  intros Hu. unfold size, at_ in *. rewrite Eg in *. destruct (nth_error (edited es (Grid a)) u) as [w|] eqn:E; [|apply nth_error_None in E; lia]. destruct (edit_all _ _ _ _ E) as (v & Hv & F & _). exists v. split; [exact Hv|]. now rewrite (nth_of _ _ _ E).
Qed.
Lemma node_lt u v : nth_error (Grid a) u = Some v -> (u < size j)%nat.
Proof. intros H. unfold size. rewrite Eg, edit_len. apply nth_error_Some. congruence. Qed.
Lemma node_sits u : (u < size j)%nat -> sits (Grid a) u (metal (at_ j u)) (vx (at_ j u)) (vy (at_ j u)).
Proof. intros H. destruct (node_fixed u H) as (v & Hv & Fx & Fy & Fm & _). exists v. auto. Qed.
Lemma sits_node u m x y : sits (Grid a) u m x y -> (u < size j)%nat /\ metal (at_ j u) = m /\ vx (at_ j u) = x /\ vy (at_ j u) = y.
Proof. intros (v & Hv & <- & <- & <-). pose proof (node_lt u v Hv) as L. split; [exact L|]. destruct (node_fixed u L) as (v' & Hv' & Fx & Fy & Fm & _). rewrite Hv in Hv'. injection Hv' as <-. auto. Qed.
(** One step along a line. *)
Record stepped (m c : Z) (u v : nat) : Prop := {
  st_metal : metal (at_ j u) = m /\ metal (at_ j v) = m; st_line : cc (at_ j u) = c /\ cc (at_ j v) = c;
  st_order : v = S u /\ zc (at_ j u) < zc (at_ j v) \/ u = S v /\ zc (at_ j v) < zc (at_ j u);
  st_none : forall z, zc (at_ j u) < z < zc (at_ j v) \/ zc (at_ j v) < z < zc (at_ j u) -> ~ crosses d m z;
  st_size : (u < size j)%nat /\ (v < size j)%nat }.
Lemma stepped_sym m c u v : stepped m c u v -> stepped m c v u.
Proof. intros [A B C D E]. constructor; [tauto|tauto|tauto| |tauto]. intros z Hz. apply D. tauto. Qed.
Lemma follow_stepped u v n n' : nth_error (Grid a) u = Some n -> nth_error (Grid a) v = Some n' -> metal n' = metal n -> v = S u -> follows d (metal n) (vx n) (vy n) (vx n') (vy n') -> stepped (metal (at_ j u)) (cc (at_ j u)) u v.
Proof.
  intros Hu Hv Em Ev F. pose proof (node_lt u n Hu) as Lu. pose proof (node_lt v n' Hv) as Lv. destruct (node_fixed u Lu) as (x & Hx & Fx & Fy & Fm & _). destruct (node_fixed v Lv) as (x' & Hx' & Fx' & Fy' & Fm' & _).
  rewrite Hu in Hx. injection Hx as <-. rewrite Hv in Hx'. injection Hx' as <-. unfold follows in F. constructor; unfold zc, cc; rewrite ?Fm, ?Fm', ?Em, ?Fx, ?Fy, ?Fx', ?Fy'; destruct (vert d (metal n)); destruct F as (F1 & F2 & F3).
  1-2: auto. 1-2: auto. 1-2: left; auto. 1-2: intros z [Hz|Hz]; [now apply F3|lia]. all: auto.
Qed.
Lemma side_stepped u v : (u < size j)%nat -> In v (sides j u) -> stepped (metal (at_ j u)) (cc (at_ j u)) u v.
Proof.
  intros Lu Hv. destruct (node_fixed u Lu) as (n & Hn & Fx & Fy & Fm & Fn & Fs & Fe & Fw & _). destruct (C100_wires a u n Q Hn) as (W1 & _ & _ & W4 & W5). fold d in W1. unfold sides in Hv. rewrite Fn, Fs, Fe, Fw in Hv. rewrite !in_app_iff in Hv.
  assert (In v (AStar.north n ++ AStar.east n) -> stepped (metal (at_ j u)) (cc (at_ j u)) u v) as K1.
  { intros H. destruct (W1 v H) as (n' & H1 & H2 & H3 & H4). now apply (follow_stepped u v n n'). }
  assert (forall n', nth_error (Grid a) v = Some n' -> In u (AStar.north n' ++ AStar.east n') -> stepped (metal (at_ j u)) (cc (at_ j u)) u v) as K2.
  { intros n' H' H. destruct (C100_wires a v n' Q H') as (X & _). fold d in X. destruct (X u H) as (n2 & H1 & H2 & H3 & H4). rewrite Hn in H1. injection H1 as <-. pose proof (follow_stepped v u n' n H' Hn H2 H3 H4) as St. apply stepped_sym in St. pose proof (st_metal _ _ _ _ St) as [E1 _]. pose proof (st_line _ _ _ _ St) as [E2 _]. rewrite <- E1, <- E2 in St. exact St. }
  destruct Hv as [H|[H|[H|H]]].
  - apply K1. apply in_or_app. now left.
  - apply W4 in H. destruct H as (n' & H' & H). apply (K2 n' H'). apply in_or_app. now left.
  - apply K1. apply in_or_app. now right.
  - apply W5 in H. destruct H as (n' & H' & H). apply (K2 n' H'). apply in_or_app. now right.
Qed.
(** All crossings from lo to hi on a line have nodes of the list. *)
Definition held (m c lo hi : Z) (ok : nat -> Prop) : Prop := forall z, lo <= z <= hi -> crosses d m z -> exists w, ok w /\ (w < size j)%nat /\ metal (at_ j w) = m /\ cc (at_ j w) = c /\ zc (at_ j w) = z.
Lemma chain_held m c : forall l u, (u < size j)%nat -> metal (at_ j u) = m -> cc (at_ j u) = c -> consecutive (stepped m c) (u :: l) ->
  let e := last (u :: l) O in (forall w, In w (u :: l) -> (w < size j)%nat /\ metal (at_ j w) = m /\ cc (at_ j w) = c) /\
  held m c (Z.min (zc (at_ j u)) (zc (at_ j e))) (Z.max (zc (at_ j u)) (zc (at_ j e))) (fun w => In w (u :: l)) /\
  (forall x y, In x (u :: l) -> In y (u :: l) -> forall i, (x <= i < y)%nat -> zc (at_ j i) < zc (at_ j (S i))).
Proof.
  induction l as [|v l IH]; intros u Lu Em Ec C e.
  - cbn in e. subst e. split; [intros w [<-|[]]; auto|]. split; [intros z Hz _; exists u; repeat split; auto; [now left|lia]|]. intros x y [<-|[]] [<-|[]] i Hi. lia.
  - pose proof (C [] u v l eq_refl) as [S1 S2 S3 S4 S5]. destruct (IH v) as (I1 & I2 & I3); [tauto|tauto|tauto|intros b x y r E; apply (C (u :: b) x y r); cbn; now rewrite E|].
    change (last (v :: l) O) with e in I2. split; [intros w [<-|Hw]; [auto|now apply I1]|]. split.
    + intros z Hz Hc. assert (Z.min (zc (at_ j v)) (zc (at_ j e)) <= z <= Z.max (zc (at_ j v)) (zc (at_ j e)) \/ z = zc (at_ j u)) as [H|H].
      { destruct (Z.eq_dec z (zc (at_ j u))) as [E|N]; [now right|left]. assert (~ (zc (at_ j u) < z < zc (at_ j v) \/ zc (at_ j v) < z < zc (at_ j u))) as NB by (intros X; now apply (S4 z X)). lia. }
      * destruct (I2 z H Hc) as (w & Hw & R). exists w. split; [now right|exact R].
      * exists u. repeat split; auto. now left.
    + assert (zc (at_ j (Nat.min u v)) < zc (at_ j (S (Nat.min u v)))) as St by (destruct S3 as [[-> X]|[-> X]]; [rewrite Nat.min_l by lia|rewrite Nat.min_r by lia]; exact X).
      intros x y [<-|Hx] [<-|Hy] i Hi; [lia| | |now apply (I3 x y)].
      * destruct (Nat.eq_dec i (Nat.min u v)) as [->|N]; [exact St|]. apply (I3 v y); [now left|exact Hy|]. lia.
      * destruct (Nat.eq_dec i (Nat.min u v)) as [->|N]; [exact St|]. apply (I3 x v); [exact Hx|now left|]. lia.
Qed.
Lemma telescope x : forall k, (forall i, (x <= i < x + k)%nat -> zc (at_ j i) < zc (at_ j (S i))) -> zc (at_ j x) <= zc (at_ j (x + k)).
Proof. induction k as [|k IH]; intros H; [rewrite Nat.add_0_r; lia|]. specialize (IH ltac:(intros i Hi; apply H; lia)). specialize (H (x + k)%nat ltac:(lia)). rewrite Nat.add_succ_r. lia. Qed.

(** *** Room *)
Lemma place_in b m c lo z hi : lo <= z <= hi -> inside b (at_x d m c lo) (at_y d m c lo) -> inside b (at_x d m c hi) (at_y d m c hi) -> inside b (at_x d m c z) (at_y d m c z).
Proof. unfold inside, at_x, at_y. destruct (vert d m); lia. Qed.
Lemma place_crossing m c z : on_line d m c -> crosses d m z -> crossing d m (at_x d m c z) (at_y d m c z).
Proof. unfold crossing, at_x, at_y. destruct (vert d m); auto. Qed.
Lemma sits_at u m c z : sits (Grid a) u m (at_x d m c z) (at_y d m c z) -> (u < size j)%nat /\ metal (at_ j u) = m /\ cc (at_ j u) = c /\ zc (at_ j u) = z.
Proof. intros H. apply sits_node in H. destruct H as (L & Em & Ex & Ey). unfold cc, zc. rewrite Em, Ex, Ey. unfold at_x, at_y. destruct (vert d m); auto. Qed.
Lemma at_sits u m c z : (u < size j)%nat -> metal (at_ j u) = m -> cc (at_ j u) = c -> zc (at_ j u) = z -> sits (Grid a) u m (at_x d m c z) (at_y d m c z).
Proof. intros L Em Ec Ez. pose proof (node_sits u L) as H. unfold cc, zc in *. rewrite Em in *. unfold at_x, at_y. destruct (vert d m); subst; exact H. Qed.
Lemma track_step m c lo hi : lo_metal a <= m <= hi_metal a -> within a m c lo hi -> forall u sg, sg = 1 \/ sg = -1 -> (u < size j)%nat -> metal (at_ j u) = m -> cc (at_ j u) = c -> crosses d m (zc (at_ j u)) -> lo <= zc (at_ j u) <= hi ->
  (sg = 1 /\ zc (at_ j u) < hi \/ sg = -1 /\ lo < zc (at_ j u)) -> let n := Z.of_nat u + sg in 0 <= n /\ stepped m c u (Z.to_nat n).
Proof.
  intros Hm (s & e & lo' & hi' & T1 & T2 & B1 & B2 & C1 & C2 & OL & I1 & I2) u sg Hs Lu Em Ec Cu Bu Hd n. fold d in C1, C2, OL, I1, I2.
  assert (forall z z', lo' <= z -> z' <= hi' -> z < z' -> crosses d m z -> crosses d m z' -> (forall w, z < w < z' -> ~ crosses d m w) -> exists v, sits (Grid a) v m (at_x d m c z) (at_y d m c z) /\ sits (Grid a) (S v) m (at_x d m c z') (at_y d m c z')) as J.
  { intros z z' X1 X2 X3 X4 X5 X6. destruct (C100_joined a m s e (at_x d m c z) (at_y d m c z) (at_x d m c z') (at_y d m c z') Q Pl Hm T1 T2) as (v & n1 & n2 & _ & _ & J1 & J2 & _); [now apply (place_in _ _ _ lo' z hi'); [lia| |]|now apply (place_in _ _ _ lo' z' hi'); [lia| |]|now apply place_crossing|now apply place_crossing| |exists v; auto].
    unfold follows, at_x, at_y. fold d. destruct (vert d m); auto. }
  pose proof (at_sits u m c _ Lu Em Ec eq_refl) as Su.
  destruct Hd as [[-> Hd]|[-> Hd]].
  - destruct (nearest_above (crosses d m) (zc (at_ j u)) hi' (crosses_dec m) ltac:(lia) C2) as (z' & Bz & Cz & N). destruct (J (zc (at_ j u)) z' ltac:(lia) ltac:(lia) ltac:(lia) Cu Cz N) as (v & V1 & V2). assert (v = u) as -> by (eapply Sg; eassumption).
    apply sits_at in V2. destruct V2 as (L2 & Em2 & Ec2 & Ez2). replace (Z.to_nat n) with (S u) by lia. split; [lia|]. constructor; [auto|auto|left; split; [reflexivity|lia]| |auto]. rewrite Ez2. intros w [Hw|Hw]; [now apply N|lia].
  - destruct (nearest_below (crosses d m) (zc (at_ j u)) lo' (crosses_dec m) ltac:(lia) C1) as (z' & Bz & Cz & N). destruct (J z' (zc (at_ j u)) ltac:(lia) ltac:(lia) ltac:(lia) Cz Cu N) as (v & V1 & V2). assert (S v = u) as E by (eapply Sg; eassumption).
    apply sits_at in V1. destruct V1 as (L2 & Em2 & Ec2 & Ez2). assert (Z.to_nat n = v) as -> by lia. split; [lia|]. constructor; [auto|auto|right; split; [auto|lia]| |auto]. rewrite Ez2. intros w [Hw|Hw]; [lia|now apply N].
Qed.
Lemma room_held m c lo hi u sg h : lo_metal a <= m <= hi_metal a -> within a m c lo hi -> sg = 1 \/ sg = -1 -> (u < size j)%nat -> metal (at_ j u) = m -> cc (at_ j u) = c -> crosses d m (zc (at_ j u)) ->
  lo <= zc (at_ j u) <= hi -> room j sg u h -> 0 <= h -> lo <= zc (at_ j u) + sg * h <= hi -> active (at_ j u) = true ->
  exists z', crosses d m z' /\ 0 <= sg * (z' - (zc (at_ j u) + sg * h)) /\ held m c (Z.min (zc (at_ j u)) z') (Z.max (zc (at_ j u)) z') (fun w => active (at_ j w) = true).
Proof.
  intros Hm Wi Hs Lu Em Ec Cu Bu Ro Hh Bh Au. set (z0 := zc (at_ j u)) in *.
  destruct Ro as [Ro|(k & Hk & Rk & Rd)].
  - exists z0. split; [exact Cu|]. split; [assert (h = 0) as -> by lia; lia|]. intros z Hz _. exists u. split; [exact Au|]. split; [exact Lu|]. split; [exact Em|]. split; [exact Ec|]. fold z0. lia.
  - assert (forall i, (i <= k)%nat -> (exists i', (i' <= i)%nat /\ let w := Z.to_nat (Z.of_nat u + sg * Z.of_nat i') in crosses d m (zc (at_ j w)) /\ 0 <= sg * (zc (at_ j w) - (z0 + sg * h)) /\ held m c (Z.min z0 (zc (at_ j w))) (Z.max z0 (zc (at_ j w))) (fun w => active (at_ j w) = true)) \/
      (let w := Z.to_nat (Z.of_nat u + sg * Z.of_nat i) in (w < size j)%nat /\ metal (at_ j w) = m /\ cc (at_ j w) = c /\ 0 <= sg * (zc (at_ j w) - z0) /\ sg * (zc (at_ j w) - (z0 + sg * h)) < 0 /\ crosses d m (zc (at_ j w)) /\ held m c (Z.min z0 (zc (at_ j w))) (Z.max z0 (zc (at_ j w))) (fun w => active (at_ j w) = true))) as K.
    { induction i as [|i IH]; intros Hi.
      - assert (Z.to_nat (Z.of_nat u + sg * Z.of_nat 0) = u) as E0 by lia.
        assert (held m c (Z.min z0 z0) (Z.max z0 z0) (fun w => active (at_ j w) = true)) as H0 by (intros z Hz _; exists u; split; [exact Au|]; split; [exact Lu|]; split; [exact Em|]; split; [exact Ec|]; fold z0; lia).
        destruct (Z.eq_dec h 0) as [->|Nh]; [left; exists O; split; [lia|]; cbv zeta; rewrite E0; fold z0; split; [exact Cu|]; split; [lia|exact H0]|]. right. cbv zeta. rewrite E0. fold z0. repeat split; try assumption; destruct Hs as [-> | ->]; lia.
      - destruct (IH ltac:(lia)) as [(i' & Hi' & X)|X]; [left; exists i'; split; [lia|exact X]|]. cbv zeta in X. set (w := Z.to_nat (Z.of_nat u + sg * Z.of_nat i)) in *. destruct X as (Lw & Emw & Ecw & Bw1 & Bw2 & Cw & Hw).
        assert (Z.of_nat w = Z.of_nat u + sg * Z.of_nat i) as Ew. { destruct i as [|i]; [unfold w; lia|]. pose proof (proj1 (Rk (S i) ltac:(lia))) as [B _]. cbv zeta in B. unfold w. lia. }
        destruct (track_step m c lo hi Hm Wi w sg Hs Lw Emw Ecw Cw) as [Nn St]; [destruct Hs as [-> | ->]; lia|destruct Hs as [-> | ->]; [left|right]; lia|].
        assert (Z.to_nat (Z.of_nat w + sg) = Z.to_nat (Z.of_nat u + sg * Z.of_nat (S i))) as Ew2 by lia. cbv zeta in Nn, St. rewrite Ew2 in St. set (w2 := Z.to_nat (Z.of_nat u + sg * Z.of_nat (S i))) in *.
        assert (Z.of_nat w2 = Z.of_nat w + sg) as Ew3 by lia. clear Ew2. destruct St as [[S1 S1'] [S2 S2'] S3 S4 [S5 S5']].
        pose proof (Rk (S i) ltac:(lia)) as [_ R2]. cbv zeta in R2. fold w2 in R2. destruct R2 as (R2 & _).
        assert (0 < sg * (zc (at_ j w2) - zc (at_ j w))) as Up by (destruct S3 as [[S3 S3']|[S3 S3']]; destruct Hs as [-> | ->]; lia).
        assert (held m c (Z.min z0 (zc (at_ j w2))) (Z.max z0 (zc (at_ j w2))) (fun w => active (at_ j w) = true)) as H2.
        { intros z Hz Cz. destruct (Z.eq_dec z (zc (at_ j w2))) as [->|Nz]; [exists w2; auto|]. apply Hw; [|exact Cz]. assert (~ (zc (at_ j w) < z < zc (at_ j w2) \/ zc (at_ j w2) < z < zc (at_ j w))) as NB by (intros X; now apply (S4 z X)). destruct Hs as [-> | ->]; lia. }
        assert (crosses d m (zc (at_ j w2))) as Cw2.
        { destruct (C100_nodes a m (at_x d m c (zc (at_ j w2))) (at_y d m c (zc (at_ j w2))) Q Pl) as [X _]. destruct X as (_ & X & _); [exists w2; now apply at_sits|]. unfold crossing, at_x, at_y in X. fold d in X. destruct (vert d m); tauto. }
        destruct (Z.le_gt_cases 0 (sg * (zc (at_ j w2) - (z0 + sg * h)))) as [G|G].
        + left. exists (S i). split; [lia|]. cbv zeta. fold w2. auto.
        + right. cbv zeta. fold w2. repeat split; try assumption. destruct Hs as [-> | ->]; lia. }
    destruct (K k ltac:(lia)) as [(i' & _ & X)|X]; cbv zeta in X.
    + exists (zc (at_ j (Z.to_nat (Z.of_nat u + sg * Z.of_nat i')))). exact X.
    + exfalso. set (w := Z.to_nat (Z.of_nat u + sg * Z.of_nat k)) in *. destruct X as (Lw & Emw & Ecw & Bw1 & Bw2 & _).
      assert (dist j w u = sg * (zc (at_ j w) - z0)) as Ed. { unfold dist, z0, zc, cc in *. rewrite Em in *. rewrite Emw in *. destruct (vert d m); destruct Hs as [-> | ->]; lia. }
      destruct Hs as [-> | ->]; lia.
Qed.
End G.
