(** The links between the nodes, and the grid as the path search gets it. *)
From Coq Require Import ZArith ZifyBool.
From Verif Require Import Base.Prelude Model.GlobalGrid Model.AStar Model.DetailGrid Spec.AStarSpec Spec.DetailGridSpec Proofs.DetailGridP Proofs.DetailLinkP Proofs.DetailPlaceP.
Local Open Scope Z_scope.

Lemma sorted_between (l1 l2 : list Z) x y : Sorted.StronglySorted Z.lt (l1 ++ x :: y :: l2) -> x < y /\ forall z, In z (l1 ++ x :: y :: l2) -> ~ x < z < y.
Proof.
  induction l1 as [|w l1 IH]; intros H; cbn [app] in H; apply StronglySorted_inv in H; destruct H as [H F]; rewrite Forall_forall in F.
  - split; [apply F; now left|]. apply StronglySorted_inv in H. destruct H as [_ F2]. rewrite Forall_forall in F2. intros z [<-|[<-|Hz]]; [lia|lia|]. specialize (F2 z Hz). lia.
  - destruct (IH H) as [L B]. split; [exact L|]. intros z [<-|Hz]; [|now apply B]. specialize (F x ltac:(apply in_or_app; right; now left)). lia.
Qed.
Section Use.
Variable a : args.
Notation d := (dr a).
(** A node of the grid, with its place on its line. *)
Lemma grid_node u n : nth_error (Grid a) u = Some n -> exists L1 m p1 p p2 L2, all_lines a = L1 ++ (m, p1 ++ p :: p2) :: L2 /\ u = (total L1 + length p1)%nat /\
  metal n = m /\ vx n = fst p /\ vy n = snd p /\
  let w := node_of (vert d m) m u (is_nil p1) (is_nil p2) p in active n = true /\ via_up n = true /\ via_down n = true /\ AStar.north n = AStar.north w /\ AStar.south n = AStar.south w /\ AStar.east n = AStar.east w /\ AStar.west n = AStar.west w.
Proof.
  intros H. rewrite grid_nth in H. destruct (nth_error (vertices a) u) as [v|] eqn:E; [|discriminate]. cbn in H. injection H as <-. rewrite vertices_ok in E. apply build_inv in E. destruct E as (L1 & m & p1 & p & p2 & L2 & E & Eu & ->).
  exists L1, m, p1, p, p2, L2. split; [exact E|]. split; [exact Eu|]. cbn [Nat.add metal vx vy active via_up via_down AStar.north AStar.south AStar.east AStar.west]. unfold node_of. destruct (vert d m); cbn; repeat split.
Qed.
Lemma node_grid L1 m p1 p p2 L2 : all_lines a = L1 ++ (m, p1 ++ p :: p2) :: L2 -> let u := (total L1 + length p1)%nat in exists n, nth_error (Grid a) u = Some n /\ metal n = m /\ vx n = fst p /\ vy n = snd p /\
  let w := node_of (vert d m) m u (is_nil p1) (is_nil p2) p in AStar.north n = AStar.north w /\ AStar.south n = AStar.south w /\ AStar.east n = AStar.east w /\ AStar.west n = AStar.west w.
Proof.
  intros E u. pose proof (build_nth a L1 m p1 p p2 L2 0) as H. rewrite <- E, <- vertices_ok in H. rewrite grid_nth. fold u in H. rewrite H. cbn [option_map]. eexists. split; [reflexivity|]. cbn [Nat.add metal vx vy AStar.north AStar.south AStar.east AStar.west]. unfold node_of. destruct (vert d m); cbn; repeat split.
Qed.
Lemma next_follows (P : proper a) m p1 p q p2 : In (m, p1 ++ p :: q :: p2) (all_lines a) -> follows d m (fst p) (snd p) (fst q) (snd q).
Proof.
  intros H. apply (line_in a P) in H. destruct H as (_ & t & _ & H). apply (track_line a P) in H. cbv zeta in H. destruct H as (_ & _ & c & _ & _ & E). set (lo := if vert d m then by0 _ else _) in E. set (hi := if vert d m then by1 _ else _) in E.
  symmetry in E. apply map_eq_app in E. destruct E as (l1 & l2 & E & _ & E2). destruct l2 as [|z [|z' l2]]; try discriminate. cbn [map] in E2. injection E2 as <- <- _.
  pose proof (adjacent_sorted d m lo hi) as S. rewrite E in S. apply sorted_between in S. destruct S as [L B]. rewrite <- E in B.
  assert (lo <= z /\ z' <= hi) as [Z1 Z2] by (split; eapply (proj1 (adjacent_in a P m lo hi _)); rewrite E; apply in_or_app; right; [now left|right; now left]).
  assert (forall w, z < w < z' -> ~ crosses d m w) as N by (intros w Hw C; apply (B w); [apply (adjacent_in a P); split; [exact C|lia]|exact Hw]).
  unfold follows, place. destruct (vert d m); cbn [fst snd]; auto.
Qed.
(** Node S u comes after node u on its line. *)
Definition after (u v : nat) : Prop := exists L1 m p1 p q p2 L2, all_lines a = L1 ++ (m, p1 ++ p :: q :: p2) :: L2 /\ u = (total L1 + length p1)%nat /\ v = S u.
Lemma after_sides u n : nth_error (Grid a) u = Some n -> let vt := vert d (metal n) in
  (forall v, In v (AStar.north n) <-> vt = true /\ after u v) /\ (forall v, In v (AStar.south n) <-> vt = true /\ after v u) /\
  (forall v, In v (AStar.east n) <-> vt = false /\ after u v) /\ (forall v, In v (AStar.west n) <-> vt = false /\ after v u).
Proof.
  intros H. destruct (grid_node u n H) as (L1 & m & p1 & p & p2 & L2 & E & Eu & Em & _ & _ & _ & _ & _ & En & Es & Ee & Ew). rewrite En, Es, Ee, Ew, Em. cbv zeta.
  assert (forall v, In v (if is_nil p2 then [] else [S u]) <-> after u v) as A1.
  { intros v. destruct p2 as [|q p2]; cbn.
    - split; [intros []|]. intros (M1 & m' & q1 & x & y & q2 & M2 & F & Fu & ->). exfalso. pose proof (build_nth a M1 m' (q1 ++ [x]) y q2 M2 0) as X. rewrite <- app_assoc in X. cbn [app] in X. rewrite <- F, E in X. rewrite app_length in X. cbn [length] in X.
      pose proof (build_nth a L1 m p1 p [] L2 0) as Y. rewrite <- E, F in Y. pose proof (build_nth a M1 m' q1 x (y :: q2) M2 0) as Z. replace (total L1 + length p1)%nat with (total M1 + length q1)%nat in Y by lia. rewrite Y in Z. unfold node_of in Z. clear - Z. cbn [is_nil] in Z. destruct (vert d m); destruct (vert d m'); cbn in Z; discriminate.
    - split; [intros [<-|[]]; exists L1, m, p1, p, q, p2, L2; auto|]. intros (_ & _ & _ & _ & _ & _ & _ & _ & _ & ->). now left. }
  assert (forall v, In v (if is_nil p1 then [] else [(u - 1)%nat]) <-> after v u) as A2.
  { intros v. destruct (is_nil p1) eqn:Ep.
    - destruct p1; [|discriminate]. split; [intros []|]. intros (M1 & m' & q1 & x & y & q2 & M2 & F & Fv & Fu). exfalso.
      pose proof (build_nth a L1 m [] p p2 L2 0) as Y. rewrite <- E, F in Y. pose proof (build_nth a M1 m' (q1 ++ [x]) y q2 M2 0) as Z. rewrite <- app_assoc in Z. cbn [app] in Z. rewrite app_length in Z. cbn [length] in *. replace (total M1 + (length q1 + 1))%nat with (total L1 + 0)%nat in Z by lia. rewrite Y in Z.
      unfold node_of in Z. clear - Z. replace (is_nil (q1 ++ [x])) with false in Z by (now destruct q1). cbn [is_nil] in Z. destruct (vert d m); destruct (vert d m'); cbn in Z; discriminate.
    - assert (p1 <> []) as N by (now destruct p1). destruct (exists_last N) as (p0 & q & ->). rewrite app_length in Eu. cbn [length] in Eu. split.
      + intros [<-|[]]. exists L1, m, p0, q, p, p2, L2. rewrite <- app_assoc in E. split; [exact E|]. split; lia.
      + intros (M1 & m' & q1 & x & y & q2 & M2 & _ & _ & Fu). left. lia. }
  unfold node_of. destruct (vert d m); cbn [AStar.north AStar.south AStar.east AStar.west In]; setoid_rewrite A1; setoid_rewrite A2; repeat split; intuition congruence.
Qed.
Lemma after_nodes u v : after u v -> exists n n', nth_error (Grid a) u = Some n /\ nth_error (Grid a) v = Some n' /\ metal n' = metal n /\ v = S u /\ (proper a -> follows d (metal n) (vx n) (vy n) (vx n') (vy n')).
Proof.
  intros (L1 & m & p1 & p & q & p2 & L2 & E & -> & ->). destruct (node_grid L1 m p1 p (q :: p2) L2 E) as (n & H & Hm & Hx & Hy & _). pose proof E as E'. replace (p1 ++ p :: q :: p2) with ((p1 ++ [p]) ++ q :: p2) in E' by (now rewrite <- app_assoc).
  destruct (node_grid L1 m (p1 ++ [p]) q p2 L2 E') as (n' & H' & Hm' & Hx' & Hy' & _). rewrite app_length in H'. cbn [length] in H'. replace (total L1 + (length p1 + 1))%nat with (S (total L1 + length p1)) in H' by lia.
  exists n, n'. split; [exact H|]. split; [exact H'|]. split; [congruence|]. split; [reflexivity|]. intros P. rewrite Hm, Hx, Hy, Hx', Hy'. apply (next_follows P m p1 p q p2). rewrite E. apply in_or_app. right. now left.
Qed.
End Use.

(** *** Point lists *)
Lemma listed_ok pl v : listed pl v = true <-> In (vx v, vy v) (pl (metal v)).
Proof.
  unfold listed. rewrite existsb_exists. split.
  - intros ([x y] & H & E). cbn in E. apply andb_prop in E. destruct E as [E1 E2]. apply Z.eqb_eq in E1, E2. now subst.
  - intros H. exists (vx v, vy v). split; [exact H|]. cbn. now rewrite !Z.eqb_refl.
Qed.
Lemma edit_one vs e u w : nth_error (apply_edit vs e) u = Some w -> exists v, nth_error vs u = Some v /\ fixed v w /\
  active w = (match e with Block pl => if listed pl v then false else active v | Open pl => if listed pl v then true else active v | NoVia _ _ => active v end) /\
  via_up w = (match e with NoVia pl true => if listed pl v then false else via_up v | _ => via_up v end) /\
  via_down w = (match e with NoVia pl false => if listed pl v then false else via_down v | _ => via_down v end).
Proof.
  intros H. destruct e as [pl|pl|pl b]; cbn [apply_edit] in H; unfold InactivePointlist, ActivePointlist, InactivePointlist_via in H; rewrite nth_error_map in H; (destruct (nth_error vs u) as [v|]; [|discriminate]); cbn in H; injection H as <-; exists v; (split; [reflexivity|]); unfold fixed;
    destruct (listed pl v); try destruct b; cbn; repeat split.
Qed.
Lemma edit_all vs es : forall u w, nth_error (edited es vs) u = Some w -> exists v, nth_error vs u = Some v /\ fixed v w /\
  (active v = true -> (active w = false <-> blocked es (metal v) (vx v) (vy v))) /\
  (via_up v = true -> (via_up w = false <-> no_via es true (metal v) (vx v) (vy v))) /\ (via_down v = true -> (via_down w = false <-> no_via es false (metal v) (vx v) (vy v))).
Proof.
  induction es as [|e es IH] using rev_ind; intros u w H.
  - exists w. split; [exact H|]. split; [unfold fixed; repeat split|]. split; [|split]; intros E; rewrite E; (split; [discriminate|]).
    + intros (l1 & pl & l2 & X & _). destruct l1; discriminate.
    + intros (pl & [] & _).
    + intros (pl & [] & _).
  - unfold edited in H. rewrite fold_left_app in H. cbn [fold_left] in H. destruct (edit_one _ _ _ _ H) as (w0 & H0 & F & Ea & Eu & Ed). destruct (IH u w0 H0) as (v & Hv & F0 & Ia & Iu & Id). clear IH H H0.
    exists v. split; [exact Hv|]. unfold fixed in *. destruct F as (F1 & F2 & F3 & F4 & F5 & F6 & F7 & F8 & F9). destruct F0 as (G1 & G2 & G3 & G4 & G5 & G6 & G7 & G8 & G9). split; [repeat split; congruence|].
    assert (forall pl, listed pl w0 = true <-> In (vx v, vy v) (pl (metal v))) as Lp by (intros pl; rewrite listed_ok, G1, G2, G3; reflexivity).
    split; [|split]; intros E.
    + rewrite Ea. specialize (Ia E). assert (blocked (es ++ [e]) (metal v) (vx v) (vy v) <-> match e with Block pl => In (vx v, vy v) (pl (metal v)) \/ blocked es (metal v) (vx v) (vy v) | Open pl => ~ In (vx v, vy v) (pl (metal v)) /\ blocked es (metal v) (vx v) (vy v) | NoVia _ _ => blocked es (metal v) (vx v) (vy v) end) as B.
      { unfold blocked at 1. split.
        - intros (l1 & pl & l2 & X & Hi & Ho). destruct l2 as [|y l2] using rev_ind.
          + apply app_inj_tail in X. destruct X as [-> ->]. now left.
          + clear IHl2. rewrite app_comm_cons, app_assoc in X. apply app_inj_tail in X. destruct X as [-> ->]. assert (blocked (l1 ++ Block pl :: l2) (metal v) (vx v) (vy v)) as K by (exists l1, pl, l2; split; [reflexivity|]; split; [exact Hi|]; intros pl' Hp; apply Ho; apply in_or_app; now left).
            destruct y as [pl'|pl'|pl' b]; [now right|split; [|exact K]|exact K]. apply Ho. apply in_or_app. right. now left.
        - assert (blocked es (metal v) (vx v) (vy v) -> (forall pl, e = Open pl -> ~ In (vx v, vy v) (pl (metal v))) -> exists l1 pl l2, es ++ [e] = l1 ++ Block pl :: l2 /\ In (vx v, vy v) (pl (metal v)) /\ forall pl', In (Open pl') l2 -> ~ In (vx v, vy v) (pl' (metal v))) as K.
          { intros (l1 & pl & l2 & -> & Hi & Ho) He. exists l1, pl, (l2 ++ [e]). split; [now rewrite <- app_assoc|]. split; [exact Hi|]. intros pl' Hp. apply in_app_or in Hp. destruct Hp as [Hp|[Hp|[]]]; [now apply Ho|now apply He]. }
          destruct e as [pl|pl|pl b].
          + intros [Hi|Hb]; [exists es, pl, []; split; [reflexivity|]; split; [exact Hi|intros pl' []]|]. apply K; [exact Hb|discriminate].
          + intros [Hn Hb]. apply K; [exact Hb|]. intros pl' X. now injection X as <-.
          + intros Hb. apply K; [exact Hb|discriminate]. }
      rewrite B. destruct e as [pl|pl|pl b]; [| |exact Ia]; specialize (Lp pl); destruct (listed pl w0); [intuition|rewrite Ia; intuition congruence|intuition congruence|rewrite Ia; intuition congruence].
    + rewrite Eu. specialize (Iu E). unfold no_via in *. setoid_rewrite in_app_iff. destruct e as [pl|pl|pl b]; [rewrite Iu; split; [intros (q & X & Y); eauto|intros (q & [X|[X|[]]] & Y); [eauto|discriminate]]|rewrite Iu; split; [intros (q & X & Y); eauto|intros (q & [X|[X|[]]] & Y); [eauto|discriminate]]|].
      specialize (Lp pl). destruct b; [|rewrite Iu; split; [intros (q & X & Y); eauto|intros (q & [X|[X|[]]] & Y); [eauto|discriminate]]]. destruct (listed pl w0).
      * split; [intros _; exists pl; split; [right; now left|now apply Lp]|reflexivity].
      * rewrite Iu. split; [intros (q & X & Y); eauto|]. intros (q & [X|[X|[]]] & Y); [eauto|]. injection X as <-. apply Lp in Y. discriminate.
    + rewrite Ed. specialize (Id E). unfold no_via in *. setoid_rewrite in_app_iff. destruct e as [pl|pl|pl b]; [rewrite Id; split; [intros (q & X & Y); eauto|intros (q & [X|[X|[]]] & Y); [eauto|discriminate]]|rewrite Id; split; [intros (q & X & Y); eauto|intros (q & [X|[X|[]]] & Y); [eauto|discriminate]]|].
      specialize (Lp pl). destruct b; [rewrite Id; split; [intros (q & X & Y); eauto|intros (q & [X|[X|[]]] & Y); [eauto|discriminate]]|]. destruct (listed pl w0).
      * split; [intros _; exists pl; split; [right; now left|now apply Lp]|reflexivity].
      * rewrite Id. split; [intros (q & X & Y); eauto|]. intros (q & [X|[X|[]]] & Y); [eauto|]. injection X as <-. apply Lp in Y. discriminate.
Qed.
Lemma edit_len es : forall vs, length (edited es vs) = length vs.
Proof. induction es as [|e es IH]; intros vs; [reflexivity|]. cbn. unfold edited in IH. rewrite IH. destruct e; cbn; apply map_length. Qed.

(** *** The grid of the search *)
Lemma edited_wf a es j : g j = edited es (Grid a) -> (forall m, horizontal (t j) m = negb (vert (dr a) m)) -> (forall u, In u (source j) -> (u < size j)%nat) -> wf j.
Proof.
  intros Eg Eh Es.
  assert (forall u, (u < size j)%nat -> exists v, nth_error (Grid a) u = Some v /\ fixed v (at_ j u)) as K.
  { intros u Hu. unfold size, at_ in *. rewrite Eg in *. destruct (nth_error (edited es (Grid a)) u) as [w|] eqn:E; [|apply nth_error_None in E; lia]. destruct (edit_all _ _ _ _ E) as (v & Hv & F & _). exists v. split; [exact Hv|]. now rewrite (nth_of _ _ _ E). }
  assert (forall u v, nth_error (Grid a) u = Some v -> (u < size j)%nat) as R by (intros u v H; unfold size; rewrite Eg, edit_len; apply nth_error_Some; congruence).
  assert (forall u v, nth_error (Grid a) u = Some v -> fixed v (at_ j u)) as K' by (intros u v H; destruct (K u (R u v H)) as (v' & H' & F); congruence).
  assert (forall u m x y, sits (Grid a) u m x y -> (u < size j)%nat /\ metal (at_ j u) = m /\ vx (at_ j u) = x /\ vy (at_ j u) = y) as Q.
  { intros u m x y (v & H & <- & <- & <-). split; [now apply (R u v)|]. destruct (K' u v H) as (-> & -> & -> & _). auto. }
  constructor.
  - intros u v Hu Hv. destruct (K u Hu) as (n & Hn & Fx & Fy & Fm & Fn & Fs & Fe & Fw & _). unfold sides in Hv. rewrite Fn, Fs, Fe, Fw in Hv. rewrite grid_nth in Hn. destruct (nth_error (vertices a) u) as [n0|] eqn:E0; [|discriminate]. cbn in Hn. injection Hn as <-. cbn in Fx, Fy, Fm, Hv.
    rewrite vertices_ok in E0. pose proof (build_sides a (all_lines a) u n0 v (all_ordered a) E0 Hv) as (n' & [(H1 & H2 & H3 & H4 & _)|(H1 & H2 & H3 & H4 & _)]); rewrite <- vertices_ok in H1;
      (assert (sits (Grid a) v (metal n0) (vx n') (vy n')) as S by (apply grid_sits; exists n'; auto)); apply Q in S; destruct S as (S1 & S2 & S3 & S4); (split; [exact S1|]); rewrite S2, S3, S4, Fx, Fy, Fm, Eh; (split; [reflexivity|]);
      unfold step in H3; cbn [fst snd] in H3; destruct (vert (dr a) (metal n0)); cbn [negb]; lia.
  - intros u v Hu Hv. destruct (K u Hu) as (n & Hn & Fx & Fy & Fm & _ & _ & _ & _ & Fu & _). rewrite Fu in Hv. apply (grid_up a u n Hn) in Hv. destruct Hv as (_ & S & _). apply Q in S. rewrite Fx, Fy, Fm. tauto.
  - intros u v Hu Hv. destruct (K u Hu) as (n & Hn & Fx & Fy & Fm & _ & _ & _ & _ & _ & Fd). rewrite Fd in Hv. apply (grid_down a u n Hn) in Hv. destruct Hv as ((w & Hw & Eu) & _). apply (grid_up a v w Hw) in Eu. destruct Eu as (_ & S & _).
    apply Q in S. destruct S as (_ & S2 & S3 & S4). destruct (K' v w Hw) as (W1 & W2 & W3 & _). split; [now apply (R v w)|]. lia.
  - exact Es.
Qed.
Lemma up_down a (S1 : single (Grid a)) u v n n' : nth_error (Grid a) u = Some n -> nth_error (Grid a) v = Some n' -> (AStar.up n = Some v <-> AStar.down n' = Some u).
Proof.
  intros H H'. rewrite (grid_down a v n' H' u). split.
  - intros E. split; [eauto|]. intros k w Hk Hw E'. apply (grid_up a u n H) in E. apply (grid_up a k w Hw) in E'. destruct E as (_ & (q & Hq & A1 & A2 & A3) & _). destruct E' as (_ & (q' & Hq' & B1 & B2 & B3) & _). rewrite Hq in Hq'. injection Hq' as <-.
    assert (u = k) as X; [|lia]. apply (S1 u k (metal n) (vx n) (vy n)); [exists n; auto|exists w; split; [exact Hw|]; lia].
  - intros ((w & Hw & E) & _). congruence.
Qed.
