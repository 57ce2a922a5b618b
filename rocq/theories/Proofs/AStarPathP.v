(** What a chain means for the path, its labels and its lines; completeness. *)
From Coq Require Import ZArith QArith Lqa ZifyBool.
From Verif Require Import Base.Prelude Model.AStar Spec.AStarSpec Proofs.AStarP Proofs.AStarRunP.
Local Open Scope Z_scope.

Section Path.
Variable j : job.
Hypothesis W : wf j.
Notation N := (size j).
Notation src := (source j).
Notation chain := (chain j).

Lemma chain_suffix par x : forall y, y <> [] -> chain par (x ++ y) -> chain par y.
Proof. induction x as [|a x IH]; intros y Hy C; [exact C|]. apply IH; [exact Hy|]. apply (chain_tail j par a); [|exact C]. destruct x; [exact Hy|discriminate]. Qed.
Lemma rev_split (p : list nat) a b : rev p = a ++ b -> p = rev b ++ rev a.
Proof. intros E. rewrite <- (rev_involutive p), E. apply rev_app_distr. Qed.
Lemma chain_at par l a u v b : chain par l -> rev l = a ++ u :: v :: b -> chain par (v :: u :: rev a).
Proof.
  intros C E. apply rev_split in E. cbn [rev] in E. rewrite <- !app_assoc in E. cbn [app] in E. rewrite E in C. apply chain_suffix in C; [exact C|discriminate].
Qed.
Lemma chain_route par u r : chain par (u :: r) -> In u (dest j) -> route j (rev (u :: r)).
Proof.
  intros C Hd. constructor.
  - destruct (rev (u :: r)) as [|w q] eqn:E; [apply (f_equal (@length nat)) in E; rewrite rev_length in E; discriminate|]. exists w. split; [reflexivity|].
    assert (u :: r = rev q ++ [w]) as E' by (rewrite <- (rev_involutive (u :: r)), E; reflexivity). now apply (chain_sources j _ _ C (rev q) w [] E').
  - rewrite rev_involutive. exists u. auto.
  - intros a x y b E. pose proof (chain_at par _ a x y b C E) as C'. inversion C' as [|? ? ? Cx H1 H2 H3 H4 H5 H6]; subst. apply (link_next j W x y).
    + apply (chain_lt j W par _ C'). right. now left.
    + split; [exact H5|]. unfold can_go in H6. cbn [hd] in H6. apply andb_prop in H6. tauto.
  - apply (Permutation_NoDup (Permutation_rev (u :: r)) (chain_nodup j _ _ C)).
  - intros a x y b E. pose proof (chain_at par _ a x y b C E) as C'. inversion C' as [|? ? ? Cx H1 H2 H3 H4 H5 H6]; subst. auto.
Qed.

Lemma start_eq u w r : start_of j (u :: w :: r) = if metal (at_ j w) =? metal (at_ j u) then start_of j (w :: r) else u.
Proof. reflexivity. Qed.
Lemma before_eq u w r : before_of j (u :: w :: r) = if metal (at_ j w) =? metal (at_ j u) then before_of j (w :: r) else Some w.
Proof. reflexivity. Qed.
Lemma start_run q z m : metal (at_ j q) <> m -> forall r, r <> [] -> (forall w, In w r -> metal (at_ j w) = m) ->
  start_of j (r ++ q :: z) = last r O /\ before_of j (r ++ q :: z) = Some q.
Proof.
  intros Hq. induction r as [|a r IH]; [congruence|]. intros _ Hm. destruct r as [|b r].
  - cbn. rewrite (Hm a (or_introl eq_refl)). replace (metal (at_ j q) =? m) with false by lia. auto.
  - cbn [app] in *. change (last (a :: b :: r) O) with (last (b :: r) O). rewrite start_eq, before_eq. rewrite (Hm a (or_introl eq_refl)), (Hm b (or_intror (or_introl eq_refl))), Z.eqb_refl. apply IH; [discriminate|]. intros; apply Hm. now right.
Qed.
Lemma last_rev (r : list nat) : last (rev r) O = hd O r.
Proof. destruct r; [reflexivity|]. cbn [rev hd]. apply last_last. Qed.
Lemma hd_rev (r : list nat) : hd O (rev r) = last r O.
Proof. rewrite <- (rev_involutive r) at 2. symmetry. apply last_rev. Qed.
Lemma chain_stretch par l a q r v b m : chain par l -> rev l = a ++ q :: r ++ v :: b -> r <> [] -> (forall w, In w r -> metal (at_ j w) = m) -> metal (at_ j q) <> m -> metal (at_ j v) <> m ->
  let x := hd O r in let y := last r O in
  (metal (at_ j q) = metal (at_ j v) -> two_vias j m (metal (at_ j v)) <= dist j y x) /\
  (minL (t j) m <= dist j y x \/ extendable j x y (dist j y x) (minL (t j) m) = true).
Proof.
  intros C E Hr Hm Hq Hv x y. apply rev_split in E. cbn [rev] in E. rewrite rev_app_distr in E. cbn [rev] in E. rewrite <- !app_assoc in E. cbn [app] in E. rewrite E in C. apply chain_suffix in C; [|discriminate].
  assert (forall w, In w (rev r) -> metal (at_ j w) = m) as Hm' by (intros w Hw; apply Hm; now apply in_rev).
  assert (rev r <> []) as Hr' by (intros H; apply Hr; apply (f_equal (@rev nat)) in H; now rewrite rev_involutive in H).
  destruct (start_run q (rev a) m Hq (rev r) Hr' Hm') as [S1 S2]. rewrite last_rev in S1. fold x in S1.
  assert (hd O (rev r ++ q :: rev a) = y) as Hh. { transitivity (hd O (rev r)); [now destruct (rev r)|apply hd_rev]. }
  assert (metal (at_ j y) = m) as My. { apply Hm'. rewrite <- Hh. destruct (rev r); [congruence|now left]. }
  assert (~ In x src) as Hx.
  { assert (chain par (rev r ++ q :: rev a)) as C' by (apply (chain_tail j par v); [destruct (rev r); discriminate|exact C]).
    assert (rev r = removelast (rev r) ++ [x]) as Ex. { rewrite (app_removelast_last O Hr') at 1. now rewrite last_rev. }
    rewrite Ex in C'. rewrite <- app_assoc in C'. cbn [app] in C'. intros H. apply (chain_sources j _ _ C' (removelast (rev r)) x (q :: rev a) eq_refl) in H. discriminate. }
  assert (ext j (rev r ++ q :: rev a) v = true) as Ex.
  { destruct (rev r ++ q :: rev a) as [|w z] eqn:Ew; [destruct (rev r); discriminate|]. inversion C as [|? ? ? Cx H1 H2 H3 H4 H5 H6]; subst. unfold can_go in H6. apply andb_prop in H6. destruct H6 as [_ H6]. apply orb_prop in H6. destruct H6 as [H6|H6]; [|exact H6]. exfalso. apply Z.eqb_eq in H6. cbn [hd] in *. congruence. }
  unfold ext in Ex. rewrite S1, S2, Hh, My in Ex. apply mem_not in Hx. rewrite Hx in Ex. unfold via_space in Ex. rewrite My in Ex. fold (two_vias j m (metal (at_ j v))) in Ex.
  set (len := dist j y x) in *. destruct (metal (at_ j q) =? metal (at_ j v)) eqn:Eqv.
  - destruct ((len - minL (t j) m <? 0) && (two_vias j m (metal (at_ j v)) <=? len)) eqn:Eb; [split; [lia|now right]|]. lia.
  - split; [lia|]. pose proof (dist_nonneg j y x). fold len in H. destruct ((len - minL (t j) m <? 0) && (0 <=? len)) eqn:Eb; [now right|]. left. lia.
Qed.

(** *** Room to extend. *)
Lemma reach_room dir from need f : forall i dummy len, Z.of_nat dummy = Z.of_nat from + dir * Z.of_nat i ->
  (forall k, (0 < k <= i)%nat -> let n := Z.of_nat from + dir * Z.of_nat k in 0 <= n < Z.of_nat N /\ let w := at_ j (Z.to_nat n) in active w = true /\ metal w = metal (at_ j from) /\ (vx w = vx (at_ j from) \/ vy w = vy (at_ j from))) ->
  (i = O /\ len = 0 \/ (0 < i)%nat /\ len = dist j dummy from) -> reach f j dir from need dummy len = true -> room j dir from need.
Proof.
  induction f as [|f IH]; intros i dummy len Ed Hk Hl H.
  - cbn [reach] in H. destruct (need <=? len) eqn:Hn; [|discriminate]. destruct Hl as [[-> ->]|[Hi ->]]; [left; lia|]. right. exists i. split; [exact Hi|]. split; [exact Hk|]. rewrite <- Ed, Nat2Z.id. lia.
  - cbn [reach] in H. destruct (need <=? len) eqn:Hn.
    + destruct Hl as [[-> ->]|[Hi ->]]; [left; lia|]. right. exists i. split; [exact Hi|]. split; [exact Hk|]. rewrite <- Ed, Nat2Z.id. lia.
    + destruct ((Z.of_nat dummy + dir <? 0) || (Z.of_nat (length (g j)) <=? Z.of_nat dummy + dir)) eqn:Hb; [discriminate|].
      set (k := Z.to_nat (Z.of_nat dummy + dir)) in *. destruct (active (at_ j k)) eqn:Ha; [|discriminate]. cbn [negb] in H.
      destruct ((negb (vx (at_ j k) =? vx (at_ j from)) && negb (vy (at_ j k) =? vy (at_ j from))) || negb (metal (at_ j k) =? metal (at_ j from))) eqn:Hx; [discriminate|].
      assert (Z.of_nat from + dir * Z.of_nat (S i) = Z.of_nat dummy + dir) as En by lia.
      apply (IH (S i) k (dist j k from)) in H; [exact H|lia| |right; split; [lia|reflexivity]].
      intros n Hn'. destruct (Nat.eq_dec n (S i)) as [->|Hne]; [|apply Hk; lia]. cbv zeta. rewrite En. fold k. unfold size. split; [lia|]. split; [exact Ha|]. lia.
Qed.
Lemma reaches_room dir from need : reaches j dir from need = true -> room j dir from need.
Proof. intros H. unfold reaches in H. apply (reach_room dir from need _ O from 0) in H; [exact H|lia|lia|now left]. Qed.
Lemma extendable_can a b len m : extendable j a b len m = true -> can_extend j a b (m - len).
Proof.
  unfold extendable, can_extend, half, head_extend, tail_extend. change (dir_first a b) with (back a b). intros H. apply orb_prop in H. destruct H as [H|H]; [apply orb_prop in H; destruct H as [H|H]|].
  - left. apply andb_prop in H. destruct H as [H1 H2]. exists (half_up (m - len)). split; [|split; now apply reaches_room]. unfold half_up. pose proof (Z.mul_div_le (- (m - len)) 2 ltac:(lia)). lia.
  - right. left. now apply reaches_room.
  - right. right. now apply reaches_room.
Qed.
Lemma chain_spaced par l : chain par l -> spaced j (rev l).
Proof.
  intros C a q r v b E Hr m Hm Hq Hv x y. destruct (chain_stretch par l a q r v b m C E Hr Hm Hq Hv) as [H1 H2]. fold x y in H1, H2. split; [exact H1|]. destruct H2 as [H2|H2]; [now left|right]. now apply extendable_can.
Qed.

(** *** Stretches, labels and lines. *)
Fixpoint runs (l : list nat) : list (list nat) :=
  match l with
  | [] => []
  | u :: r => match runs r with [] => [[u]] | q :: rs => if metal (at_ j u) =? metal (at_ j (hd O q)) then (u :: q) :: rs else [u] :: q :: rs end
  end.
Lemma runs_some l r : In r (runs l) -> r <> [].
Proof.
  revert r. induction l as [|u l IH]; intros r H; [destruct H|]. cbn [runs] in H. destruct (runs l) as [|q rs]; [destruct H as [<-|[]]; discriminate|].
  destruct (_ =? _); destruct H as [<-|H]; try discriminate; apply IH; [now right|exact H].
Qed.
Lemma runs_concat l : concat (runs l) = l.
Proof. induction l as [|u l IH]; [reflexivity|]. cbn [runs]. destruct (runs l) as [|q rs] eqn:E; [cbn in *; now rewrite <- IH|]. destruct (_ =? _); cbn in *; now rewrite IH. Qed.
Lemma runs_hd u l : exists r rs, runs (u :: l) = (u :: r) :: rs.
Proof. cbn [runs]. destruct (runs l) as [|q rs]; [eauto|]. destruct (_ =? _); eauto. Qed.
Lemma runs_parts l : parts j l (runs l).
Proof.
  constructor; [apply runs_concat|apply runs_some| |].
  - induction l as [|u l IH]; intros r w Hr Hw; [destruct Hr|]. cbn [runs] in Hr. destruct (runs l) as [|q rs] eqn:E; [destruct Hr as [<-|[]]; destruct Hw as [<-|[]]; reflexivity|].
    destruct (metal (at_ j u) =? metal (at_ j (hd O q))) eqn:Em; destruct Hr as [<-|Hr].
    + cbn [hd]. destruct Hw as [<-|Hw]; [reflexivity|]. rewrite (IH q w (or_introl eq_refl) Hw). lia.
    + apply IH; [now right|exact Hw].
    + destruct Hw as [<-|[]]. reflexivity.
    + now apply IH.
  - induction l as [|u l IH]; intros a r r' b E; [destruct a; discriminate|]. cbn [runs] in E. destruct (runs l) as [|q rs] eqn:Er; [destruct a as [|? [|? ?]]; discriminate|].
    destruct (metal (at_ j u) =? metal (at_ j (hd O q))) eqn:Em.
    + destruct a as [|a0 a]; [|injection E as _ E; apply (IH (q :: a) r r' b); cbn; now rewrite E]. injection E as <- E. subst rs. specialize (IH [] q r' b eq_refl). cbn [hd]. lia.
    + destruct a as [|a0 a]; [|injection E as _ E; apply (IH a r r' b); exact E]. injection E as <- <- E. cbn [hd]. lia.
Qed.
Definition ends_of (r : list nat) : nat * nat := (hd O r, last r O).
Lemma stretches_from_ok l : forall a b, metal (at_ j b) = metal (at_ j a) ->
  exists r rs, runs (b :: l) = r :: rs /\ stretches_from j a b l = (a, last r O) :: map ends_of rs.
Proof.
  induction l as [|v l IH]; intros a b Hm.
  - exists [b], []. auto.
  - cbn [stretches_from]. destruct (runs_hd v l) as (r & rs & E). change (runs (b :: v :: l)) with (match runs (v :: l) with [] => [[b]] | q :: rs => if metal (at_ j b) =? metal (at_ j (hd O q)) then (b :: q) :: rs else [b] :: q :: rs end).
    destruct (metal (at_ j v) =? metal (at_ j a)) eqn:Ev.
    + destruct (IH a v ltac:(lia)) as (r1 & rs1 & E1 & E2). rewrite E in E1. injection E1 as <- <-. rewrite E. cbn [hd]. replace (metal (at_ j b) =? metal (at_ j v)) with true by lia. eexists _, _. split; [reflexivity|]. exact E2.
    + destruct (IH v v eq_refl) as (r1 & rs1 & E1 & E2). rewrite E in E1. injection E1 as <- <-. rewrite E. cbn [hd]. replace (metal (at_ j b) =? metal (at_ j v)) with false by lia. eexists _, _. split; [reflexivity|]. rewrite E2. reflexivity.
Qed.
Lemma stretches_ok l : stretches j l = map ends_of (runs l).
Proof.
  destruct l as [|u l]; [reflexivity|]. cbn [stretches]. destruct (stretches_from_ok l u u eq_refl) as (r & rs & E & E2). rewrite E, E2. cbn [map]. f_equal. unfold ends_of. f_equal.
  destruct (runs_hd u l) as (r' & rs' & E'). rewrite E in E'. injection E' as -> _. reflexivity.
Qed.
Lemma physical_from_ok l : (physical_from j None l = map (line_of j) (runs l)) /\
  (forall m x y, match runs l with [] => True | r :: rs => m = metal (at_ j (hd O r)) -> physical_from j (Some (m, (x, y))) l = Line m x y (vx (at_ j (last r O))) (vy (at_ j (last r O))) :: map (line_of j) rs end).
Proof.
  induction l as [|u l [IH1 IH2]]; [split; [reflexivity|intros; exact I]|]. destruct l as [|v l].
  - cbn. split; [reflexivity|]. intros; subst; reflexivity.
  - destruct (runs_hd v l) as (r & rs & E). change (runs (u :: v :: l)) with (match runs (v :: l) with [] => [[u]] | q :: rs => if metal (at_ j u) =? metal (at_ j (hd O q)) then (u :: q) :: rs else [u] :: q :: rs end).
    rewrite E in *. cbn [hd] in *.
    assert (forall o, physical_from j o (u :: v :: l) = let '(m, (x, y)) := open_at j o u in if metal (at_ j u) =? metal (at_ j v) then physical_from j (Some (m, (x, y))) (v :: l) else Line m x y (vx (at_ j u)) (vy (at_ j u)) :: physical_from j None (v :: l)) as St.
    { intros o. cbn [physical_from]. destruct (open_at j o u) as [m [x y]]. reflexivity. }
    rewrite St. cbn [open_at]. destruct (metal (at_ j u) =? metal (at_ j v)) eqn:Em.
    + split; [|].
      * rewrite (IH2 (metal (at_ j u)) (vx (at_ j u)) (vy (at_ j u))) by lia. reflexivity.
      * intros m x y Hm. cbn [hd] in Hm. rewrite St. cbn [open_at]. try rewrite Em. rewrite (IH2 m x y) by lia. reflexivity.
    + split; [rewrite IH1; reflexivity|]. intros m x y Hm. cbn [hd] in Hm. rewrite St. cbn [open_at]. try rewrite Em. rewrite IH1. reflexivity.
Qed.
Lemma physical_ok l : physical j l = map (line_of j) (runs l).
Proof. apply physical_from_ok. Qed.
Lemma labels_len l : length (labels j l) = length (physical j l).
Proof. unfold labels. rewrite map_length, combine_length, seq_length, Nat.min_id, stretches_ok, physical_ok, !map_length. reflexivity. Qed.
(** An inner stretch with the nodes before and after it. *)
Lemma inner_split p a r b : runs p = a ++ r :: b -> a <> [] -> b <> [] -> exists x q v y, p = x ++ q :: r ++ v :: y /\ metal (at_ j q) <> metal (at_ j (hd O r)) /\ metal (at_ j v) <> metal (at_ j (hd O r)).
Proof.
  intros E Ha Hb. pose proof (runs_parts p) as [P1 P2 P3 P4]. rewrite E in *.
  destruct b as [|r2 b]; [congruence|]. destruct (exists_last Ha) as (a' & r0 & ->).
  assert (r0 <> []) as N0 by (apply P2; apply in_or_app; left; apply in_or_app; right; now left).
  assert (r2 <> []) as N2 by (apply P2; apply in_or_app; right; right; now left).
  destruct (exists_last N0) as (x & q & E0). destruct r2 as [|v y]; [congruence|].
  exists (concat a' ++ x), q, v, (y ++ concat b). split; [|split].
  - rewrite <- P1. rewrite !concat_app. cbn [concat]. rewrite E0, app_nil_r. repeat (rewrite <- app_assoc || cbn [app]). reflexivity.
  - assert (metal (at_ j q) = metal (at_ j (hd O r0))) as Eq. { apply P3; [apply in_or_app; left; apply in_or_app; right; now left|rewrite E0; apply in_or_app; right; now left]. }
    rewrite Eq. apply (P4 a' r0 r ((v :: y) :: b)). rewrite <- app_assoc. reflexivity.
  - intros H. apply (P4 (a' ++ [r0]) r (v :: y) b eq_refl). now rewrite <- H.
Qed.
Lemma chain_labels par l z : chain par l -> In z (labels j (rev l)) -> 0 <= z <= 3.
Proof.
  intros C H. unfold labels in H. rewrite stretches_ok in H. apply in_map_iff in H. destruct H as ([i [a b]] & <- & H). cbn [fst snd].
  destruct ((i =? 0)%nat || (i =? length (map ends_of (runs (rev l))) - 1)%nat) eqn:Ei; [lia|].
  assert (nth_error (map ends_of (runs (rev l))) i = Some (a, b)) as Hn.
  { clear Ei. assert (forall (q : list (nat * nat)) n, In (i, (a, b)) (combine (seq n (length q)) q) -> nth_error q (i - n) = Some (a, b) /\ (n <= i)%nat) as K.
    { induction q as [|x q IH]; intros n Hq; [destruct Hq|]. cbn [length seq combine] in Hq. destruct Hq as [Hq|Hq]; [injection Hq as -> ->; rewrite Nat.sub_diag; auto|].
      destruct (IH (S n) Hq) as [K1 K2]. split; [|lia]. replace (i - n)%nat with (S (i - S n)) by lia. exact K1. }
    destruct (K _ _ H) as [K1 _]. now rewrite Nat.sub_0_r in K1. }
  rewrite nth_error_map in Hn. destruct (nth_error (runs (rev l)) i) as [r|] eqn:Er; [|discriminate]. cbn in Hn. injection Hn as <- <-.
  apply nth_error_split in Er. destruct Er as (x & y & E & Lx). rewrite map_length, E, app_length in Ei. cbn [length] in Ei.
  assert (x <> []) as Nx by (intros ->; cbn in Lx; lia). assert (y <> []) as Ny by (intros ->; cbn in Ei; lia).
  destruct (inner_split _ x r y E Nx Ny) as (x' & q & v & y' & Ep & M1 & M2).
  pose proof (runs_parts (rev l)) as [_ P2 P3 _]. assert (In r (runs (rev l))) as Ir by (rewrite E; apply in_or_app; right; now left).
  destruct (chain_stretch par l x' q r v y' _ C Ep (P2 r Ir) (fun w Hw => P3 r w Ir Hw) M1 M2) as [_ S2].
  unfold stretch_label. rewrite (dist_sym j (hd O r)). set (len := dist j (last r O) (hd O r)) in *. set (m := minL (t j) (metal (at_ j (hd O r)))) in *.
  destruct (m <=? len) eqn:Em; [lia|]. destruct S2 as [S2|S2]; [lia|]. unfold extendable in S2. destruct (half j _ _ len m); [lia|].
  assert (forall d, 0 <= side d <= 3) as Sd by (intros d; unfold side; destruct (_ =? _); lia).
  destruct (head_extend j _ _ len m); [apply Sd|]. destruct (tail_extend j _ _ len m); [apply Sd|]. discriminate.
Qed.
Lemma run_straight p r : (forall w, In w p -> (w < N)%nat) -> consecutive (next j) p -> In r (runs p) -> straight j (line_of j r).
Proof.
  intros Lt Cs Hr. pose proof (runs_parts p) as [P1 P2 P3 P4]. apply in_split in Hr. destruct Hr as (x & y & E).
  assert (In r (runs p)) as Ir by (rewrite E; apply in_or_app; right; now left).
  assert (p = concat x ++ r ++ concat y) as Ep by (rewrite <- P1, E, concat_app; reflexivity).
  assert (forall a, r = a -> a <> []) as Nr by (intros a <-; auto). unfold straight, line_of. cbn [l_metal l_x0 l_y0 l_x1 l_y1].
  set (m := metal (at_ j (hd O r))). assert (forall w, In w r -> metal (at_ j w) = m) as Hm by (intros w Hw; now apply P3).
  assert (forall s a z, p = z ++ a :: s ++ concat y -> (forall w, In w (a :: s) -> metal (at_ j w) = m) ->
     if horizontal (t j) m then vy (at_ j a) = vy (at_ j (last (a :: s) O)) else vx (at_ j a) = vx (at_ j (last (a :: s) O))) as K.
  { induction s as [|b s IH]; intros a z Ez Hs; [cbn; destruct (horizontal _ _); reflexivity|].
    change (last (a :: b :: s) O) with (last (b :: s) O). specialize (IH b (z ++ [a])). rewrite <- app_assoc in IH. specialize (IH Ez (fun w Hw => Hs w (or_intror Hw))).
    pose proof (Cs z a b (s ++ concat y) Ez) as (_ & _ & Hn).
    assert (a < N)%nat as La by (apply Lt; rewrite Ez; apply in_or_app; right; now left).
    pose proof (Hs a (or_introl eq_refl)) as Ma. pose proof (Hs b (or_intror (or_introl eq_refl))) as Mb.
    destruct Hn as [Hn|[(Hn & _)|(Hn & _)]].
    - destruct (w_side j W a b La Hn) as (_ & _ & H). rewrite Ma in H. destruct (horizontal (t j) m); destruct H as [H _]; congruence.
    - destruct (w_up j W a b La Hn) as (_ & H & _). lia.
    - destruct (w_down j W a b La Hn) as (_ & H & _). lia. }
  destruct r as [|a s]; [now destruct (Nr [] eq_refl)|]. cbn [hd] in *. specialize (K s a (concat x) Ep Hm). destruct (horizontal (t j) m); exact K.
Qed.
Lemma runs_meet p a r r' b : (forall w, In w p -> (w < N)%nat) -> consecutive (next j) p -> runs p = a ++ r :: r' :: b -> meet (line_of j r) (line_of j r').
Proof.
  intros Lt Cs E. pose proof (runs_parts p) as [P1 P2 P3 P4]. rewrite E in *.
  assert (r <> []) as N0 by (apply P2; apply in_or_app; right; now left). assert (r' <> []) as N2 by (apply P2; apply in_or_app; right; right; now left).
  pose proof (P4 a r r' b eq_refl) as Hd. destruct (exists_last N0) as (x & q & E0). destruct r' as [|v y]; [congruence|].
  assert (metal (at_ j q) = metal (at_ j (hd O r))) as Mq. { apply P3; [apply in_or_app; right; now left|rewrite E0; apply in_or_app; right; now left]. }
  assert (p = (concat a ++ x) ++ q :: v :: (y ++ concat b)) as Ep. { rewrite <- P1, concat_app. cbn [concat]. rewrite E0, <- !app_assoc. cbn. reflexivity. }
  pose proof (Cs _ _ _ _ Ep) as (_ & _ & Hn). assert (q < N)%nat as Lq by (apply Lt; rewrite Ep; apply in_or_app; right; now left).
  unfold meet, line_of. cbn [l_metal l_x0 l_y0 l_x1 l_y1 hd] in *. assert (last r O = q) as El by (rewrite E0; apply last_last). rewrite El.
  destruct Hn as [Hn|[(Hn & _)|(Hn & _)]].
  - destruct (w_side j W q v Lq Hn) as (_ & H & _). congruence.
  - destruct (w_up j W q v Lq Hn) as (_ & H1 & H2 & H3). lia.
  - destruct (w_down j W q v Lq Hn) as (_ & H1 & H2 & H3). lia.
Qed.

(** *** Completeness without rules on lengths and vias. *)
Lemma ext_free l v : free j -> ext j l v = true.
Proof.
  intros F. unfold ext. destruct (mem _ _); [reflexivity|]. set (len := dist j _ _). assert (0 <= len) by apply dist_nonneg. destruct (F (metal (at_ j (hd O l)))) as [Fm _].
  assert (via_space j (before_of j l) (hd O l) v <= 0) as Fs. { unfold via_space. destruct (before_of j l) as [p|]; [|lia]. destruct (_ =? _); [|lia]. destruct (horizontal _ _); apply F. }
  replace (len - minL (t j) (metal (at_ j (hd O l))) <? 0) with false by lia. cbn [andb]. lia.
Qed.
Lemma fails_complete s closed E p : free j -> inv j s [] closed E (fun _ _ => True) -> consecutive (next j) p ->
  (exists u, hd_error p = Some u /\ In u src) -> (exists v, hd_error (rev p) = Some v /\ In v (dest j)) -> False.
Proof.
  intros F I Cs (u & Hu & Su) (v & Hv & Dv).
  assert (forall w, cost s w <> None -> In w E) as AllE. { intros w Hw. destruct (i_done _ _ _ _ _ _ I w Hw) as [H|[]]. exact H. }
  assert (forall q a z, p = z ++ a :: q -> cost s a <> None -> forall w, In w (a :: q) -> cost s w <> None) as K.
  { induction q as [|b q IH]; intros a z Ez Ha w Hw; [destruct Hw as [<-|[]]; exact Ha|]. destruct Hw as [<-|Hw]; [exact Ha|].
    apply (IH b (z ++ [a])); [rewrite <- app_assoc; exact Ez| |exact Hw]. clear IH w Hw.
    destruct (i_chain _ _ _ _ _ _ I a Ha) as (r & C & Hr). pose proof (chain_lt j W _ _ C a (or_introl eq_refl)) as La.
    pose proof (Cs z a b q Ez) as Hn. apply (link_next j W a b La) in Hn. destruct Hn as [Hn Hl].
    destruct (in_dec Nat.eq_dec b closed) as [Hb|Hb]; [apply (i_closed _ _ _ _ _ _ I b Hb)|].
    destruct (i_better _ _ _ _ _ _ I a b Logic.I (AllE a Ha) r C Hn) as (cv & _ & _ & Ec & _); [|exact Hb|rewrite Ec; discriminate].
    unfold can_go. cbn [hd]. rewrite Hl, (ext_free _ _ F). now rewrite orb_true_r. }
  destruct p as [|u' q]; [discriminate|]. injection Hu as ->.
  assert (cost s v <> None) as Cv.
  { apply (K q u [] eq_refl); [apply (i_closed _ _ _ _ _ _ I); now apply (i_src _ _ _ _ _ _ I)|]. apply in_rev. destruct (rev (u :: q)); [discriminate|]. injection Hv as ->. now left. }
  apply (i_not _ _ _ _ _ _ I v (AllE v Cv) Dv).
Qed.
End Path.
