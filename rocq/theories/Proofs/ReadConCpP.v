From Coq Require Import String ZArith QArith Qround Lqa ZifyBool.
From Verif Require Import Base.Prelude Model.Transformation Model.SeqPair Model.ConstraintDB Model.Formulas Model.SeqEnum Model.SymmGroup
  Model.KeepOrder Model.SeqCheck Model.PlaceRows Model.ReadCon Spec.SeqEnumSpec Spec.SymmGroupSpec Spec.SeqCheckSpec Spec.PlaceRowsSpec
  Spec.ReadConSpec Proofs.SeqEnumP Proofs.SymmGroupP Proofs.PlaceRowsP Proofs.PlaceMainP Proofs.ReadConP.
Local Open Scope Z_scope.

(** * Partners come from the constraints *)
Lemma in_set_nth {A} (x y : A) k l : In x (set_nth k y l) -> x = y \/ In x l.
Proof.
  revert k. induction l as [|z l IH]; intros [|k]; cbn [set_nth In]; auto; intros [H|H]; auto. destruct (IH k H); auto.
Qed.
Lemma elems_in g x : In x (elems g) <-> match x with EPair p => In p (g_pairs g) | ESelf s => In s (g_self g) end.
Proof.
  unfold elems. rewrite in_app_iff, !in_map_iff. destruct x as [p|s].
  - split; [intros [(y & E & H)|(y & E & H)]; congruence|intros H; left; eauto].
  - split; [intros [(y & E & H)|(y & E & H)]; congruence|intros H; right; eauto].
Qed.
Lemma flat_iff sbs x : In x (flat sbs) <-> exists g, In g sbs /\ In x (elems g).
Proof. unfold flat. apply in_flat_map. Qed.
Lemma flat_absorb g sbs j x : In x (flat (absorb g sbs j)) -> In x (flat sbs).
Proof.
  unfold absorb. destruct (j =? g)%nat; [auto|]. destruct (nth_error sbs g) as [a|] eqn:Ea; [|auto]. destruct (nth_error sbs j) as [b|] eqn:Eb; [|auto].
  apply nth_error_In in Ea, Eb. rewrite !flat_iff. intros (u & Hu & Hx). apply in_set_nth in Hu. destruct Hu as [->|Hu]; [destruct Hx|].
  apply in_set_nth in Hu. destruct Hu as [->|Hu]; [|eauto]. apply elems_in in Hx. cbn [g_pairs g_self] in Hx.
  destruct x as [p|s]; apply in_app_iff in Hx; destruct Hx as [Hx|Hx]; [exists a|exists b|exists a|exists b]; (split; [assumption|]); now apply elems_in.
Qed.
Lemma flat_absorbs g js sbs x : In x (flat (fold_left (absorb g) js sbs)) -> In x (flat sbs).
Proof. revert sbs. induction js as [|j js IH]; intros sbs; cbn [fold_left]; [auto|]. intros H. apply IH in H. now apply flat_absorb in H. Qed.
Lemma flat_extend g ps ss ax sbs x : In x (flat (extend g ps ss ax sbs)) -> In x (flat sbs) \/ match x with EPair p => In p ps | ESelf s => In s ss end.
Proof.
  unfold extend. destruct (nth_error sbs g) as [a|] eqn:Ea; [|auto]. apply nth_error_In in Ea. rewrite !flat_iff. intros (u & Hu & Hx). apply in_set_nth in Hu.
  destruct Hu as [->|Hu]; [|eauto]. apply elems_in in Hx. cbn [g_pairs g_self] in Hx.
  destruct x as [p|s]; apply in_app_iff in Hx; destruct Hx as [Hx|Hx]; auto; left; exists a; (split; [assumption|]); now apply elems_in.
Qed.
Lemma unmatched_sub {A} ms (new : list A) x : In x (unmatched ms new) -> In x new.
Proof.
  unfold unmatched. intros H. apply in_map_iff in H. destruct H as ([k y] & <- & H). apply filter_In in H. destruct H as [H _].
  apply number_in in H. now apply nth_error_In in H.
Qed.
Lemma flat_merge sbs c x : In x (flat (merge sbs c)) -> In x (flat sbs) \/ In x (elems c).
Proof.
  unfold merge. set (mp := matches pair_eqb g_pairs sbs (g_pairs c)). set (ms := matches self_eqb g_self sbs (g_self c)). rewrite elems_in.
  destruct mp as [|m mp], ms as [|m' ms]; intros H.
  - unfold flat in *. rewrite flat_map_app, in_app_iff in H. destruct H as [H|H]; [now left|]. cbn in H. rewrite app_nil_r in H. right. now apply elems_in.
  - apply flat_extend in H. destruct H as [H|H]; [left; now apply flat_absorbs in H|right]. destruct x; [exact H|]. now apply unmatched_sub in H.
  - apply flat_extend in H. destruct H as [H|H]; [left; now apply flat_absorbs in H|right]. destruct x; [now apply unmatched_sub in H|exact H].
  - apply flat_extend in H. destruct H as [H|H]; [left; apply flat_absorbs in H; now apply flat_absorbs in H|right]. destruct x; now apply unmatched_sub in H.
Qed.
Lemma construct_sub sps x : In x (flat (construct sps)) -> exists c, In c sps /\ In x (elems c).
Proof.
  unfold construct. enough (forall G, In x (flat (fold_left merge sps G)) -> In x (flat G) \/ exists c, In c sps /\ In x (elems c)) as H.
  { intros Hx. destruct (H [] Hx) as [[]|Q]. exact Q. }
  induction sps as [|c sps IH]; intros G; cbn [fold_left]; [auto|]. intros H. destruct (IH _ H) as [Q|(c' & Q & R)].
  - apply flat_merge in Q. destruct Q as [Q|Q]; [now left|right; exists c; cbn; auto].
  - right. exists c'. cbn. auto.
Qed.
Lemma cp_of_in syms b b' : cp_of syms b = Some b' ->
  exists g, In g syms /\ (In (b, b') (g_pairs g) \/ In (b', b) (g_pairs g) \/ (b' = b /\ In b (map fst (g_self g)))).
Proof.
  unfold cp_of, counterpart, info. cbn [pd_groups]. destruct (find _ _) as [[x [k y]]|] eqn:E; [|discriminate]. intros H. cbn in H. injection H as ->.
  apply find_some in E. destruct E as [E F]. cbn in F. apply Nat.eqb_eq in F. subst x. apply in_rev in E. unfold infos in E. apply in_flat_map in E.
  destruct E as ([i g] & Hg & E). apply number_in in Hg. apply nth_error_In in Hg. cbn [fst snd] in E. apply in_app_iff in E. destruct E as [E|E].
  - apply in_flat_map in E. destruct E as ([p q] & Hp & E). cbn [fst snd] in E.
    destruct (construct_sub syms (EPair (p, q))) as (c & Hc & Hx); [apply flat_iff; exists g; split; [exact Hg|now apply elems_in]|].
    apply elems_in in Hx. exists c. split; [exact Hc|]. destruct E as [E|[E|[]]]; injection E as -> _ ->; auto.
  - apply in_map_iff in E. destruct E as ([p m] & E & Hp). cbn [fst] in E. injection E as -> _ ->.
    destruct (construct_sub syms (ESelf (b', m))) as (c & Hc & Hx); [apply flat_iff; exists g; split; [exact Hg|now apply elems_in]|].
    apply elems_in in Hx. exists c. split; [exact Hc|]. right. right. split; [reflexivity|]. apply in_map_iff. exists (b', m). auto.
Qed.

(** * The orders that are added *)
Lemma pair_orders_in cp h0 als x a b o : In o (pair_orders cp h0 als x (a, b)) ->
  o = (a, b, x) \/
  x = DirV /\ exists a' b', o = (a', b', x) /\
   ((a' = a \/ cp a = Some a') /\ (b' = b \/ cp b = Some b') \/
    (exists u, In u als /\ al_hor u = true /\ b' = b /\ In a (al_blocks u) /\ In a' (al_blocks u) /\ h0 a' <= h0 a) \/
    (exists u, In u als /\ al_hor u = true /\ a' = a /\ In b (al_blocks u) /\ In b' (al_blocks u) /\ h0 b' <= h0 b)).
Proof.
  cbn [pair_orders]. intros [H|H]; [now left|]. right. destruct x; [destruct H|]. split; [reflexivity|]. rewrite !in_app_iff in H. destruct H as [H|[H|[H|H]]].
  - destruct (cp a) as [a'|]; [|destruct H]. destruct (_ && _); [|destruct H]. destruct H as [<-|[]]. exists a', b. split; [reflexivity|]. left. auto.
  - destruct (cp b) as [b'|]; [|destruct H]. destruct (_ && _); [|destruct H]. destruct H as [<-|[]]. exists a, b'. split; [reflexivity|]. left. auto.
  - destruct (cp a) as [a'|]; [|destruct H]. destruct (cp b) as [b'|]; [|destruct H]. destruct (_ && _); [|destruct H]. destruct H as [<-|[]]. exists a', b'. split; [reflexivity|]. left. auto.
  - apply in_flat_map in H. destruct H as (u & Hu & H). apply in_app_iff in H. destruct H as [H|H].
    + destruct (al_hor u && has a (al_blocks u)) eqn:E; [|destruct H]. apply andb_prop in E. destruct E as [E1 E2]. apply has_iff in E2.
      apply in_flat_map in H. destruct H as (c & Hc & H). destruct (negb (c =? a)%nat && (h0 c <=? h0 a)) eqn:E; [|destruct H]. apply andb_prop in E. destruct E as [_ E].
      destruct H as [<-|[]]. exists c, b. split; [reflexivity|]. right. left. exists u. repeat split; auto. lia.
    + destruct (al_hor u && has b (al_blocks u)) eqn:E; [|destruct H]. apply andb_prop in E. destruct E as [E1 E2]. apply has_iff in E2.
      apply in_flat_map in H. destruct H as (c & Hc & H). destruct (negb (c =? b)%nat && (h0 c <=? h0 b)) eqn:E; [|destruct H]. apply andb_prop in E. destruct E as [_ E].
      destruct H as [<-|[]]. exists a, c. split; [reflexivity|]. right. right. exists u. repeat split; auto. lia.
Qed.
Lemma partner_level P syms b b' : (forall g, In g syms -> g_pairs g <> [] -> g_axis g = DirV) -> (forall g, In g syms -> mirrored P g) -> cp_of syms b = Some b' ->
  py P b' = py P b /\ ph P b' = ph P b.
Proof.
  intros Hv Hm H. destruct (cp_of_in _ _ _ H) as (g & Hg & Q). destruct (Hm g Hg) as (ax & M). destruct Q as [Q|[Q|[-> _]]]; [| |auto].
  - assert (g_axis g = DirV) as A by (apply Hv; [exact Hg|intros Z; rewrite Z in Q; destruct Q]). specialize (M (EPair (b, b'))). rewrite A in M.
    destruct M as (M1 & M2 & _); [now apply elems_in|]. auto.
  - assert (g_axis g = DirV) as A by (apply Hv; [exact Hg|intros Z; rewrite Z in Q; destruct Q]). specialize (M (EPair (b', b))). rewrite A in M.
    destruct M as (M1 & M2 & _); [now apply elems_in|]. auto.
Qed.
Lemma added_kept P syms h0 als x a b :
  (forall g, In g syms -> g_pairs g <> [] -> g_axis g = DirV) -> (forall g, In g syms -> mirrored P g) ->
  (forall u, In u als -> (al_line u <= 2)%nat /\ in_line P u) -> (forall u i, In u als -> In i (al_blocks u) -> ph P i = h0 i) ->
  in_order P x a b -> forall a' b' x', In (a', b', x') (pair_orders (cp_of syms) h0 als x (a, b)) -> in_order P x' a' b'.
Proof.
  intros Hv Hm Hl Hh H a' b' x' Hin. apply pair_orders_in in Hin. destruct Hin as [E|(-> & a2 & b2 & E & Q)]; [injection E as -> -> ->; exact H|].
  injection E as -> -> ->. cbn [in_order] in *. destruct Q as [[Qa Qb]|[(u & Hu & Eh & -> & Ia & Ia' & L)|(u & Hu & Eh & -> & Ib & Ib' & L)]].
  - assert (py P a2 = py P a) as A by (destruct Qa as [->|Qa]; [reflexivity|now apply (partner_level P syms) in Qa]).
    assert (py P b2 = py P b /\ ph P b2 = ph P b) as B by (destruct Qb as [->|Qb]; [auto|now apply (partner_level P syms) in Qb]). lia.
  - destruct (Hl u Hu) as [Hlu Hin]. specialize (Hin a a2 Ia Ia'). rewrite <- (Hh u a Hu Ia), <- (Hh u a2 Hu Ia') in L. unfold on_line, cy in Hin. rewrite Eh in Hin.
    destruct (al_line u) as [|[|[|]]]; lia.
  - destruct (Hl u Hu) as [Hlu Hin]. specialize (Hin b b2 Ib Ib'). rewrite <- (Hh u b Hu Ib), <- (Hh u b2 Hu Ib') in L. unfold on_line, cy in Hin. rewrite Eh in Hin.
    destruct (al_line u) as [|[|[|]]]; lia.
Qed.

(** * A sane design *)
Section Sane.
Variables (names : list string) (scale : Z) (d0 d : idesign) (h0 : nat -> Z) (cs : list ucon).
Hypothesis Hb : build names scale d0 h0 cs = Some d.
Hypothesis Hn : NoDup names.
Hypothesis Hl : length names = length (i_blocks d0).
Hypothesis Hk : known names cs.

Lemma jcon_names js j : write cs = Some js -> In j js -> forall n,
  In n (match j with JOrder _ _ bs | JAlign _ _ bs | JSpread _ _ bs => bs | JSymm _ ps => flat_map (fun p => match p with JPair a b => [a; b] | JSelf a => [a] end) ps | _ => [] end) -> In n names.
Proof.
  intros W Hj n Hin. apply (write_in cs js j W) in Hj. destruct Hj as (u & lu & Hu & Wu & Ju). apply (Hk u n Hu).
  destruct u as [u|]; [|injection Wu as <-; destruct Ju as [<-|[]]; destruct Hin].
  destruct u as [dr ab zs|ll zs|h' ds zs| | | |vt ps|]; cbn [wr] in Wu; cbn [names_in].
  - destruct dr; try discriminate; injection Wu as <-; destruct Ju as [<-|[]]; exact Hin.
  - destruct ll; try discriminate; injection Wu as <-; destruct Ju as [<-|[]]; exact Hin.
  - injection Wu as <-; destruct Ju as [<-|[]]; exact Hin.
  - injection Wu as <-; destruct Ju.
  - injection Wu as <-; destruct Ju.
  - injection Wu as <-; destruct Ju as [<-|[]]; exact Hin.
  - injection Wu as <-; destruct Ju as [<-|[]]. apply in_flat_map in Hin. destruct Hin as (jp & Hjp & Hin). apply in_flat_map in Hjp. destruct Hjp as (p & Hp & Hw).
    apply in_concat. exists p. split; [exact Hp|]. destruct p as [|x [|y p]]; [destruct Hw| |]; destruct Hw as [<-|[]]; cbn in *; tauto.
  - injection Wu as <-; destruct Ju.
Qed.
Lemma find_block_lt n i : find_block names n = Some i -> (i < length (i_blocks d0))%nat.
Proof. intros H. apply find_block_nth in H; [|exact Hn]. rewrite <- Hl. apply nth_error_Some. congruence. Qed.
Lemma blocks_of_lt bs i : In i (blocks_of names bs) -> (i < length (i_blocks d0))%nat.
Proof.
  unfold blocks_of. rewrite in_flat_map. intros (n & _ & H). destruct (find_block names n) as [k|] eqn:E; [|destruct H]. destruct H as [<-|[]]. now apply find_block_lt in E.
Qed.

Hypothesis Hsize : forall i, (i < length (i_blocks d0))%nat -> 0 < bw d0 i /\ 0 < bh d0 i.
Hypothesis Hpitch : 0 < i_xp d0 /\ 0 < i_yp d0.
Hypothesis Hbias : 0 <= i_bias_h d0 /\ 0 <= i_bias_v d0.
Hypothesis Hhalo : 0 <= i_halo_h d0 /\ 0 <= i_halo_v d0.
Hypothesis Hscale : 0 < scale.
Hypothesis Hdist : forall h v z, In (UDist h v z) cs -> 0 <= z.
Hypothesis Hbound : forall mw mh hh hv, In (UHard (HBoundary mw mh hh hv)) cs -> (0 <= hh /\ 0 <= hv)%Q.

Definition nonneg (n : node) : Prop := (0 <= nd_bias_h n /\ 0 <= nd_bias_v n) /\ 0 <= nd_halo_h n /\ 0 <= nd_halo_v n.
Lemma whole_nonneg q : (0 <= q)%Q -> 0 <= whole q.
Proof.
  intros H. unfold whole. change 0 with (Qfloor 0). apply Qfloor_resp_le. change (inject_Z unit_scale) with 2000%Q. lra.
Qed.
Lemma read_nonneg js n : nonneg n -> (forall j, In j js -> match j with JBias _ _ z => 0 <= z | JBound _ _ hh hv => (0 <= hh /\ 0 <= hv)%Q | _ => True end) ->
  nonneg (read names scale n js).
Proof.
  revert n. induction js as [|j js IH]; intros n H Hj; cbn [read fold_left]; [exact H|]. apply IH; [|intros k Hk'; apply Hj; now right].
  specialize (Hj j (or_introl eq_refl)). destruct n as [sy o ab al sp bh bv w t hh0 hv0]. unfold nonneg in *. destruct j as [| | | |h v z|mw mh hh hv]; cbn [read1 nd_bias_h nd_bias_v nd_halo_h nd_halo_v] in *; try exact H.
  - assert (0 <= Z.quot (z * 2) scale) by (apply Z.quot_pos; lia). destruct h, v; lia.
  - destruct Hj as [A B]. apply whole_nonneg in A, B. lia.
Qed.

Lemma built_sane : sane d.
Proof.
  unfold build in Hb. destruct (write cs) as [js|] eqn:W; [|discriminate]. cbn [option_map] in Hb. injection Hb as <-.
  set (n := read names scale (start d0) js).
  assert (nonneg n) as Nn.
  { apply read_nonneg; [unfold nonneg; cbn; tauto|]. intros j Hj. apply (write_in cs js j W) in Hj. destruct Hj as (u & lu & Hu & Wu & Ju).
    destruct u as [u|h v z]; [|injection Wu as <-; destruct Ju as [<-|[]]; exact (Hdist _ _ _ Hu)].
    destruct u as [dr ab zs|ll zs|h' ds zs| | |mw mh hh hv|vt ps|]; cbn [wr] in Wu.
    - destruct dr; try discriminate; injection Wu as <-; destruct Ju as [<-|[]]; exact I.
    - destruct ll; try discriminate; injection Wu as <-; destruct Ju as [<-|[]]; exact I.
    - injection Wu as <-; destruct Ju as [<-|[]]; exact I.
    - injection Wu as <-; destruct Ju.
    - injection Wu as <-; destruct Ju.
    - injection Wu as <-; destruct Ju as [<-|[]]; exact (Hbound _ _ _ _ Hu).
    - injection Wu as <-; destruct Ju as [<-|[]]; exact I.
    - injection Wu as <-; destruct Ju. }
  assert (forall g x a, In g (nd_syms n) -> In x (elems g) -> In a (elt_blocks x) -> (a < length (i_blocks d0))%nat) as Rs.
  { intros g x a Hg Hx Hin. unfold n in Hg. rewrite read_syms in Hg. cbn [start nd_syms app] in Hg. apply in_flat_map in Hg. destruct Hg as (j & Hj & Hg).
    destruct j as [| |h ps| | |]; try destruct Hg as []. subst g. 2: contradiction. apply elems_in in Hx. cbn [g_pairs g_self] in Hx. destruct x as [[p q]|[p m]].
    - apply in_flat_map in Hx. destruct Hx as (jp & Hjp & Hx). destruct jp as [x y|x]; [|destruct Hx].
      destruct (find_block names x) as [ix|] eqn:Ex; [|destruct Hx]. destruct (find_block names y) as [iy|] eqn:Ey; [|destruct Hx].
      apply find_block_lt in Ex, Ey. destruct Hx as [Hx|[]]. destruct (iy <? ix)%nat; injection Hx as <- <-; cbn in Hin; destruct Hin as [<-|[<-|[]]]; assumption.
    - apply in_map_iff in Hx. destruct Hx as (k & E & Hx). injection E as -> _. cbn in Hin. destruct Hin as [<-|[]].
      apply in_flat_map in Hx. destruct Hx as (jp & Hjp & Hx). destruct jp as [x y|x]; [destruct Hx|]. now apply blocks_of_lt in Hx. }
  assert (forall u, In u (nd_aligns n) -> (al_line u <= 2)%nat /\ forall a, In a (al_blocks u) -> (a < length (i_blocks d0))%nat) as Ra.
  { intros u Hu. unfold n in Hu. rewrite read_aligns in Hu. cbn [start nd_aligns app] in Hu. apply in_flat_map in Hu. destruct Hu as (j & Hj & Hu).
    destruct j as [|h l bs| | | |]; try destruct Hu as []. subst u. 2: contradiction. cbn [al_line al_blocks]. split; [|intros a; apply blocks_of_lt].
    apply (write_in cs js _ W) in Hj. destruct Hj as (u & lu & Hu & Wu & Ju).
    destruct u as [u|h' v z]; [|injection Wu as <-; destruct Ju as [E|[]]; discriminate].
    destruct u as [dr ab zs|ll zs|h' ds zs| | |mw mh hh hv|vt ps|]; cbn [wr] in Wu.
    - destruct dr; try discriminate; injection Wu as <-; destruct Ju as [E|[]]; discriminate.
    - destruct ll; try discriminate; injection Wu as <-; destruct Ju as [E|[]]; injection E as <- <- <-; lia.
    - injection Wu as <-; destruct Ju as [E|[]]; discriminate.
    - injection Wu as <-; destruct Ju.
    - injection Wu as <-; destruct Ju.
    - injection Wu as <-; destruct Ju as [E|[]]; discriminate.
    - injection Wu as <-; destruct Ju as [E|[]]; discriminate.
    - injection Wu as <-; destruct Ju. }
  assert (forall a b, cp_of (nd_syms n) a = Some b -> (b < length (i_blocks d0))%nat) as Rc.
  { intros a b H. destruct (cp_of_in _ _ _ H) as (g & Hg & [Q|[Q|[-> Q]]]).
    - apply (Rs g (EPair (a, b)) b Hg); [now apply elems_in|]. cbn. auto.
    - apply (Rs g (EPair (b, a)) b Hg); [now apply elems_in|]. cbn. auto.
    - apply in_map_iff in Q. destruct Q as ([a' m] & E & Q). cbn in E. subst a'. apply (Rs g (ESelf (a, m)) a Hg); [now apply elems_in|]. cbn. auto. }
  destruct Nn as [Nb Nh].
  split; cbn [design_of i_blocks i_nets i_syms i_aligns i_orders i_abuts i_spread i_bias_h i_bias_v i_xp i_yp i_halo_h i_halo_v i_box_w i_box_h]; auto.
  - intros a b x. unfold spread_of. generalize 0. induction (nd_spreads n) as [|[[h dist] bs] l IH]; intros v; cbn [fold_left]; [reflexivity|].
    replace (Bool.eqb h x && has b bs && has a bs && negb (b =? a)%nat) with (Bool.eqb h x && has a bs && has b bs && negb (a =? b)%nat); [apply IH|].
    rewrite (Nat.eqb_sym b a). destruct (Bool.eqb h x), (has a bs), (has b bs), (a =? b)%nat; reflexivity.
  - intros u a Hu. now apply Ra.
  - intros u Hu. now apply Ra.
  - intros a b x H. apply in_flat_map in H. destruct H as ([bs dr] & Ho & H). apply in_flat_map in H. destruct H as ([i j] & Hp & H). cbn [fst snd] in *.
    apply pairwise_in in Hp. destruct Hp as [Hi Hj]. unfold n in Ho. rewrite read_orders in Ho. cbn [start nd_orders app] in Ho.
    apply in_flat_map in Ho. destruct Ho as (jj & Hjj & Ho). destruct jj as [h ab bs'| | | | |]; try destruct Ho as []. 2: contradiction.
    injection H0 as <- <-. apply blocks_of_lt in Hi, Hj. fold n in H. apply pair_orders_in in H.
    destruct H as [E|(_ & a' & b' & E & [[Qa Qb]|[(u & Hu & _ & -> & _ & Ia' & _)|(u & Hu & _ & -> & _ & Ib' & _)]])]; injection E as -> -> ->.
    + auto.
    + split; [destruct Qa as [->|Qa]; eauto|destruct Qb as [->|Qb]; eauto].
    + split; [now apply (Ra u Hu)|exact Hj].
    + split; [exact Hi|now apply (Ra u Hu)].
Qed.
End Sane.
