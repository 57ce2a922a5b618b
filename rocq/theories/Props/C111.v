(** The metal templates written for the detailed router. *)
From Coq Require Import ZArith ZifyBool.
From Verif Require Import Base.Prelude Model.PySort Model.Transformation Model.Grid Model.Canvas Model.MetalTemplate Spec.GridSpec Proofs.PySortP.
Local Open Scope Z_scope.

(** The lines of a grid at its legal indices, in order of the index: line [i] is the [i]-th of the grid. *)
Definition legal_at (g : Grid) (i : Z) (p : Z * attrs) : Prop := 0 <= i /\ nth_error (grid g) (Z.to_nat i) = Some p /\ In i (legalIndices g).
Definition lines_of (g : Grid) (l : list (Z * (Z * attrs))) : Prop :=
  StronglySorted (fun a b => fst a < fst b) l /\ forall i p, In (i, p) l <-> legal_at g i p.

(** What a reader of widths and spaces sees: centre and width of each line, from the centre of the first one. *)
Fixpoint rebuild (c : Z) (ws ss : list Z) : list (Z * Z) :=
  match ws, ss with
  | w :: ((w' :: _) as t), s :: ss' => (c, w) :: rebuild (c + s + (w + w') / 2) t ss'
  | [w], [] => [(c, w)]
  | _, _ => []
  end.
(** The positions reached from [c] by the steps [ss]. *)
Fixpoint reach (c : Z) (ss : list Z) : list Z := c :: match ss with [] => [] | s :: t => reach (c + s) t end.
Definition sum (l : list Z) : Z := fold_right Z.add 0 l.

Lemma legal_lines_ok g : lines_of g (legal_lines g).
Proof.
  split.
  - unfold legal_lines, enumerate. generalize 0%nat. induction (grid g) as [|x l IH]; intros s; cbn; [constructor|].
    destruct (existsb _ _); [|apply IH]. constructor; [apply IH|]. apply Forall_forall. intros [i p] Hi. apply filter_In in Hi.
    destruct Hi as [Hi _]. apply enumerate_from in Hi. cbn. lia.
  - intros i p. unfold legal_lines, legal_at. rewrite filter_In, enumerate_in, existsb_exists. cbn. split.
    + intros ((H0 & Hn) & x & Hx & E). apply Z.eqb_eq in E. subst. auto.
    + intros (H0 & Hn & Hi). split; [auto|]. exists i. split; [exact Hi|apply Z.eqb_refl].
Qed.

Lemma lines_of_unique g l1 l2 : lines_of g l1 -> lines_of g l2 -> l1 = l2.
Proof.
  intros [S1 M1] [S2 M2]. assert (E : forall x, In x l1 <-> In x l2) by (intros [i p]; rewrite M1, M2; reflexivity).
  clear M1 M2. revert l2 S2 E. induction S1 as [|a l1 S1 IH F1]; intros l2 S2 E.
  - destruct l2 as [|b l2]; [reflexivity|]. exfalso. apply (E b). left. reflexivity.
  - destruct l2 as [|b l2]; [exfalso; apply (E a); left; reflexivity|].
    inversion S2 as [|? ? S2' F2]; subst. rewrite Forall_forall in F1, F2.
    assert (a = b) as ->.
    { destruct (proj1 (E a) (or_introl eq_refl)) as [->|Ha]; [reflexivity|]. destruct (proj2 (E b) (or_introl eq_refl)) as [->|Hb]; [reflexivity|].
      specialize (F1 _ Hb). specialize (F2 _ Ha). lia. }
    f_equal. apply IH; [exact S2'|]. intros x. split; intros Hx.
    + destruct (proj1 (E x) (or_intror Hx)) as [<-|Ha]; [|exact Ha]. specialize (F1 _ Hx). lia.
    + destruct (proj2 (E x) (or_intror Hx)) as [<-|Ha]; [|exact Ha]. specialize (F2 _ Hx). lia.
Qed.

Lemma metal_loop_rebuild l : forall la ws ss cs, metal_loop la l = Some (ws, ss, cs) ->
  (exists k, map (fun ip => snd (snd ip)) l = map (fun wk : Z * option Z => Some wk) (combine ws k) /\ length k = length ws /\
     cs = flat_map (fun o => match o with Some x => [x] | None => [] end) k) /\
  match la, l with
  | Some (c0, w0), _ => rebuild c0 (w0 :: ws) ss = (c0, w0) :: combine (map (fun ip => fst (snd ip)) l) ws
  | None, (_, (c, _)) :: _ => rebuild c ws ss = combine (map (fun ip => fst (snd ip)) l) ws
  | None, [] => ws = [] /\ ss = []
  end /\ length ws = length l.
Proof.
  induction l as [|[i [c [[w k]|]]] l IH]; intros la ws ss cs; cbn [metal_loop].
  - intros [= <- <- <-]. split; [exists []; cbn; auto|]. destruct la as [[c0 w0]|]; cbn; auto.
  - destruct (metal_loop (Some (c, w)) l) as [[[ws' ss'] cs']|] eqn:E; [|discriminate]. intros [= <- <- <-].
    destruct (IH _ _ _ _ E) as ((ks & K1 & K2 & K3) & R & L). split; [|split; [|cbn; congruence]].
    + exists (k :: ks). cbn. rewrite K1, K3. split; [reflexivity|]. split; [congruence|]. destruct k; reflexivity.
    + destruct la as [[c0 w0]|].
      * cbn [rebuild map fst snd combine]. replace (c0 + (c - c0 - (w0 + w) / 2) + (w0 + w) / 2) with c by ring. f_equal. exact R.
      * cbn [map fst snd combine]. exact R.
  - discriminate.
Qed.

(** The widths are those of the legal centre lines, in order, and widths, spaces and offset give back every centre line; the colours are those that are not None. *)
Theorem C111_lines : forall w t l, metal_template w = Some t -> lines_of (w_clg w) l ->
  exists ks, map (fun ip => snd (snd ip)) l = map Some (combine (t_widths t) ks) /\ length ks = length (t_widths t) /\ length (t_widths t) = length l /\
    t_colors t = flat_map (fun o => match o with Some x => [x] | None => [] end) ks /\
    match l with
    | [] => t_offset t = None /\ t_spaces t = []
    | (_, (c, _)) :: _ => t_offset t = Some c /\ rebuild c (t_widths t) (t_spaces t) = combine (map (fun ip => fst (snd ip)) l) (t_widths t)
    end.
Proof.
  intros w t l E Hl. rewrite (lines_of_unique _ _ _ Hl (legal_lines_ok _)) in *. clear Hl. unfold metal_template in E.
  destruct (metal_loop _ _) as [[[ws ss] cs]|] eqn:M; [|discriminate]. destruct (stop_tuples _); [|discriminate]. injection E as <-. cbn.
  destruct (metal_loop_rebuild _ _ _ _ _ M) as ((ks & K1 & K2 & K3) & R & L). exists ks. split; [exact K1|]. split; [exact K2|]. split; [exact L|]. split; [exact K3|].
  destruct (legal_lines (w_clg w)) as [|[i [c a]] r]; cbn; [tauto|]. split; [reflexivity|exact R].
Qed.

Lemma metal_loop_space l : forall la ws ss cs, metal_loop la l = Some (ws, ss, cs) ->
  forall n c w c' w', nth_error (match la with Some p => [p] | None => [] end ++ combine (map (fun ip => fst (snd ip)) l) ws) n = Some (c, w) ->
  nth_error (match la with Some p => [p] | None => [] end ++ combine (map (fun ip => fst (snd ip)) l) ws) (Datatypes.S n) = Some (c', w') ->
  nth_error ss n = Some (c' - c - (w + w') / 2).
Proof.
  induction l as [|[i [c0 [[w0 k]|]]] l IH]; intros la ws ss cs; cbn [metal_loop].
  - intros [= <- <- <-] n c w c' w' _. destruct la; cbn; [destruct n|]; discriminate.
  - destruct (metal_loop (Some (c0, w0)) l) as [[[ws' ss'] cs']|] eqn:E; [|discriminate]. intros [= <- <- <-].
    intros n c w c' w'. specialize (IH _ _ _ _ E). destruct la as [[lc lw]|]; cbn [app map fst snd combine] in *.
    + destruct n as [|n]; cbn; [|apply IH]. intros [= <- <-] [= <- <-]. reflexivity.
    + apply IH.
  - discriminate.
Qed.

(** With even widths each space is the distance between the facing edges of two neighbouring legal lines. *)
Theorem C111_spaces : forall w t l n i j c a c' a' wd wd', metal_template w = Some t -> lines_of (w_clg w) l ->
  nth_error l n = Some (i, (c, a)) -> nth_error l (Datatypes.S n) = Some (j, (c', a')) ->
  nth_error (t_widths t) n = Some (2 * wd) -> nth_error (t_widths t) (Datatypes.S n) = Some (2 * wd') ->
  nth_error (t_spaces t) n = Some ((c' - wd') - (c + wd)).
Proof.
  intros w t l n i j c a c' a' wd wd' E Hl. rewrite (lines_of_unique _ _ _ Hl (legal_lines_ok _)) in *. clear Hl. unfold metal_template in E.
  destruct (metal_loop _ _) as [[[ws ss] cs]|] eqn:M; [|discriminate]. destruct (stop_tuples _); [|discriminate]. injection E as <-. cbn [t_widths t_spaces].
  intros H1 H2 H3 H4.
  assert (C : forall (xs ys : list Z) m x y, nth_error xs m = Some x -> nth_error ys m = Some y -> nth_error (combine xs ys) m = Some (x, y)).
  { clear. induction xs as [|x0 xs IH]; intros [|y0 ys] [|m] x y; cbn; try discriminate; [congruence|apply IH]. }
  erewrite (metal_loop_space _ _ _ _ _ M n c (2 * wd) c' (2 * wd')).
  - f_equal. replace (2 * wd + 2 * wd') with ((wd + wd') * 2) by ring. rewrite Z.div_mul by lia. ring.
  - cbn [app]. apply C; [|exact H3]. rewrite nth_error_map, H1. reflexivity.
  - cbn [app]. apply C; [|exact H4]. rewrite nth_error_map, H2. reflexivity.
Qed.

Lemma stop_loop_reach l : forall c, forall x, In x (reach c (stop_loop (Some c) l)) <-> x = c \/ In x (map (fun ip => fst (snd ip)) l).
Proof.
  induction l as [|[i [c' a]] l IH]; intros c x; cbn [stop_loop map fst snd].
  - cbn. intuition.
  - destruct (Z.eqb_spec c' c) as [->|Hne]; cbn [app reach In].
    + rewrite IH. intuition.
    + replace (c + (c' - c)) with c' by ring. rewrite IH. intuition.
Qed.
Lemma last_cons {A} (l : list A) : forall x d, last (x :: l) d = last l x.
Proof. induction l as [|y l IH]; intros x d; [reflexivity|]. change (last (x :: y :: l) d) with (last (y :: l) d). rewrite IH. symmetry. apply IH. Qed.
Lemma last_map {A B} (f : A -> B) l : forall d, last (map f l) (f d) = f (last l d).
Proof. induction l as [|y l IH]; intros d; [reflexivity|]. cbn [map]. rewrite !last_cons. apply IH. Qed.
Lemma stop_loop_sum l : forall c, sum (stop_loop (Some c) l) = last (map (fun ip => fst (snd ip)) l) c - c.
Proof.
  induction l as [|[i [c' a]] l IH]; intros c; cbn [stop_loop map fst snd]; [cbn; lia|].
  rewrite last_cons. specialize (IH c'). destruct (Z.eqb_spec c' c) as [->|Hne]; cbn [app]; [exact IH|].
  change (sum ((c' - c) :: stop_loop (Some c') l)) with (c' - c + sum (stop_loop (Some c') l)). rewrite IH. ring.
Qed.
Lemma stop_loop_nonzero l : forall la, ~ In 0 (stop_loop la l).
Proof.
  induction l as [|[i [c a]] l IH]; intros la; cbn; [auto|]. rewrite in_app_iff. intros [H|H]; [|exact (IH _ H)].
  destruct la as [lc|]; [|exact H]. destruct (Z.eqb_spec c lc); [exact H|]. destruct H as [H|[]]. lia.
Qed.

Lemma value_next g i c a p : period g = Some p -> legal_at g i (c, a) -> i < n_lines g ->
  value g (Pair 1 i) (match a with Some _ => true | None => false end) = Some (c + p, a).
Proof.
  intros Hp (H0 & Hn & Hi) Hlt. unfold value, idx_flat. replace (n_lines g <=? 0) with false by lia.
  replace (1 * n_lines g + i) with (i + 1 * n_lines g) by ring. rewrite Z.mod_add, Z.div_add, Z.mod_small, Z.div_small by lia. rewrite Hn, Hp.
  replace (existsb (Z.eqb i) (legalIndices g)) with true.
  2:{ symmetry. apply existsb_exists. exists i. split; [exact Hi|apply Z.eqb_refl]. }
  cbn [negb]. rewrite andb_false_r. replace (c + (0 + 1) * p) with (c + p) by ring. reflexivity.
Qed.
Lemma period_some g i p : nth_error (grid g) i = Some p -> exists q, period g = Some q.
Proof.
  unfold period, first_line, last_line. destruct (grid g) as [|[c a] l] eqn:E; [destruct i; discriminate|]. intros _.
  destruct (rev ((c, a) :: l)) as [|[c' a'] r] eqn:R; [|eauto]. apply (f_equal (@length _)) in R. rewrite rev_length in R. discriminate.
Qed.
Lemma legal_le g i p : legal_at g i p -> i <= n_lines g.
Proof. intros (H0 & Hn & _). assert (Hl : nth_error (grid g) (Z.to_nat i) <> None) by congruence. apply nth_error_Some in Hl. unfold n_lines. lia. Qed.
Lemma last_in_ne {A} (l : list A) d : l <> [] -> In (last l d) l.
Proof. induction l as [|x [|y l] IH]; intros H; [congruence|left; reflexivity|right; apply IH; discriminate]. Qed.
Lemma sorted_last {A} (f : A -> Z) l d x : StronglySorted (fun a b => f a < f b) l -> In x l -> f x <= f (last l d).
Proof.
  induction 1 as [|y l S IH F]; [intros []|]. intros [<-|Hx].
  - destruct l as [|z l]; [cbn; lia|]. rewrite Forall_forall in F. specialize (F (last (z :: l) d) (last_in_ne (z :: l) d ltac:(discriminate))). change (last (y :: z :: l) d) with (last (z :: l) d). lia.
  - destruct l as [|z l]; [destruct Hx|]. change (last (y :: z :: l) d) with (last (z :: l) d). apply IH, Hx.
Qed.

Lemma metal_loop_none l : forall la, metal_loop la l = None <-> exists i c, In (i, (c, None)) l.
Proof.
  induction l as [|[i [c [[wd k]|]]] l IH]; intros la; cbn [metal_loop].
  - split; [discriminate|]. intros (i & c & []).
  - specialize (IH (Some (c, wd))). destruct (metal_loop (Some (c, wd)) l) as [[[ws ss] cs]|].
    + split; [discriminate|]. intros (j & d & [H|H]); [discriminate|]. enough (Some (ws, ss, cs) = None) by discriminate. apply IH. eauto.
    + split; [|reflexivity]. intros _. destruct (proj1 IH eq_refl) as (j & d & H). exists j, d. right. exact H.
  - split; [|reflexivity]. intros _. exists i, c. left. reflexivity.
Qed.

Lemma stop_tuples_ok g : match legal_lines g with
  | [] => stop_tuples g = None
  | (i, (c, a)) :: t => exists p, period g = Some p /\
      ((In (n_lines g) (legalIndices g) /\ stop_tuples g = Some ((i, (c, a)) :: t) /\ fst (last ((i, (c, a)) :: t) (i, (c, a))) = n_lines g) \/
       (~ In (n_lines g) (legalIndices g) /\ stop_tuples g = Some (((i, (c, a)) :: t) ++ [(i + n_lines g, (c + p, a))])))
  end.
Proof.
  destruct (legal_lines_ok g) as [Sg M]. unfold stop_tuples. destruct (legal_lines g) as [|[i [c a]] t] eqn:E; [reflexivity|].
  assert (H0 : legal_at g i (c, a)) by (apply M; left; reflexivity).
  assert (Hp := H0). destruct Hp as (Hi0 & Hn & _). destruct (period_some _ _ _ Hn) as [p Hp]. exists p. split; [exact Hp|]. cbv zeta.
  pose proof (last_in_ne ((i, (c, a)) :: t) (i, (c, a)) ltac:(discriminate)) as HL.
  remember (last ((i, (c, a)) :: t) (i, (c, a))) as z eqn:Ez. destruct z as [j q]. pose proof HL as HL'. apply M in HL'. pose proof (legal_le _ _ _ HL') as Hle. cbn [fst].
  destruct (Z.ltb_spec j (n_lines g)) as [Hlt|Hge].
  - right. assert (Hi : i <= j).
    { pose proof (sorted_last fst _ (i, (c, a)) (i, (c, a)) Sg (or_introl eq_refl)) as Hs. rewrite <- Ez in Hs. exact Hs. }
    split.
    + intros Hin. assert (Hl : (Z.to_nat (n_lines g) < length (grid g))%nat) by (unfold n_lines in *; lia).
      destruct (nth_error (grid g) (Z.to_nat (n_lines g))) as [q'|] eqn:Eq; [|apply nth_error_None in Eq; lia].
      assert (Hx : In (n_lines g, q') ((i, (c, a)) :: t)) by (apply M; split; [lia|split; assumption]).
      pose proof (sorted_last fst _ (i, (c, a)) _ Sg Hx) as Hs. rewrite <- Ez in Hs. cbn [fst] in Hs. lia.
    + rewrite (value_next _ _ _ _ _ Hp H0) by lia. reflexivity.
  - left. assert (j = n_lines g) as -> by lia. split; [apply HL'|]. split; reflexivity.
Qed.

(** [metal_template] fails exactly if the stop grid has no legal line or a legal centre line has no width. *)
Theorem C111_defined : forall w, metal_template w = None <->
  (forall i p, ~ legal_at (w_spg w) i p) \/ (exists i c, legal_at (w_clg w) i (c, None)).
Proof.
  intros w. destruct (legal_lines_ok (w_clg w)) as [_ Mc]. destruct (legal_lines_ok (w_spg w)) as [_ Ms].
  pose proof (metal_loop_none (legal_lines (w_clg w)) None) as HM. pose proof (stop_tuples_ok (w_spg w)) as HS. unfold metal_template.
  assert (HS' : stop_tuples (w_spg w) = None <-> forall i p, ~ legal_at (w_spg w) i p).
  { destruct (legal_lines (w_spg w)) as [|[i [c a]] t].
    - split; [|auto]. intros _ i p H. apply Ms in H. destruct H.
    - destruct HS as (p & _ & [(_ & -> & _)|(_ & ->)]); (split; [discriminate|]); intros H; exfalso; apply (H i (c, a)), Ms; left; reflexivity. }
  assert (HM' : metal_loop None (legal_lines (w_clg w)) = None <-> exists i c, legal_at (w_clg w) i (c, None)).
  { rewrite HM. split; intros (i & c & H); exists i, c; apply Mc; exact H. }
  rewrite <- HS', <- HM'. destruct (metal_loop _ _) as [[[ws ss] cs]|]; [|tauto]. destruct (stop_tuples _); split; intros H; try discriminate; auto. destruct H; discriminate.
Qed.

(** From the stop offset, which is the legal stop line of least index, the stops reach exactly the legal stop lines, and the first one of the next period if the last line is not legal.
    No stop is zero. If the last line is not legal, or the lines of index 0 and n are, the stops add up to one period. *)
Theorem C111_stops : forall w t, metal_template w = Some t ->
  exists i0 c0 a0 p, legal_at (w_spg w) i0 (c0, a0) /\ (forall i q, legal_at (w_spg w) i q -> i0 <= i) /\ period (w_spg w) = Some p /\
    t_stop_offset t = Some c0 /\ ~ In 0 (t_stops t) /\
    (forall x, In x (reach c0 (t_stops t)) <-> (exists i a, legal_at (w_spg w) i (x, a)) \/ (~ In (n_lines (w_spg w)) (legalIndices (w_spg w)) /\ x = c0 + p)) /\
    (~ In (n_lines (w_spg w)) (legalIndices (w_spg w)) -> sum (t_stops t) = p) /\
    (forall c a, legal_at (w_spg w) (n_lines (w_spg w)) (c, a) -> sum (t_stops t) = c - c0) /\
    (In 0 (legalIndices (w_spg w)) -> sum (t_stops t) = p).
Proof.
  intros w t E. unfold metal_template in E. destruct (metal_loop _ _) as [[[ws ss] cs]|]; [|discriminate].
  pose proof (stop_tuples_ok (w_spg w)) as HS. set (g := w_spg w) in *. destruct (legal_lines_ok g) as [Sg M].
  destruct (stop_tuples g) as [tl|] eqn:ET; [|discriminate]. injection E as <-. cbn [t_stop_offset t_stops].
  destruct (legal_lines g) as [|[i [c a]] l]; [discriminate|]. destruct HS as (p & Hp & HS). exists i, c, a, p.
  assert (H0 : legal_at g i (c, a)) by (apply M; left; reflexivity).
  assert (Hmin : forall j q, legal_at g j q -> i <= j).
  { intros j q Hj. apply M in Hj. destruct Hj as [Hj|Hj]; [injection Hj; lia|]. inversion Sg as [|? ? _ F]; subst. rewrite Forall_forall in F. specialize (F _ Hj). cbn in F. lia. }
  assert (Hset : forall x, x = c \/ In x (map (fun ip => fst (snd ip)) l) <-> exists j b, legal_at g j (x, b)).
  { intros x. split.
    - intros [->|Hx]; [eauto|]. apply in_map_iff in Hx. destruct Hx as ([j [d b]] & <- & Hx). exists j, b. apply M. right. exact Hx.
    - intros (j & b & Hj). apply M in Hj. destruct Hj as [Hj|Hj]; [left; congruence|]. right. apply in_map_iff. exists (j, (x, b)). auto. }
  split; [exact H0|]. split; [exact Hmin|]. split; [exact Hp|].
  assert (Hzero : In 0 (legalIndices g) -> first_line g = Some c).
  { intros Hz.
    assert (HG : exists q, nth_error (grid g) 0 = Some q) by (destruct H0 as (_ & Hn & _); destruct (grid g) as [|q r]; [destruct (Z.to_nat i); discriminate|exists q; reflexivity]).
    destruct HG as [q Hq]; assert (Hl0 : legal_at g 0 q) by (split; [lia|split; assumption]); pose proof (Hmin _ _ Hl0); destruct H0 as (Hge & Hn & _); assert (i = 0) as Hi by lia; rewrite Hi in Hn; unfold first_line; destruct (grid g) as [|[c1 a1] r]; [discriminate|]; cbn in Hn; congruence. }
  destruct HS as [(Hin & [= ->] & Hlast)|(Hni & [= ->])].
  - cbn [first_c stop_loop app]. split; [reflexivity|]. split; [apply stop_loop_nonzero|].
    assert (HSUM : forall c1 a1, legal_at g (n_lines g) (c1, a1) -> sum (stop_loop (Some c) l) = c1 - c).
    { intros c1 a1 H1. rewrite stop_loop_sum.
      assert (EL : last (map (fun ip : Z * (Z * attrs) => fst (snd ip)) l) c = fst (snd (last ((i, (c, a)) :: l) (i, (c, a))))).
      { rewrite last_cons. exact (last_map (fun ip : Z * (Z * attrs) => fst (snd ip)) l (i, (c, a))). }
      rewrite EL. pose proof (last_in_ne ((i, (c, a)) :: l) (i, (c, a)) ltac:(discriminate)) as HL.
      destruct (last ((i, (c, a)) :: l) (i, (c, a))) as [j [d b]]. cbn in Hlast |- *. subst j. apply M in HL. destruct HL as (_ & HL & _). destruct H1 as (_ & H1 & _). congruence. }
    split; [|split; [|split]].
    + intros x. rewrite stop_loop_reach, Hset. tauto.
    + intros Hn. contradiction.
    + exact HSUM.
    + intros Hz. specialize (Hzero Hz). unfold period in Hp. rewrite Hzero in Hp. unfold last_line in Hp.
      destruct (rev (grid g)) as [|[c1 a1] r] eqn:ER; [discriminate|]. injection Hp as <-. apply (HSUM c1 a1). unfold legal_at, n_lines.
      assert (EG : grid g = rev r ++ [(c1, a1)]) by (rewrite <- (rev_involutive (grid g)), ER; reflexivity).
      rewrite EG, app_length. cbn [length]. split; [lia|]. split.
      * rewrite nth_error_app2 by lia. replace (Z.to_nat _ - _)%nat with 0%nat by lia. reflexivity.
      * unfold n_lines in Hin. rewrite EG, app_length in Hin. exact Hin.
  - cbn [first_c stop_loop app]. split; [reflexivity|]. split; [apply stop_loop_nonzero|].
    assert (HSUM : sum (stop_loop (Some c) (l ++ [(i + n_lines g, (c + p, a))])) = p).
    { rewrite stop_loop_sum, map_app. cbn [map fst snd]. rewrite last_last. ring. }
    split; [|split; [|split]].
    + intros x. rewrite stop_loop_reach, map_app, in_app_iff, <- Hset. cbn. intuition.
    + auto.
    + intros c1 a1 (_ & _ & Hn). contradiction.
    + auto.
Qed.

(** Two wires whose centre lines are shifted against each other have the same written template: the offset is not written. *)
Theorem C111_offset_refuted : exists w w' t t', metal_template w = Some t /\ metal_template w' = Some t' /\ t_offset t <> t_offset t' /\ written t = written t'.
Proof.
  exists (mkWire V (UncoloredCenterLineGrid 80 32 0 1) (EnclosureGrid 100 0 20)), (mkWire V (UncoloredCenterLineGrid 80 32 40 1) (EnclosureGrid 100 0 20)).
  eexists. eexists. split; [reflexivity|]. split; [reflexivity|]. split; [discriminate|reflexivity].
Qed.
(** If the last stop line is legal and the first is not, the stops do not add up to a period. *)
Theorem C111_period_refuted : exists w t, metal_template w = Some t /\ period (w_spg w) = Some 100 /\ sum (t_stops t) = 80.
Proof.
  exists (mkWire V (UncoloredCenterLineGrid 80 32 0 1) (mkGrid [(0, None); (20, None); (100, None)] [1; 2])). eexists. split; [reflexivity|]. split; reflexivity.
Qed.
(** If only some lines have a colour, the colours written are fewer than the widths and do not tell whose they are. *)
Theorem C111_colors_refuted : exists w w' t t', metal_template w = Some t /\ metal_template w' = Some t' /\ grid (w_clg w) <> grid (w_clg w') /\
  t_offset t = t_offset t' /\ written t = written t' /\ (length (t_colors t) < length (t_widths t))%nat.
Proof.
  exists (mkWire V (mkGrid [(0, Some (32, Some 1)); (80, Some (32, None))] [0; 1]) (EnclosureGrid 100 0 20)), (mkWire V (mkGrid [(0, Some (32, None)); (80, Some (32, Some 1))] [0; 1]) (EnclosureGrid 100 0 20)).
  eexists. eexists. split; [reflexivity|]. split; [reflexivity|]. split; [discriminate|]. split; [reflexivity|]. split; [reflexivity|]. cbn. lia.
Qed.

Print Assumptions C111_lines.
Print Assumptions C111_spaces.
Print Assumptions C111_defined.
Print Assumptions C111_stops.
Print Assumptions C111_offset_refuted.
Print Assumptions C111_period_refuted.
Print Assumptions C111_colors_refuted.

(** Two lines of different width, the enclosure stops of a period of 100. *)
Example C111_nonvacuous : metal_template (mkWire V (mkGrid [(10, Some (20, Some 1)); (60, Some (40, Some 2)); (110, Some (20, Some 1))] [0; 1; 2]) (EnclosureGrid 100 0 20))
  = Some (mkTemplate [20; 40; 20] [20; 20] [1; 2; 1] (Some 10) [60; 40] (Some 20)).
Proof. reflexivity. Qed.
