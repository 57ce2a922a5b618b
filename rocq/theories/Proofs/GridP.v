From Verif Require Import Base.Prelude Model.PySort Model.Grid Spec.GridSpec Proofs.PySortP.
From Coq Require Import ZifyBool.
Local Open Scope Z_scope.

Lemma first_line_cons g c a tl : grid g = (c, a) :: tl -> first_line g = Some c.
Proof. unfold first_line. intros ->. reflexivity. Qed.

Lemma last_line_snoc g c a l : grid g = l ++ [(c, a)] -> last_line g = Some c.
Proof. unfold last_line. intros ->. rewrite rev_app_distr. reflexivity. Qed.

Lemma periodic_inv g p : periodic g p ->
  exists c0, 0 < p /\ first_line g = Some c0 /\ period g = Some p /\ 1 <= n_lines g /\
    (exists a, nth_error (grid g) 0 = Some (c0, a)) /\
    (exists a, nth_error (grid g) (Z.to_nat (n_lines g)) = Some (c0 + p, a)) /\
    (forall c a, In (c, a) (grid g) -> c0 <= c <= c0 + p).
Proof.
  intros (Hp & c0 & a0 & tl & Hg & (l & aN & Hl) & Hin).
  exists c0. split; [assumption|].
  pose proof (first_line_cons _ _ _ _ Hg) as Hf.
  pose proof (last_line_snoc _ _ _ _ Hl) as Hla.
  split; [assumption|].
  split. { unfold period. rewrite Hf, Hla. f_equal; lia. }
  assert (Hlen : (length (grid g) = length l + 1)%nat) by (rewrite Hl, app_length; reflexivity).
  assert (l <> []).
  { intros ->. simpl in Hl. rewrite Hl in Hg. injection Hg as E _ _. lia. }
  assert (1 <= length l)%nat by (destruct l; [congruence|simpl; lia]).
  unfold n_lines. split; [lia|].
  split; [exists a0; rewrite Hg; reflexivity|].
  split; [|assumption].
  exists aN. replace (Z.to_nat (Z.of_nat (length (grid g)) - 1)) with (length l) by lia.
  rewrite Hl, nth_error_app2, Nat.sub_diag by lia. reflexivity.
Qed.

Lemma nth_error_lt_ex {A} (l : list A) k : (k < length l)%nat -> exists x, nth_error l k = Some x.
Proof.
  intros H. destruct (nth_error l k) eqn:E; [eauto|]. apply nth_error_None in E. lia.
Qed.

Lemma coord_range g p w f c : coord g p w f c -> 0 <= f <= n_lines g.
Proof.
  intros (Hf & c0 & a & H & _). apply nth_error_Some_lt in H. unfold n_lines. lia.
Qed.

Lemma value_flat g p v : periodic g p ->
  exists c a, value g (Flat v) false = Some (c, a) /\
              coord g p (v / n_lines g) (v mod n_lines g) c.
Proof.
  intros Hp. destruct (periodic_inv g p Hp) as (c0 & Hp0 & Hf & Hper & Hn & H0 & HN & Hin).
  unfold value, idx_flat. destruct (n_lines g <=? 0) eqn:E; [lia|].
  pose proof (Z.mod_pos_bound v (n_lines g) ltac:(lia)).
  destruct (nth_error_lt_ex (grid g) (Z.to_nat (v mod n_lines g))) as [[c a] Hc].
  { unfold n_lines in *. lia. }
  exists (c + v / n_lines g * p), a. cbn [andb].
  split; [rewrite Hc, Hper; reflexivity|].
  split; [lia|]. exists c, a. split; [assumption|reflexivity].
Qed.

Lemma coord_fun g p w f c c' : coord g p w f c -> coord g p w f c' -> c = c'.
Proof. intros (_ & x & a & H & ->) (_ & y & b & H' & ->). congruence. Qed.

Lemma flat_pair g w f : value g (Pair w f) = value g (Flat (w * n_lines g + f)).
Proof. reflexivity. Qed.

Lemma value_pair g p w f c : periodic g p -> coord g p w f c ->
  exists a, value g (Pair w f) false = Some (c, a).
Proof.
  intros Hp Hc. pose proof (coord_range _ _ _ _ _ Hc) as Hr.
  destruct (periodic_inv g p Hp) as (c0 & Hp0 & Hf & Hper & Hn & (a0 & H0) & (aN & HN) & Hin).
  rewrite flat_pair.
  destruct (value_flat g p (w * n_lines g + f) Hp) as (c' & a' & Hv & Hc').
  rewrite Hv. exists a'. f_equal. f_equal.
  destruct (Z.eq_dec f (n_lines g)) as [->|Hne].
  - replace (w * n_lines g + n_lines g) with ((w + 1) * n_lines g) in Hc' by ring.
    rewrite Z.div_mul, Z.mod_mul in Hc' by lia.
    destruct Hc as (_ & x & a & Hx & ->). destruct Hc' as (_ & y & b & Hy & ->).
    change (Z.to_nat 0) with 0%nat in Hy. rewrite HN in Hx. injection Hx as <- <-. rewrite H0 in Hy. injection Hy as <- <-.
    ring.
  - assert (E1 : (w * n_lines g + f) / n_lines g = w).
    { rewrite Z.add_comm, Z.div_add by lia. rewrite Z.div_small by lia. lia. }
    assert (E2 : (w * n_lines g + f) mod n_lines g = f).
    { rewrite Z.add_comm, Z.mod_add by lia. apply Z.mod_small. lia. }
    rewrite E1, E2 in Hc'. eapply coord_fun; eassumption.
Qed.

(** ** The search loop. *)
Lemma ib_loop_spec offset q r l : forall prev pv,
  key_sorted snd ((prev, pv) :: l) -> pv - offset < r ->
  (exists k v, In (k, v) l /\ r <= v - offset) ->
  exists i vi j vj, ib_loop offset q r prev l = Some ((q, i), (q, j)) /\
    In (i, vi) ((prev, pv) :: l) /\ In (j, vj) l /\
    ((i = j /\ vi = vj /\ vi - offset = r) \/
     (vi - offset < r < vj - offset /\ forall k v, In (k, v) ((prev, pv) :: l) -> v <= vi \/ vj <= v)).
Proof.
  induction l as [|[idx val] l IH]; intros prev pv Hs Hpv (k & v & Hin & Hr); [destruct Hin|].
  simpl ib_loop. inversion Hs as [|? ? Hs' Hall0]; subst.
  inversion Hs' as [|? ? _ Hall]; subst. inversion Hall0 as [|? ? Hpvv _]; subst. simpl in Hpvv.
  destruct (val - offset =? r) eqn:E1.
  - exists idx, val, idx, val. split; [reflexivity|]. split; [right; left; reflexivity|].
    split; [left; reflexivity|]. left. lia.
  - destruct (r <? val - offset) eqn:E2.
    + exists prev, pv, idx, val. split; [reflexivity|]. split; [left; reflexivity|].
      split; [left; reflexivity|]. right. split; [lia|].
      intros k' v' [H|[H|H]].
      * injection H as <- <-. lia.
      * injection H as <- <-. lia.
      * rewrite Forall_forall in Hall. apply Hall in H. simpl in H. lia.
    + destruct Hin as [H|Hin]; [injection H as <- <-; lia|].
      destruct (IH idx val Hs' ltac:(lia)) as (i & vi & j & vj & Heq & Hi & Hj & Hcase).
      { exists k, v. auto. }
      exists i, vi, j, vj. split; [assumption|]. split; [right; assumption|].
      split; [right; assumption|].
      destruct Hcase as [?|[Hb Hno]]; [left; assumption|right].
      split; [assumption|]. intros k' v' [H|H]; [|apply (Hno k' v' H)].
      injection H as <- <-.
      destruct Hi as [Hi|Hi]; [injection Hi as <- <-; lia|].
      rewrite Forall_forall in Hall. apply Hall in Hi. simpl in Hi. lia.
Qed.

Definition mono_list (g : Grid) : list (Z * Z) :=
  sort_by (fun iv => snd iv) (map (fun iv => (fst iv, fst (snd iv))) (enumerate (grid g))).

Lemma mono_list_in g i v :
  In (i, v) (mono_list g) <-> 0 <= i /\ exists a, nth_error (grid g) (Z.to_nat i) = Some (v, a).
Proof.
  unfold mono_list. rewrite sort_by_in, in_map_iff. split.
  - intros ([i' [v' a]] & E & Hin). simpl in E. injection E as <- <-.
    apply enumerate_in in Hin. destruct Hin. split; [assumption|]. eauto.
  - intros [Hi (a & Hn)]. exists (i, (v, a)). split; [reflexivity|]. apply enumerate_in. auto.
Qed.

Lemma inverseBounds_spec g p x : periodic g p ->
  exists q i j ci cj, inverseBounds g x = Some ((q, i), (q, j)) /\
    coord g p q i ci /\ coord g p q j cj /\
    ((i = j /\ ci = x) \/ (ci < x < cj)) /\
    (forall w f c, coord g p w f c -> c <= ci \/ cj <= c).
Proof.
  intros Hp. destruct (periodic_inv g p Hp) as (c0 & Hp0 & Hf & Hper & Hn & (a0 & H0) & (aN & HN) & Hin).
  unfold inverseBounds. rewrite Hf, Hper. destruct (p =? 0) eqn:E; [lia|]. clear E.
  set (q := (x - c0) / p). set (r := (x - c0) mod p).
  assert (Hqr : x - c0 = q * p + r) by (unfold q, r; rewrite (Z.div_mod (x - c0) p) at 1 by lia; ring).
  assert (Hr : 0 <= r < p) by (apply Z.mod_pos_bound; lia).
  fold (mono_list g).
  pose proof (sort_by_sorted (fun iv : Z*Z => snd iv)
     (map (fun iv : Z * (Z * attrs) => (fst iv, fst (snd iv))) (enumerate (grid g)))) as Hs.
  fold (mono_list g) in Hs.
  assert (Hmin : forall k v, In (k, v) (mono_list g) -> c0 <= v <= c0 + p).
  { intros k v Hk. apply mono_list_in in Hk as (_ & a & Hk). apply nth_error_In in Hk. eauto. }
  assert (Hin0 : In (0, c0) (mono_list g)) by (apply mono_list_in; split; [lia|eauto]).
  assert (HinN : In (n_lines g, c0 + p) (mono_list g)) by (apply mono_list_in; split; [lia|eauto]).
  assert (Hex : exists i vi j vj, ib_loop c0 q r (fst (last (mono_list g) (0, 0))) (mono_list g)
                 = Some ((q, i), (q, j)) /\ In (i, vi) (mono_list g) /\ In (j, vj) (mono_list g) /\
          ((i = j /\ vi = vj /\ vi - c0 = r) \/
           (vi - c0 < r < vj - c0 /\ forall k v, In (k, v) (mono_list g) -> v <= vi \/ vj <= v))).
  { destruct (mono_list g) as [|[idx val] l] eqn:El; [destruct Hin0|].
    simpl ib_loop. inversion Hs as [|? ? Hs' Hall]; subst.
    assert (Hval : val = c0).
    { pose proof (Hmin idx val (or_introl eq_refl)).
      destruct Hin0 as [Hh|Hh]; [congruence|].
      rewrite Forall_forall in Hall. apply Hall in Hh. simpl in Hh. lia. }
    destruct (val - c0 =? r) eqn:E1.
    - exists idx, val, idx, val. split; [reflexivity|]. split; [left; reflexivity|].
      split; [left; reflexivity|]. left. lia.
    - destruct (r <? val - c0) eqn:E2; [lia|].
      destruct (ib_loop_spec c0 q r l idx val Hs ltac:(lia)) as (i & vi & j & vj & Heq & Hi & Hj & Hc).
      { exists (n_lines g), (c0 + p). destruct HinN as [Hh|Hh]; [injection Hh; lia|]. split; [assumption|lia]. }
      exists i, vi, j, vj. split; [assumption|]. split; [assumption|]. split; [right; assumption|assumption]. }
  destruct Hex as (i & vi & j & vj & Heq & Hi & Hj & Hcase).
  exists q, i, j, (vi + q * p), (vj + q * p). split; [assumption|].
  pose proof (Hmin _ _ Hi) as Bi. pose proof (Hmin _ _ Hj) as Bj.
  apply mono_list_in in Hi as (Hi0 & ai & Hi). apply mono_list_in in Hj as (Hj0 & aj & Hj).
  split; [split; [assumption|]; eauto|]. split; [split; [assumption|]; eauto|].
  split; [lia|].
  intros w f c (Hf0 & cf & af & Hnf & ->).
  assert (Bf : c0 <= cf <= c0 + p) by (apply nth_error_In in Hnf; eauto).
  assert (Hm : In (f, cf) (mono_list g)) by (apply mono_list_in; split; eauto).
  destruct Hcase as [(Hij & Hvij & _)|[Hb Hno]]; [subst; lia|].
  destruct (Z.lt_trichotomy w q) as [Hw|[->|Hw]].
  - left. nia.
  - specialize (Hno f cf Hm). lia.
  - right. nia.
Qed.

(** ** Increasing grids. *)
Lemma sorted_nth {A} (R : A -> A -> Prop) l i j x y :
  StronglySorted R l -> nth_error l i = Some x -> nth_error l j = Some y -> (i < j)%nat -> R x y.
Proof.
  intros Hs. revert i j. induction Hs as [|a l Hs IH Ha]; intros i j Hi Hj Hij.
  - destruct i; discriminate.
  - destruct j as [|j]; [lia|]. destruct i as [|i]; simpl in *.
    + injection Hi as <-. rewrite Forall_forall in Ha. apply Ha. eapply nth_error_In; eassumption.
    + eapply IH; try eassumption. lia.
Qed.

Lemma increasing_nth g f1 f2 c1 a1 c2 a2 : increasing g -> 0 <= f1 -> f1 < f2 ->
  nth_error (grid g) (Z.to_nat f1) = Some (c1, a1) ->
  nth_error (grid g) (Z.to_nat f2) = Some (c2, a2) -> c1 < c2.
Proof.
  intros Hi H1 H12 Hn1 Hn2.
  apply (sorted_nth _ _ _ _ _ _ Hi Hn1 Hn2). lia.
Qed.

Lemma coord_lex_le g p w1 f1 c1 w2 f2 c2 : periodic g p -> increasing g ->
  coord g p w1 f1 c1 -> coord g p w2 f2 c2 ->
  (w1 < w2 \/ (w1 = w2 /\ f1 <= f2)) -> c1 <= c2.
Proof.
  intros Hp Hi (Hf1 & x1 & a1 & Hn1 & ->) (Hf2 & x2 & a2 & Hn2 & ->) Hlex.
  destruct (periodic_inv g p Hp) as (c0 & Hp0 & Hf & Hper & Hn & H0 & HN & Hin).
  pose proof (Hin _ _ (nth_error_In _ _ Hn1)). pose proof (Hin _ _ (nth_error_In _ _ Hn2)).
  destruct Hlex as [Hw|[-> Hff]]; [nia|].
  destruct (Z.eq_dec f1 f2) as [->|Hne].
  - rewrite Hn1 in Hn2. injection Hn2 as <- <-. lia.
  - pose proof (increasing_nth g f1 f2 _ _ _ _ Hi Hf1 ltac:(lia) Hn1 Hn2). lia.
Qed.

Lemma coord_lex_lt g p w1 f1 c1 w2 f2 c2 : periodic g p -> increasing g ->
  coord g p w1 f1 c1 -> coord g p w2 f2 c2 ->
  (w1 < w2 \/ (w1 = w2 /\ f1 < f2)) -> f1 < n_lines g -> c1 < c2.
Proof.
  intros Hp Hi Hc1 Hc2 Hlex Hlt.
  destruct (periodic_inv g p Hp) as (c0 & Hp0 & Hf & Hper & Hn & H0 & (aN & HN) & Hin).
  destruct Hc1 as (Hf1 & x1 & a1 & Hn1 & ->). destruct Hc2 as (Hf2 & x2 & a2 & Hn2 & ->).
  pose proof (Hin _ _ (nth_error_In _ _ Hn1)). pose proof (Hin _ _ (nth_error_In _ _ Hn2)).
  destruct Hlex as [Hw|[-> Hff]].
  - pose proof (increasing_nth g f1 (n_lines g) _ _ _ _ Hi Hf1 Hlt Hn1 HN). nia.
  - pose proof (increasing_nth g f1 f2 _ _ _ _ Hi Hf1 Hff Hn1 Hn2). lia.
Qed.

Lemma value_strictly_increasing g p v1 v2 : periodic g p -> increasing g -> v1 < v2 ->
  exists c1 a1 c2 a2, value g (Flat v1) false = Some (c1, a1) /\
                      value g (Flat v2) false = Some (c2, a2) /\ c1 < c2.
Proof.
  intros Hp Hi Hv.
  destruct (periodic_inv g p Hp) as (c0 & Hp0 & Hf & Hper & Hn & _).
  destruct (value_flat g p v1 Hp) as (c1 & a1 & Hv1 & Hc1).
  destruct (value_flat g p v2 Hp) as (c2 & a2 & Hv2 & Hc2).
  exists c1, a1, c2, a2. split; [assumption|]. split; [assumption|].
  eapply coord_lex_lt; try eassumption.
  - pose proof (Z.div_le_mono v1 v2 (n_lines g) ltac:(lia) ltac:(lia)).
    destruct (Z.eq_dec (v1 / n_lines g) (v2 / n_lines g)) as [E|E]; [right|left; lia].
    split; [assumption|].
    pose proof (Z.div_mod v1 (n_lines g) ltac:(lia)). pose proof (Z.div_mod v2 (n_lines g) ltac:(lia)).
    rewrite E in *. lia.
  - apply Z.mod_pos_bound. lia.
Qed.

Lemma value_periodic g p v : periodic g p ->
  exists c a, value g (Flat v) false = Some (c, a) /\
              value g (Flat (v + n_lines g)) false = Some (c + p, a).
Proof.
  intros Hp. destruct (periodic_inv g p Hp) as (c0 & Hp0 & Hf & Hper & Hn & _).
  destruct (value_flat g p v Hp) as (c & a & Hv & Hc).
  exists c, a. split; [assumption|].
  unfold value, idx_flat in *. destruct (n_lines g <=? 0) eqn:E; [lia|].
  replace (v + n_lines g) with (v + 1 * n_lines g) by ring.
  rewrite Z.div_add, Z.mod_add by lia.
  cbn [andb] in *. destruct (nth_error (grid g) (Z.to_nat (v mod n_lines g))) as [[c' a']|]; [|discriminate].
  rewrite Hper in *. injection Hv as <- <-. f_equal. f_equal. ring.
Qed.

Lemma roundtrip g p v c a : periodic g p -> increasing g ->
  value g (Flat v) false = Some (c, a) ->
  inverseBounds g c = Some ((v / n_lines g, v mod n_lines g), (v / n_lines g, v mod n_lines g)).
Proof.
  intros Hp Hi Hv.
  destruct (periodic_inv g p Hp) as (c0 & Hp0 & Hf & Hper & Hn & _).
  destruct (value_flat g p v Hp) as (c' & a' & Hv' & Hc).
  assert (c' = c) by congruence. subst c'. clear Hv'.
  destruct (inverseBounds_spec g p c Hp) as (q & i & j & ci & cj & Heq & Hci & Hcj & Hcase & Hno).
  rewrite Heq.
  destruct Hcase as [[<- ->]|Hb].
  2:{ specialize (Hno _ _ _ Hc). lia. }
  assert (Hfr : 0 <= v mod n_lines g < n_lines g) by (apply Z.mod_pos_bound; lia).
  assert (Hieq : (q, i) = (v / n_lines g, v mod n_lines g)).
  { assert (Hin : i < n_lines g).
    { (* the loop returns the first matching index; an index n would sit at the next period *)
      unfold inverseBounds in Heq. rewrite Hf, Hper in Heq.
      destruct (p =? 0) eqn:E; [lia|].
      pose proof (coord_range _ _ _ _ _ Hci).
      destruct (Z.eq_dec i (n_lines g)) as [->|]; [|lia].
      exfalso.
      assert (Hq : q = (c - c0) / p).
      { clear -Heq. revert Heq. generalize (fst (last (sort_by (fun iv : Z*Z => snd iv)
            (map (fun iv : Z * (Z * attrs) => (fst iv, fst (snd iv))) (enumerate (grid g)))) (0, 0))).
        generalize (sort_by (fun iv : Z*Z => snd iv)
            (map (fun iv : Z * (Z * attrs) => (fst iv, fst (snd iv))) (enumerate (grid g)))).
        intros l. generalize (n_lines g).
        induction l as [|[a b] l IH]; intros m prev; simpl; [discriminate|].
        destruct (b - c0 =? (c - c0) mod p); [congruence|].
        destruct ((c - c0) mod p <? b - c0); [congruence|]. apply IH. }
      destruct (periodic_inv g p Hp) as (c0' & _ & Hf' & _ & _ & _ & (aN & HN) & _).
      assert (c0' = c0) by congruence. subst c0'.
      destruct Hci as (_ & x & ax & Hx & Hcx). rewrite HN in Hx. injection Hx as <- <-.
      rewrite Hcx in Hq. replace (c0 + p + q * p - c0) with ((q + 1) * p) in Hq by ring.
      rewrite Z.div_mul in Hq by lia. lia. }
    destruct (Z.lt_trichotomy q (v / n_lines g)) as [H|[H|H]].
    - pose proof (coord_lex_lt g p _ _ _ _ _ _ Hp Hi Hci Hc (or_introl H) Hin). lia.
    - subst q. f_equal.
      destruct (Z.lt_trichotomy i (v mod n_lines g)) as [H|[H|H]]; [|assumption|].
      + pose proof (coord_lex_lt g p _ _ _ _ _ _ Hp Hi Hci Hc (or_intror (conj eq_refl H)) Hin). lia.
      + pose proof (coord_lex_lt g p _ _ _ _ _ _ Hp Hi Hc Hci (or_intror (conj eq_refl H)) ltac:(lia)). lia.
    - pose proof (coord_lex_lt g p _ _ _ _ _ _ Hp Hi Hc Hci (or_introl H) ltac:(lia)). lia. }
  congruence.
Qed.

(** ** Snapping. *)
Lemma zmax_list_spec l m : zmax_list l = Some m -> In m l /\ forall x, In x l -> x <= m.
Proof.
  revert m; induction l as [|a l IH]; simpl; intros m H; [discriminate|].
  destruct (zmax_list l) as [m'|] eqn:E.
  - injection H as <-. destruct (IH m' eq_refl) as [Hin Hle]. split.
    + destruct (Z.max_spec a m') as [[_ ->]|[_ ->]]; auto.
    + intros x [->|Hx]; [lia|]. apply Hle in Hx. lia.
  - injection H as <-. split; [left; reflexivity|].
    intros x [->|Hx]; [lia|]. destruct l; [destruct Hx|]. simpl in E. destruct (zmax_list l); discriminate.
Qed.

Lemma zmin_list_spec l m : zmin_list l = Some m -> In m l /\ forall x, In x l -> m <= x.
Proof.
  revert m; induction l as [|a l IH]; simpl; intros m H; [discriminate|].
  destruct (zmin_list l) as [m'|] eqn:E.
  - injection H as <-. destruct (IH m' eq_refl) as [Hin Hle]. split.
    + destruct (Z.min_spec a m') as [[_ ->]|[_ ->]]; auto.
    + intros x [->|Hx]; [lia|]. apply Hle in Hx. lia.
  - injection H as <-. split; [left; reflexivity|].
    intros x [->|Hx]; [lia|]. destruct l; [destruct Hx|]. simpl in E. destruct (zmin_list l); discriminate.
Qed.

Lemma zmax_list_None l : zmax_list l = None -> l = [].
Proof. destruct l; simpl; [reflexivity|]. destruct (zmax_list l); discriminate. Qed.
Lemma zmin_list_None l : zmin_list l = None -> l = [].
Proof. destruct l; simpl; [reflexivity|]. destruct (zmin_list l); discriminate. Qed.

(** Lexicographic order on grid indices (period copy, line number). *)
Definition lex_le (a b : Z * Z) : Prop := fst a < fst b \/ (fst a = fst b /\ snd a <= snd b).

Lemma snap_down g w f : legalIndices g <> [] ->
  exists w' f', snapToLegal g (w, f) Down = Some (w', f') /\
    In f' (legalIndices g) /\ lex_le (w', f') (w, f) /\
    (forall w2 f2, In f2 (legalIndices g) -> lex_le (w2, f2) (w, f) -> lex_le (w2, f2) (w', f')).
Proof.
  intros Hne. unfold snapToLegal, lex_le. cbn [fst snd].
  destruct (zmax_list (filter (fun x => x <=? f) (legalIndices g))) as [m|] eqn:E.
  - apply zmax_list_spec in E as [Hin Hmax]. apply filter_In in Hin as [Hin Hle].
    exists w, m. split; [reflexivity|]. split; [assumption|]. split; [right; lia|].
    intros w2 f2 H2 [Hw|[-> Hff]]; [left; assumption|]. right. split; [reflexivity|].
    apply Hmax. apply filter_In. split; [assumption|lia].
  - apply zmax_list_None in E.
    destruct (zmax_list (legalIndices g)) as [m|] eqn:E2; [|apply zmax_list_None in E2; contradiction].
    apply zmax_list_spec in E2 as [Hin Hmax].
    exists (w + -1), m. split; [reflexivity|]. split; [assumption|]. split; [left; lia|].
    intros w2 f2 H2 Hl.
    assert (w2 < w).
    { destruct Hl as [Hw|[-> Hff]]; [assumption|]. exfalso.
      assert (Hx : In f2 (filter (fun x => x <=? f) (legalIndices g))) by (apply filter_In; split; [assumption|lia]).
      rewrite E in Hx. destruct Hx. }
    apply Hmax in H2. destruct (Z.eq_dec w2 (w + -1)); [right|left]; lia.
Qed.

Lemma snap_up g w f : legalIndices g <> [] ->
  exists w' f', snapToLegal g (w, f) Up = Some (w', f') /\
    In f' (legalIndices g) /\ lex_le (w, f) (w', f') /\
    (forall w2 f2, In f2 (legalIndices g) -> lex_le (w, f) (w2, f2) -> lex_le (w', f') (w2, f2)).
Proof.
  intros Hne. unfold snapToLegal, lex_le. cbn [fst snd].
  destruct (zmin_list (filter (fun x => f <=? x) (legalIndices g))) as [m|] eqn:E.
  - apply zmin_list_spec in E as [Hin Hmin]. apply filter_In in Hin as [Hin Hle].
    exists w, m. split; [reflexivity|]. split; [assumption|]. split; [right; lia|].
    intros w2 f2 H2 [Hw|[<- Hff]]; [left; assumption|]. right. split; [reflexivity|].
    apply Hmin. apply filter_In. split; [assumption|lia].
  - apply zmin_list_None in E.
    destruct (zmin_list (legalIndices g)) as [m|] eqn:E2; [|apply zmin_list_None in E2; contradiction].
    apply zmin_list_spec in E2 as [Hin Hmin].
    exists (w + 1), m. split; [reflexivity|]. split; [assumption|]. split; [left; lia|].
    intros w2 f2 H2 Hl.
    assert (w < w2).
    { destruct Hl as [Hw|[<- Hff]]; [assumption|]. exfalso.
      assert (Hx : In f2 (filter (fun x => f <=? x) (legalIndices g))) by (apply filter_In; split; [assumption|lia]).
      rewrite E in Hx. destruct Hx. }
    apply Hmin in H2. destruct (Z.eq_dec w2 (w + 1)); [right|left]; lia.
Qed.

Lemma coord_ex g p w f : periodic g p -> 0 <= f <= n_lines g -> exists c, coord g p w f c.
Proof.
  intros Hp Hf. destruct (nth_error_lt_ex (grid g) (Z.to_nat f)) as [[c a] H].
  { unfold n_lines in Hf. lia. }
  exists (c + w * p). split; [lia|]. eauto.
Qed.

(** First and last line are the same physical line, so they should agree on legality. *)
Definition ends_agree (g : Grid) : Prop :=
  In 0 (legalIndices g) <-> In (n_lines g) (legalIndices g).

Definition legal_range (g : Grid) : Prop :=
  legalIndices g <> [] /\ forall f, In f (legalIndices g) -> 0 <= f <= n_lines g.

Lemma coord_lex_le' g p w1 f1 c1 w2 f2 c2 : periodic g p -> increasing g ->
  coord g p w1 f1 c1 -> coord g p w2 f2 c2 -> lex_le (w1, f1) (w2, f2) -> c1 <= c2.
Proof. intros Hp Hi H1 H2 H3. exact (coord_lex_le g p w1 f1 c1 w2 f2 c2 Hp Hi H1 H2 H3). Qed.

Lemma snap_down_coord g p w f c : periodic g p -> increasing g -> legal_range g -> ends_agree g ->
  coord g p w f c ->
  exists w' f' c', snapToLegal g (w, f) Down = Some (w', f') /\ In f' (legalIndices g) /\
    coord g p w' f' c' /\ c' <= c /\
    (forall w2 f2 c2, In f2 (legalIndices g) -> coord g p w2 f2 c2 -> c2 <= c -> c2 <= c').
Proof.
  intros Hp Hi (Hne & Hr) He Hc.
  destruct (snap_down g w f Hne) as (w' & f' & Heq & Hl & Hle & Hbest).
  destruct (coord_ex g p w' f' Hp (Hr _ Hl)) as (c' & Hc').
  exists w', f', c'. split; [assumption|]. split; [assumption|]. split; [assumption|].
  split; [eapply coord_lex_le'; eassumption|].
  intros w2 f2 c2 H2 Hc2 Hcc.
  assert (Hcase : lex_le (w2, f2) (w, f) \/ (w < w2 \/ (w = w2 /\ f < f2))) by (unfold lex_le; simpl; lia).
  destruct Hcase as [Hlex|Hgt].
  - specialize (Hbest _ _ H2 Hlex). eapply coord_lex_le'; eassumption.
  - pose proof (coord_range _ _ _ _ _ Hc) as Rf. pose proof (coord_range _ _ _ _ _ Hc2) as Rf2.
    destruct (Z.eq_dec f (n_lines g)) as [->|Hfn].
    2:{ pose proof (coord_lex_lt g p _ _ _ _ _ _ Hp Hi Hc Hc2 Hgt ltac:(lia)). lia. }
    destruct Hgt as [Hgt|[-> Hgt]]; [|lia].
    destruct (coord_ex g p (w + 1) 0 Hp ltac:(lia)) as (c3 & Hc3).
    assert (c3 = c).
    { destruct (periodic_inv g p Hp) as (c0 & _ & _ & _ & _ & (a0 & H0) & (aN & HN) & _).
      destruct Hc as (_ & x & ax & Hx & ->). destruct Hc3 as (_ & y & ay & Hy & ->).
      rewrite HN in Hx. injection Hx as <- <-. change (Z.to_nat 0) with 0%nat in Hy. rewrite H0 in Hy. injection Hy as <- <-. ring. }
    subst c3.
    assert (Hz : w2 = w + 1 /\ f2 = 0).
    { destruct (Z.eq_dec w2 (w + 1)) as [->|]; [split; [reflexivity|]|].
      - destruct (Z.eq_dec f2 0); [assumption|].
        pose proof (periodic_inv g p Hp) as (c0 & _ & _ & _ & Hn & _).
        pose proof (coord_lex_lt g p (w+1) 0 c (w+1) f2 c2 Hp Hi Hc3 Hc2 ltac:(right; lia) ltac:(lia)). lia.
      - pose proof (periodic_inv g p Hp) as (c0 & _ & _ & _ & Hn & _).
        pose proof (coord_lex_lt g p (w+1) 0 c w2 f2 c2 Hp Hi Hc3 Hc2 ltac:(left; lia) ltac:(lia)). lia. }
    destruct Hz as [-> ->]. apply He in H2.
    assert (c2 = c) by (eapply coord_fun; eassumption). subst c2.
    assert (Hlex : lex_le (w, n_lines g) (w, n_lines g)) by (unfold lex_le; simpl; lia).
    specialize (Hbest _ _ H2 Hlex).
    exact (coord_lex_le' _ _ _ _ _ _ _ _ Hp Hi Hc Hc' Hbest).
Qed.

Lemma snap_up_coord g p w f c : periodic g p -> increasing g -> legal_range g -> ends_agree g ->
  coord g p w f c ->
  exists w' f' c', snapToLegal g (w, f) Up = Some (w', f') /\ In f' (legalIndices g) /\
    coord g p w' f' c' /\ c <= c' /\
    (forall w2 f2 c2, In f2 (legalIndices g) -> coord g p w2 f2 c2 -> c <= c2 -> c' <= c2).
Proof.
  intros Hp Hi (Hne & Hr) He Hc.
  destruct (snap_up g w f Hne) as (w' & f' & Heq & Hl & Hle & Hbest).
  destruct (coord_ex g p w' f' Hp (Hr _ Hl)) as (c' & Hc').
  exists w', f', c'. split; [assumption|]. split; [assumption|]. split; [assumption|].
  split; [eapply coord_lex_le'; eassumption|].
  intros w2 f2 c2 H2 Hc2 Hcc.
  assert (Hcase : lex_le (w, f) (w2, f2) \/ (w2 < w \/ (w2 = w /\ f2 < f))) by (unfold lex_le; simpl; lia).
  destruct Hcase as [Hlex|Hgt].
  - specialize (Hbest _ _ H2 Hlex). eapply coord_lex_le'; eassumption.
  - pose proof (coord_range _ _ _ _ _ Hc) as Rf. pose proof (coord_range _ _ _ _ _ Hc2) as Rf2.
    destruct (Z.eq_dec f2 (n_lines g)) as [->|Hfn].
    2:{ pose proof (coord_lex_lt g p _ _ _ _ _ _ Hp Hi Hc2 Hc Hgt ltac:(lia)). lia. }
    destruct Hgt as [Hgt|[-> Hgt]]; [|lia].
    destruct (coord_ex g p (w2 + 1) 0 Hp ltac:(lia)) as (c3 & Hc3).
    assert (c3 = c2).
    { destruct (periodic_inv g p Hp) as (c0 & _ & _ & _ & _ & (a0 & H0) & (aN & HN) & _).
      destruct Hc2 as (_ & x & ax & Hx & ->). destruct Hc3 as (_ & y & ay & Hy & ->).
      rewrite HN in Hx. injection Hx as <- <-. change (Z.to_nat 0) with 0%nat in Hy. rewrite H0 in Hy. injection Hy as <- <-. ring. }
    subst c3.
    pose proof (periodic_inv g p Hp) as (c0 & _ & _ & _ & Hn & _).
    assert (Hz : w = w2 + 1 /\ f = 0).
    { destruct (Z.eq_dec w (w2 + 1)) as [->|]; [split; [reflexivity|]|].
      - destruct (Z.eq_dec f 0); [assumption|].
        pose proof (coord_lex_lt g p (w2+1) 0 c2 (w2+1) f c Hp Hi Hc3 Hc ltac:(right; lia) ltac:(lia)). lia.
      - pose proof (coord_lex_lt g p (w2+1) 0 c2 w f c Hp Hi Hc3 Hc ltac:(left; lia) ltac:(lia)). lia. }
    destruct Hz as [-> ->]. apply He in H2.
    assert (c2 = c) by (eapply coord_fun; eassumption). subst c2.
    assert (Hlex : lex_le (w2 + 1, 0) (w2 + 1, 0)) by (unfold lex_le; simpl; lia).
    specialize (Hbest _ _ H2 Hlex).
    exact (coord_lex_le' _ _ _ _ _ _ _ _ Hp Hi Hc' Hc Hbest).
Qed.

(** ** The grids built by the library meet the hypotheses. *)
Lemma enclosure_periodic pitch offset stop : 0 < pitch -> 0 <= stop <= pitch ->
  periodic (EnclosureGrid pitch offset stop) pitch.
Proof.
  intros Hp Hs. split; [assumption|]. simpl.
  exists offset, None. eexists. split; [reflexivity|]. split.
  - exists [(offset, None); (offset + stop, None); (offset + pitch / 2, None);
            (offset + pitch - stop, None)], None. reflexivity.
  - intros c a [H|[H|[H|[H|[H|[]]]]]]; injection H as <- <-; lia.
Qed.

Lemma enclosure_increasing pitch offset stop : 0 < stop -> 2 * stop < pitch - 1 ->
  increasing (EnclosureGrid pitch offset stop).
Proof.
  intros H1 H2. unfold increasing. simpl.
  repeat constructor; simpl; lia.
Qed.

Lemma enclosure_legal pitch offset stop :
  legal_range (EnclosureGrid pitch offset stop) /\ ends_agree (EnclosureGrid pitch offset stop).
Proof.
  unfold legal_range, ends_agree, n_lines; simpl.
  split; [split; [discriminate|]; lia|]. lia.
Qed.

Lemma centered_ok pitch offset : 2 <= pitch ->
  periodic (CenteredGrid pitch offset) pitch /\ increasing (CenteredGrid pitch offset) /\
  legal_range (CenteredGrid pitch offset) /\ ends_agree (CenteredGrid pitch offset).
Proof.
  intros H. split.
  - split; [lia|]. simpl. exists offset, None. eexists. split; [reflexivity|]. split.
    + exists [(offset, None); (offset + pitch / 2, None)], None. reflexivity.
    + intros c a [E|[E|[E|[]]]]; injection E as <- <-; lia.
  - unfold increasing, legal_range, ends_agree, n_lines; simpl.
    split; [repeat constructor; simpl; lia|]. split; [split; [discriminate|lia]|lia].
Qed.

Lemma fold_lines_grid at_ pitch offset : forall k g0,
  let g := fold_left (fun g i => addGridLine g (offset + Z.of_nat i * pitch) true at_)
                     (seq (length (grid g0)) k) g0 in
  grid g = grid g0 ++ map (fun i => (offset + Z.of_nat i * pitch, at_)) (seq (length (grid g0)) k) /\
  legalIndices g = legalIndices g0 ++ map Z.of_nat (seq (length (grid g0)) k).
Proof.
  induction k as [|k IH]; intros g0; [simpl; rewrite !app_nil_r; auto|].
  cbn zeta. cbn [seq fold_left].
  pose proof (IH (addGridLine g0 (offset + Z.of_nat (length (grid g0)) * pitch) true at_)) as H.
  cbn zeta in H.
  replace (length (grid (addGridLine g0 (offset + Z.of_nat (length (grid g0)) * pitch) true at_)))
    with (Datatypes.S (length (grid g0))) in H by (simpl; rewrite app_length; simpl; lia).
  destruct H as [H1 H2]. rewrite H1, H2. unfold addGridLine; cbn [grid legalIndices map].
  rewrite <- !app_assoc. cbn [app]. split; [reflexivity|].
  f_equal. f_equal. rewrite app_length; simpl. lia.
Qed.

Lemma lines_ok at_ pitch offset (repeat : nat) : 0 < pitch -> (1 <= repeat)%nat ->
  let g := fold_left (fun g i => addGridLine g (offset + Z.of_nat i * pitch) true at_)
             (seq 0 (repeat + 1)) grid_empty in
  periodic g (Z.of_nat repeat * pitch) /\ increasing g /\ legal_range g /\ ends_agree g.
Proof.
  intros Hp Hr g. destruct (fold_lines_grid at_ pitch offset (repeat + 1) grid_empty) as [H1 H2].
  simpl length in H1, H2. fold g in H1, H2. cbn [grid_empty grid legalIndices app] in H1, H2.
  assert (Hn : n_lines g = Z.of_nat repeat).
  { unfold n_lines. rewrite H1, map_length, seq_length. lia. }
  split; [|split; [|split]].
  - split; [nia|]. exists offset, at_.
    exists (map (fun i => (offset + Z.of_nat i * pitch, at_)) (seq 1 repeat)).
    split; [rewrite H1; replace (repeat + 1)%nat with (Datatypes.S repeat) by lia; cbn [seq map]; f_equal; f_equal; lia|].
    split.
    + exists (map (fun i => (offset + Z.of_nat i * pitch, at_)) (seq 0 repeat)), at_.
      rewrite H1, seq_app, map_app. reflexivity.
    + intros c a Hc. rewrite H1 in Hc. apply in_map_iff in Hc as (i & Hi & Hin).
      injection Hi as <- <-. apply in_seq in Hin. nia.
  - unfold increasing. rewrite H1. clear -Hp. generalize (repeat + 1)%nat. intros k0. generalize 0%nat. revert k0.
    intros k; induction k as [|k IH]; intros s; cbn [seq map]; constructor; [apply IH|].
    apply Forall_forall. intros x Hx. apply in_map_iff in Hx as (i & <- & Hin).
    apply in_seq in Hin. cbn [fst]. nia.
  - unfold legal_range. rewrite H2, Hn. split.
    + replace (repeat + 1)%nat with (Datatypes.S repeat) by lia. discriminate.
    + intros f Hf. apply in_map_iff in Hf as (i & <- & Hin). apply in_seq in Hin. lia.
  - unfold ends_agree. rewrite H2, Hn. split; intros _; apply in_map_iff.
    + exists repeat. split; [reflexivity|]. apply in_seq. lia.
    + exists 0%nat. split; [reflexivity|]. apply in_seq. lia.
Qed.
