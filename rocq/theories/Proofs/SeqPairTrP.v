From Coq Require Import String QArith Qround Lqa.
From Verif Require Import Base.Prelude Base.PyDict Model.Transformation Model.RemoveDuplicates Model.Hpwl Model.PlaceGrid Model.SeqPair
  Spec.Geometry Spec.PlaceGridSpec Spec.SeqPairSpec Proofs.HpwlP Proofs.PlaceGridP Proofs.SeqPairP Proofs.SeqPairOrdP.
Local Open Scope Q_scope.

Lemma Qab_ge d q : (d <= q \/ d <= - q) -> d <= Qab q.
Proof.
  intros H. unfold Qab. destruct (Qle_bool 0 q) eqn:E.
  - apply Qle_bool_iff in E. destruct H; lra.
  - assert (~ 0 <= q) by (intros Hq; apply Qle_bool_iff in Hq; congruence). destruct H; lra.
Qed.
Lemma Qab_zero q d : q == 0 -> 0 <= d -> Qab q <= d.
Proof. intros H Hd. unfold Qab. destruct (Qle_bool 0 q); lra. Qed.

Section Tr.
  Variables (cs : list ucon) (im : imap) (size : string -> Z * Z) (sp : list nat * list nat) (ws : wires_t) (pg : string -> list pog) (scale : Z).
  Variables (max : nat) (sps : list (list nat * list nat)) (k : list con) (s : sol).
  Hypothesis Him : imap_ok im.
  Hypothesis Hsz : sizes_ok im size.
  Hypothesis Henum : enumerate_sequence_pairs cs im max = Some sps.
  Hypothesis Hin : In sp sps.
  Hypothesis Hpost : posted cs im size sp ws pg scale = Some k.
  Hypothesis Hfeas : feasible k s.
  Hypothesis Hsc : (1 <= scale)%Z.

  Let Hsp : sp_ok im sp := enum_sp_ok cs im max sps sp Henum Hin.
  Let r := / inject_Z scale.

  Lemma scale_q : 1 <= inject_Z scale.
  Proof. change 1 with (inject_Z 1). now rewrite <- Zle_Qle. Qed.
  Lemma r_pos : 0 < r.
  Proof. apply Qinv_lt_0_compat. pose proof scale_q. lra. Qed.
  Lemma r_inv : inject_Z scale * r == 1.
  Proof. apply Qmult_inv_r. pose proof scale_q. intros E. rewrite E in H. lra. Qed.
  Lemma r_le1 : r <= 1.
  Proof.
    pose proof r_inv. pose proof scale_q. pose proof r_pos. rewrite <- H. setoid_replace r with (1 * r) at 1 by ring.
    apply Qmult_le_compat_r; lra.
  Qed.
  Lemma le_r a b : a <= b -> a * r <= b * r.
  Proof. intros H. apply Qmult_le_compat_r; [exact H|]. pose proof r_pos; lra. Qed.
  Lemma eq_r a b : a == b -> a * r == b * r.
  Proof. intros ->. reflexivity. Qed.

  Let bx (n : string) : qbox := nm scale (v_box s n).
  Let top : qbox := nm scale (mkQb 0 0 (v_W s) (v_H s)).

  Lemma ll_nm d n : ll_of d (bx n) = ll_of d (v_box s n) * r.
  Proof. destruct d; reflexivity. Qed.
  Lemma ur_nm d n : ur_of d (bx n) = ur_of d (v_box s n) * r.
  Proof. destruct d; reflexivity. Qed.

  Lemma size_d d n : In n (map fst im) -> 
    ur_of d (v_box s n) - ll_of d (v_box s n) == inject_Z (if d then fst (size n) else snd (size n)) /\ 0 <= inject_Z (if d then fst (size n) else snd (size n)).
  Proof.
    intros Hn. destruct (inst_facts cs im size sp ws pg scale k s Hpost Hfeas n Hn) as (_ & _ & A & B & _).
    destruct (Hsz n Hn) as (C & D). destruct d; simpl; (split; [assumption|]); change 0 with (inject_Z 0); now rewrite <- Zle_Qle.
  Qed.

  Lemma pairwise_listed' (xs : list string) p : In p (pairwise xs) -> listed xs (fst p) (snd p).
  Proof.
    induction xs as [|x [|y xs] IH]; [intros []|intros []|]. intros [<-|H].
    - exists [], [], xs. reflexivity.
    - destruct (IH H) as (l1 & l2 & l3 & E). exists (x :: l1), l2, l3. simpl. now rewrite <- E.
  Qed.

  Lemma listed_ne xs a b : NoDup xs -> listed xs a b -> a <> b.
  Proof.
    intros Hnd (l1 & l2 & l3 & ->) ->. apply NoDup_remove_2 in Hnd. apply Hnd. apply in_or_app. right. apply in_elt.
  Qed.

  Lemma honoured_order d xs : In (UOrder d false xs) cs -> d <> OHoriz -> d <> OVert ->
    (d = ONone -> NoDup xs /\ Forall (fun n => In n (map fst im)) xs) -> translate bx (map fst im) top (UOrder d false xs).
  Proof.
    intros Hc Hh Hv Hn. simpl. apply Forall_forall. intros p Hp. pose proof (pairwise_listed' _ _ Hp) as Hl.
    pose proof (listed_in_order cs im max sps sp Him Henum Hin size ws pg scale k s d false xs _ _ Hpost Hfeas Hc Hl) as Ho.
    destruct d; try congruence; unfold order_formula, order_cc, ll_of, ur_of; simpl in Ho; simpl; try (apply le_r; exact Ho).
    destruct (Hn eq_refl) as (Hnd & Hk). rewrite Forall_forall in Hk. pose proof (listed_ne _ _ _ Hnd Hl) as Hne.
    apply pairwise_in in Hp as (A & B).
    destruct (disjoint cs im size sp ws pg scale k s Him Hsp Hpost Hfeas _ _ (Hk _ A) (Hk _ B) Hne) as [D|[D|[D|D]]]; apply le_r in D; auto.
  Qed.

  Lemma honoured_align l xs : In (UAlign l xs) cs -> translate bx (map fst im) top (UAlign l xs).
  Proof.
    intros Hc. destruct (user_some cs im size sp ws pg scale k s Hpost Hfeas _ Hc) as (x & Ex).
    pose proof (fun q => user_in cs im size sp ws pg scale k s Hpost Hfeas _ x q Hc Ex) as Hu. simpl in Ex.
    destruct (line_coord l) as [f|] eqn:Ef; [|discriminate]. destruct xs as [|i0 tl]; [discriminate|]. injection Ex as <-.
    assert (Heq : forall i, In i (i0 :: tl) -> f (v_box s i) == f (v_box s i0)).
    { intros i [<-|Hi]; [reflexivity|]. symmetry. apply (Hu (fun s => f (v_box s i0) == f (v_box s i))).
      apply in_map_iff. exists i. split; auto. }
    cbn [translate]. apply Forall_forall. intros p Hp. apply pairwise_in in Hp as (A & B). pose proof (Heq _ A) as E1. pose proof (Heq _ B) as E2.
    assert (E : f (v_box s (fst p)) == f (v_box s (snd p))) by (rewrite E1, E2; reflexivity).
    destruct l; try discriminate; injection Ef as <-; unfold align_formula; simpl; apply eq_r; exact E.
  Qed.

  Lemma honoured_spread hor dist xs : In (USpread hor dist xs) cs -> (0 <= dist)%Z -> Forall (fun n => In n (map fst im)) xs ->
    translate bx (map fst im) top (USpread hor dist xs).
  Proof.
    intros Hc Hd Hk. pose proof (fun q => user_in cs im size sp ws pg scale k s Hpost Hfeas _ _ q Hc eq_refl) as Hu. rewrite Forall_forall in Hk.
    cbn [translate]. apply Forall_forall. intros p Hp _.
    assert (Hpin : In (fst p) xs /\ In (snd p) xs).
    { destruct p as (a, b). apply combos_in in Hp as (l1 & l2 & l3 & ->). split; [apply in_elt|]. apply in_or_app. right. right. apply in_elt. }
    destruct (Hu (fun s => exists v : bool,
              inject_Z (dist * scale) - ll_of hor (v_box s (snd p)) + ur_of hor (v_box s (fst p)) - upper_bound * b2q v <= 0 /\
              inject_Z (dist * scale) - ll_of hor (v_box s (fst p)) + ur_of hor (v_box s (snd p)) - upper_bound * (1 - b2q v) <= 0)) as (v & H1 & H2).
    { apply in_map_iff. exists p. split; auto. }
    destruct (size_d hor (fst p) (Hk _ (proj1 Hpin))) as (S1 & N1). destruct (size_d hor (snd p) (Hk _ (proj2 Hpin))) as (S2 & N2).
    rewrite !ll_nm, !ur_nm. rewrite inject_Z_mult in H1, H2. pose proof r_inv as Hr. pose proof r_pos as Hrp.
    assert (Hd' : 0 <= inject_Z dist) by (change 0 with (inject_Z 0); now rewrite <- Zle_Qle).
    set (D := inject_Z dist) in *. set (SC := inject_Z scale) in *.
    set (l0 := ll_of hor (v_box s (fst p))) in *. set (u0 := ur_of hor (v_box s (fst p))) in *.
    set (l1 := ll_of hor (v_box s (snd p))) in *. set (u1 := ur_of hor (v_box s (snd p))) in *.
    assert (K1 : l0 * r <= u0 * r) by (apply le_r; lra). assert (K2 : l1 * r <= u1 * r) by (apply le_r; lra).
    assert (KD : D * SC * r == D) by (rewrite <- Qmult_assoc, Hr; ring).
    destruct v; simpl b2q in H1, H2.
    - assert (K : (D * SC + u1) * r <= l0 * r) by (apply le_r; lra).
      assert (K' : D + u1 * r <= l0 * r) by (rewrite <- KD at 1; setoid_replace (D * SC * r + u1 * r) with ((D * SC + u1) * r) by ring; exact K).
      split; apply Qab_ge; [left|right]; lra.
    - assert (K : (D * SC + u0) * r <= l1 * r) by (apply le_r; lra).
      assert (K' : D + u0 * r <= l1 * r) by (rewrite <- KD at 1; setoid_replace (D * SC * r + u0 * r) with ((D * SC + u0) * r) by ring; exact K).
      split; apply Qab_ge; [right|left]; lra.
  Qed.

  Lemma bound_ok v m w : In w (match m with Some q => [q] | None => [] end) -> 0 < w -> (forall q, In q (bound_con v m) -> q s) -> v s <= w.
  Proof.
    intros Hw Hp H. destruct m as [q|]; [|destruct Hw]. destruct Hw as [->|[]]. simpl in H.
    destruct (Qeq_bool w 0) eqn:E; [apply Qeq_bool_iff in E; lra|]. apply (H (fun s => v s <= w)). now left.
  Qed.

  Lemma honoured_boundary mw mh hh hv : In (UBoundary mw mh hh hv) cs ->
    (forall w, mw = Some w -> 0 < w) -> (forall h, mh = Some h -> 0 < h) -> (hh = None \/ hh = Some 0) -> (hv = None \/ hv = Some 0) ->
    translate bx (map fst im) top (UBoundary mw mh hh hv).
  Proof.
    intros Hc Hw Hh Hhh Hhv. pose proof (fun q => user_in cs im size sp ws pg scale k s Hpost Hfeas _ _ q Hc eq_refl) as Hu.
    destruct (W_bound cs im size sp ws pg scale k s Hpost Hfeas) as ((W0 & _) & (H0 & _)). pose proof r_le1 as Hr1. pose proof r_pos as Hrp.
    assert (Hmul : forall a, 0 <= a -> a * r <= a).
    { intros a Ha. setoid_replace a with (1 * a) at 2 by ring. rewrite Qmult_comm. apply Qmult_le_compat_r; assumption. }
    assert (Hz : inject_Z (q_int (1000 * 0)) == 0) by reflexivity.
    simpl. unfold boundary_formula. cbn [top nm qux qlx quy qly]. fold r. split; [|split].
    - intros w E. specialize (Hw _ E). pose proof (bound_ok v_W mw w ltac:(rewrite E; now left) Hw ltac:(intros; apply Hu, in_or_app; auto)).
      specialize (Hmul _ W0). lra.
    - intros w E. specialize (Hh _ E). pose proof (bound_ok v_H mh w ltac:(rewrite E; now left) Hh ltac:(intros; apply Hu, in_or_app; auto)).
      specialize (Hmul _ H0). lra.
    - intros b Hb. apply in_map_iff in Hb as (n & <- & Hn).
      destruct (inside cs im size sp ws pg scale k s Hpost Hfeas n Hn) as (A & B & C & D).
      apply le_r in A, B, C, D. split; intros h E.
      + assert (Eh : hh = Some 0) by (destruct Hhh; congruence). rewrite Eh in E. injection E as <-. rewrite Hz. unfold bx, nm. simpl. fold r. lra.
      + assert (Eh : hv = Some 0) by (destruct Hhv; congruence). rewrite Eh in E. injection E as <-. rewrite Hz. unfold bx, nm. simpl. fold r. lra.
  Qed.

  Lemma honoured_symm vert pairs : In (USymm vert pairs) cs -> honoured im size (USymm vert pairs) -> translate bx (map fst im) top (USymm vert pairs).
  Proof.
    intros Hc Hh. simpl in Hh. rewrite Forall_forall in Hh.
    pose proof (user_in cs im size sp ws pg scale k s Hpost Hfeas _ _ _ Hc eq_refl (or_introl eq_refl)) as (line & _ & Hu). rewrite Forall_forall in Hu.
    assert (Hline : forall p, In p pairs -> symm_expr vert bx p == 4 * line * r).
    { intros p Hp. specialize (Hh p Hp). specialize (Hu p Hp). destruct p as [|a [|b [|c p]]]; try contradiction; simpl in Hu |- *; rewrite !ll_nm, !ur_nm.
      - setoid_replace (4 * line * r) with ((2 * line + 2 * line) * r) by ring. rewrite <- Hu. ring.
      - destruct Hu as (Hu & _). rewrite <- Hu. ring. }
    simpl. split.
    - apply Forall_forall. intros p Hp. pose proof (Hh p Hp) as Hk. pose proof (Hu p Hp) as Hs. destruct p as [|a [|b [|c p]]]; simpl; auto.
      destruct Hk as (Ka & Kb & Hsize). destruct Hs as (_ & Ho).
      destruct (size_d (negb vert) a Ka) as (S1 & N1). destruct (size_d (negb vert) b Kb) as (S2 & N2).
      assert (Es : inject_Z (if negb vert then fst (size a) else snd (size a)) == inject_Z (if negb vert then fst (size b) else snd (size b))).
      { destruct vert; simpl; rewrite Hsize; reflexivity. }
      rewrite !ll_nm, !ur_nm.
      set (la := ll_of (negb vert) (v_box s a)) in *. set (ua := ur_of (negb vert) (v_box s a)) in *.
      set (lb := ll_of (negb vert) (v_box s b)) in *. set (ub := ur_of (negb vert) (v_box s b)) in *.
      assert (Ea : ua == la + inject_Z (if negb vert then fst (size a) else snd (size a))) by (rewrite <- S1; ring).
      assert (Eb : ub == la + inject_Z (if negb vert then fst (size a) else snd (size a))) by (rewrite Es, <- S2, Ho; ring).
      assert (Z0 : 2 * (la * r + ua * r) - 2 * (lb * r + ub * r) == 0) by (rewrite Ea, Eb, Ho; ring).
      assert (Z1 : la * r <= ua * r) by (apply le_r; lra). assert (Z2 : lb * r <= ub * r) by (apply le_r; lra).
      split; apply Qab_zero; auto; lra.
    - destruct pairs as [|p0 tl]; auto. apply Forall_forall. intros p Hp. rewrite (Hline p0), (Hline p); [reflexivity|now right|now left].
  Qed.

  Lemma honoured_ok c : In c cs -> honoured im size c -> translate bx (map fst im) top c.
  Proof.
    intros Hc Hh. destruct c; try exact I.
    - destruct Hh as (-> & A & B & C). now apply honoured_order.
    - now apply honoured_align.
    - destruct Hh as (A & B). now apply honoured_spread.
    - destruct Hh as (A & B & C & D). now apply honoured_boundary.
    - now apply honoured_symm.
  Qed.
End Tr.

(** * Wire length *)
Lemma q_min_ge a x l : a <= x -> (forall y, In y l -> a <= y) -> a <= q_min x l.
Proof. intros Hx. induction l as [|y l IH]; simpl; intros H; auto. destruct (Qle_bool y _); auto. Qed.
Lemma q_max_le a x l : x <= a -> (forall y, In y l -> y <= a) -> q_max x l <= a.
Proof. intros Hx. induction l as [|y l IH]; simpl; intros H; auto. destruct (Qle_bool y _); auto. Qed.
Lemma q_min_le x l y : In y (x :: l) -> q_min x l <= y.
Proof.
  intros [<-|H].
  - induction l as [|z l IH]; simpl; [lra|]. destruct (Qle_bool z (q_min x l)) eqn:E; auto. apply Qle_bool_iff in E. lra.
  - induction l as [|z l IH]; [destruct H|]. simpl. destruct (Qle_bool z (q_min x l)) eqn:E.
    + destruct H as [<-|H]; [lra|]. apply Qle_bool_iff in E. specialize (IH H). lra.
    + destruct H as [<-|H]; [|auto]. assert (~ z <= q_min x l) by (intros G; apply Qle_bool_iff in G; congruence). lra.
Qed.

Lemma spread_le lo hi l : lo <= hi -> (forall y, In y l -> lo <= y /\ y <= hi) -> spread l <= hi - lo.
Proof.
  intros Hb H. destruct l as [|x l]; simpl; [lra|].
  pose proof (q_min_ge lo x l (proj1 (H x (or_introl eq_refl))) ltac:(intros y Hy; apply H; now right)).
  pose proof (q_max_le hi x l (proj2 (H x (or_introl eq_refl))) ltac:(intros y Hy; apply H; now right)). lra.
Qed.

Lemma pin_placed ll f sz off : pin_at ll f sz off == placed_at ll f sz off.
Proof.
  unfold pin_at, placed_at. destruct f; unfold b2q; [|ring]. unfold Z.sub. rewrite inject_Z_plus, inject_Z_opp, inject_Z_mult. change (inject_Z 2) with 2. ring.
Qed.

Lemma sumQl_le {A} (f g : A -> Q) l : (forall x, In x l -> f x <= g x) -> sumQl (map f l) <= sumQl (map g l).
Proof. induction l as [|a l IH]; simpl; intros H; [lra|]. pose proof (H a (or_introl eq_refl)). specialize (IH (fun x Hx => H x (or_intror Hx))). lra. Qed.
Lemma sumQl_minus {A} (f g : A -> Q) l : sumQl (map f l) - sumQl (map g l) == sumQl (map (fun x => f x - g x) l).
Proof. induction l as [|a l IH]; simpl; [ring|]. rewrite <- IH. ring. Qed.

Section Wire.
  Variables (cs : list ucon) (im : imap) (size : string -> Z * Z) (sp : list nat * list nat) (ws : wires_t) (pg : string -> list pog) (scale : Z).
  Variables (k : list con) (s : sol).
  Hypothesis Hpost : posted cs im size sp ws pg scale = Some k.
  Hypothesis Hfeas : feasible k s.

  Lemma wire_pin w p : In w ws -> In p (snd w) -> wire_con size (fst w) (fst p) (snd p) s.
  Proof.
    intros Hw Hp. apply (wire_in cs im size sp ws pg scale k s Hpost Hfeas). apply in_or_app; right. apply in_or_app; left.
    apply in_flat_map. exists w. split; auto. right. apply in_map_iff. exists p. auto.
  Qed.

  Lemma wire_covers w : In w ws ->
    (forall x, In x (pin_xs size s (snd w)) -> qlx (v_wire s (fst w)) <= x /\ x <= qux (v_wire s (fst w))) /\
    (forall y, In y (pin_ys size s (snd w)) -> qly (v_wire s (fst w)) <= y /\ y <= quy (v_wire s (fst w))).
  Proof.
    intros Hw. split; intros x Hx; apply in_flat_map in Hx as (p & Hp & Hx);
      destruct (wire_pin w p Hw Hp) as (A & B & C & D & E & F & G & H); rewrite pin_placed in A, B, C, D, E, F, G, H;
      destruct Hx as [<-|[<-|[]]]; auto.
  Qed.

  Lemma hpwl_eq : v_hpwl s == sumQl (map (fun w => inject_Z (prio cs (fst w)) *
    ((qux (v_wire s (fst w)) - qlx (v_wire s (fst w))) + (quy (v_wire s (fst w)) - qly (v_wire s (fst w))))) ws).
  Proof.
    rewrite <- (wire_in cs im size sp ws pg scale k s Hpost Hfeas _ ltac:(apply in_or_app; right; apply in_or_app; right; left; reflexivity)).
    rewrite sumQl_minus. clear Hpost Hfeas. induction ws as [|w l IH]; simpl; [reflexivity|]. rewrite IH. ring.
  Qed.

  Lemma hpwl_ge : (forall w, In w ws -> (0 <= prio cs (fst w))%Z /\ snd w <> []) ->
    wire_length size (prio cs) s ws <= v_hpwl s.
  Proof.
    intros H. rewrite hpwl_eq. apply sumQl_le. intros w Hw. destruct (H w Hw) as (Hp & Hne). destruct (wire_covers w Hw) as (Hx & Hy).
    rewrite (Qmult_comm (inject_Z (prio cs (fst w))) _), (Qmult_comm (inject_Z (prio cs (fst w))) (_ + _)). apply Qmult_le_compat_r.
    - destruct (snd w) as [|p tl]; [congruence|].
      pose proof (Hx _ ltac:(left; reflexivity)) as Hx'. pose proof (Hy _ ltac:(left; reflexivity)) as Hy'.
      apply Qplus_le_compat; (apply spread_le; [lra|assumption]).
    - change 0 with (inject_Z 0). now rewrite <- Zle_Qle.
  Qed.
End Wire.

(** The transformed rectangle's corners are the placed coordinates. *)
Lemma placed_corner size s n r : int_box (v_box s n) ->
  (inject_Z (llx (hitRect (extract size s n) r)) == placed_at (qlx (v_box s n)) (v_fx s n) (fst (size n)) (llx r) /\
   inject_Z (urx (hitRect (extract size s n) r)) == placed_at (qlx (v_box s n)) (v_fx s n) (fst (size n)) (urx r) /\
   inject_Z (lly (hitRect (extract size s n) r)) == placed_at (qly (v_box s n)) (v_fy s n) (snd (size n)) (lly r) /\
   inject_Z (ury (hitRect (extract size s n) r)) == placed_at (qly (v_box s n)) (v_fy s n) (snd (size n)) (ury r)).
Proof.
  intros (( x & Ex) & (y & Ey)). unfold extract, hitRect, hit, placed_at. cbn [oX oY sX sY llx lly urx ury fst snd].
  assert (Hx : py_round (qlx (v_box s n) + b2q (v_fx s n) * inject_Z (fst (size n))) = (x + b2z (v_fx s n) * fst (size n))%Z).
  { apply py_round_int. rewrite Ex, inject_Z_plus, inject_Z_mult. destruct (v_fx s n); reflexivity. }
  assert (Hy : py_round (qly (v_box s n) + b2q (v_fy s n) * inject_Z (snd (size n))) = (y + b2z (v_fy s n) * snd (size n))%Z).
  { apply py_round_int. rewrite Ey, inject_Z_plus, inject_Z_mult. destruct (v_fy s n); reflexivity. }
  rewrite Hx, Hy. repeat split; [destruct (v_fx s n)|destruct (v_fx s n)|destruct (v_fy s n)|destruct (v_fy s n)];
    unfold b2z; rewrite ?Ex, ?Ey, ?inject_Z_plus, ?inject_Z_mult; change (inject_Z (-1)) with (-(1)); change (inject_Z 1) with 1; change (inject_Z 0) with 0; ring.
Qed.

(** * Completeness of the grid constraints *)
Lemma os_complete c t o : In t (pg_terms c) -> In o (ot_offsets t) -> exists sc, In (o, sc) (offset_scalings c) /\ incl (ot_scalings t) sc.
Proof.
  unfold offset_scalings.
  set (step := fun t (d : list (Z * list Z)) o => dupd Z.eqb d o (fun x => match x with Some l => (l ++ ot_scalings t)%list | None => ot_scalings t end)).
  set (has := fun (d : list (Z * list Z)) => exists sc, dget Z.eqb d o = Some sc /\ incl (ot_scalings t) sc).
  assert (Hkeep : forall t' o' d, has d -> has (step t' d o')).
  { intros t' o' d (sc & E & Hi). unfold has, step. destruct (Z.eq_dec o o') as [<-|Hne].
    - rewrite (dget_dupd_same _ Z.eqb_eq), E. eexists. split; [reflexivity|]. intros z Hz. apply in_or_app. left. auto.
    - rewrite (dget_dupd_other _ Z.eqb_eq) by auto. eauto. }
  assert (Hk2 : forall t' os d, has d -> has (fold_left (step t') os d)).
  { intros t' os. induction os as [|a os IH]; intros d Hd; [assumption|]. simpl. apply IH, Hkeep, Hd. }
  assert (Hk3 : forall ts d, has d -> has (fold_left (fun d t => fold_left (step t) (ot_offsets t) d) ts d)).
  { induction ts as [|a ts IH]; intros d Hd; [assumption|]. simpl. apply IH, Hk2, Hd. }
  assert (Hnew : forall os d, In o os -> has (fold_left (step t) os d)).
  { induction os as [|a os IH]; intros d Ho; [destruct Ho|]. simpl. destruct Ho as [->|Ho]; [|auto]. apply Hk2. unfold has, step.
    rewrite (dget_dupd_same _ Z.eqb_eq). eexists. split; [reflexivity|]. destruct (dget Z.eqb d o); [|apply incl_refl]. intros z Hz. apply in_or_app. now right. }
  intros Ht Ho.
  assert (G : forall ts d, In t ts -> has (fold_left (fun d t => fold_left (step t) (ot_offsets t) d) ts d)).
  { induction ts as [|a ts IH]; intros d Hi; [destruct Hi|]. simpl. destruct Hi as [->|Hi]; [|auto]. apply Hk3, Hnew, Ho. }
  destruct (G (pg_terms c) [] Ht) as (sc & E & Hi). exists sc. split; [|assumption]. now apply (dget_in _ Z.eqb_eq).
Qed.

Lemma one_hot (os : list (Z * list Z)) o : NoDup (map fst os) -> In o (map fst os) ->
  zsuml (map (fun e => b2z (Z.eqb (fst e) o)) os) = 1%Z /\ zsuml (map (fun e => fst e * b2z (Z.eqb (fst e) o))%Z os) = o.
Proof.
  assert (Hz : forall os : list (Z * list Z), ~ In o (map fst os) -> zsuml (map (fun e => b2z (Z.eqb (fst e) o)) os) = 0%Z /\ zsuml (map (fun e => fst e * b2z (Z.eqb (fst e) o))%Z os) = 0%Z).
  { induction os0 as [|a os0 IH]; [split; reflexivity|]. cbn [map zsuml fold_right]. intros Hn. destruct IH as (A & B); [intros Hi; apply Hn; now right|].
    unfold zsuml in A, B. rewrite A, B. destruct (Z.eqb_spec (fst a) o) as [E|E]; [exfalso; apply Hn; left; exact E|]. unfold b2z. lia. }
  induction os as [|a os IH]; cbn [map]; [intros _ []|]. intros Hnd Hi. apply NoDup_cons_iff in Hnd as (Hn & Hnd). cbn [zsuml fold_right].
  destruct (Z.eqb_spec (fst a) o) as [E|E].
  - rewrite E in Hn. destruct (Hz os Hn) as (A & B). unfold zsuml in A, B. rewrite A, B. unfold b2z. lia.
  - destruct Hi as [Hi|Hi]; [contradiction|]. destruct (IH Hnd Hi) as (A & B). unfold zsuml in A, B. rewrite A, B. unfold b2z. lia.
Qed.

Lemma pog_con_complete size s n c : pog_ok c -> (forall t, In t (pg_terms c) -> scalings_ok (ot_scalings t) = true) ->
  (0 <= fst (size n))%Z -> (0 <= snd (size n))%Z -> 0 <= qlx (v_box s n) -> 0 <= qly (v_box s n) -> int_box (v_box s n) ->
  on_grid c (extract size s n) -> exists q, pog_con size n c = Some q /\ q s.
Proof.
  intros (Hp & Hok) Hsc Hw Hh X0 Y0 ((x & Ex) & (y & Ey)) Hg. unfold pog_con. rewrite (proj2 (forallb_forall _ _) Hsc).
  eexists. split; [reflexivity|]. cbv beta zeta.
  assert (G : forall (flip : bool) (sz : Z) (ll : Q) (z : Z), (0 <= sz)%Z -> 0 <= ll -> ll == inject_Z z ->
     accepts c (py_round (ll + b2q flip * inject_Z sz)) (if flip then -1 else 1)%Z ->
     exists (v : Z -> bool) (grid : Z), Forall (fun e => scal_con (snd e) (v (fst e)) flip) (offset_scalings c) /\
       zsuml (map (fun e => b2z (v (fst e))) (offset_scalings c)) = 1%Z /\ (0 <= grid)%Z /\
       inject_Z (grid * pg_pitch c + zsuml (map (fun e => fst e * b2z (v (fst e))) (offset_scalings c)) - sz * b2z flip)%Z == ll).
  { intros flip sz ll z Hsz Hll Ez (t & off & Ht & Ho & Hs & (g & Eg)).
    assert (Er : py_round (ll + b2q flip * inject_Z sz) = (z + b2z flip * sz)%Z).
    { apply py_round_int. rewrite Ez, inject_Z_plus, inject_Z_mult. destruct flip; reflexivity. }
    rewrite Er in Eg. destruct (os_complete c t off Ht Ho) as (sc & Hin & Hincl). destruct (os_sound c) as (Hnd & _).
    destruct (one_hot (offset_scalings c) off Hnd ltac:(apply in_map_iff; exists (off, sc); auto)) as (S1 & S2).
    exists (fun z => Z.eqb z off), g. split; [|split; [exact S1|split]].
    - apply Forall_forall. intros (o', sc') Hi. cbn [fst snd]. unfold scal_con. destruct (Z.eqb_spec o' off) as [->|Hne].
      + assert (sc' = sc) by (apply (in_dget _ Z.eqb_eq) in Hi, Hin; auto; congruence). subst sc'. apply Hincl in Hs.
        destruct (set_eqb sc [1%Z]) eqn:E1.
        * apply (proj1 (set_eqb_ok _ _) E1) in Hs. destruct flip; simpl in Hs; [intuition lia|simpl; lia].
        * destruct (set_eqb sc [(-1)%Z]) eqn:E2; [|exact I]. apply (proj1 (set_eqb_ok _ _) E2) in Hs. destruct flip; simpl in Hs; [simpl; lia|intuition lia].
      + destruct (set_eqb sc' [1%Z]); [destruct flip; simpl; lia|]. destruct (set_eqb sc' [(-1)%Z]); [destruct flip; simpl; lia|exact I].
    - destruct (Hok t Ht) as (Hr & _). specialize (Hr off Ho).
      assert (Hz : (0 <= z)%Z) by (rewrite Zle_Qle, <- Ez; exact Hll).
      assert (0 <= b2z flip * sz)%Z by (destruct flip; unfold b2z; lia). nia.
    - rewrite S2, Ez. apply inject_Z_injective. lia. }
  unfold on_grid in Hg. destruct (pg_dir c); unfold extract in Hg; cbn [oX oY sX sY] in Hg.
  - exact (G (v_fy s n) (snd (size n)) (qly (v_box s n)) y Hh Y0 Ey Hg).
  - exact (G (v_fx s n) (fst (size n)) (qlx (v_box s n)) x Hw X0 Ex Hg).
Qed.
