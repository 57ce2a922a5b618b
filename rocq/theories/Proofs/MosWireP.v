(** The wiring of the transistor generator connects exactly the terminals of each net. *)
From Coq Require Import String Ascii ZifyBool Relations.
From Verif Require Import Base.Prelude Base.PyDict Model.Transformation Model.Canvas Model.TransistorArray Model.MosGen Spec.LvsSpec Proofs.CanvasP Proofs.MosGenP.
Local Open Scope Z_scope.

Lemma zmin_in l a : In a l -> zmin l <= a.
Proof.
  destruct l as [|b l]; [intros []|]. cbn [zmin]. assert (G : forall l b, fold_left Z.min l b <= b /\ (forall c, In c l -> fold_left Z.min l b <= c)).
  { clear. induction l as [|c l IH]; intros b; cbn; [split; [lia|intros ? []]|]. destruct (IH (Z.min b c)) as (H1 & H2). split; [lia|]. intros e [<-|He]; [lia|now apply H2]. }
  destruct (G l b) as (H1 & H2). intros [<-|H]; [exact H1|now apply H2].
Qed.
Lemma zmax_in l a : In a l -> a <= zmax l.
Proof.
  destruct l as [|b l]; [intros []|]. cbn [zmax]. assert (G : forall l b, b <= fold_left Z.max l b /\ (forall c, In c l -> c <= fold_left Z.max l b)).
  { clear. induction l as [|c l IH]; intros b; cbn; [split; [lia|intros ? []]|]. destruct (IH (Z.max b c)) as (H1 & H2). split; [lia|]. intros e [<-|He]; [lia|now apply H2]. }
  destruct (G l b) as (H1 & H2). intros [<-|H]; [exact H1|now apply H2].
Qed.
Lemma mpin_eqb_ok a b : mpin_eqb a b = true <-> a = b.
Proof. destruct a, b; cbn; split; congruence. Qed.

Section Wires.
  Variable p : mosp.
  Variables (X Y : Z) (dev : Z -> Z -> string) (conns : list (string * list (string * mpin))) (ord : list mpin -> list mpin).
  Notation h := (mp_h p).
  Notation s := (mp_stack p).
  Notation gx := (gate_x p).
  Hypothesis Hs : 1 <= s.
  Hypothesis Hgd : 0 < mp_gd p.
  Hypothesis Hh : 6 <= h.
  Hypothesis Hl : 4 <= mp_lfin p.
  Hypothesis Hord : forall l, Permutation (ord l) l.

  Definition body_row : Z := Y * h + mp_lfin p / 4.
  Lemma diffusion_ok x : diffusion p x = [(PD, gx x); (PS, gx x - s); (PS, gx x + s)].
  Proof.
    unfold diffusion, center_pin, side_pin. replace (gates p / 2) with s by (unfold gates; lia). destruct (Z.ltb_spec 1 s) as [L|L].
    - f_equal. assert (Ez : zrange s = zrange (s - 1) ++ [0 + (s - 1)]) by (replace s with ((s - 1) + 1) at 1 by lia; rewrite zrange_app by lia; reflexivity). rewrite Ez, map_app, flat_map_app.
      replace (flat_map _ (map (fun i => i + 1) (zrange (s - 1)))) with (@nil (mpin * Z)); [cbn [app map flat_map andb]; replace (0 + (s - 1) + 1) with s by lia; rewrite Z.eqb_refl; reflexivity|].
      symmetry. assert (G : forall l, (forall k, In k l -> k <> s) -> flat_map (fun k => if true && negb (k =? s) then [] else [((PS : mpin), gx x - k); (PS, gx x + k)]) l = []).
      { induction l as [|k l IH]; intros H; [reflexivity|]. cbn. destruct (Z.eqb_spec k s) as [E|E]; [destruct (H k (or_introl eq_refl) E)|]. cbn. apply IH. intros; apply H; now right. }
      apply G. intros k Hk. apply in_map_iff in Hk as (i & <- & Hi). apply in_zrange in Hi. lia.
    - assert (s = 1) as E by lia. unfold gates. rewrite E. reflexivity.
  Qed.
  Definition slot (x y : Z) (q : mpin) (w : mwire) : Prop :=
    match q with
    | PG => w = mkMw (gx x) (row_hi p y + 2) (row_hi p y + 4)
    | PD => w = mkMw (gx x) (row_lo p y) (row_hi p y)
    | PS => w = mkMw (gx x - s) (row_lo p y) (row_hi p y) \/ w = mkMw (gx x + s) (row_lo p y) (row_hi p y)
    | PB => mp_body p = true /\ w = mkMw (gx x) (body_row - 1) (body_row + 1)
    end.
  Lemma cell_ok x y T w : In (T, w) (cell_m1 p Y dev x y) <-> exists q, T = mkMt x y (dev x y) q /\ slot x y q w.
  Proof.
    unfold cell_m1. rewrite diffusion_ok. unfold slot, body_row. cbn [map fst snd]. split.
    - intros [E|H]; [injection E as <- <-; exists PG; now split|]. apply in_app_iff in H as [H|H].
      + destruct H as [E|[E|[E|[]]]]; injection E as <- <-; [exists PD|exists PS|exists PS]; split; auto.
      + destruct (mp_body p); [|destruct H]. destruct H as [E|[]]. injection E as <- <-. exists PB. repeat split.
    - intros (q & -> & Hq). destruct q; [subst w; right; now left|subst w; now left| |].
      + destruct Hq as [->| ->]; right; [right; now left|right; right; now left].
      + destruct Hq as (-> & ->). right. apply in_app_iff. right. now left.
  Qed.
  Lemma m1_ok T w : In (T, w) (m1_wires p X Y dev) <-> exists x y q, 0 <= x < X /\ 0 <= y < Y /\ T = mkMt x y (dev x y) q /\ slot x y q w.
  Proof.
    unfold m1_wires. rewrite in_flat_map. split.
    - intros (y & Hy & H). apply in_flat_map in H as (x & Hx & H). apply in_zrange in Hx, Hy. apply cell_ok in H as (q & -> & Hq). exists x, y, q. auto.
    - intros (x & y & q & Hx & Hy & -> & Hq). exists y. split; [now apply in_zrange|]. apply in_flat_map. exists x. split; [now apply in_zrange|]. apply cell_ok. now exists q.
  Qed.
  Lemma xpins_ok y d q c : In (d, q, c) (xpins p X Y dev y) <-> exists x w, 0 <= x < X /\ slot x y q w /\ d = dev x y /\ c = mw_track w.
  Proof.
    unfold xpins. rewrite in_flat_map. split.
    - intros (x & Hx & H). apply in_map_iff in H as ((T & w) & E & H). apply in_zrange in Hx. apply cell_ok in H as (q' & -> & Hq). cbn [fst snd mt_dev mt_pin] in E. injection E as <- <- <-. exists x, w. auto.
    - intros (x & w & Hx & Hq & -> & ->). exists x. split; [now apply in_zrange|]. apply in_map_iff. exists (mkMt x y (dev x y) q, w). split; [reflexivity|]. apply cell_ok. now exists q.
  Qed.

  (** Nets of terminals. *)
  Definition netof (d : string) (q : mpin) (n : string) : Prop := exists c, In (n, c) conns /\ In (d, q) c.
  Hypothesis Hkeys : NoDup (map fst conns).
  Hypothesis Huniq : forall d q n n', netof d q n -> netof d q n' -> n = n'.
  Hypothesis Hsd : mp_sd p = true -> forall d d' n n', netof d PS n -> netof d' PS n' -> n = n'.
  Hypothesis Hbody : mp_body p = true -> forall d d' n n', netof d PB n -> netof d' PB n' -> n = n'.

  Lemma row_sep y y' : y < y' -> (y + 1) * h <= y' * h.
  Proof. intros. apply Z.mul_le_mono_nonneg_r; lia. Qed.
  (** Two M1 wires that meet belong to one net. *)
  Lemma m1_touch x y q w x' y' q' w' n n' : slot x y q w -> slot x' y' q' w' -> 0 <= y < Y -> 0 <= y' < Y ->
    mw_track w = mw_track w' -> (exists t, mw_lo w <= t <= mw_hi w /\ mw_lo w' <= t <= mw_hi w') -> netof (dev x y) q n -> netof (dev x' y') q' n' -> n = n'.
  Proof.
    intros Hq Hq' Hy Hy' Et (t & Ht & Ht') Hn Hn'.
    assert (Hb : 1 <= mp_lfin p / 4) by lia. pose proof (row_sep y Y ltac:(lia)) as RY. pose proof (row_sep y' Y ltac:(lia)) as RY'.
    assert (Hper : per_cell p = 2 * s /\ mp_sd p = true \/ per_cell p = 2 * s + 2 * mp_gd p /\ mp_sd p = false) by (unfold per_cell, gates; destruct (mp_sd p); [left|right]; split; lia).
    assert (Hyy : y = y' \/ (y + 1) * h <= y' * h \/ (y' + 1) * h <= y * h) by (destruct (Z.lt_total y y') as [L|[L|L]]; [right; left|left|right; right]; auto using row_sep).
    assert (Hxx : gx x - gx x' = (x - x') * per_cell p) by (unfold gate_x; ring).
    assert (Hxx3 : x = x' \/ per_cell p <= gx x' - gx x \/ per_cell p <= gx x - gx x') by (destruct (Z.lt_total x x') as [L|[L|L]]; [right; left|left|right; right]; auto; (assert (Hpp : 0 < per_cell p) by lia); [assert (1 * per_cell p <= (x' - x) * per_cell p) by (apply Z.mul_le_mono_nonneg_r; lia)|assert (1 * per_cell p <= (x - x') * per_cell p) by (apply Z.mul_le_mono_nonneg_r; lia)]; lia).
    assert (Same : x = x' -> y = y' -> q = q' -> n = n') by (intros <- <- <-; eauto).
    assert (Hcase : (q = PB /\ q' = PB) \/ (q = q' /\ y = y' /\ x = x') \/ (q = PS /\ q' = PS /\ mp_sd p = true)).
    { unfold slot, body_row, row_lo, row_hi in *. destruct q, q'; repeat match goal with H : _ \/ _ |- _ => match type of H with slot _ _ _ _ => idtac | (w = _ \/ _) => destruct H as [H|H] | (w' = _ \/ _) => destruct H as [H|H] end | H : _ /\ _ |- _ => match type of H with (mp_body p = true /\ _) => destruct H as (? & H) end end; subst w w'; cbn [mw_track mw_lo mw_hi] in *; try (now left); right;
        destruct Hyy as [Hyy|[Hyy|Hyy]]; try lia; destruct Hxx3 as [Hxx3|[Hxx3|Hxx3]]; destruct Hper as [(Hp & Hp2)|(Hp & Hp2)]; rewrite ?Hp in *; try lia; try (left; repeat split; (reflexivity || assumption)); try (right; repeat split; assumption); subst; lia. }
    destruct Hcase as [(-> & ->)|[(Eq & Ey & Ex)|(-> & -> & E)]]; eauto. destruct Hq as (Hbt & _). eauto.
  Qed.

  (** Contacts and pins of a row. *)
  Lemma in_conn_ok c d q : in_conn c d q = true <-> In (d, q) c.
  Proof.
    unfold in_conn. rewrite existsb_exists. split.
    - intros ((d' & q') & Hi & H). cbn in H. apply andb_prop in H as (H1 & H2). apply String.eqb_eq in H1 as ->. apply mpin_eqb_ok in H2 as ->. exact Hi.
    - intros Hi. exists (d, q). split; [exact Hi|]. cbn. rewrite String.eqb_refl. now apply mpin_eqb_ok.
  Qed.
  Notation conts := (contacts p X Y dev).
  Lemma contacts_ok y c q col : In (q, col) (conts y c) <-> exists x w, 0 <= x < X /\ slot x y q w /\ In (dev x y, q) c /\ col = mw_track w.
  Proof.
    unfold contacts. rewrite in_map_iff. split.
    - intros ([[d q'] c'] & E & H). cbn in E. injection E as <- <-. apply filter_In in H as (H & Hc). cbn in Hc. apply in_conn_ok in Hc. apply xpins_ok in H as (x & w & Hx & Hq & -> & ->). exists x, w. auto.
    - intros (x & w & Hx & Hq & Hc & ->). exists (dev x y, q, mw_track w). split; [reflexivity|]. apply filter_In. split; [apply xpins_ok; exists x, w; auto|]. cbn. now apply in_conn_ok.
  Qed.
  Lemma columns_ok q l c : In c (columns q l) <-> In (q, c) l.
  Proof.
    unfold columns. rewrite in_map_iff. split.
    - intros ((q' & c') & <- & H). apply filter_In in H as (H & E). cbn in E. apply mpin_eqb_ok in E as ->. exact H.
    - intros H. exists (q, c). split; [reflexivity|]. apply filter_In. split; [exact H|]. now apply mpin_eqb_ok.
  Qed.
  Definition pins (y : Z) (c : list (string * mpin)) : list mpin := ord (nodup mpin_dec (map fst (conts y c))).
  Lemma pins_nodup y c : NoDup (pins y c).
  Proof. unfold pins. eapply Permutation_NoDup; [apply Permutation_sym, Hord|]. apply NoDup_nodup. Qed.
  Lemma pins_ok y c q : In q (pins y c) <-> exists col, In (q, col) (conts y c).
  Proof.
    unfold pins. split.
    - intros H. apply (Permutation_in _ (Hord _)) in H. apply nodup_In, in_map_iff in H as ((q' & col) & <- & H). now exists col.
    - intros (col & H). apply (Permutation_in _ (Permutation_sym (Hord _))). apply nodup_In, in_map_iff. exists (q, col). now split.
  Qed.
  Definition is_ds (q : mpin) : bool := match q with PD | PS => true | _ => false end.
  Definition is_g (q : mpin) : bool := match q with PG => true | _ => false end.
  Definition cnt (f : mpin -> bool) (qs : list mpin) : Z := Z.of_nat (length (filter f qs)).
  Lemma cnt_cons f q qs : cnt f (q :: qs) = (if f q then 1 else 0) + cnt f qs.
  Proof. unfold cnt. cbn. destruct (f q); cbn [length]; lia. Qed.
  Lemma cnt_nonneg f qs : 0 <= cnt f qs.
  Proof. unfold cnt. lia. Qed.

  (** The track of a strap of pin [q] between two states of the counters. *)
  Definition tk (y : Z) (q : mpin) (t g0 d0 g1 d1 : Z) : Prop :=
    match q with
    | PG => row_hi p y + 2 + g0 <= t < row_hi p y + 2 + g1
    | PB => y = Y - 1 /\ t = body_row
    | _ => y * h + d0 <= t < y * h + d1
    end.
  Lemma tk_mono y q t g0 d0 g1 d1 g0' d0' g1' d1' : tk y q t g0 d0 g1 d1 -> g0' <= g0 -> d0' <= d0 -> g1 <= g1' -> d1 <= d1' -> tk y q t g0' d0' g1' d1'.
  Proof. destruct q; cbn; intros; try assumption; lia. Qed.
  (** Within the bounds, equal tracks mean equal classes; the later counters are larger. *)
  Lemma tk_disj y q q' t g0 d0 g1 d1 g2 d2 : 0 <= y < Y -> 0 <= g0 -> 1 <= d0 -> g0 <= g1 -> d0 <= d1 -> g1 <= g2 -> d1 <= d2 -> g2 <= 3 -> d2 <= h - 4 -> tk y q t g0 d0 g1 d1 -> tk y q' t g1 d1 g2 d2 -> q = PB /\ q' = PB.
  Proof.
    intros Hy Hg Hd E01 E02 E1 E2 E3 E4 H H'. pose proof (row_sep y Y ltac:(lia)). assert (1 <= mp_lfin p / 4) by lia. destruct q, q'; unfold tk, row_hi, body_row in *; try lia. now split.
  Qed.
  Definition trk (st : strap) : Z := snd (fst st).
  Lemma pins_straps_ok y net cs : forall qs g0 d0 l g1 d1, pins_straps p Y y net cs qs (g0, d0) = (l, (g1, d1)) -> NoDup qs ->
    g1 = g0 + cnt is_g qs /\ d1 = d0 + cnt is_ds qs /\
    (forall st, In st l -> exists q t, st = (net, t, columns q cs) /\ In q qs /\ tk y q t g0 d0 g1 d1) /\
    (forall q, In q qs -> (q = PB -> y = Y - 1) -> exists t, In (net, t, columns q cs) l /\ tk y q t g0 d0 g1 d1) /\
    (0 <= y < Y -> 0 <= g0 -> 1 <= d0 -> g1 <= 3 -> d1 <= h - 4 -> NoDup (map trk l)).
  Proof.
    induction qs as [|q qs IH]; intros g0 d0 l g1 d1 E Hn.
    - cbn in E. injection E as <- <- <-. change (cnt is_g []) with 0. change (cnt is_ds []) with 0. split; [lia|split; [lia|split; [intros ? []|split; [intros ? []|intros; constructor]]]].
    - cbn [pins_straps] in E. destruct (pin_track p Y y q (g0, d0)) as [o [g d]] eqn:Et. destruct (pins_straps p Y y net cs qs (g, d)) as [l' [g' d']] eqn:El. assert (E' : match o with Some t => (net, t, columns q cs) :: l' | None => l' end = l /\ g' = g1 /\ d' = d1) by (split; [congruence|split; congruence]). destruct E' as (E1 & -> & ->). clear E.
      apply NoDup_cons_iff in Hn as (Hq & Hn). destruct (IH _ _ _ _ _ El Hn) as (Eg & Ed & H1 & H2 & H3). rewrite !cnt_cons. pose proof (cnt_nonneg is_g qs). pose proof (cnt_nonneg is_ds qs).
      assert (Hst : g = g0 + (if is_g q then 1 else 0) /\ d = d0 + (if is_ds q then 1 else 0) /\ (forall t, o = Some t -> tk y q t g0 d0 g d) /\ (o = None -> q = PB /\ y <> Y - 1)).
      { destruct q; cbn in Et.
        - injection Et as <- <- <-. split; [cbn [is_g]; lia|split; [cbn [is_ds]; lia|split; [intros t [= <-]; cbn [tk]; lia|congruence]]].
        - injection Et as <- <- <-. split; [cbn [is_g]; lia|split; [cbn [is_ds]; lia|split; [intros t [= <-]; cbn [tk]; lia|congruence]]].
        - injection Et as <- <- <-. split; [cbn [is_g]; lia|split; [cbn [is_ds]; lia|split; [intros t [= <-]; cbn [tk]; lia|congruence]]].
        - destruct (Z.eqb_spec y (Y - 1)); injection Et as <- <- <-; (split; [cbn [is_g]; lia|split; [cbn [is_ds]; lia|split; [intros t Et; try discriminate Et; injection Et as <-; split; (assumption || reflexivity)|intros; try discriminate; now split]]]). }
      destruct Hst as (Hg & Hd & Ho & HoN). assert (g0 <= g /\ d0 <= d) as (Lg & Ld) by (destruct (is_g q), (is_ds q); lia). split; [lia|split; [lia|split; [|split]]].
      + intros st Hi. assert (Hc : (exists t, o = Some t /\ st = (net, t, columns q cs)) \/ In st l') by (subst l; destruct o as [t|]; [destruct Hi as [<-|Hi]; [left; eauto|now right]|now right]).
        destruct Hc as [(t & -> & ->)|Hi'].
        * exists q, t. repeat split; [now left|]. eapply tk_mono; [now apply Ho|lia..].
        * destruct (H1 st Hi') as (q' & t & -> & Hq' & Ht). exists q', t. repeat split; [now right|]. eapply tk_mono; [exact Ht|lia..].
      + intros q' [<-|Hq'] HB.
        * destruct o as [t|]; [|destruct (HoN eq_refl) as (e1 & e2); destruct (e2 (HB e1))]. exists t. subst l. split; [now left|]. eapply tk_mono; [now apply Ho|lia..].
        * destruct (H2 q' Hq' HB) as (t & Hi & Ht). exists t. split; [subst l; destruct o; [now right|exact Hi]|]. eapply tk_mono; [exact Ht|lia..].
      + intros Hy Hg0 Hd0 Hg1 Hd1. assert (N' : NoDup (map trk l')) by (apply H3; lia). subst l. destruct o as [t|]; [|exact N']. cbn [map]. constructor; [|exact N']. intros Hi. apply in_map_iff in Hi as (st & Est & Hi). destruct (H1 st Hi) as (q' & t' & -> & Hq' & Ht'). cbn in Est. subst t'.
        destruct (tk_disj y q q' t g0 d0 g d g1 d1) as (-> & ->); try lia; auto.
  Qed.

  Definition ng (y : Z) (cns : list (string * list (string * mpin))) : Z := fold_right (fun e a => cnt is_g (pins y (snd e)) + a) 0 cns.
  Definition nds (y : Z) (cns : list (string * list (string * mpin))) : Z := fold_right (fun e a => cnt is_ds (pins y (snd e)) + a) 0 cns.
  Lemma ng_nonneg y cns : 0 <= ng y cns.
  Proof. induction cns as [|e cns IH]; cbn; [lia|]. pose proof (cnt_nonneg is_g (pins y (snd e))). fold (ng y cns). lia. Qed.
  Lemma nds_nonneg y cns : 0 <= nds y cns.
  Proof. induction cns as [|e cns IH]; cbn; [lia|]. pose proof (cnt_nonneg is_ds (pins y (snd e))). fold (nds y cns). lia. Qed.
  Lemma row_straps_ok y : forall cns g0 d0, NoDup (map fst cns) -> (forall n c n' c', In (n, c) cns -> In (n', c') cns -> In PB (pins y c) -> In PB (pins y c') -> n = n') ->
    (forall st, In st (row_straps p X Y dev ord y cns (g0, d0)) -> exists n c q t, In (n, c) cns /\ st = (n, t, columns q (conts y c)) /\ In q (pins y c) /\ tk y q t g0 d0 (g0 + ng y cns) (d0 + nds y cns)) /\
    (forall n c q, In (n, c) cns -> In q (pins y c) -> (q = PB -> y = Y - 1) -> exists t, In (n, t, columns q (conts y c)) (row_straps p X Y dev ord y cns (g0, d0)) /\ tk y q t g0 d0 (g0 + ng y cns) (d0 + nds y cns)) /\
    (0 <= y < Y -> 0 <= g0 -> 1 <= d0 -> g0 + ng y cns <= 3 -> d0 + nds y cns <= h - 4 -> NoDup (map trk (row_straps p X Y dev ord y cns (g0, d0)))).
  Proof.
    induction cns as [|[n c] cns IH]; intros g0 d0 Hn Hb.
    - cbn [row_straps]. split; [intros ? []|split; [intros ? ? ? []|intros; constructor]].
    - cbn [row_straps]. fold (pins y c). destruct (pins_straps p Y y n (conts y c) (pins y c) (g0, d0)) as [l [g d]] eqn:El.
      destruct (pins_straps_ok _ _ _ _ _ _ _ _ _ El (pins_nodup y c)) as (Eg & Ed & H1 & H2 & H3). cbn [map fst] in Hn. apply NoDup_cons_iff in Hn as (Hnn & Hn).
      destruct (IH g d Hn) as (I1 & I2 & I3); [intros n1 c1 n2 c2 Q1 Q2 Q3 Q4; exact (Hb n1 c1 n2 c2 (or_intror Q1) (or_intror Q2) Q3 Q4)|]. cbn [ng nds fold_right snd]. fold (ng y cns) (nds y cns). pose proof (ng_nonneg y cns). pose proof (nds_nonneg y cns). pose proof (cnt_nonneg is_g (pins y c)). pose proof (cnt_nonneg is_ds (pins y c)).
      split; [|split].
      + intros st Hi. apply in_app_iff in Hi as [Hi|Hi].
        * destruct (H1 st Hi) as (q & t & -> & Hq & Ht). exists n, c, q, t. split; [now left|]. repeat split; auto. eapply tk_mono; [exact Ht|lia..].
        * destruct (I1 st Hi) as (n' & c' & q & t & Hc & -> & Hq & Ht). exists n', c', q, t. split; [now right|]. repeat split; auto. eapply tk_mono; [exact Ht|lia..].
      + intros n' c' q [E|Hc] Hq HB.
        * injection E as -> ->. destruct (H2 q Hq HB) as (t & Hi & Ht). exists t. split; [apply in_app_iff; now left|]. eapply tk_mono; [exact Ht|lia..].
        * destruct (I2 n' c' q Hc Hq HB) as (t & Hi & Ht). exists t. split; [apply in_app_iff; now right|]. eapply tk_mono; [exact Ht|lia..].
      + intros Hy Hg0 Hd0 Hg1 Hd1. rewrite map_app. assert (G : forall a b : list Z, NoDup a -> NoDup b -> (forall t, In t a -> In t b -> False) -> NoDup (a ++ b)).
        { clear. induction a as [|t a IH]; intros b Ha Hb H; [exact Hb|]. cbn. apply NoDup_cons_iff in Ha as (Ht & Ha). constructor; [rewrite in_app_iff; intros [Hi|Hi]; [auto|eapply H; [now left|exact Hi]]|]. apply IH; auto. intros t' Hi Hj. eapply H; [right; exact Hi|exact Hj]. }
        apply G; [apply H3; lia|apply I3; lia|]. intros t Hi Hj. apply in_map_iff in Hi as (st & Est & Hi), Hj as (st' & Est' & Hj). destruct (H1 st Hi) as (q & t1 & -> & Hq & Ht). destruct (I1 st' Hj) as (n' & c' & q' & t2 & Hc & -> & Hq' & Ht'). cbn in Est, Est'. subst t1 t2.
        destruct (tk_disj y q q' t g0 d0 g d (g + ng y cns) (d + nds y cns)) as (-> & ->); try lia; auto.
        apply Hnn. apply in_map_iff. exists (n', c'). split; [|exact Hc]. cbn. symmetry. eapply Hb; [now left|right; exact Hc|exact Hq|exact Hq'].
  Qed.

  (** All rows. *)
  Hypothesis Hng : forall y, ng y conns <= 3.
  Hypothesis Hnds : forall y, nds y conns <= h - 5.
  Hypothesis Hnets : Z.of_nat (length conns) <= h - 1.
  Notation sts := (straps p X Y dev conns ord).
  Lemma minvias_one : minvias p conns = 1.
  Proof. unfold minvias. destruct (Z.ltb_spec (h - 1) (Z.of_nat (length conns))); [lia|reflexivity]. Qed.
  Lemma straps_eq : sts = flat_map (fun y => row_straps p X Y dev ord y conns (0, 1)) (zrange Y).
  Proof. unfold straps. rewrite minvias_one. reflexivity. Qed.
  Lemma netof_contact y n c q col : In (n, c) conns -> In (q, col) (conts y c) -> exists x w, 0 <= x < X /\ slot x y q w /\ col = mw_track w /\ netof (dev x y) q n.
  Proof. intros Hc H. apply contacts_ok in H as (x & w & Hx & Hq & Hi & ->). exists x, w. repeat split; try assumption; try lia. now exists c. Qed.
  Lemma onePB y n c n' c' : In (n, c) conns -> In (n', c') conns -> In PB (pins y c) -> In PB (pins y c') -> n = n'.
  Proof.
    intros Hc Hc' H H'. apply pins_ok in H as (col & H), H' as (col' & H'). destruct (netof_contact _ _ _ _ _ Hc H) as (x & w & _ & (Hbt & _) & _ & N). destruct (netof_contact _ _ _ _ _ Hc' H') as (x' & w' & _ & _ & _ & N'). exact (Hbody Hbt _ _ _ _ N N').
  Qed.
  Lemma tk_bounds y q t : 0 <= y < Y -> tk y q t 0 1 (0 + ng y conns) (1 + nds y conns) -> tk y q t 0 1 3 (h - 4).
  Proof. intros _ H. pose proof (Hng y). pose proof (Hnds y). eapply tk_mono; [exact H|lia..]. Qed.
  Lemma straps_in st : In st sts -> exists y n c q t, 0 <= y < Y /\ In (n, c) conns /\ st = (n, t, columns q (conts y c)) /\ In q (pins y c) /\ tk y q t 0 1 3 (h - 4).
  Proof.
    rewrite straps_eq, in_flat_map. intros (y & Hy & Hi). apply in_zrange in Hy. destruct (row_straps_ok y conns 0 1 Hkeys (onePB y)) as (H1 & _ & _). destruct (H1 st Hi) as (n & c & q & t & Hc & -> & Hq & Ht). exists y, n, c, q, t. repeat split; auto; try lia. now apply tk_bounds.
  Qed.
  Lemma straps_of y n c q : 0 <= y < Y -> In (n, c) conns -> In q (pins y c) -> (q = PB -> y = Y - 1) -> exists t, In (n, t, columns q (conts y c)) sts /\ tk y q t 0 1 3 (h - 4).
  Proof.
    intros Hy Hc Hq HB. destruct (row_straps_ok y conns 0 1 Hkeys (onePB y)) as (_ & H2 & _). destruct (H2 n c q Hc Hq HB) as (t & Hi & Ht). exists t. split; [|now apply tk_bounds]. rewrite straps_eq. apply in_flat_map. exists y. split; [now apply in_zrange|exact Hi].
  Qed.
  Lemma tk_rows y y' q q' t : 0 <= y < Y -> 0 <= y' < Y -> tk y q t 0 1 3 (h - 4) -> tk y' q' t 0 1 3 (h - 4) -> y = y'.
  Proof.
    intros Hy Hy' H H'. pose proof (row_sep y Y ltac:(lia)). pose proof (row_sep y' Y ltac:(lia)). assert (1 <= mp_lfin p / 4) by lia.
    destruct (Z.lt_total y y') as [L|[L|L]]; [|exact L|]; pose proof (row_sep _ _ L); exfalso; destruct q, q'; unfold tk, row_hi, body_row in *; lia.
  Qed.
  Lemma nodup_flat {A} (f : A -> list strap) l : NoDup l -> (forall a, In a l -> NoDup (map trk (f a))) -> (forall a b st st', In a l -> In b l -> In st (f a) -> In st' (f b) -> trk st = trk st' -> a = b) -> NoDup (map trk (flat_map f l)).
  Proof.
    intros Hn H1 H2. induction l as [|a l IH]; [constructor|]. cbn. rewrite map_app. apply NoDup_cons_iff in Hn as (Ha & Hn).
    assert (G : forall a b : list Z, NoDup a -> NoDup b -> (forall t, In t a -> In t b -> False) -> NoDup (a ++ b)).
    { clear. induction a as [|t a IH]; intros b Ha Hb H; [exact Hb|]. cbn. apply NoDup_cons_iff in Ha as (Ht & Ha). constructor; [rewrite in_app_iff; intros [Hi|Hi]; [auto|eapply H; [now left|exact Hi]]|]. apply IH; auto. intros t' Hi Hj. eapply H; [right; exact Hi|exact Hj]. }
    apply G; [apply H1; now left|apply IH; auto; [intros; apply H1; now right|intros b c st st' Q1 Q2 Q3 Q4 Q5; exact (H2 b c st st' (or_intror Q1) (or_intror Q2) Q3 Q4 Q5)]|].
    intros t Hi Hj. apply in_map_iff in Hi as (st & <- & Hi), Hj as (st' & E & Hj). apply in_flat_map in Hj as (b & Hb & Hj). assert (a = b) as <- by (eapply H2; [now left|right; exact Hb|exact Hi|exact Hj|now symmetry]). contradiction.
  Qed.
  Lemma straps_nodup : NoDup (map trk sts).
  Proof.
    rewrite straps_eq. apply nodup_flat; [apply zrange_nodup| |].
    - intros y Hy. apply in_zrange in Hy. destruct (row_straps_ok y conns 0 1 Hkeys (onePB y)) as (_ & _ & H3). pose proof (Hng y). pose proof (Hnds y). apply H3; lia.
    - intros y y' st st' Hy Hy' Hi Hi' E. apply in_zrange in Hy, Hy'. destruct (row_straps_ok y conns 0 1 Hkeys (onePB y)) as (H1 & _ & _). destruct (row_straps_ok y' conns 0 1 Hkeys (onePB y')) as (H1' & _ & _).
      destruct (H1 st Hi) as (n & c & q & t & _ & -> & _ & Ht). destruct (H1' st' Hi') as (n' & c' & q' & t' & _ & -> & _ & Ht'). cbn in E. subst t'. eapply tk_rows; eauto using tk_bounds.
  Qed.
  Lemma straps_uniq n n' t cols cols' : In (n, t, cols) sts -> In (n', t, cols') sts -> n = n' /\ cols = cols'.
  Proof.
    intros H H'. assert (G : forall l : list strap, NoDup (map trk l) -> forall a b, In a l -> In b l -> trk a = trk b -> a = b).
    { clear. induction l as [|c l IH]; intros Hn a b Ha Hb E; [destruct Ha|]. cbn in Hn. apply NoDup_cons_iff in Hn as (Hc & Hn). destruct Ha as [<-|Ha], Hb as [<-|Hb]; auto; exfalso; apply Hc; apply in_map_iff; eauto. }
    assert (E := G _ straps_nodup _ _ H H' eq_refl). injection E as -> ->. now split.
  Qed.

  (** The table of nets. *)
  Definition tbl_of (ss : list strap) : list (string * list (Z * list Z)) :=
    fold_left (fun d st => let '(net, t, cols) := st in dupd String.eqb d net (fun o => dupd Z.eqb (match o with Some l => l | None => [] end) t (fun _ => cols))) ss [].
  Lemma tbl_snoc ss n t cols : tbl_of (ss ++ [(n, t, cols)]) = dupd String.eqb (tbl_of ss) n (fun o => dupd Z.eqb (match o with Some l => l | None => [] end) t (fun _ => cols)).
  Proof. unfold tbl_of. now rewrite fold_left_app. Qed.
  Lemma tbl_inv ss : NoDup (map trk ss) -> NoDup (map fst (tbl_of ss)) /\
    forall n, match dget String.eqb (tbl_of ss) n with
              | Some tbl => NoDup (map fst tbl) /\ tbl <> [] /\ forall t cols, dget Z.eqb tbl t = Some cols <-> In (n, t, cols) ss
              | None => forall t cols, ~ In (n, t, cols) ss
              end.
  Proof.
    induction ss as [|[[n0 t0] cols0] ss IH] using rev_ind; intros Hn; [split; [constructor|intros n t cols []]|].
    rewrite map_app in Hn. cbn [map] in Hn. assert (Ht0 : ~ In t0 (map trk ss) /\ NoDup (map trk ss)).
    { apply NoDup_remove in Hn. rewrite app_nil_r in Hn. tauto. }
    destruct Ht0 as (Ht0 & Hn'). destruct (IH Hn') as (K & IH'). rewrite tbl_snoc. split; [now apply (dupd_nodup _ String.eqb_eq)|].
    intros n. destruct (string_dec n n0) as [->|N].
    - rewrite (dget_dupd_same _ String.eqb_eq). specialize (IH' n0).
      set (old := match dget String.eqb (tbl_of ss) n0 with Some l => l | None => [] end).
      assert (Hold : NoDup (map fst old) /\ forall t cols, dget Z.eqb old t = Some cols <-> In (n0, t, cols) ss).
      { subst old. destruct (dget String.eqb (tbl_of ss) n0) as [l|]; [tauto|]. split; [constructor|]. intros t cols. cbn. split; [discriminate|]. intros H. destruct (IH' _ _ H). }
      destruct Hold as (O1 & O2). split; [now apply (dupd_nodup _ Z.eqb_eq)|]. split.
      + fold old. intros E. assert (Hk : In t0 (map fst (dupd Z.eqb old t0 (fun _ => cols0)))) by (apply (dupd_keys_in _ Z.eqb_eq); now left). rewrite E in Hk. destruct Hk.
      + intros t cols. rewrite in_app_iff. destruct (Z.eq_dec t t0) as [->|Nt].
        * rewrite (dget_dupd_same _ Z.eqb_eq). split; [intros [= <-]; right; now left|]. intros [H|[H|[]]]; [|congruence]. exfalso. apply Ht0. apply in_map_iff. exists (n0, t0, cols). now split.
        * rewrite (dget_dupd_other _ Z.eqb_eq) by exact Nt. rewrite O2. split; [now left|]. intros [H|[H|[]]]; [exact H|congruence].
    - rewrite (dget_dupd_other _ String.eqb_eq) by exact N. specialize (IH' n). destruct (dget String.eqb (tbl_of ss) n) as [l|].
      + destruct IH' as (O1 & O2 & O3). repeat split; auto; intros H; [rewrite in_app_iff; left; now apply O3|]. apply in_app_iff in H as [H|[H|[]]]; [now apply O3|congruence].
      + intros t cols H. apply in_app_iff in H as [H|[H|[]]]; [eapply IH'; exact H|congruence].
  Qed.
  Notation tab := (net_table p X Y dev conns ord).
  Lemma tab_in n tbl : In (n, tbl) tab -> NoDup (map fst tbl) /\ tbl <> [] /\ forall t cols, In (t, cols) tbl <-> In (n, t, cols) sts.
  Proof.
    intros H. destruct (tbl_inv sts straps_nodup) as (K & I). change tab with (tbl_of sts) in H. apply (in_dget _ String.eqb_eq) in H; [|exact K]. specialize (I n). rewrite H in I. destruct I as (I1 & I2 & I3). repeat split; auto; intros Hi; [apply I3; now apply (in_dget _ Z.eqb_eq)|apply (dget_in _ Z.eqb_eq); now apply I3].
  Qed.
  Lemma tab_of n t cols : In (n, t, cols) sts -> exists tbl, In (n, tbl) tab.
  Proof.
    intros H. destruct (tbl_inv sts straps_nodup) as (K & I). specialize (I n). change tab with (tbl_of sts). destruct (dget String.eqb (tbl_of sts) n) as [l|] eqn:E; [exists l; now apply (dget_in _ String.eqb_eq)|destruct (I _ _ H)].
  Qed.
  Lemma tab_keys : NoDup (map fst tab).
  Proof. exact (proj1 (tbl_inv sts straps_nodup)). Qed.

  (** The layout. *)
  Definition sh (l : metal) (w : mwire) : shape := mkSh l (mw_track w) (mw_lo w) (mw_hi w).
  Definition lay : layout :=
    mkLay (map (fun e => sh L1 (snd e)) (m1_wires p X Y dev) ++ map (fun e => sh L2 (snd e)) (m2_wires p X Y dev conns ord) ++ map (fun e => sh L3 (snd e)) (m3_wires p X Y dev conns ord))
          (v1_vias p X Y dev conns ord) (v2_vias p X Y dev conns ord).
  Notation num := (numbered p X Y dev conns ord).
  Notation m3t := (m3_track p X Y dev conns ord).
  Lemma num_keys : NoDup (map fst num).
  Proof.
    unfold numbered. assert (G : forall (a : list Z) (b : list (string * list (Z * list Z))), NoDup a -> NoDup (map fst (combine a b))).
    { clear. induction a as [|x a IH]; intros b Hn; [constructor|]. destruct b as [|y b]; [constructor|]. cbn. apply NoDup_cons_iff in Hn as (Hx & Hn). constructor; [|now apply IH]. intros H. apply Hx. apply in_map_iff in H as ((u & v) & <- & H). now apply in_combine_l in H. }
    apply G. apply FinFun.Injective_map_NoDup; [intros a b; lia|apply zrange_nodup].
  Qed.
  Lemma num_uniq k e e' : In (k, e) num -> In (k, e') num -> e = e'.
  Proof.
    intros H H'. apply (in_dget _ Z.eqb_eq) in H; [|apply num_keys]. apply (in_dget _ Z.eqb_eq) in H'; [|apply num_keys]. congruence.
  Qed.
  Lemma num_in k e : In (k, e) num -> In e tab.
  Proof. intros H. now apply in_combine_r in H. Qed.
  Lemma num_of e : In e tab -> exists k, In (k, e) num.
  Proof.
    intros H. unfold numbered. assert (L : length (map (fun i => i + 1) (zrange (Z.of_nat (length tab)))) = length tab) by (rewrite map_length, zrange_len; lia). revert L H. generalize (map (fun i => i + 1) (zrange (Z.of_nat (length tab)))). generalize tab. clear.
    intros b a. revert b. induction a as [|x a IH]; intros b L H; destruct b as [|y b]; try discriminate; [destruct H|]. cbn in L. destruct H as [<-|H]; [exists x; now left|]. destruct (IH b ltac:(lia) H) as (k & Hk). exists k. now right.
  Qed.
  Lemma terminators_cover l a b c : terminators p X l = (a, b) -> In c l -> a <= c <= b.
  Proof.
    unfold terminators. intros E Hc. pose proof (zmin_in _ _ Hc). pose proof (zmax_in _ _ Hc). set (z := center_track p X) in *. clearbody z. cbv zeta in E.
    destruct ((z - 1 <=? zmin l) && (zmax l <=? z + 1)) eqn:E1; [assert (z - 1 = a /\ z + 1 = b) by (split; congruence); lia|]. destruct (zmax l - zmin l <? 2) eqn:E2; [destruct (z <=? zmin l); [assert (zmin l - (2 - (zmax l - zmin l)) = a /\ zmax l = b) by (split; congruence)|assert (zmin l = a /\ zmax l + (2 - (zmax l - zmin l)) = b) by (split; congruence)]; lia|assert (zmin l = a /\ zmax l = b) by (split; congruence); lia].
  Qed.
  Lemma net_m2_in k tbl w : In w (net_m2 p X Y dev conns ord k tbl) -> In (mw_track w) (map fst tbl).
  Proof.
    assert (G : forall l, In w (map (fun e => let '(a, b) := terminators p X (snd e ++ [m3t k]) in mkMw (fst e) a b) l) -> In (mw_track w) (map fst l)).
    { intros l H. apply in_map_iff in H as ((t & cols) & E & Hi). cbn [fst snd] in E. destruct (terminators p X (cols ++ [m3t k])) as [a b]. subst w. cbn. now apply (in_map fst) in Hi. }
    destruct tbl as [|[t cols] [|e tl]]; [intros []| |exact (G ((t, cols) :: e :: tl))]. cbn. destruct (terminators p X cols) as [a b]. intros [<-|[]]. now left.
  Qed.
  Lemma m2_net n w : In (n, w) (m2_wires p X Y dev conns ord) -> exists cols, In (n, mw_track w, cols) sts.
  Proof.
    unfold m2_wires. intros H. apply in_app_iff in H as [H|H].
    - apply in_map_iff in H as ([[n' t] cols] & E & H). injection E as <- <-. exists cols. exact H.
    - apply in_flat_map in H as ((k & n' & tbl) & Hk & H). cbn [fst snd] in H. apply in_map_iff in H as (w' & E & H). injection E as <- <-. apply net_m2_in in H. apply in_map_iff in H as ((t & cols) & <- & H). exists cols. cbn [fst]. apply num_in in Hk. now apply (tab_in _ _ Hk).
  Qed.
  Lemma m3_net n w : In (n, w) (m3_wires p X Y dev conns ord) -> exists k tbl, In (k, (n, tbl)) num /\ mw_track w = m3t k.
  Proof.
    unfold m3_wires. intros H. apply in_flat_map in H as ((k & n' & tbl) & Hk & H). cbn [fst snd] in H. apply in_map_iff in H as (w' & E & H). injection E as <- <-. exists k, tbl. split; [exact Hk|].
    destruct tbl as [|e [|e' tl]]; [destruct H|destruct H|]. cbn [net_m3] in H. destruct H as [<-|H]; [reflexivity|]. destruct (_ <? 2); [|destruct H]. destruct H as [<-|[]]. reflexivity.
  Qed.
  Definition labelled (a : shape) (n : string) : Prop :=
    (exists x y q w, 0 <= x < X /\ 0 <= y < Y /\ slot x y q w /\ a = sh L1 w /\ netof (dev x y) q n) \/
    (exists w, In (n, w) (m2_wires p X Y dev conns ord) /\ a = sh L2 w) \/
    (exists w, In (n, w) (m3_wires p X Y dev conns ord) /\ a = sh L3 w).
  Lemma m2_track n n' w w' : In (n, w) (m2_wires p X Y dev conns ord) -> In (n', w') (m2_wires p X Y dev conns ord) -> mw_track w = mw_track w' -> n = n'.
  Proof. intros H H' E. apply m2_net in H as (c & H), H' as (c' & H'). rewrite <- E in H'. exact (proj1 (straps_uniq _ _ _ _ _ H H')). Qed.
  Lemma m3_track_net n n' k tbl w : In (k, (n, tbl)) num -> In (n', w) (m3_wires p X Y dev conns ord) -> mw_track w = m3t k -> n = n'.
  Proof. intros H H' E. apply m3_net in H' as (k' & tbl' & H' & E'). assert (k = k') as <- by (unfold m3_track in *; lia). assert (G := num_uniq _ _ _ H H'). congruence. Qed.
  Lemma touch_label a b n n' : labelled a n -> labelled b n' -> touch a b -> n = n'.
  Proof.
    intros Ha Hb (El & Et & t & Ht & Ht').
    destruct Ha as [(x & y & q & w & Hx & Hy & Hq & -> & Hn)|[(w & Hw & ->)|(w & Hw & ->)]], Hb as [(x' & y' & q' & w' & Hx' & Hy' & Hq' & -> & Hn')|[(w' & Hw' & ->)|(w' & Hw' & ->)]]; try discriminate El.
    - eapply m1_touch; [exact Hq|exact Hq'|exact Hy|exact Hy'|exact Et|exists t; now split|exact Hn|exact Hn'].
    - exact (m2_track _ _ _ _ Hw Hw' Et).
    - destruct (m3_net _ _ Hw) as (k & tbl & Hk & E). apply (m3_track_net _ _ k tbl w' Hk Hw'). rewrite <- E. symmetry. exact Et.
  Qed.
  Lemma joined_label a b n n' : labelled a n -> labelled b n' -> joined lay a b -> n = n'.
  Proof.
    intros Ha Hb [(c & t & Hv & La & Lb & E1 & E2 & E3 & E4)|(c & t & Hv & La & Lb & E1 & E2 & E3 & E4)].
    - destruct Ha as [(x & y & q & w & Hx & Hy & Hq & -> & Hn)|[(w & Hw & ->)|(w & Hw & ->)]]; try discriminate La. destruct Hb as [(x' & y' & q' & w' & Hx' & Hy' & Hq' & -> & Hn')|[(w' & Hw' & ->)|(w' & Hw' & ->)]]; try discriminate Lb.
      cbn [sh sh_track sh_lo sh_hi] in *. unfold lay, v1_vias in Hv. cbn [vias12] in Hv. apply in_flat_map in Hv as ([[m t'] cols] & Hst & Hv). apply in_map_iff in Hv as (c' & E & Hc). injection E as -> ->.
      destruct (m2_net _ _ Hw') as (cols' & Hst'). rewrite E3 in Hst'. destruct (straps_uniq _ _ _ _ _ Hst Hst') as (<- & _).
      destruct (straps_in _ Hst) as (y0 & n0 & c0 & q0 & t0 & Hy0 & Hc0 & E & Hq0 & Ht0). injection E as -> -> ->. apply columns_ok in Hc. destruct (netof_contact _ _ _ _ _ Hc0 Hc) as (x0 & w0 & Hx0 & Hs0 & -> & Hn0).
      apply (m1_touch x y q w x0 y0 q0 w0 n n0 Hq Hs0 Hy Hy0 E1); [|exact Hn|exact Hn0]. exists t0. split; [exact E2|].
      unfold slot in Hs0. destruct q0; cbn [tk] in Ht0; unfold row_lo, row_hi in *; [subst w0|subst w0|destruct Hs0 as [-> | ->]|destruct Hs0 as (_ & ->); destruct Ht0 as (_ & ->)]; cbn [mw_lo mw_hi]; lia.
    - destruct Ha as [(x & y & q & w & Hx & Hy & Hq & -> & Hn)|[(w & Hw & ->)|(w & Hw & ->)]]; try discriminate La. destruct Hb as [(x' & y' & q' & w' & Hx' & Hy' & Hq' & -> & Hn')|[(w' & Hw' & ->)|(w' & Hw' & ->)]]; try discriminate Lb.
      cbn [sh sh_track sh_lo sh_hi] in *. unfold lay, v2_vias in Hv. cbn [vias23] in Hv. apply in_flat_map in Hv as ((k & m & tbl) & Hk & Hv). cbn [fst snd] in Hv.
      assert (Hv' : In (c, t) (map (fun e => (m3t k, fst e)) tbl)) by (destruct tbl as [|e [|e' tl]]; [exact Hv|destruct Hv|exact Hv]). apply in_map_iff in Hv' as ((t' & cols) & E & Hi). cbn [fst] in E. injection E as <- <-.
      assert (m = n) as <- by (apply (m3_track_net m n k tbl w Hk Hw E1)). destruct (tab_in _ _ (num_in _ _ Hk)) as (_ & _ & Ht). apply Ht in Hi. destruct (m2_net _ _ Hw') as (cols' & Hst'). rewrite E3 in Hst'. exact (proj1 (straps_uniq _ _ _ _ _ Hi Hst')).
  Qed.
  (** Every terminal has a net. *)
  Hypothesis Htot : forall x y q w, 0 <= x < X -> 0 <= y < Y -> slot x y q w -> exists n, netof (dev x y) q n.
  Lemma all_labelled a : In a (shapes lay) -> exists n, labelled a n.
  Proof.
    cbn [lay shapes]. intros H. apply in_app_iff in H as [H|H]; [|apply in_app_iff in H as [H|H]]; apply in_map_iff in H as ((e & w) & <- & H); cbn [snd].
    - apply m1_ok in H as (x & y & q & Hx & Hy & -> & Hq). destruct (Htot x y q w Hx Hy Hq) as (n & Hn). exists n. left. exists x, y, q, w. auto.
    - exists e. right. left. eauto.
    - exists e. right. right. eauto.
  Qed.
  Lemma connected_label a b : connected lay a b -> forall n n', labelled a n -> labelled b n' -> In a (shapes lay) -> touch a a -> n = n'.
  Proof.
    intros H. apply clos_rt_rtn1 in H. induction H as [|b c Hbc Hab IH]; intros n n' Ha Hb Hi Ht.
    - exact (touch_label _ _ _ _ Ha Hb Ht).
    - destruct Hbc as (Ib & Ic & Hbc). destruct (all_labelled b Ib) as (m & Hm). assert (n = m) as -> by (now apply IH). destruct Hbc as [Hbc|[Hbc|Hbc]]; [exact (touch_label _ _ _ _ Hm Hb Hbc)|exact (joined_label _ _ _ _ Hm Hb Hbc)|symmetry; exact (joined_label _ _ _ _ Hb Hm Hbc)].
  Qed.

  (** The other direction. *)
  Lemma connected_sym a b : connected lay a b -> connected lay b a.
  Proof.
    intros H. induction H as [a b (Ia & Ib & H)|a|a b c _ IH1 _ IH2]; [|apply rt_refl|eapply rt_trans; eauto].
    apply rt_step. repeat split; auto. destruct H as [(E1 & E2 & t & E3 & E4)|[H|H]]; [left; repeat split; auto; exists t; now split|right; now right|right; now left].
  Qed.
  Definition strap_sh (t : Z) (cols : list Z) : shape := sh L2 (mkMw t (zmin cols) (zmax cols)).
  Lemma strap_in_lay n t cols : In (n, t, cols) sts -> In (strap_sh t cols) (shapes lay).
  Proof. intros H. cbn [lay shapes]. apply in_app_iff. right. apply in_app_iff. left. apply in_map_iff. exists (n, mkMw t (zmin cols) (zmax cols)). split; [reflexivity|]. unfold m2_wires. apply in_app_iff. left. apply in_map_iff. exists (n, t, cols). now split. Qed.
  Lemma m1_in_lay x y q w : 0 <= x < X -> 0 <= y < Y -> slot x y q w -> In (sh L1 w) (shapes lay).
  Proof. intros Hx Hy Hq. cbn [lay shapes]. apply in_app_iff. left. apply in_map_iff. exists (mkMt x y (dev x y) q, w). split; [reflexivity|]. apply m1_ok. exists x, y, q. auto. Qed.
  Lemma terminal_strap x y q w n : 0 <= x < X -> 0 <= y < Y -> slot x y q w -> netof (dev x y) q n -> exists t cols, In (n, t, cols) sts /\ connected lay (sh L1 w) (strap_sh t cols).
  Proof.
    assert (G : forall y, 0 <= y < Y -> (q = PB -> y = Y - 1) -> 0 <= x < X -> slot x y q w -> netof (dev x y) q n -> exists t cols, In (n, t, cols) sts /\ connected lay (sh L1 w) (strap_sh t cols)).
    { clear y. intros y Hy HB Hx Hq (c & Hc & Hi). assert (Hcon : In (q, mw_track w) (conts y c)) by (apply contacts_ok; exists x, w; auto).
      destruct (straps_of y n c q Hy Hc) as (t & Hst & Ht); [apply pins_ok; eauto|exact HB|]. exists t, (columns q (conts y c)). split; [exact Hst|]. apply rt_step. split; [eapply m1_in_lay; eauto|]. split; [eapply strap_in_lay; eauto|]. right. left. left. exists (mw_track w), t.
      apply columns_ok in Hcon. split; [|split; [reflexivity|split; [reflexivity|]]].
      - cbn [lay vias12]. unfold v1_vias. apply in_flat_map. exists (n, t, columns q (conts y c)). split; [exact Hst|]. apply in_map_iff. exists (mw_track w). now split.
      - unfold at_via, strap_sh. cbn [sh sh_track sh_lo sh_hi mw_track mw_lo mw_hi]. split; [reflexivity|]. split; [|split; [reflexivity|split; [now apply zmin_in|now apply zmax_in]]].
        unfold slot in Hq. destruct q; cbn [tk] in Ht; unfold row_lo, row_hi in *; [subst w|subst w|destruct Hq as [-> | ->]|destruct Hq as (_ & ->); destruct Ht as (_ & ->)]; cbn [mw_lo mw_hi]; lia. }
    intros Hx Hy Hq Hn. destruct (mpin_dec q PB) as [->|N]; [|apply (G y); auto; congruence].
    assert (Hq' : slot x (Y - 1) PB w) by exact Hq. destruct (Htot x (Y - 1) PB w Hx ltac:(lia) Hq') as (n' & Hn'). assert (n' = n) as -> by (exact (Hbody (proj1 Hq) _ _ _ _ Hn' Hn)). apply (G (Y - 1)); auto; lia.
  Qed.
  Lemma straps_joined n t cols t' cols' : In (n, t, cols) sts -> In (n, t', cols') sts -> connected lay (strap_sh t cols) (strap_sh t' cols').
  Proof.
    intros H H'. destruct (tab_of _ _ _ H) as (tbl & Ht). destruct (tab_in _ _ Ht) as (Hk & _ & Hin). apply Hin in H as Hi. apply Hin in H' as Hi'. destruct (num_of _ Ht) as (k & Hnum).
    destruct tbl as [|[t0 c0] [|e1 tl]]; [destruct Hi| |].
    - destruct Hi as [Ei|[]], Hi' as [Ei'|[]]. assert ((t, cols) = (t', cols')) as E by congruence. injection E as <- <-. apply rt_refl.
    - set (tbl := (t0, c0) :: e1 :: tl) in *. set (M3 := mkMw (m3t k) (zmin (map fst tbl)) (zmax (map fst tbl))).
      assert (I3 : In (sh L3 M3) (shapes lay)).
      { cbn [lay shapes]. apply in_app_iff. right. apply in_app_iff. right. apply in_map_iff. exists (n, M3). split; [reflexivity|]. unfold m3_wires. apply in_flat_map. exists (k, (n, tbl)). split; [exact Hnum|]. cbn [fst snd]. apply in_map. left. reflexivity. }
      assert (G : forall u c, In (n, u, c) sts -> In (u, c) tbl -> connected lay (strap_sh u c) (sh L3 M3)).
      { intros u c Hst Hu. destruct (terminators p X (c ++ [m3t k])) as [a b] eqn:Eterm. set (W := mkMw u a b).
        assert (IW : In (sh L2 W) (shapes lay)).
        { cbn [lay shapes]. apply in_app_iff. right. apply in_app_iff. left. apply in_map_iff. exists (n, W). split; [reflexivity|]. unfold m2_wires. apply in_app_iff. right. apply in_flat_map. exists (k, (n, tbl)). split; [exact Hnum|]. cbn [fst snd]. apply in_map. unfold tbl at 1. cbn [net_m2]. fold tbl. apply in_map_iff. exists (u, c). cbn [fst snd]. rewrite Eterm. now split. }
        assert (Hm : a <= m3t k <= b) by (eapply terminators_cover; [exact Eterm|]; apply in_app_iff; right; now left).
        assert (Hcc : exists z, In z c).
        { destruct (straps_in _ Hst) as (y0 & n0 & c1 & q0 & u0 & _ & _ & E & Hq0 & _). injection E as -> -> ->. apply pins_ok in Hq0 as (col & Hcol). exists col. now apply columns_ok. }
        destruct Hcc as (z & Hz). assert (Hzab : a <= z <= b) by (eapply terminators_cover; [exact Eterm|]; apply in_app_iff; now left).
        eapply rt_trans.
        - apply rt_step. split; [eapply strap_in_lay; exact Hst|]. split; [exact IW|]. left. repeat split. exists z. cbn. split; [split; [now apply zmin_in|now apply zmax_in]|exact Hzab].
        - apply rt_step. split; [exact IW|]. split; [exact I3|]. right. right. right. exists (m3t k), u. assert (Hu' : In u (map fst tbl)) by (apply in_map_iff; exists (u, c); now split). split; [|split; [reflexivity|split; [reflexivity|]]].
          + cbn [lay vias23]. unfold v2_vias. apply in_flat_map. exists (k, (n, tbl)). split; [exact Hnum|]. cbn [fst snd]. unfold tbl at 1. cbn [net_v2]. fold tbl. apply in_map_iff. exists (u, c). now split.
          + unfold at_via. cbn [sh sh_track sh_lo sh_hi mw_track mw_lo mw_hi M3 W]. split; [reflexivity|]. split; [split; [now apply zmin_in|now apply zmax_in]|]. split; [reflexivity|exact Hm]. }
      eapply rt_trans; [apply (G _ _ H Hi)|]. apply connected_sym, (G _ _ H' Hi').
  Qed.
  (** Terminals are connected exactly if they are on one net. *)
  Theorem lvs T w T' w' n n' : In (T, w) (m1_wires p X Y dev) -> In (T', w') (m1_wires p X Y dev) -> netof (mt_dev T) (mt_pin T) n -> netof (mt_dev T') (mt_pin T') n' ->
    (connected lay (sh L1 w) (sh L1 w') <-> n = n').
  Proof.
    intros H H' Hn Hn'. apply m1_ok in H as (x & y & q & Hx & Hy & -> & Hq), H' as (x' & y' & q' & Hx' & Hy' & -> & Hq'). cbn [mt_dev mt_pin] in *. split.
    - intros Hc. apply (connected_label _ _ Hc); [left; exists x, y, q, w; auto|left; exists x', y', q', w'; auto|exact (m1_in_lay x y q w Hx Hy Hq)|]. split; [reflexivity|split; [reflexivity|]]. exists (mw_lo w). cbn [sh sh_lo sh_hi]. unfold slot in Hq. assert (mw_lo w <= mw_hi w); [|lia].
      destruct q; unfold row_lo, row_hi in *; [subst w|subst w|destruct Hq as [-> | ->]|destruct Hq as (_ & ->)]; cbn [mw_lo mw_hi]; lia.
    - intros <-. destruct (terminal_strap _ _ _ _ _ Hx Hy Hq Hn) as (t & cols & Hst & C1). destruct (terminal_strap _ _ _ _ _ Hx' Hy' Hq' Hn') as (t' & cols' & Hst' & C2).
      eapply rt_trans; [exact C1|]. eapply rt_trans; [eapply straps_joined; eauto|]. now apply connected_sym.
  Qed.
End Wires.
