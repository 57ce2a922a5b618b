(** C73: the layers of a PDK and the wires and vias built from them, align/cell_fabric/pdk.py,
    align/primitive/default/canvas.py. *)
From Coq Require Import String Ascii ZifyBool.
From Verif Require Import Base.Prelude Base.PyDict Base.PyStr Model.Transformation Model.Grid Model.Canvas Model.DefaultCanvas Spec.TrackSpec Proofs.TrackP.
Local Open Scope string_scope. Local Open Scope list_scope. Local Open Scope Z_scope.

Lemma even_ok z : even z = true <-> is_even z.
Proof. unfold even, is_even. rewrite Z.eqb_eq. split; [intros H; exists (z / 2); lia|intros (k & ->); lia]. Qed.
Lemma known_ok P o : known P o = true <-> forall l, o = Some l -> In l (map fst P).
Proof. destruct o as [l|]; cbn; [|split; [discriminate|reflexivity]]. rewrite dmem_in. split; [intros H ? [= <-]; exact H|intros H; now apply H]. Qed.
Lemma layer_fits P n l : layer_ok P n l = true <-> fits (map fst P) n l.
Proof.
  unfold layer_ok. destruct n as [|c s]; cbn [initial]; [split; [discriminate|intros H; inversion H]|].
  assert (U : is_upper c = true <-> capital c) by (unfold is_upper, capital; rewrite andb_true_iff, !N.leb_le; tauto).
  rewrite andb_true_iff, U. destruct (Ascii.eqb_spec c "M") as [->|NM].
  - split.
    + intros (_ & H). destruct l as [m| |]; try discriminate. constructor. unfold metal_ok in H. destruct (me_pitch m); cbn; [constructor; [now apply even_ok|constructor]|].
      apply Forall_forall. intros x Hx. apply even_ok. rewrite forallb_forall in H. now apply H.
    + intros H. inversion H as [? m Hm| |]; subst; [|congruence]. split; [unfold capital; cbn; lia|]. unfold metal_ok. destruct (me_pitch m) as [z|zs]; cbn in Hm; [inversion Hm; now apply even_ok|].
      apply forallb_forall. intros x Hx. apply even_ok. rewrite Forall_forall in Hm. now apply Hm.
  - destruct (Ascii.eqb_spec c "V") as [->|NV].
    + split.
      * intros (_ & H). destruct l as [|v|]; try discriminate. unfold via_ok in H. rewrite !andb_true_iff, !even_ok, !known_ok in H. constructor; try tauto. intros l [E|E]; apply H in E || (destruct H as (_ & H); now apply H); exact E.
      * intros H. inversion H as [|? v H1 H2 H3 H4|]; subst; [|congruence]. split; [unfold capital; cbn; lia|]. unfold via_ok. rewrite !andb_true_iff, !even_ok, !known_ok. repeat split; auto.
    + split.
      * intros (Hc & H). destruct l; try discriminate. now constructor.
      * intros H. inversion H; subst; try congruence. auto.
Qed.
Lemma all_ok_split raw : forall P, all_ok P raw <-> forall pre n l post, raw = pre ++ (n, l) :: post -> ~ In n (map fst (P ++ pre)) /\ fits (map fst (P ++ pre)) n l.
Proof.
  induction raw as [|e raw IH]; intros P; cbn [all_ok].
  - split; [|trivial]. intros _ [|x0 pre0] n l post; discriminate.
  - rewrite IH, layer_fits. split.
    + intros (H1 & H2 & H3) [|x pre] n l post E; cbn in E; injection E as -> E; [rewrite app_nil_r; cbn in *; auto|]. destruct (H3 _ _ _ _ E) as (K1 & K2). rewrite <- app_assoc in K1, K2. auto.
    + intros H. destruct e as (n, l). destruct (H [] n l raw eq_refl) as (H1 & H2). rewrite app_nil_r in H1, H2. split; [exact H1|]. split; [exact H2|].
      intros pre n' l' post ->. destruct (H ((n, l) :: pre) n' l' post eq_refl) as (K1 & K2). rewrite <- app_assoc. auto.
Qed.
(** A PDK loads exactly when each layer has a new name and fits; it is kept as it is, in order. *)
Theorem C73_load raw P : load raw = Some P <-> P = raw /\ forall pre n l post, raw = pre ++ (n, l) :: post -> ~ In n (map fst pre) /\ fits (map fst pre) n l.
Proof. rewrite load_ok. split; intros (H1 & H2); (split; [exact H1|]); [now rewrite all_ok_split in H2|now rewrite all_ok_split]. Qed.
Print Assumptions C73_load.

(** The number used for a metal: the first of a list. *)
Definition is_first (d : dim) (z : Z) : Prop := d = One z \/ exists l, d = Many (z :: l).
Lemma first_ok d z : first d = Some z <-> is_first d z.
Proof. unfold first, is_first. destruct d as [x|[|x l]]; split; try discriminate; try (intros [= ->]; eauto); intros [[= ->]|(l' & E)]; try discriminate; try reflexivity. now injection E as ->. Qed.
(** The layer whose tracks the ends of wires follow: a neighbour through a via; when there are two, one with the smaller pitch. *)
Definition neighbour (P : pdk) (n a : string) (v : viadef) : Prop :=
  exists vn, In (vn, LVia v) P /\ (vi_lower v = Some n /\ vi_upper v = Some a \/ vi_upper v = Some n /\ vi_lower v = Some a).
Lemma adjoining_ok P n : let '(b, a) := adjoining P n in (forall m v, b = Some (m, v) -> neighbour P n m v) /\ (forall m v, a = Some (m, v) -> neighbour P n m v /\ is_lower v n = true).
Proof.
  unfold adjoining. apply (fold_left_ind (fun st => let '(b, a) := st in (forall m v, b = Some (m, v) -> neighbour P n m v) /\ (forall m v, a = Some (m, v) -> neighbour P n m v /\ is_lower v n = true))).
  - split; discriminate.
  - intros (b, a) (k, l) He (Hb & Ha). unfold adjoin. cbn [snd fst]. destruct l as [m0|v|]; try (now split). destruct (is_lower v n) eqn:El.
    + assert (Hl : vi_lower v = Some n) by (unfold is_lower in El; destruct (vi_lower v); [apply String.eqb_eq in El; congruence|discriminate]).
      split; [exact Hb|]. intros m v0 E. destruct (vi_upper v) as [u|] eqn:Eu; [|discriminate]. injection E as <- <-. split; [|exact El]. exists k. auto.
    + destruct (vi_upper v) as [u|] eqn:Eu; [|now split]. destruct (String.eqb_spec u n) as [->|]; [|now split]. split; [|exact Ha]. intros m v0 E. destruct (vi_lower v) as [l0|] eqn:El0; [|discriminate]. injection E as <- <-. exists k. auto.
Qed.
Lemma aligned_neighbour P n a v : aligned_to P n = Some (a, v) -> neighbour P n a v.
Proof.
  unfold aligned_to. pose proof (adjoining_ok P n) as H. destruct (adjoining P n) as ([(b, vb)|], [(u, vu)|]); destruct H as (Hb & Hu); cbn [fst].
  - destruct (pitch_of P b) as [pb|]; [|discriminate]. destruct (pitch_of P u) as [pu|]; [|discriminate]. destruct (pb <=? pu); intros [= <- <-]; [now apply Hb|now apply Hu].
  - intros [= <- <-]. now apply Hb.
  - intros [= <- <-]. now apply Hu.
  - discriminate.
Qed.
(** Half the via plus its enclosure along the wire. *)
Definition reach (d : direction) (n : string) (v : viadef) : Z :=
  (match d with H => vi_wx v | V => vi_wy v end) / 2 + match vi_lower v with Some l => if string_dec l n then vi_al v else vi_ah v | None => vi_ah v end.
Lemma via_ext_reach P n m v : metal_at P n = Some m -> via_ext P n v = Some (reach (me_dir m) n v).
Proof. intros E. unfold via_ext, reach, is_lower. rewrite E. f_equal. f_equal. destruct (vi_lower v) as [l|]; [|reflexivity]. destruct (string_dec l n) as [->|N]; [now rewrite String.eqb_refl|]. now apply String.eqb_neq in N as ->. Qed.
Lemma dget_of P n (l : layer) : NoDup (map fst P) -> In (n, l) P -> dget String.eqb P n = Some l.
Proof. intros. now apply (in_dget _ String.eqb_eq). Qed.
Definition plain (n : string) : Prop := until_us n = n.

(** The wires that can be drawn on a metal are exactly the rectangles of its width on one of its tracks, from one stop point
    to another; the stop points lie around the tracks of a neighbouring metal, at half the via plus its enclosure. *)
Theorem C73_wires raw P C n w : load raw = Some P -> build P = Some C -> In (n, w) (cv_wires C) -> plain n ->
  exists m p wd o a ma v sp so, In (n, LMetal m) P /\ is_first (me_pitch m) p /\ is_first (me_width m) wd /\ is_first (me_offset m) o /\ is_even wd /\
    neighbour P n a v /\ In (a, LMetal ma) P /\ is_first (me_pitch ma) sp /\ is_first (me_offset ma) so /\ aligned_to P n = Some (a, v) /\
    forall r, (exists c b e, wire_segment w c b e = Some r) <->
      exists k x y, stop_point so sp (reach (me_dir m) n v) x /\ stop_point so sp (reach (me_dir m) n v) y /\ r = wire_rect (me_dir m) (track o p k) wd x y.
Proof.
  intros Hl Hb Hw Hp. pose proof (load_nodup _ _ Hl) as Hnd. destruct (build_built P C Hnd Hb) as (_ & B2 & _). destruct (B2 _ _ Hw) as (m & Hm & Hmk).
  destruct (make_wire_inv P n m w Hmk) as (a & v & sp & ss & so & p & wd & o & g & E1 & E2 & E3 & E4 & E5 & E6 & E7 & -> & E8 & E9 & _). rewrite Hp in *.
  pose proof (dget_of P n _ Hnd Hm) as Dm. assert (Mn : metal_at P n = Some m) by (unfold metal_at; now rewrite Dm).
  unfold pitch_of, width_of, offset_of in *. rewrite Mn in *. destruct (metal_at P a) as [ma|] eqn:Ma; [|discriminate].
  exists m, p, wd, o, a, ma, v, sp, so. rewrite <- !first_ok. split; [exact Hm|]. do 3 (split; [assumption|]). split; [exists (wd / 2); lia|]. split; [now apply aligned_neighbour|].
  split; [unfold metal_at in Ma; destruct (dget String.eqb P a) as [[m'| |]|] eqn:Da; try discriminate; injection Ma as ->; now apply (dget_in _ String.eqb_eq) in Da|].
  do 3 (split; [assumption|]). rewrite (via_ext_reach P n m v Mn) in E3. injection E3 as <-. now apply wire_rects.
Qed.
Print Assumptions C73_wires.

(** Wires on different tracks are at least pitch minus width apart. *)
Theorem C73_spacing d o p wd k k' x y x' y' : 0 <= p -> is_even wd -> k < k' ->
  snd (across d (wire_rect d (track o p k) wd x y)) + (p - wd) <= fst (across d (wire_rect d (track o p k') wd x' y')).
Proof. intros Hp (h & ->) Hk. unfold across, wire_rect, track. assert (k * p + p <= k' * p) by nia. destruct d; cbn [fst snd llx lly urx ury]; replace (2 * h / 2) with h by lia; lia. Qed.
Print Assumptions C73_spacing.

(** A wire that reaches the middle of a via to the neighbour it is aligned with encloses that via by the prescribed
    enclosure at both ends, provided that stop points of two tracks do not cross. *)
Theorem C73_enclosed raw P C n w a wa vn v vv : load raw = Some P -> build P = Some C -> plain n -> plain a ->
  In (n, w) (cv_wires C) -> In (a, wa) (cv_wires C) -> In (vn, LVia v) P -> In (vn, vv) (cv_vias C) -> aligned_to P n = Some (a, v) ->
  (forall sp, pitch_of P a = Some sp -> 0 < reach (w_dir w) n v /\ 2 * reach (w_dir w) n v <= sp) ->
  forall c b e r cx cy rv, wire_segment w c b e = Some r -> via_segment vv cx cy = Some rv ->
  let enc := if match vi_lower v with Some l => if string_dec l n then true else false | None => false end then vi_al v else vi_ah v in
  let half := (match w_dir w with H => vi_wx v | V => vi_wy v end) / 2 in
  let middle := fst (along (w_dir w) rv) + half in
  fst (along (w_dir w) r) <= middle <= snd (along (w_dir w) r) ->
  fst (along (w_dir w) r) + enc <= fst (along (w_dir w) rv) /\ snd (along (w_dir w) rv) + enc <= snd (along (w_dir w) r).
Proof.
  intros Hl Hb Pn Pa Hw Hwa Hv Hvv Hal Hst c b e r cx cy rv Er Ev enc half middle. pose proof (load_nodup _ _ Hl) as Hnd. destruct (build_built P C Hnd Hb) as (B1 & B2 & B3).
  destruct (C73_wires _ _ _ _ _ Hl Hb Hw Pn) as (m & p & wd & o & a' & ma & v' & sp & so & Hm & _ & _ & _ & _ & Hnb & Hma & F1 & F2 & Hal' & Hr). rewrite Hal in Hal'. injection Hal' as <- <-.
  destruct (proj1 (Hr r) (ex_intro _ c (ex_intro _ b (ex_intro _ e Er)))) as (k & x & y & Hx & Hy & ->).
  assert (Dm : metal_at P n = Some m) by (unfold metal_at; now rewrite (dget_of P n _ Hnd Hm)). assert (Da : metal_at P a = Some ma) by (unfold metal_at; now rewrite (dget_of P a _ Hnd Hma)).
  assert (Hdir : w_dir w = me_dir m).
  { destruct (B2 _ _ Hw) as (m1 & Hm1 & Hmk). apply make_wire_inv in Hmk as (? & ? & ? & ? & ? & ? & ? & ? & ? & _ & _ & _ & _ & _ & _ & _ & -> & _). cbn. pose proof (dget_of P n _ Hnd Hm) as D1. rewrite (dget_of P n _ Hnd Hm1) in D1. congruence. }
  (* the centre of the via lies on a track of the neighbour *)
  assert (Ga : forall i, exists t co, value (w_clg wa) i true = Some (track so sp t, co)).
  { intros i. destruct (B2 _ _ Hwa) as (m1 & Hm1 & Hmk). apply make_wire_inv in Hmk as (? & ? & ? & ? & ? & p1 & wd1 & o1 & g & _ & _ & _ & _ & E5 & _ & E7 & -> & _ & E9 & _). rewrite Pa in *. unfold pitch_of, offset_of in E5, E7. rewrite Da in E5, E7. apply first_ok in F1, F2. rewrite F1 in E5. rewrite F2 in E7. injection E5 as <-. injection E7 as <-.
    cbn. rewrite flat_of. destruct (E9 (idx_flat g i)) as (co & ->). now exists (idx_flat g i), (Some (wd1, co)). }
  assert (Gs : exists t, fst (along (w_dir w) rv) = track so sp t - half /\ snd (along (w_dir w) rv) = track so sp t + half).
  { destruct (B3 _ _ Hvv) as (d & l & u & ml & mu & wl & wu & el & eu & Hd & L1 & L2 & L3 & L4 & L5 & L6 & _ & _ & L7).
    assert (d = v) by (pose proof (dget_of P vn _ Hnd Hd) as D1; rewrite (dget_of P vn _ Hnd Hv) in D1; congruence). subst d.
    assert (U : forall k w1 w2, In (k, w1) (cv_wires C) -> In (k, w2) (cv_wires C) -> w1 = w2).
    { intros k0 w1 w2 I1 I2. apply (in_dget _ String.eqb_eq _ _ _ B1) in I1. apply (in_dget _ String.eqb_eq _ _ _ B1) in I2. congruence. }
    destruct Hnb as (vn' & _ & Hend). rewrite L1, L2 in Hend. unfold half. rewrite Hdir. unfold via_segment in Ev.
    destruct Hend as [([= ->] & [= ->])|([= ->] & [= ->])].
    - rewrite Dm in L3. injection L3 as <-. rewrite Da in L4. injection L4 as <-. rewrite (U _ _ _ L6 Hwa) in L7.
      destruct L7 as [(D1 & D2 & ->)|(D1 & D2 & ->)]; rewrite D1; cbn [v_hclg v_vclg v_WidthX v_WidthY] in Ev.
      + destruct (Ga cx) as (t & co & Ht). rewrite Ht in Ev. destruct (value (w_clg wl) cy true) as [(y0, a0)|]; [|discriminate]. injection Ev as <-. exists t. cbn. auto.
      + destruct (Ga cy) as (t & co & Ht). rewrite Ht in Ev. destruct (value (w_clg wl) cx true) as [(y0, a0)|]; [|discriminate]. injection Ev as <-. exists t. cbn. auto.
    - rewrite Da in L3. injection L3 as <-. rewrite Dm in L4. injection L4 as <-. rewrite (U _ _ _ L5 Hwa) in L7.
      destruct L7 as [(D1 & D2 & ->)|(D1 & D2 & ->)]; rewrite D2; cbn [v_hclg v_vclg v_WidthX v_WidthY] in Ev.
      + destruct (Ga cy) as (t & co & Ht). rewrite Ht in Ev. destruct (value (w_clg wu) cx true) as [(y0, a0)|]; [|discriminate]. injection Ev as <-. exists t. cbn. auto.
      + destruct (Ga cx) as (t & co & Ht). rewrite Ht in Ev. destruct (value (w_clg wu) cy true) as [(y0, a0)|]; [|discriminate]. injection Ev as <-. exists t. cbn. auto. }
  destruct Gs as (t & G1 & G2). subst middle. rewrite G1, G2. replace (track so sp t - half + half) with (track so sp t) by lia.
  assert (Hal2 : along (w_dir w) (wire_rect (me_dir m) (track o p k) wd x y) = (x, y)) by (rewrite Hdir; destruct (me_dir m); reflexivity). rewrite Hal2. cbn [fst snd].
  destruct (Hst sp) as (S1 & S2); [unfold pitch_of; rewrite Da; now apply first_ok|]. rewrite Hdir in S1, S2.
  intros (M1 & M2). destruct (stop_covers so sp _ t x S1 S2 Hx) as (K1 & _). destruct (stop_covers so sp _ t y S1 S2 Hy) as (_ & K2). specialize (K1 M1). specialize (K2 M2).
  assert (Hre : reach (me_dir m) n v = half + enc). { unfold reach, half, enc. rewrite Hdir. f_equal. destruct (vi_lower v) as [l|]; [|reflexivity]. destruct (string_dec l n); reflexivity. }
  rewrite Hre in K1, K2. lia.
Qed.
Print Assumptions C73_enclosed.

Lemma some3 {A B C} (a a' : A) (b b' : B) (c c' : C) : Some (a, b, c) = Some (a', b', c') -> a = a' /\ b = b' /\ c = c'.
Proof. intros H. repeat split; congruence. Qed.
(** The via table agrees with the grids: the metals extend beyond the centre of the via, along the wire, by forty times what
    wires are extended, if the cut has even sides. *)
Theorem C73_via_table P n v cut rl ru l u ml mu : via_at P n = Some v -> via_table P n = Some (cut, rl, ru) -> vi_lower v = Some l -> vi_upper v = Some u -> l <> u ->
  metal_at P l = Some ml -> metal_at P u = Some mu -> is_even (vi_wx v) -> is_even (vi_wy v) ->
  along (me_dir ml) rl = (- (40 * reach (me_dir ml) l v), 40 * reach (me_dir ml) l v) /\ along (me_dir mu) ru = (- (40 * reach (me_dir mu) u v), 40 * reach (me_dir mu) u v) /\
  along H cut = (- (40 * (vi_wx v / 2)), 40 * (vi_wx v / 2)) /\ along V cut = (- (40 * (vi_wy v / 2)), 40 * (vi_wy v / 2)).
Proof.
  intros Hv Ht El Eu Hne Ml Mu (hx & Hx) (hy & Hy). unfold via_table in Ht. rewrite Hv, El, Eu in Ht. unfold enclose in Ht. rewrite Ml, Mu in Ht.
  assert (Rl : forall d, reach d l v = (match d with H => vi_wx v | V => vi_wy v end) / 2 + vi_al v) by (intros d; unfold reach; rewrite El; destruct (string_dec l l); congruence).
  assert (Ru : forall d, reach d u v = (match d with H => vi_wx v | V => vi_wy v end) / 2 + vi_ah v) by (intros d; unfold reach; rewrite El; destruct (string_dec l u); congruence).
  rewrite Rl, Ru. clear Rl Ru. rewrite Hx, Hy in Ht |- *. replace (2 * hx / 2) with hx by lia. replace (2 * hy / 2) with hy by lia. destruct (me_dir ml), (me_dir mu); cbv beta iota zeta in Ht; replace (2 * hx / 2) with hx by lia; replace (2 * hy / 2) with hy by lia; apply some3 in Ht as (<- & <- & <-); cbn [along llx lly urx ury]; repeat split; try (f_equal; lia).
Qed.
Print Assumptions C73_via_table.

(** Finding: WidthY need not be even; the cut that is drawn is then lower than WidthY. *)
Definition m1 : metal := mkMetal V [] (One 80) (One 32) (One 0) (One 0) None.
Definition m2 : metal := mkMetal H [] (One 84) (One 32) (One 0) (One 0) None.
Definition m3 : metal := mkMetal V [] (One 60) (One 20) (One 10) (One 0) None.
Definition v1 (wy : Z) : viadef := mkViadef (Some "M1") (Some "M2") 76 76 32 wy 20 20 0 0.
Definition v2 : viadef := mkViadef (Some "M2") (Some "M3") 48 40 32 32 20 20 0 4.
Definition pdk_of (wy : Z) : pdk := [("Poly", LOther); ("M1", LMetal m1); ("M2", LMetal m2); ("V1", LVia (v1 wy)); ("M3", LMetal m3); ("V2", LVia v2)].
Definition via_in (P : pdk) (n : string) (cx cy : Idx) : option Rect :=
  match build P with Some C => match dget String.eqb (cv_vias C) n with Some v => via_segment v cx cy | None => None end | None => None end.
Definition wire_in (P : pdk) (n : string) (c b e : Idx) : option Rect :=
  match build P with Some C => match wire_at C n with Some w => wire_segment w c b e | None => None end | None => None end.
Theorem C73_widthy_refuted : exists r, load (pdk_of 33) = Some (pdk_of 33) /\ via_in (pdk_of 33) "V1" (Flat 0) (Flat 0) = Some r /\ ury r - lly r <> vi_wy (v1 33).
Proof. eexists. split; [reflexivity|]. split; [vm_compute; reflexivity|discriminate]. Qed.
Print Assumptions C73_widthy_refuted.

(** Finding: the vias to the other neighbour need not be enclosed.  M2 is aligned with M3; here a via to M1 sticks out of a wire
    on M2 that reaches its middle. *)
Theorem C73_other_refuted : exists r rv, load (pdk_of 32) = Some (pdk_of 32) /\ aligned_to (pdk_of 32) "M2" = Some ("M3", v2) /\ neighbour (pdk_of 32) "M2" "M1" (v1 32) /\
  wire_in (pdk_of 32) "M2" (Flat 0) (Pair 0 3) (Pair 2 1) = Some r /\ via_in (pdk_of 32) "V1" (Flat 2) (Flat 0) = Some rv /\
  llx r <= (llx rv + urx rv) / 2 <= urx r /\ urx r < urx rv + vi_ah (v1 32).
Proof. do 2 eexists. split; [reflexivity|]. split; [reflexivity|]. split; [exists "V1"; cbn; auto 10|]. split; [vm_compute; reflexivity|]. split; [vm_compute; reflexivity|]. vm_compute. repeat split; discriminate. Qed.
Print Assumptions C73_other_refuted.

(** The same with metals 2 to 4 as in pdks/FinFET14nm_Mock_PDK/layers.json: M3 is aligned with M2, and a via to M4 is enclosed by
    16 at the end of a wire instead of 20. *)
Definition fin : pdk :=
  [("M2", LMetal (mkMetal H [2; 1] (One 84) (One 32) (One 0) (One 200) None)); ("M3", LMetal (mkMetal V [1; 2] (One 80) (One 40) (One 0) (One 210) None));
   ("V2", LVia (mkViadef (Some "M2") (Some "M3") 48 40 32 32 20 20 0 4)); ("M4", LMetal (mkMetal H [] (One 84) (One 40) (One 0) (One 140) None));
   ("V3", LVia (mkViadef (Some "M3") (Some "M4") 40 44 40 40 20 20 0 0))].
Theorem C73_finfet_refuted : exists r rv, load fin = Some fin /\ wire_in fin "M3" (Flat 0) (Pair 0 3) (Pair 3 1) = Some r /\ via_in fin "V3" (Flat 0) (Flat 3) = Some rv /\
  lly r <= (lly rv + ury rv) / 2 <= ury r /\ ury r - ury rv = 16.
Proof. do 2 eexists. split; [reflexivity|]. split; [vm_compute; reflexivity|]. split; [vm_compute; reflexivity|]. vm_compute. repeat split; discriminate. Qed.
Print Assumptions C73_finfet_refuted.

(** Finding: when the stop points of two tracks cross, even the vias to the aligned neighbour need not be enclosed.  Metals 3
    and 4 as in pdks/Bulk45nm_Mock_PDK/layers.json: 40 instead of 50. *)
Definition bulk : pdk :=
  [("M3", LMetal (mkMetal V [] (One 180) (One 70) (One 0) (One 400) None)); ("M4", LMetal (mkMetal H [] (One 200) (One 100) (One 0) (One 400) None));
   ("V3", LVia (mkViadef (Some "M3") (Some "M4") 136 136 90 90 50 50 0 0)); ("M5", LMetal (mkMetal V [] (One 200) (One 100) (One 0) (One 400) None));
   ("V4", LVia (mkViadef (Some "M4") (Some "M5") 136 136 90 90 50 50 0 0))].
Theorem C73_crossing_refuted : exists v r rv, load bulk = Some bulk /\ aligned_to bulk "M4" = Some ("M3", v) /\ In ("V3", LVia v) bulk /\
  wire_in bulk "M4" (Flat 0) (Pair (-1) 1) (Pair 3 3) = Some r /\ via_in bulk "V3" (Flat 0) (Flat 0) = Some rv /\ llx r <= (llx rv + urx rv) / 2 <= urx r /\ llx rv - llx r = 40.
Proof. do 3 eexists. split; [reflexivity|]. split; [reflexivity|]. split; [cbn; auto 10|]. split; [vm_compute; reflexivity|]. split; [vm_compute; reflexivity|]. vm_compute. repeat split; discriminate. Qed.
Print Assumptions C73_crossing_refuted.

(** Finding: nothing relates the cut to the width of the wires; here it is wider than M3, with either value of VencP. *)
Theorem C73_across_refuted : exists r rv, load (pdk_of 32) = Some (pdk_of 32) /\ wire_in (pdk_of 32) "M3" (Flat 0) (Pair 0 3) (Pair 2 1) = Some r /\ via_in (pdk_of 32) "V2" (Flat 0) (Flat 2) = Some rv /\
  lly r <= lly rv /\ ury rv <= ury r /\ llx rv < llx r /\ urx r < urx rv.
Proof. do 2 eexists. split; [reflexivity|]. split; [vm_compute; reflexivity|]. split; [vm_compute; reflexivity|]. vm_compute. repeat split; discriminate. Qed.
Print Assumptions C73_across_refuted.

(** Finding: a metal with colours and a list of widths registers its postprocessor twice; no canvas can be built. *)
Theorem C73_colored_list_refuted P n m ws : In (n, LMetal m) P -> me_color m <> [] -> me_width m = Many ws -> build P = None.
Proof.
  intros Hin Hc Hw. assert (F : forall C, create P C (n, LMetal m) = None).
  { intros C. cbn [create snd fst]. unfold create_metal. rewrite Hw. destruct (me_color m) as [|c0 cs]; [congruence|]. unfold register. destruct (existsb (String.eqb n) (cv_post C)) eqn:E; [reflexivity|].
    destruct (item0 (me_pitch m)); [|reflexivity]. destruct (item0 (Many ws)); [|reflexivity]. destruct (item0 (me_minl m)); [|reflexivity]. destruct (match me_maxl m with Some d => item0 d | None => None end); [|reflexivity]. cbn [existsb]. now rewrite String.eqb_refl. }
  assert (G : forall Q o, In (n, LMetal m) Q -> fold_left (fun o e => match o with Some C => create P C e | None => None end) Q o = None); [|now apply G].
  intros Q o Hq. apply in_split in Hq as (pre & post & ->). rewrite fold_left_app. cbn [fold_left]. destruct (fold_left _ pre _) as [C|]; [rewrite F|]; apply foldopt_none.
Qed.
Print Assumptions C73_colored_list_refuted.

(** The hypotheses are met: a PDK with three metals; the wires of M2 enclose the vias to M3. *)
Example C73_nonvacuous : exists P C w wa vv, load (pdk_of 32) = Some P /\ build P = Some C /\ plain "M1" /\ plain "M2" /\ In ("M1", w) (cv_wires C) /\ In ("M2", wa) (cv_wires C) /\ In ("V1", LVia (v1 32)) P /\ In ("V1", vv) (cv_vias C) /\
  aligned_to P "M1" = Some ("M2", v1 32) /\ (forall sp, pitch_of P "M2" = Some sp -> 0 < reach (w_dir w) "M1" (v1 32) /\ 2 * reach (w_dir w) "M1" (v1 32) <= sp) /\
  wire_segment w (Flat 3) (Pair 0 3) (Pair 1 1) = Some (mkRect 224 48 256 120) /\ via_segment vv (Flat 3) (Flat 1) = Some (mkRect 224 68 256 100).
Proof.
  do 5 eexists. split; [reflexivity|]. split; [vm_compute; reflexivity|]. split; [reflexivity|]. split; [reflexivity|]. split; [right; right; left; reflexivity|]. split; [right; left; reflexivity|]. split; [cbn; auto 10|].
  split; [right; left; reflexivity|]. split; [reflexivity|]. split; [intros sp [= <-]; vm_compute; split; congruence|]. split; reflexivity.
Qed.
