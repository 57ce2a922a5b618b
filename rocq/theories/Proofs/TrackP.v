(** Lines of the grids of the default canvas; what a PDK that loads looks like; the wires and vias built from it. *)
From Coq Require Import String Ascii ZifyBool.
From Verif Require Import Base.Prelude Base.PyDict Base.PyStr Model.Transformation Model.Grid Model.Canvas Model.DefaultCanvas Spec.TrackSpec.
Local Open Scope Z_scope.

(** * Grids *)
Lemma fold_lines {A} (pos : A -> Z) (at_ : A -> attrs) (l : list A) : forall g,
  let g' := fold_left (fun g a => addGridLine g (pos a) true (at_ a)) l g in
  grid g' = grid g ++ map (fun a => (pos a, at_ a)) l /\
  legalIndices g' = legalIndices g ++ map (fun i => Z.of_nat (length (grid g)) + Z.of_nat i) (seq 0 (length l)).
Proof.
  induction l as [|a l IH]; intros g; cbn [fold_left].
  - cbn. now rewrite !app_nil_r.
  - destruct (IH (addGridLine g (pos a) true (at_ a))) as (H1 & H2). split.
    + rewrite H1. cbn. now rewrite <- app_assoc.
    + rewrite H2. cbn [addGridLine legalIndices grid]. rewrite app_length. cbn [length seq map]. rewrite <- app_assoc. cbn [app]. f_equal. f_equal; [lia|].
      rewrite <- seq_shift, map_map. apply map_ext. intros i. lia.
Qed.
Lemma value_lines g cs p o at_ : (1 < length (grid g))%nat ->
  grid g = map (fun i => (o + Z.of_nat i * p, at_ i)) (seq 0 (length (grid g))) -> legalIndices g = map Z.of_nat (seq 0 (length (grid g))) -> cs = Z.of_nat (length (grid g)) - 1 ->
  forall v, value g (Flat v) true = Some (o + v * p, at_ (Z.to_nat (v mod cs))).
Proof.
  intros Hl Hg Hle -> v. set (len := length (grid g)) in *. assert (Hn : n_lines g = Z.of_nat len - 1) by reflexivity.
  unfold value. rewrite Hn. destruct (Z.leb_spec (Z.of_nat len - 1) 0); [lia|]. cbn [idx_flat andb].
  set (q := v / (Z.of_nat len - 1)). set (r := v mod (Z.of_nat len - 1)).
  assert (Hr : 0 <= r < Z.of_nat len - 1) by (apply Z.mod_pos_bound; lia). assert (Hv : v = (Z.of_nat len - 1) * q + r) by (apply Z.div_mod; lia).
  replace (existsb (Z.eqb r) (legalIndices g)) with true.
  2: { symmetry. apply existsb_exists. exists r. split; [|apply Z.eqb_refl]. rewrite Hle. apply in_map_iff. exists (Z.to_nat r). split; [lia|]. apply in_seq. lia. }
  cbn [negb]. assert (N : forall i, (i < len)%nat -> nth_error (grid g) i = Some (o + Z.of_nat i * p, at_ i)).
  { intros i Hi. rewrite Hg, nth_error_map. rewrite (nth_error_nth' _ 0%nat); [|rewrite seq_length; exact Hi]. cbn. now rewrite seq_nth by exact Hi. }
  rewrite (N (Z.to_nat r)) by lia. assert (Hp : period g = Some ((Z.of_nat len - 1) * p)).
  { unfold period, first_line, last_line. pose proof (N 0%nat ltac:(lia)) as N0. pose proof (N (len - 1)%nat ltac:(lia)) as N1.
    assert (E : grid g = removelast (grid g) ++ [last (grid g) (0, None)]) by (apply app_removelast_last; intros E; unfold len in Hl; rewrite E in Hl; cbn in Hl; lia).
    assert (Hlast : last (grid g) (0, None) = (o + Z.of_nat (len - 1) * p, at_ (len - 1)%nat)).
    { rewrite E in N1. rewrite nth_error_app2 in N1; rewrite removelast_firstn_len, firstn_length in *; [|unfold len in *; lia]. replace (len - 1 - Nat.min (Nat.pred (length (grid g))) (length (grid g)))%nat with 0%nat in N1 by (unfold len in *; lia). cbn in N1. congruence. }
    assert (HR : rev (grid g) = last (grid g) (0, None) :: rev (removelast (grid g))) by (rewrite E at 1; rewrite rev_app_distr; reflexivity).
    rewrite HR, Hlast. destruct (grid g) as [|(c, a) tl]; [discriminate N0|]. injection N0 as -> _. cbn [fst]. f_equal. lia. }
  rewrite Hp. f_equal. f_equal. rewrite Z2Nat.id by lia. transitivity (o + ((Z.of_nat len - 1) * q + r) * p); [ring|now rewrite <- Hv].
Qed.
Lemma value_uncolored p w o g v : uncolored p w o = Some g -> value g (Flat v) true = Some (o + v * p, Some (w, None)).
Proof.
  unfold uncolored. destruct (even w); [|discriminate]. intros [= <-]. apply (value_lines _ 1 p o (fun _ => Some (w, None))); try reflexivity. cbn. lia.
Qed.
Lemma combine_seq {A} (l : list A) (d : A) : combine (seq 0 (length l)) l = map (fun i => (i, nth i l d)) (seq 0 (length l)).
Proof.
  assert (G : forall k, combine (seq k (length l)) l = map (fun i => (i, nth (i - k) l d)) (seq k (length l))).
  { induction l as [|a l IH]; intros k; [reflexivity|]. cbn [length seq combine map]. rewrite IH, Nat.sub_diag. cbn [nth]. f_equal.
    apply map_ext_in. intros i Hi. apply in_seq in Hi. now replace (i - k)%nat with (Datatypes.S (i - Datatypes.S k)) by lia. }
  rewrite G. apply map_ext. intros i. now rewrite Nat.sub_0_r.
Qed.
Lemma value_colored cs p w o g v : colored cs p w o = Some g ->
  value g (Flat v) true = Some (o + v * p, Some (w, nth_error cs (Z.to_nat (v mod Z.of_nat (length cs))))).
Proof.
  unfold colored. destruct cs as [|c0 tl]; [discriminate|]. set (cs := c0 :: tl). destruct (_ && _); [|discriminate]. intros [= <-].
  set (gg := fold_left _ _ _).
  assert (Hlen : length (cs ++ [c0]) = (length cs + 1)%nat) by (rewrite app_length; reflexivity).
  pose proof (fold_lines (fun ic : nat * Z => o + Z.of_nat (fst ic) * p) (fun ic => Some (w, Some (snd ic))) (combine (seq 0 (length cs + 1)) (cs ++ [c0])) grid_empty) as HH.
  cbv zeta in HH. change (fold_left _ _ _) with gg in HH. destruct HH as (H1 & H2).
  rewrite <- Hlen, (combine_seq _ 0) in H1. cbn [grid grid_empty app] in H1. rewrite map_map in H1. cbn [fst snd] in H1.
  assert (L : length (grid gg) = (length cs + 1)%nat) by (rewrite H1, map_length, seq_length; exact Hlen).
  rewrite (value_lines gg (Z.of_nat (length cs)) p o (fun i => Some (w, Some (nth i (cs ++ [c0]) 0)))).
  - assert (Hm : 0 <= v mod Z.of_nat (length cs) < Z.of_nat (length cs)) by (apply Z.mod_pos_bound; cbn; lia).
    rewrite app_nth1 by lia. now rewrite (nth_error_nth' cs 0) by lia.
  - cbn in L |- *. lia.
  - now rewrite L, <- Hlen.
  - rewrite L, H2. cbn [legalIndices grid_empty app grid length]. rewrite combine_length, seq_length, Hlen, Nat.min_id. reflexivity.
  - lia.
Qed.
Lemma flat_of g i c : value g i c = value g (Flat (idx_flat g i)) c.
Proof. reflexivity. Qed.
Lemma value_enclosure sp so ss v : value (EnclosureGrid sp so ss) (Flat v) true =
  if v mod 4 =? 1 then Some (so + ss + (v / 4) * (so + sp - so), None) else if v mod 4 =? 3 then Some (so + sp - ss + (v / 4) * (so + sp - so), None) else None.
Proof.
  unfold value. change (n_lines (EnclosureGrid sp so ss)) with 4. change (idx_flat (EnclosureGrid sp so ss) (Flat v)) with v. change (4 <=? 0) with false. cbn match. cbv zeta.
  assert (Hm : 0 <= v mod 4 < 4) by (apply Z.mod_pos_bound; lia).
  assert (E : v mod 4 = 0 \/ v mod 4 = 1 \/ v mod 4 = 2 \/ v mod 4 = 3) by lia.
  destruct E as [-> | [-> | [-> | ->]]]; reflexivity.
Qed.
Lemma value_stop sp so ss i : forall x a, value (EnclosureGrid sp so ss) i true = Some (x, a) -> stop_point so sp ss x.
Proof.
  intros x a. rewrite flat_of. generalize (idx_flat (EnclosureGrid sp so ss) i) as v. intros v. rewrite value_enclosure.
  destruct (v mod 4 =? 1); [intros [= <- _]; exists (v / 4); right; unfold track; ring|]. destruct (v mod 4 =? 3); [|discriminate]. intros [= <- _]. exists (v / 4 + 1). left. unfold track. ring.
Qed.
Lemma stop_value sp so ss x : stop_point so sp ss x -> exists i, value (EnclosureGrid sp so ss) i true = Some (x, None).
Proof.
  intros (t & [-> | ->]).
  - exists (Flat (4 * t - 1)). rewrite value_enclosure. replace ((4 * t - 1) mod 4) with 3 by lia. cbn [Z.eqb Pos.eqb]. f_equal. f_equal. replace ((4 * t - 1) / 4) with (t - 1) by lia. unfold track. ring.
  - exists (Flat (4 * t + 1)). rewrite value_enclosure. replace ((4 * t + 1) mod 4) with 1 by lia. cbn [Z.eqb Pos.eqb]. f_equal. f_equal. replace ((4 * t + 1) / 4) with t by lia. unfold track. ring.
Qed.

(** * Loading *)
Lemma foldopt_none {A B} (f : B -> A -> option B) l : fold_left (fun o e => match o with Some P => f P e | None => None end) l None = None.
Proof. induction l as [|a l IH]; [reflexivity|exact IH]. Qed.
Lemma dmem_in {B} (d : list (string * B)) k : dmem String.eqb d k = true <-> In k (map fst d).
Proof.
  unfold dmem. destruct (dget String.eqb d k) as [v|] eqn:E.
  - split; [|reflexivity]. intros _. apply (dget_in _ String.eqb_eq) in E. now apply (in_map fst) in E.
  - split; [discriminate|]. intros H. exfalso. exact (proj1 (dget_none _ String.eqb_eq _ _) E H).
Qed.
(** Each layer is new and acceptable given those before it. *)
Fixpoint all_ok (P : pdk) (raw : list (string * layer)) : Prop :=
  match raw with
  | [] => True
  | e :: tl => ~ In (fst e) (map fst P) /\ layer_ok P (fst e) (snd e) = true /\ all_ok (P ++ [e]) tl
  end.
Lemma load_go raw : forall P Q, fold_left (fun o e => match o with Some P => add_layer P e | None => None end) raw (Some P) = Some Q <-> Q = P ++ raw /\ all_ok P raw.
Proof.
  induction raw as [|e raw IH]; intros P Q; cbn [fold_left all_ok].
  - rewrite app_nil_r. split; [intros [= <-]; auto|intros (-> & _); reflexivity].
  - unfold add_layer at 2. destruct (dmem String.eqb P (fst e)) eqn:E.
    + rewrite foldopt_none. apply dmem_in in E. split; [discriminate|]. tauto.
    + assert (Hn : ~ In (fst e) (map fst P)) by (rewrite <- dmem_in; congruence). destruct (layer_ok P (fst e) (snd e)).
      * rewrite IH, <- app_assoc. cbn. tauto.
      * rewrite foldopt_none. split; [discriminate|]. intros (_ & _ & H & _). discriminate.
Qed.
Lemma load_ok raw Q : load raw = Some Q <-> Q = raw /\ all_ok [] raw.
Proof. apply load_go. Qed.
Lemma all_ok_nodup raw : forall P, NoDup (map fst P) -> all_ok P raw -> NoDup (map fst (P ++ raw)).
Proof.
  induction raw as [|e raw IH]; intros P Hn; cbn [all_ok]; [now rewrite app_nil_r|]. intros (H1 & _ & H2). specialize (IH (P ++ [e])). rewrite <- app_assoc in IH. apply IH; [|exact H2].
  rewrite map_app. cbn. apply (Permutation_NoDup (Permutation_cons_append _ _)). now constructor.
Qed.
Lemma load_nodup raw P : load raw = Some P -> NoDup (map fst P).
Proof. intros H. apply load_ok in H as (-> & H). apply (all_ok_nodup raw [] (NoDup_nil _) H). Qed.

(** * Building *)
Definition built (P : pdk) (C : canvas) (done : pdk) : Prop :=
  NoDup (map fst (cv_wires C)) /\
  (forall n w, In (n, w) (cv_wires C) -> exists m, In (n, LMetal m) done /\ make_wire P n m = Some w) /\
  (forall n v, In (n, v) (cv_vias C) -> exists d l u ml mu wl wu el eu, In (n, LVia d) done /\ vi_lower d = Some l /\ vi_upper d = Some u /\ metal_at P l = Some ml /\ metal_at P u = Some mu /\
     In (l, wl) (cv_wires C) /\ In (u, wu) (cv_wires C) /\ via_ext P l d = Some el /\ via_ext P u d = Some eu /\
     (me_dir ml = H /\ me_dir mu = V /\ v = mkVia (w_clg wl) (w_clg wu) (vi_wx d) (vi_wy d) el eu \/
      me_dir ml = V /\ me_dir mu = H /\ v = mkVia (w_clg wu) (w_clg wl) (vi_wx d) (vi_wy d) eu el)).
Lemma create_built P C done e C' : built P C done -> NoDup (map fst (done ++ [e])) -> create P C e = Some C' -> built P C' (done ++ [e]).
Proof.
  intros (B1 & B2 & B3) Hnd E. destruct e as (n, [m|d|]); cbn [create fst snd] in E.
  - unfold create_metal in E. destruct (match me_color m with [] => Some (cv_post C) | _ :: _ => _ end) as [post|]; [|discriminate].
    destruct (match me_width m with One _ => _ | Many _ => _ end) as [post'|]; [|discriminate]. destruct (make_wire P n m) as [w|] eqn:W; [|discriminate]. injection E as <-. cbn.
    split; [|split]; cbn [cv_wires cv_vias].
    + cbn. constructor; [|exact B1]. intros H. apply in_map_iff in H as ((n', w') & E & H). cbn in E. subst n'. destruct (B2 _ _ H) as (m' & Hm & _).
      rewrite map_app in Hnd. cbn in Hnd. apply NoDup_remove_2 in Hnd. rewrite app_nil_r in Hnd. apply Hnd. now apply (in_map fst) in Hm.
    + intros n' w' [[= <- <-]|H]; [exists m; split; [apply in_or_app; right; now left|exact W]|]. destruct (B2 _ _ H) as (m' & Hm & Hw). exists m'. split; [apply in_or_app; now left|exact Hw].
    + intros n' v' H. destruct (B3 _ _ H) as (d & l & u & ml & mu & wl & wu & el & eu & H1 & H2 & H3 & H4 & H5 & H6 & H7 & H8).
      exists d, l, u, ml, mu, wl, wu, el, eu. split; [apply in_or_app; now left|]. do 4 (split; [assumption|]). split; [now right|]. split; [now right|]. exact H8.
  - assert (W2 : forall n' w', In (n', w') (cv_wires C) -> exists m, In (n', LMetal m) (done ++ [(n, LVia d)]) /\ make_wire P n' m = Some w').
    { intros n' w' H. destruct (B2 _ _ H) as (m' & Hm & Hw). exists m'. split; [apply in_or_app; now left|exact Hw]. }
    assert (V2 : forall n' v, In (n', v) (cv_vias C) -> exists d0 l u ml mu wl wu el eu, In (n', LVia d0) (done ++ [(n, LVia d)]) /\ vi_lower d0 = Some l /\ vi_upper d0 = Some u /\ metal_at P l = Some ml /\ metal_at P u = Some mu /\
     In (l, wl) (cv_wires C) /\ In (u, wu) (cv_wires C) /\ via_ext P l d0 = Some el /\ via_ext P u d0 = Some eu /\
     (me_dir ml = H /\ me_dir mu = V /\ v = mkVia (w_clg wl) (w_clg wu) (vi_wx d0) (vi_wy d0) el eu \/
      me_dir ml = V /\ me_dir mu = H /\ v = mkVia (w_clg wu) (w_clg wl) (vi_wx d0) (vi_wy d0) eu el)).
    { intros n' v' H. destruct (B3 _ _ H) as (d0 & l & u & ml & mu & wl & wu & el & eu & H1 & H2). exists d0, l, u, ml, mu, wl, wu, el, eu. split; [apply in_or_app; now left|exact H2]. }
    unfold create_via in E. destruct (vi_lower d) as [l|] eqn:El; [|injection E as <-; split; [exact B1|split; assumption]].
    destruct (vi_upper d) as [u|] eqn:Eu; [|injection E as <-; split; [exact B1|split; assumption]].
    destruct (metal_at P l) as [ml|] eqn:Ml; [|discriminate]. destruct (metal_at P u) as [mu|] eqn:Mu; [|discriminate].
    destruct (wire_at C l) as [wl|] eqn:Wl; [|discriminate]. destruct (wire_at C u) as [wu|] eqn:Wu; [|discriminate].
    destruct (via_ext P l d) as [el|] eqn:XL; [|discriminate]. destruct (via_ext P u d) as [eu|] eqn:XU; [|discriminate].
    apply (dget_in _ String.eqb_eq) in Wl. apply (dget_in _ String.eqb_eq) in Wu.
    destruct (me_dir ml) eqn:Dl, (me_dir mu) eqn:Du; try discriminate; injection E as <-; (split; [exact B1|split; [exact W2|]]); cbn [cv_vias cv_wires];
      (intros n' v' [[= <- <-]|H]; [|exact (V2 _ _ H)]); exists d, l, u, ml, mu, wl, wu, el, eu; (split; [apply in_or_app; right; now left|]); repeat (split; [assumption|]); [left|right]; auto.
  - injection E as <-. split; [exact B1|]. split.
    + intros n' w' H. destruct (B2 _ _ H) as (m' & Hm & Hw). exists m'. split; [apply in_or_app; now left|exact Hw].
    + intros n' v' H. destruct (B3 _ _ H) as (d0 & l & u & ml & mu & wl & wu & el & eu & H1 & H2). exists d0, l, u, ml, mu, wl, wu, el, eu. split; [apply in_or_app; now left|exact H2].
Qed.
Lemma nodup_left {A} (a b : list A) : NoDup (a ++ b) -> NoDup a.
Proof. induction a as [|x a IH]; cbn; intros H; [constructor|]. inversion H; subst. constructor; [intros Hx; apply H2, in_or_app; now left|auto]. Qed.
Lemma build_built P C : NoDup (map fst P) -> build P = Some C -> built P C P.
Proof.
  intros Hnd. unfold build. assert (G : forall todo done C0 C, NoDup (map fst (done ++ todo)) -> built P C0 done ->
    fold_left (fun o e => match o with Some C => create P C e | None => None end) todo (Some C0) = Some C -> built P C (done ++ todo)).
  { induction todo as [|e todo IH]; intros done C0 C1 Hn B E; cbn [fold_left] in E; [injection E as <-; now rewrite app_nil_r|].
    destruct (create P C0 e) as [C2|] eqn:E2; [|rewrite foldopt_none in E; discriminate]. replace (done ++ e :: todo) with ((done ++ [e]) ++ todo) in * by (rewrite <- app_assoc; reflexivity).
    apply (IH _ C2); [exact Hn| |exact E]. apply (create_built P C0 done e C2 B); [|exact E2]. rewrite map_app in Hn. now apply nodup_left in Hn. }
  intros E. apply (G P [] (mkCanvas [] [] []) C Hnd); [|exact E]. split; [constructor|split; intros ? ? []].
Qed.

(** * Wires and vias *)
Lemma make_wire_inv P n m w : make_wire P n m = Some w -> exists a v sp ss so p wd o g,
  aligned_to P (until_us n) = Some (a, v) /\ pitch_of P a = Some sp /\ via_ext P (until_us n) v = Some ss /\ offset_of P a = Some so /\
  pitch_of P (until_us n) = Some p /\ width_of P (until_us n) = Some wd /\ offset_of P (until_us n) = Some o /\ w = mkWire (me_dir m) g (EnclosureGrid sp so ss) /\ wd mod 2 = 0 /\
  (forall k, exists c, value g (Flat k) true = Some (o + k * p, Some (wd, c))) /\ match me_color m with [] => uncolored p wd o | cs => colored cs p wd o end = Some g.
Proof.
  unfold make_wire. destruct (aligned_to P (until_us n)) as [(a, v)|]; [|discriminate].
  destruct (pitch_of P a) as [sp|] eqn:E1; [|discriminate]. destruct (via_ext P (until_us n) v) as [ss|] eqn:E2; [|discriminate]. destruct (offset_of P a) as [so|] eqn:E3; [|discriminate].
  destruct (pitch_of P (until_us n)) as [p|]; [|discriminate]. destruct (width_of P (until_us n)) as [wd|]; [|discriminate]. destruct (offset_of P (until_us n)) as [o|]; [|discriminate].
  destruct (match me_color m with [] => uncolored p wd o | cs => colored cs p wd o end) as [g|] eqn:G; [|discriminate]. intros [= <-].
  exists a, v, sp, ss, so, p, wd, o, g. do 7 (split; [first [reflexivity|assumption]|]). split; [reflexivity|]. destruct (me_color m) as [|c0 cs] eqn:Ec.
  - split; [unfold uncolored, even in G; destruct (Z.eqb_spec (wd mod 2) 0); [assumption|discriminate]|]. split; [|exact G]. intros k. exists None. exact (value_uncolored p wd o g k G).
  - split; [unfold colored, even in G; destruct (Z.eqb_spec (wd mod 2) 0); [assumption|rewrite andb_false_r in G; discriminate]|]. split; [|exact G]. intros k. eexists. exact (value_colored _ p wd o g k G).
Qed.
(** The rectangles that can be drawn. *)
Lemma wire_rects d g sp so ss o p wd : (forall k, exists c, value g (Flat k) true = Some (o + k * p, Some (wd, c))) ->
  forall r, (exists c b e, wire_segment (mkWire d g (EnclosureGrid sp so ss)) c b e = Some r) <->
            exists k x y, stop_point so sp ss x /\ stop_point so sp ss y /\ r = wire_rect d (track o p k) wd x y.
Proof.
  intros Hg r. unfold wire_segment. cbn [w_clg w_spg w_dir]. split.
  - intros (c & b & e & E). rewrite (flat_of g c) in E. destruct (Hg (idx_flat g c)) as (co & Hv). rewrite Hv in E.
    destruct (value (EnclosureGrid sp so ss) b true) as [(x, ax)|] eqn:Ex; [|discriminate]. destruct (value (EnclosureGrid sp so ss) e true) as [(y, ay)|] eqn:Ey; [|discriminate].
    apply value_stop in Ex. apply value_stop in Ey. exists (idx_flat g c), x, y. split; [exact Ex|]. split; [exact Ey|]. injection E as <-. unfold wire_rect, track. reflexivity.
  - intros (k & x & y & Hx & Hy & ->). apply stop_value in Hx as (b & Hb). apply stop_value in Hy as (e & He). destruct (Hg k) as (co & Hv).
    exists (Flat k), b, e. rewrite Hv, Hb, He. unfold wire_rect, track. reflexivity.
Qed.
(** A wire that reaches the middle of a track covers the stop points around it. *)
Lemma stop_covers so sp ss t x : 0 < ss -> 2 * ss <= sp -> stop_point so sp ss x ->
  (x <= track so sp t -> x <= track so sp t - ss) /\ (track so sp t <= x -> track so sp t + ss <= x).
Proof.
  intros Hs H2 (q & Hq). unfold track in *. destruct (Z.lt_trichotomy q t) as [Hl|[->|Hl]].
  - assert (q * sp <= t * sp - sp) by nia. destruct Hq as [-> | ->]; split; intros; lia.
  - destruct Hq as [-> | ->]; split; intros; lia.
  - assert (t * sp + sp <= q * sp) by nia. destruct Hq as [-> | ->]; split; intros; lia.
Qed.
