(** C15: the enclosure check of align/cell_fabric/drc.py.  C16: its adjacent-via limit. *)
From Coq Require Import String Ascii.
From Verif Require Import Base.Prelude Base.PyDict Model.Transformation Model.PySort Model.Grid Model.RemoveDuplicates
  Model.Drc Spec.RemoveDuplicatesSpec Spec.GridSpec Spec.DrcSpec Proofs.PySortP Proofs.GridP Proofs.DrcP Proofs.DrcRunP Props.C06_C08 Props.C14.
From Coq Require Import ZifyBool.
Local Open Scope Z_scope.

(** The metal [ly] is one of the two of the via rule, with enclosure [enc]. *)
Definition via_metal (p : rules) (ly : string) (enc : Z) : Prop :=
  (fst (p_stack p) = Some ly /\ enc = p_vencl p) \/ (snd (p_stack p) = Some ly /\ enc = p_vench p).

(** The run direction of a metal. *)
Definition metal_dir (q : rules) : sdir := if p_vertical q then DV else DH.

(** A via is reported for a metal iff no wire of the metal's track through the via's centre
    encloses it. *)
Theorem C15_enclosure_exact :
  forall env sto errs via p vv, drc_run env sto = Some errs -> via_lines env sto via p vv -> fst (p_stack p) <> snd (p_stack p) ->
  forall c sl r ly q enc ls wires, In (c, sl) vv -> In r sl ->
  via_metal p ly enc -> dget String.eqb (en_pdk env) ly = Some q -> 0 <= enc ->
  let d := metal_dir q in
  start_of d r <= end_of d r ->
  dget String.eqb sto ly = Some ls ->
  dget Z.eqb ls (match d with DH => lly r + ury r | _ => llx r + urx r end) = Some wires ->
  ordered d wires ->
  ((exists f, In (EEnclosure via ly r f) errs) <->
   ~ exists m, In m wires /\ start_of d m <= start_of d r - enc /\ end_of d r + enc <= end_of d m).
Proof.
  intros env sto errs via p vv H (H1 & H2 & H3 & H4 & H5) Hst c sl r ly q enc ls wires Hl Hr Hm Hq Henc d Hv E1 E2 Hord.
  destruct (run_via env sto errs via vv p H H1 H2 H3 H4 H5) as (ea & eb & Ea & Eb & Hin).
  assert (Hup : exists up, fst (enc_for p up) = Some ly /\ snd (enc_for p up) = enc).
  { destruct Hm as [[A ->]|[A ->]]; [exists false|exists true]; auto. }
  destruct Hup as (up & U1 & U2).
  destruct (check_single_exact sto via r ly (p_vertical q) enc ls wires) as (es & Es & Hes & Hsh); auto.
  { rewrite <- E2. unfold d, metal_dir. destruct (p_vertical q); reflexivity. }
  { rewrite alo_start, ahi_end. exact Hv. }
  apply enclosure_in in Eb. destruct Eb as [Eb _]. apply via_rules_in in Ea. destruct Ea as (e3 & e4 & Ein & E3 & E4).
  rewrite !alo_start, !ahi_end in Hes. fold (metal_dir q) in Hes. fold d in Hes.
  transitivity (es <> []).
  - split.
    + intros (f & He). rewrite Hin in He by reflexivity. destruct He as [He|He].
      * apply Ein in He. exfalso. destruct He as [(s & _ & He)|[(s & _ & He)|[He|He]]].
        -- apply space_y_in in He. destruct He as (?&?&?&?&E&_). discriminate.
        -- apply space_x_in in He. destruct He as (?&?&?&?&E&_). discriminate.
        -- destruct (p_maxy p); [|subst; destruct He]. destruct E3 as (h & v & _ & E3).
           apply (adj_y_in _ _ _ _ _ E3) in He. destruct He as (?&?&?&?&E&_). discriminate.
        -- destruct (p_maxx p); [|subst; destruct He]. destruct E4 as (h & v & _ & E4).
           apply (adj_x_in _ _ _ _ _ E4) in He. destruct He as (?&?&?&?&(?&E&_)&_). discriminate.
      * apply Eb in He. destruct He as (c' & sl' & r' & up' & ly' & q' & a & Hl' & Hr' & U1' & Eq' & Ea' & He).
        destruct (single_layer _ _ _ _ _ _ _ _ Ea' He) as (f' & E). injection E as <- <- <-.
        assert (up' = up).
        { unfold enc_for in *. destruct up, up'; simpl in *; congruence. }
        subst up'. rewrite Hq in Eq'. injection Eq' as <-. rewrite U2, Es in Ea'. injection Ea' as <-.
        intros ->. destruct He.
    + intros Hne. destruct es as [|e es]; [congruence|]. destruct (Hsh e (or_introl eq_refl)) as (f & ->).
      exists f. rewrite Hin by reflexivity. right. apply Eb. exists c, sl, r, up, ly, q, (EEnclosure via ly r f :: es).
      repeat split; auto; [|now left]. rewrite U2. exact Es.
  - rewrite Hes. unfold d, metal_dir. destruct (p_vertical q); reflexivity.
Qed.
Print Assumptions C15_enclosure_exact.

Definition v_rules := mkRules None None None None (Some "M1"%string, None) 5 5 false 0 0 None 10.

(** A via enclosed by the second of three wires, and one at the end of it. *)
Example C15_nonvacuous :
  let env := mkEnv [("M1"%string, ex_rules 1 1 false); ("V1"%string, v_rules)] [("M1"%string, DH); ("V1"%string, DStar)] [] [] in
  let wires := [mkRect 0 (-2) 15 2; mkRect 30 (-2) 60 2; mkRect 65 (-2) 90 2] in
  let sto := [("M1"%string, [(0, wires)]); ("V1"%string, [(80, [mkRect 38 (-2) 42 2]); (116, [mkRect 56 (-2) 60 2])])] in
  via_lines env sto "V1" v_rules [(80, [mkRect 38 (-2) 42 2]); (116, [mkRect 56 (-2) 60 2])] /\
  ordered DH wires /\ via_metal v_rules "M1" 5 /\
  drc_run env sto = Some [EEnclosure "V1" "M1" (mkRect 56 (-2) 60 2) (Some (mkRect 30 (-2) 60 2))].
Proof.
  split; [|split; [|split]].
  - repeat split; simpl; auto; try (exists "1"%string; auto); try discriminate. repeat constructor; simpl; intuition congruence.
  - split; [repeat constructor; simpl; lia|]. intros r Hr. simpl in Hr. destruct Hr as [<-|[<-|[<-|[]]]]; simpl; lia.
  - left. auto.
  - reflexivity.
Qed.

(** When wires of a scan line overlap, the search can miss the enclosing wire: [0, 100] encloses
    the via at 50, yet an error is reported. *)
Theorem C15_overlapping_refuted : exists env sto errs via p vv r ly wires,
  drc_run env sto = Some errs /\ via_lines env sto via p vv /\ via_metal p ly 5 /\
  (exists c sl, In (c, sl) vv /\ In r sl) /\ dget String.eqb sto ly = Some [(0, wires)] /\
  StronglySorted (fun a b => start_of DH a <= start_of DH b) wires /\
  (exists m, In m wires /\ llx m <= llx r - 5 /\ urx r + 5 <= urx m) /\
  (exists f, In (EEnclosure via ly r f) errs).
Proof.
  set (wires := [mkRect 0 (-2) 100 2; mkRect 5 (-2) 6 2]).
  set (vv := [(100, [mkRect 48 (-2) 52 2])]).
  set (env := mkEnv [("M1"%string, ex_rules 1 1 false); ("V1"%string, v_rules)] [("M1"%string, DH); ("V1"%string, DStar)] [] []).
  exists env, [("M1"%string, [(0, wires)]); ("V1"%string, vv)], [EEnclosure "V1" "M1" (mkRect 48 (-2) 52 2) None],
    "V1"%string, v_rules, vv, (mkRect 48 (-2) 52 2), "M1"%string, wires.
  split; [reflexivity|]. split; [|split; [|split; [|split; [|split; [|split]]]]].
  - repeat split; simpl; auto; try (exists "1"%string; auto); try discriminate. repeat constructor; simpl; intuition congruence.
  - left. auto.
  - exists 100, [mkRect 48 (-2) 52 2]. simpl. auto.
  - reflexivity.
  - repeat constructor; simpl; lia.
  - exists (mkRect 0 (-2) 100 2). simpl. repeat split; auto; lia.
  - exists None. now left.
Qed.
Print Assumptions C15_overlapping_refuted.

(** A via over a track with no metal at all is not reported: the lookup of the track raises. *)
Theorem C15_bare_via_refuted : exists env sto via p vv r ly,
  via_lines env sto via p vv /\ via_metal p ly 5 /\ (exists c sl, In (c, sl) vv /\ In r sl) /\
  (forall ls c wires m, In (ly, ls) sto -> In (c, wires) ls -> In m wires -> ury m < lly r) /\
  drc_run env sto = None.
Proof.
  set (vv := [(100, [mkRect 48 8 52 12])]).
  set (env := mkEnv [("M1"%string, ex_rules 1 1 false); ("V1"%string, v_rules)] [("M1"%string, DH); ("V1"%string, DStar)] [] []).
  exists env, [("M1"%string, [(0, [mkRect 0 (-2) 100 2])]); ("V1"%string, vv)], "V1"%string, v_rules, vv, (mkRect 48 8 52 12), "M1"%string.
  split; [|split; [|split; [|split]]].
  - repeat split; simpl; auto; try (exists "1"%string; auto); try discriminate. repeat constructor; simpl; intuition congruence.
  - left. auto.
  - exists 100, [mkRect 48 8 52 12]. simpl. auto.
  - intros ls c wires m [E|[E|[]]] Hc Hm; [|discriminate]. injection E as <-. destruct Hc as [E|[]]. injection E as <- <-.
    destruct Hm as [<-|[]]. simpl. lia.
  - reflexivity.
Qed.
Print Assumptions C15_bare_via_refuted.

(** ** C16 *)

(** The grid positions of a list of vias ([inverseBounds] of the centre, first component). *)
Definition positions (g : Grid) (centre2 : Rect -> Z) (l : list Rect) (ks : list Z) : Prop :=
  Forall2 (fun r k => exists f hi, inverseBounds g (centre2 r / 2) = Some ((k, f), hi)) l ks.

Lemma positions_grid_q g c2 l ks : positions g c2 l ks <-> Forall2 (fun r k => grid_q g (c2 r / 2) = Some k) l ks.
Proof.
  unfold positions, grid_q. split; induction 1 as [|r k l ks H _ IH]; constructor; auto.
  - destruct H as (f & hi & ->). reflexivity.
  - destruct (inverseBounds g (c2 r / 2)) as [[[q f] hi]|]; [|discriminate]. injection H as <-. eauto.
Qed.

(** On a grid with one line per period the position of a track is its number. *)
Theorem C16_track_number : forall pitch width offset k, 2 <= pitch ->
  exists f hi, inverseBounds (UncoloredCenterLineGrid pitch width offset 1) (offset + k * pitch) = Some ((k, f), hi).
Proof.
  intros pitch width offset k Hp. destruct (C07_library_grids pitch width offset 1 Hp ltac:(lia)) as ((A & B & _) & _).
  set (g := UncoloredCenterLineGrid pitch width offset 1) in *.
  destruct (C07_roundtrip g _ k A B) as (c & a & E1 & E2).
  assert (En : n_lines g = 1) by reflexivity.
  rewrite En, Z.div_1_r in E2. unfold value in E1. rewrite En in E1. simpl in E1.
  assert (Hc : c = offset + k * pitch).
  { unfold g in E1. cbn -[Z.mul Z.add Z.div Z.modulo] in E1.
    replace (k mod 1) with 0 in E1 by (rewrite Z.mod_1_r; reflexivity). rewrite Z.div_1_r in E1. cbn -[Z.mul Z.add] in E1. injection E1 as E1 _. rewrite <- E1. destruct pitch; lia. }
  rewrite Hc in E2. eauto.
Qed.
Print Assumptions C16_track_number.

Section Columns.
  Variables (env : drcenv) (sto : scan_store) (errs : list drc_err) (layer : string) (p : rules) (vv : list (Z * list Rect))
            (max : Z) (h v : Grid).
  Hypothesis Hrun : drc_run env sto = Some errs.
  Hypothesis Hvia : via_lines env sto layer p vv.
  Hypothesis Hclg : dget String.eqb (en_clg env) layer = Some (h, v).

  Let cy2 r := lly r + ury r.
  Let cx2 r := llx r + urx r.

  Lemma vadj_in (Hmax : p_maxy p = Some max) r : In (EVAdjacent layer r) errs <->
    exists c sl qs, In (c, sl) vv /\
      Forall2 (fun r q => grid_q h (cy2 r / 2) = Some (fst q) /\ snd q = r) sl qs /\ In r (count_loop max None qs).
  Proof.
    destruct Hvia as (H1 & H2 & H3 & H4 & H5).
    destruct (run_via env sto errs layer vv p Hrun H1 H2 H3 H4 H5) as (ea & eb & Ea & Eb & Hin).
    rewrite Hin by reflexivity. apply via_rules_in in Ea. destruct Ea as (e3 & e4 & Ein & E3 & E4).
    apply enclosure_in in Eb. destruct Eb as [Eb _]. rewrite Ein. rewrite Hmax in E3. destruct E3 as (h' & v' & Eg & E3).
    rewrite Hclg in Eg. injection Eg as <- <-. split.
    - intros [[(s0 & _ & He)|[(s0 & _ & He)|[He|He]]]|He].
      + apply space_y_in in He. destruct He as (?&?&?&?&E&_). discriminate.
      + apply space_x_in in He. destruct He as (?&?&?&?&E&_). discriminate.
      + apply (adj_y_in _ _ _ _ _ E3) in He. destruct He as (c & sl & qs & r' & E & Hl & Hq & Hr). injection E as <-.
        exists c, sl, qs. auto.
      + destruct (p_maxx p); [|subst; destruct He]. destruct E4 as (h0 & v0 & _ & E4).
        apply (adj_x_in _ _ _ _ _ E4) in He. destruct He as (?&?&?&?&(?&E&_)&_). discriminate.
      + apply Eb in He. destruct He as (?&?&?&?&?&?&?&_&_&_&_&Es&Hi).
        destruct (single_layer _ _ _ _ _ _ _ _ Es Hi) as (f & E). discriminate.
    - intros (c & sl & qs & Hl & Hq & Hr). left. right. right. left. apply (adj_y_in _ _ _ _ _ E3). eauto 10.
  Qed.

  Lemma hadj_in (Hmax : p_maxx p = Some max) : (exists r, In (EHAdjacent layer r) errs) <->
    exists c sl qs r, In (c, sl) (rows vv) /\
      Forall2 (fun r q => grid_q v (cx2 r / 2) = Some (fst q) /\ snd q = r) sl qs /\ In r (count_loop max None qs).
  Proof.
    destruct Hvia as (H1 & H2 & H3 & H4 & H5).
    destruct (run_via env sto errs layer vv p Hrun H1 H2 H3 H4 H5) as (ea & eb & Ea & Eb & Hin).
    apply via_rules_in in Ea. destruct Ea as (e3 & e4 & Ein & E3 & E4).
    apply enclosure_in in Eb. destruct Eb as [Eb _]. rewrite Hmax in E4. destruct E4 as (h' & v' & Eg & E4).
    rewrite Hclg in Eg. injection Eg as <- <-. split.
    - intros (r0 & He). rewrite Hin in He by reflexivity. rewrite Ein in He.
      destruct He as [[(s0 & _ & He)|[(s0 & _ & He)|[He|He]]]|He].
      + apply space_y_in in He. destruct He as (?&?&?&?&E&_). discriminate.
      + apply space_x_in in He. destruct He as (?&?&?&?&E&_). discriminate.
      + destruct (p_maxy p); [|subst; destruct He]. destruct E3 as (h0 & v0 & _ & E3).
        apply (adj_y_in _ _ _ _ _ E3) in He. destruct He as (?&?&?&?&E&_). discriminate.
      + apply (adj_x_in _ _ _ _ _ E4) in He. destruct He as (c & sl & qs & r' & _ & Hl & Hq & Hr).
        exists c, sl, qs, r'. auto.
      + apply Eb in He. destruct He as (?&?&?&?&?&?&?&_&_&_&_&Es&Hi).
        destruct (single_layer _ _ _ _ _ _ _ _ Es Hi) as (f & E). discriminate.
    - intros (c & sl & qs & r & Hl & Hq & Hr). eexists. rewrite Hin by reflexivity. rewrite Ein.
      left. right. right. right. apply (adj_x_in _ _ _ _ _ E4). exists c, sl, qs, r. split; [eauto|]. auto.
  Qed.
End Columns.

Lemma F2_app_l {A B} (R : A -> B -> Prop) l1 l2 m : Forall2 R (l1 ++ l2) m ->
  exists m1 m2, m = m1 ++ m2 /\ Forall2 R l1 m1 /\ Forall2 R l2 m2.
Proof. intros H. apply Forall2_app_inv_l in H. destruct H as (m1 & m2 & A1 & A2 & ->). eauto. Qed.

Lemma F2_length {A B} (R : A -> B -> Prop) l m : Forall2 R l m -> List.length l = List.length m.
Proof. induction 1; simpl; auto. Qed.

(** Matching positions of a segment. *)
Lemma seg_positions g c2 seg ks qs :
  positions g c2 seg ks -> Forall2 (fun r (q : Z * Rect) => grid_q g (c2 r / 2) = Some (fst q) /\ snd q = r) seg qs -> map fst qs = ks.
Proof.
  intros H1 H2. apply positions_grid_q in H1. revert qs H2. induction H1 as [|r k l ks E _ IH]; intros qs H2.
  - inversion H2. reflexivity.
  - inversion H2 as [|r' q l' qs' [Eq _] H2' E1 E2]. subst. simpl. rewrite (IH qs' H2'). congruence.
Qed.

Lemma positions_of g c2 seg (qs : list (Z * Rect)) :
  Forall2 (fun r (q : Z * Rect) => grid_q g (c2 r / 2) = Some (fst q) /\ snd q = r) seg qs -> positions g c2 seg (map fst qs) /\ map snd qs = seg.
Proof.
  intros H. split.
  - apply positions_grid_q. induction H as [|r q l qs [E _] _ IH]; simpl; constructor; auto.
  - induction H as [|r q l qs [_ E] _ IH]; simpl; congruence.
Qed.

(** What is proved of one scanned list of vias. *)
Lemma scan_first g c2 max seg rest ks qs :
  positions g c2 seg ks -> consecutive ks -> max < Z.of_nat (List.length seg) -> seg <> [] ->
  Forall2 (fun r (q : Z * Rect) => grid_q g (c2 r / 2) = Some (fst q) /\ snd q = r) (seg ++ rest) qs ->
  exists r, In r (count_loop max None qs).
Proof.
  intros Hp Hc Hl Hne Hq. apply F2_app_l in Hq. destruct Hq as (q1 & q2 & -> & A1 & A2).
  pose proof (seg_positions _ _ _ _ _ Hp A1) as E.
  assert (H : count_loop max None (q1 ++ q2) <> []).
  { apply count_loop_first; [rewrite E; exact Hc|rewrite <- (F2_length _ _ _ A1); exact Hl|].
    intros ->. inversion A1. congruence. }
  destruct (count_loop max None (q1 ++ q2)) as [|r l]; [congruence|]. exists r. now left.
Qed.

Lemma scan_later g c2 max pre seg rest ks qs :
  positions g c2 seg ks -> consecutive ks -> max + 1 < Z.of_nat (List.length seg) -> seg <> [] ->
  Forall2 (fun r (q : Z * Rect) => grid_q g (c2 r / 2) = Some (fst q) /\ snd q = r) (pre ++ seg ++ rest) qs ->
  exists r, In r (count_loop max None qs).
Proof.
  intros Hp Hc Hl Hne Hq. apply F2_app_l in Hq. destruct Hq as (q0 & q' & -> & A0 & Hq).
  apply F2_app_l in Hq. destruct Hq as (q1 & q2 & -> & A1 & A2).
  pose proof (seg_positions _ _ _ _ _ Hp A1) as E.
  assert (H : count_loop max None (q0 ++ q1 ++ q2) <> []).
  { apply count_loop_later; [rewrite E; exact Hc|rewrite <- (F2_length _ _ _ A1); exact Hl|].
    intros ->. inversion A1. congruence. }
  destruct (count_loop max None (q0 ++ q1 ++ q2)) as [|r l]; [congruence|]. exists r. now left.
Qed.

Lemma scan_genuine g c2 max sl qs r :
  Forall2 (fun r (q : Z * Rect) => grid_q g (c2 r / 2) = Some (fst q) /\ snd q = r) sl qs ->
  In r (count_loop max None qs) ->
  exists pre seg rest ks, sl = pre ++ seg ++ r :: rest /\ positions g c2 (seg ++ [r]) ks /\ consecutive ks /\
    max < Z.of_nat (List.length (seg ++ [r])).
Proof.
  intros Hq Hr. destruct (count_loop_genuine max qs [] None r eq_refl Hr) as (l0 & seg & q & l1 & E & Hc & Hl).
  simpl in E. subst qs.
  destruct (positions_of _ _ _ _ Hq) as [_ Es]. rewrite !map_app in Es. simpl in Es.
  exists (map snd l0), (map snd seg), (map snd l1), (map fst (seg ++ [(q, r)])). split; [congruence|]. split; [|split].
  - apply Forall2_app_inv_r in Hq. destruct Hq as (a1 & a2 & A1 & A2 & E1).
    apply Forall2_app_inv_r in A2. destruct A2 as (b1 & b2 & B1 & B2 & E2).
    destruct b2 as [|x b2]; [inversion B2|]. assert (P : grid_q g (c2 x / 2) = Some q /\ r = x) by (inversion B2; assumption).
    destruct P as [P1 P2]. subst x.
    destruct (positions_of _ _ _ _ B1) as [_ B3]. rewrite B3.
    apply (positions_of g c2 (b1 ++ [r]) (seg ++ [(q, r)])). apply Forall2_app; [exact B1|]. constructor; [auto|constructor].
  - exact Hc.
  - rewrite app_length, map_length. rewrite app_length in Hl. exact Hl.
Qed.

(** C16, vertical: a run that starts a column is reported as soon as it exceeds the limit. *)
Theorem C16_first_run_column :
  forall env sto errs layer p vv max h v, drc_run env sto = Some errs -> via_lines env sto layer p vv ->
  dget String.eqb (en_clg env) layer = Some (h, v) -> p_maxy p = Some max -> 0 <= max ->
  forall c seg rest ks, In (c, seg ++ rest) vv ->
  positions h (fun r => lly r + ury r) seg ks -> consecutive ks -> max < Z.of_nat (List.length seg) ->
  exists r, In (EVAdjacent layer r) errs.
Proof.
  intros env sto errs layer p vv max h v Hrun Hvia Hclg Hmax H0 c seg rest ks Hin Hp Hc Hl.
  assert (Hq : exists qs, Forall2 (fun r (q : Z * Rect) => grid_q h ((lly r + ury r) / 2) = Some (fst q) /\ snd q = r) (seg ++ rest) qs).
  { pose proof Hvia as (H1 & H2 & H3 & H4 & H5).
    destruct (run_via env sto errs layer vv p Hrun H1 H2 H3 H4 H5) as (ea & eb & Ea & _ & _).
    apply via_rules_in in Ea. destruct Ea as (e3 & e4 & _ & E3 & _). rewrite Hmax in E3. destruct E3 as (h' & v' & Eg & E3).
    rewrite Hclg in Eg. injection Eg as <- <-. apply flat_mapM_in in E3. destruct E3 as [_ E3]. specialize (E3 _ Hin). cbn [snd] in E3.
    destruct (mapM _ (seg ++ rest)) as [qs|] eqn:Eq; [|congruence]. exists qs. apply mapM_map in Eq. revert Eq.
    generalize (seg ++ rest) qs. clear. induction 1 as [|a b sl qs E _ IH]; constructor; auto.
    destruct (grid_q h ((lly a + ury a) / 2)); [|discriminate]. injection E as <-. auto. }
  destruct Hq as (qs & Hq).
  destruct (scan_first h (fun r => lly r + ury r) max seg rest ks qs Hp Hc Hl ltac:(destruct seg; simpl in Hl; [lia|discriminate]) Hq) as (r & Hr).
  exists r. apply (vadj_in env sto errs layer p vv max h v Hrun Hvia Hclg Hmax). exists c, (seg ++ rest), qs. auto.
Qed.
Print Assumptions C16_first_run_column.

(** Any run exceeding the limit by two or more is reported. *)
Theorem C16_later_run_column :
  forall env sto errs layer p vv max h v, drc_run env sto = Some errs -> via_lines env sto layer p vv ->
  dget String.eqb (en_clg env) layer = Some (h, v) -> p_maxy p = Some max -> 0 <= max ->
  forall c pre seg rest ks, In (c, pre ++ seg ++ rest) vv ->
  positions h (fun r => lly r + ury r) seg ks -> consecutive ks -> max + 1 < Z.of_nat (List.length seg) ->
  exists r, In (EVAdjacent layer r) errs.
Proof.
  intros env sto errs layer p vv max h v Hrun Hvia Hclg Hmax H0 c pre seg rest ks Hin Hp Hc Hl.
  assert (Hq : exists qs, Forall2 (fun r (q : Z * Rect) => grid_q h ((lly r + ury r) / 2) = Some (fst q) /\ snd q = r) (pre ++ seg ++ rest) qs).
  { pose proof Hvia as (H1 & H2 & H3 & H4 & H5).
    destruct (run_via env sto errs layer vv p Hrun H1 H2 H3 H4 H5) as (ea & eb & Ea & _ & _).
    apply via_rules_in in Ea. destruct Ea as (e3 & e4 & _ & E3 & _). rewrite Hmax in E3. destruct E3 as (h' & v' & Eg & E3).
    rewrite Hclg in Eg. injection Eg as <- <-. apply flat_mapM_in in E3. destruct E3 as [_ E3]. specialize (E3 _ Hin). cbn [snd] in E3.
    destruct (mapM _ (pre ++ seg ++ rest)) as [qs|] eqn:Eq; [|congruence]. exists qs. apply mapM_map in Eq. revert Eq.
    generalize (pre ++ seg ++ rest) qs. clear. induction 1 as [|a b sl qs E _ IH]; constructor; auto.
    destruct (grid_q h ((lly a + ury a) / 2)); [|discriminate]. injection E as <-. auto. }
  destruct Hq as (qs & Hq).
  destruct (scan_later h (fun r => lly r + ury r) max pre seg rest ks qs Hp Hc Hl ltac:(destruct seg; simpl in Hl; [lia|discriminate]) Hq) as (r & Hr).
  exists r. apply (vadj_in env sto errs layer p vv max h v Hrun Hvia Hclg Hmax). exists c, (pre ++ seg ++ rest), qs. auto.
Qed.
Print Assumptions C16_later_run_column.

(** Every report ends a run that exceeds the limit. *)
Theorem C16_genuine_column :
  forall env sto errs layer p vv max h v, drc_run env sto = Some errs -> via_lines env sto layer p vv ->
  dget String.eqb (en_clg env) layer = Some (h, v) -> p_maxy p = Some max ->
  forall r, In (EVAdjacent layer r) errs ->
  exists c pre seg rest ks, In (c, pre ++ seg ++ r :: rest) vv /\
    positions h (fun r => lly r + ury r) (seg ++ [r]) ks /\ consecutive ks /\ max < Z.of_nat (List.length (seg ++ [r])).
Proof.
  intros env sto errs layer p vv max h v Hrun Hvia Hclg Hmax r He.
  apply (vadj_in env sto errs layer p vv max h v Hrun Hvia Hclg Hmax) in He. destruct He as (c & sl & qs & Hl & Hq & Hr).
  destruct (scan_genuine h (fun r => lly r + ury r) max sl qs r Hq Hr) as (pre & seg & rest & ks & -> & A).
  exists c, pre, seg, rest, ks. auto.
Qed.
Print Assumptions C16_genuine_column.

(** A row of vias: those with one doubled vertical centre, from left to right. *)
Definition row_of (vv : list (Z * list Rect)) (c : Z) (sl : list Rect) : Prop :=
  StronglySorted (fun a b => llx a < llx b) sl /\
  (forall r, In r sl <-> (exists c' sl', In (c', sl') vv /\ In r sl') /\ lly r + ury r = c).

Lemma sorted_unique {A} (key : A -> Z) l m :
  StronglySorted (fun a b => key a < key b) l -> StronglySorted (fun a b => key a <= key b) m -> NoDup m ->
  (forall x, In x l <-> In x m) -> l = m.
Proof.
  revert m. induction l as [|a l IH]; intros m Hl Hm Hn He.
  - destruct m as [|b m]; [reflexivity|]. exfalso. apply (He b). now left.
  - destruct m as [|b m]; [exfalso; apply (He a); now left|].
    inversion Hl as [|? ? Hl' Fl]; subst. inversion Hm as [|? ? Hm' Fm]; subst. inversion Hn as [|? ? Nb Hn']; subst.
    rewrite Forall_forall in Fl, Fm.
    assert (a = b).
    { destruct (proj1 (He a) (or_introl eq_refl)) as [E|E]; [auto|].
      destruct (proj2 (He b) (or_introl eq_refl)) as [E'|E']; [auto|]. specialize (Fl b E'). specialize (Fm a E). lia. }
    subst b. f_equal. apply IH; auto. intros x. split; intros Hx.
    + destruct (proj1 (He x) (or_intror Hx)) as [->|]; [|assumption]. specialize (Fl x Hx). lia.
    + destruct (proj2 (He x) (or_intror Hx)) as [->|]; [contradiction|assumption].
Qed.

Lemma row_of_rows vv c sl : NoDup (concat (map snd vv)) -> sl <> [] -> row_of vv c sl -> In (c, sl) (rows vv).
Proof.
  intros Hnd Hne [HS HM]. destruct sl as [|r0 sl]; [congruence|].
  destruct (proj1 (HM r0) (or_introl eq_refl)) as ((c' & sl' & H1 & H2) & E0).
  destruct (rows_find _ _ _ _ H1 H2) as (s2 & Hs2 & Hr2). rewrite E0 in Hs2.
  replace (r0 :: sl) with s2; [exact Hs2|]. symmetry. apply (sorted_unique llx); auto.
  - apply (rows_sorted _ _ _ Hs2).
  - unfold rows in Hs2. apply in_map_iff in Hs2. destruct Hs2 as ((k, b) & E & Hb). cbn [fst snd] in E. injection E as <- <-.
    eapply Permutation_NoDup; [apply sort_by_perm|]. apply (group_by_in _ _ Z.eqb_eq) in Hb. destruct Hb as [-> _].
    apply NoDup_filter. exact Hnd.
  - intros x. rewrite HM. split.
    + intros ((c1 & s1 & A1 & A2) & Ec). destruct (rows_find _ _ _ _ A1 A2) as (s3 & Hs3 & Hx). rewrite Ec in Hs3.
      rewrite (rows_unique _ _ _ _ Hs2 Hs3). exact Hx.
    + intros Hx. destruct (rows_mem _ _ _ _ Hs2 Hx) as (Ec & c1 & s1 & A1 & A2). split; [eauto|exact Ec].
Qed.

Lemma row_positions env sto errs layer p vv max h v c sl :
  drc_run env sto = Some errs -> via_lines env sto layer p vv ->
  dget String.eqb (en_clg env) layer = Some (h, v) -> p_maxx p = Some max -> In (c, sl) (rows vv) ->
  exists qs, Forall2 (fun r (q : Z * Rect) => grid_q v ((llx r + urx r) / 2) = Some (fst q) /\ snd q = r) sl qs.
Proof.
  intros Hrun Hvia Hclg Hmax Hin.
  pose proof Hvia as (H1 & H2 & H3 & H4 & H5).
  destruct (run_via env sto errs layer vv p Hrun H1 H2 H3 H4 H5) as (ea & eb & Ea & _ & _).
  apply via_rules_in in Ea. destruct Ea as (e3 & e4 & _ & _ & E3). rewrite Hmax in E3. destruct E3 as (h' & v' & Eg & E3).
  rewrite Hclg in Eg. injection Eg as <- <-. apply flat_mapM_in in E3. destruct E3 as [_ E3]. specialize (E3 _ Hin). cbn [snd] in E3.
  destruct (mapM _ sl) as [qs|] eqn:Eq; [|congruence]. exists qs. apply mapM_map in Eq. revert Eq.
  generalize sl qs. clear. induction 1 as [|a b sl qs E _ IH]; constructor; auto.
  destruct (grid_q v ((llx a + urx a) / 2)); [|discriminate]. injection E as <-. auto.
Qed.

(** C16, horizontal. *)
Theorem C16_first_run_row :
  forall env sto errs layer p vv max h v, drc_run env sto = Some errs -> via_lines env sto layer p vv ->
  dget String.eqb (en_clg env) layer = Some (h, v) -> p_maxx p = Some max -> 0 <= max -> NoDup (concat (map snd vv)) ->
  forall c seg rest ks, row_of vv c (seg ++ rest) ->
  positions v (fun r => llx r + urx r) seg ks -> consecutive ks -> max < Z.of_nat (List.length seg) ->
  exists r, In (EHAdjacent layer r) errs.
Proof.
  intros env sto errs layer p vv max h v Hrun Hvia Hclg Hmax H0 Hnd c seg rest ks Hrow Hp Hc Hl.
  assert (Hne : seg <> []) by (destruct seg; simpl in Hl; [lia|discriminate]).
  apply row_of_rows in Hrow; [|exact Hnd|destruct seg; [congruence|discriminate]].
  destruct (row_positions _ _ _ _ _ _ _ _ _ _ _ Hrun Hvia Hclg Hmax Hrow) as (qs & Hq).
  destruct (scan_first v (fun r => llx r + urx r) max seg rest ks qs Hp Hc Hl Hne Hq) as (r & Hr).
  apply (hadj_in env sto errs layer p vv max h v Hrun Hvia Hclg Hmax). exists c, (seg ++ rest), qs, r. auto.
Qed.
Print Assumptions C16_first_run_row.

Theorem C16_later_run_row :
  forall env sto errs layer p vv max h v, drc_run env sto = Some errs -> via_lines env sto layer p vv ->
  dget String.eqb (en_clg env) layer = Some (h, v) -> p_maxx p = Some max -> 0 <= max -> NoDup (concat (map snd vv)) ->
  forall c pre seg rest ks, row_of vv c (pre ++ seg ++ rest) ->
  positions v (fun r => llx r + urx r) seg ks -> consecutive ks -> max + 1 < Z.of_nat (List.length seg) ->
  exists r, In (EHAdjacent layer r) errs.
Proof.
  intros env sto errs layer p vv max h v Hrun Hvia Hclg Hmax H0 Hnd c pre seg rest ks Hrow Hp Hc Hl.
  assert (Hne : seg <> []) by (destruct seg; simpl in Hl; [lia|discriminate]).
  apply row_of_rows in Hrow; [|exact Hnd|destruct pre, seg; [congruence|discriminate|discriminate|discriminate]].
  destruct (row_positions _ _ _ _ _ _ _ _ _ _ _ Hrun Hvia Hclg Hmax Hrow) as (qs & Hq).
  destruct (scan_later v (fun r => llx r + urx r) max pre seg rest ks qs Hp Hc Hl Hne Hq) as (r & Hr).
  apply (hadj_in env sto errs layer p vv max h v Hrun Hvia Hclg Hmax). exists c, (pre ++ seg ++ rest), qs, r. auto.
Qed.
Print Assumptions C16_later_run_row.

Theorem C16_genuine_row :
  forall env sto errs layer p vv max h v, drc_run env sto = Some errs -> via_lines env sto layer p vv ->
  dget String.eqb (en_clg env) layer = Some (h, v) -> p_maxx p = Some max ->
  (exists r, In (EHAdjacent layer r) errs) ->
  exists seg ks, (forall r, In r seg -> exists c' sl', In (c', sl') vv /\ In r sl') /\
    (forall r r', In r seg -> In r' seg -> lly r + ury r = lly r' + ury r') /\
    positions v (fun r => llx r + urx r) seg ks /\ consecutive ks /\ max < Z.of_nat (List.length seg) /\ seg <> [].
Proof.
  intros env sto errs layer p vv max h v Hrun Hvia Hclg Hmax He.
  apply (hadj_in env sto errs layer p vv max h v Hrun Hvia Hclg Hmax) in He. destruct He as (c & sl & qs & r & Hl & Hq & Hr).
  destruct (scan_genuine v (fun r => llx r + urx r) max sl qs r Hq Hr) as (pre & seg & rest & ks & -> & A1 & A2 & A3).
  assert (Hm : forall x, In x (seg ++ [r]) -> In x (pre ++ seg ++ r :: rest)).
  { intros x Hx. rewrite !in_app_iff in *. simpl in *. tauto. }
  exists (seg ++ [r]), ks. split; [|split; [|repeat split; auto]].
  - intros x Hx. apply Hm in Hx. destruct (rows_mem _ _ _ _ Hl Hx) as (_ & c' & sl' & ?). eauto.
  - intros x y Hx Hy. apply Hm in Hx, Hy. destruct (rows_mem _ _ _ _ Hl Hx) as (Ex & _), (rows_mem _ _ _ _ Hl Hy) as (Ey & _). lia.
  - destruct seg; discriminate.
Qed.
Print Assumptions C16_genuine_row.

Definition adj_rules := mkRules None None None (Some 1) (None, None) 0 0 false 0 0 None 10.
Definition via_at (y : Z) : Rect := mkRect (-2) (10 * y - 2) 2 (10 * y + 2).

(** A run of length two, limit one, is missed when it does not start the column: rows 0, 5, 6. *)
Theorem C16_refuted : exists env sto errs layer p vv max h v c pre seg rest ks,
  drc_run env sto = Some errs /\ via_lines env sto layer p vv /\ dget String.eqb (en_clg env) layer = Some (h, v) /\
  p_maxy p = Some max /\ 0 <= max /\ In (c, pre ++ seg ++ rest) vv /\
  positions h (fun r => lly r + ury r) seg ks /\ consecutive ks /\ max < Z.of_nat (List.length seg) /\
  errs = [].
Proof.
  set (g := UncoloredCenterLineGrid 10 4 0 1).
  set (vv := [(0, [via_at 0; via_at 5; via_at 6])]).
  exists (mkEnv [("V1"%string, adj_rules)] [("V1"%string, DStar)] [("V1"%string, (g, g))] []), [("V1"%string, vv)], [],
    "V1"%string, adj_rules, vv, 1, g, g, 0, [via_at 0], [via_at 5; via_at 6], [], [5; 6].
  split; [reflexivity|]. split; [|repeat split; auto; try lia].
  - repeat split; simpl; auto; try (exists "1"%string; auto). repeat constructor; simpl; intuition.
  - now left.
  - constructor; [|constructor; [|constructor]]; unfold g, via_at; cbn; eauto.
Qed.
Print Assumptions C16_refuted.

(** With two tracks per grid period three vias on consecutive tracks go unreported under limit
    one: the comparison uses the period number, not the track number. *)
Theorem C16_two_tracks_refuted : exists env sto layer p vv,
  let g := UncoloredCenterLineGrid 10 4 0 2 in
  drc_run env sto = Some [] /\ via_lines env sto layer p vv /\ dget String.eqb (en_clg env) layer = Some (g, g) /\
  p_maxy p = Some 1 /\ vv = [(0, [via_at 0; via_at 1; via_at 2])].
Proof.
  set (g := UncoloredCenterLineGrid 10 4 0 2).
  set (vv := [(0, [via_at 0; via_at 1; via_at 2])]).
  exists (mkEnv [("V1"%string, adj_rules)] [("V1"%string, DStar)] [("V1"%string, (g, g))] []), [("V1"%string, vv)],
    "V1"%string, adj_rules, vv.
  split; [reflexivity|]. repeat split; simpl; auto; try (exists "1"%string; auto). repeat constructor; simpl; intuition.
Qed.
Print Assumptions C16_two_tracks_refuted.

(** A run that starts its column, and one two above the limit later on. *)
Example C16_nonvacuous :
  let g := UncoloredCenterLineGrid 10 4 0 1 in
  let vv := [(0, [via_at 0; via_at 1; via_at 5; via_at 6; via_at 7])] in
  let env := mkEnv [("V1"%string, adj_rules)] [("V1"%string, DStar)] [("V1"%string, (g, g))] [] in
  via_lines env [("V1"%string, vv)] "V1" adj_rules vv /\
  positions g (fun r => lly r + ury r) [via_at 5; via_at 6; via_at 7] [5; 6; 7] /\
  drc_run env [("V1"%string, vv)] = Some [EVAdjacent "V1" (via_at 1); EVAdjacent "V1" (via_at 7)].
Proof.
  split; [|split; [|reflexivity]].
  - repeat split; simpl; auto; try (exists "1"%string; auto). repeat constructor; simpl; intuition.
  - constructor; [|constructor; [|constructor; [|constructor]]]; unfold via_at; cbn; eauto.
Qed.
