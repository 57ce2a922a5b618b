(** C55: the stamped cells of a transistor array tile its bounding box. *)
From Coq Require Import String Ascii ZifyBool.
From Verif Require Import Base.Prelude Model.Transformation Model.TransistorArray Spec.ArraySpec Props.C42.
Local Open Scope Z_scope.

(** A cell with its lower left corner at the origin, of height [h]. *)
Definition origin_cell (h : Z) (c : atemplate * Z) : Prop := llx (tp_bbox (fst c)) = 0 /\ lly (tp_bbox (fst c)) = 0 /\ 0 <= urx (tp_bbox (fst c)) /\ ury (tp_bbox (fst c)) = h.
Definition width_of (row : list (atemplate * Z)) : Z := fold_right Z.add 0 (map (fun c => urx (tp_bbox (fst c))) row).

Lemma fop_app {A} (R : A -> A -> Prop) l1 l2 : ForallOrdPairs R l1 -> ForallOrdPairs R l2 -> (forall a b, In a l1 -> In b l2 -> R a b) -> ForallOrdPairs R (l1 ++ l2).
Proof.
  induction l1 as [|a l1 IH]; intros H1 H2 H; [assumption|]. inversion H1 as [|? ? Ha Hl]; subst. simpl. constructor.
  - apply Forall_app. split; [assumption|]. apply Forall_forall. intros b Hb. apply H; [now left|assumption].
  - apply IH; try assumption. intros x y Hx Hy. apply H; [now right|assumption].
Qed.
Lemma place_row_spec h y : 0 <= h -> forall row x l x', Forall (origin_cell h) row -> place_row x y row = (l, x') ->
  x' = x + width_of row /\ x <= x' /\ Forall (fun s => inside (st_boundary s) (mkRect x y x' (y + h))) l /\ ForallOrdPairs disjoint_boxes (map st_boundary l) /\ total_area (map st_boundary l) = (x' - x) * h.
Proof.
  intros Hh. induction row as [|(t, f) row IH]; intros x l x' Hr E.
  - injection E as <- <-. unfold width_of. simpl. split; [lia|]. split; [lia|]. split; [constructor|]. split; [constructor|]. unfold total_area. simpl. lia.
  - cbn [place_row] in E. destruct (place_row _ y row) as (l1, x1) eqn:E1. injection E as <- <-. inversion Hr as [|? ? (H1 & H2 & H3 & H4) Hrow]; subst. cbn [fst] in *. destruct (IH _ _ _ Hrow E1) as (I1 & I2 & I3 & I4 & I5).
    unfold width_of in *. cbn [map fold_right fst]. split; [lia|]. split; [lia|]. split; [|split].
    + constructor; [unfold inside; cbn [stamp_cell st_boundary llx lly urx ury]; lia|]. eapply Forall_impl; [|exact I3]. intros s Hs. unfold inside in *. cbn [llx lly urx ury] in *. lia.
    + cbn [map]. constructor; [|assumption]. apply Forall_forall. intros b Hb. apply in_map_iff in Hb as (s & <- & Hs). rewrite Forall_forall in I3. specialize (I3 s Hs). unfold inside, disjoint_boxes in *. cbn [stamp_cell st_boundary llx lly urx ury] in *. lia.
    + unfold total_area in *. cbn [map fold_right]. rewrite I5. unfold area. cbn [stamp_cell st_boundary llx lly urx ury]. nia.
Qed.

(** Every row is made of cells of one height, and all rows have width [w]. *)
Definition tidy (w h : Z) (row : list (atemplate * Z)) : Prop := row <> [] /\ Forall (origin_cell h) row /\ width_of row = w.
Theorem C55_tiles w h rows : 0 <= h -> Forall (tidy w h) rows -> rows <> [] ->
  exists l, place rows = Some (l, mkRect 0 0 w (h * Z.of_nat (List.length rows))) /\ List.length l = List.length (concat rows) /\
    Forall (fun s => inside (st_boundary s) (mkRect 0 0 w (h * Z.of_nat (List.length rows)))) l /\ ForallOrdPairs disjoint_boxes (map st_boundary l) /\
    total_area (map st_boundary l) = w * (h * Z.of_nat (List.length rows)).
Proof.
  intros Hh. unfold place.
  assert (G : forall rows x y, Forall (tidy w h) rows -> exists l, place_rows x y rows = Some (l, mkRect 0 0 (match rows with [] => x | _ => w end) (y + h * Z.of_nat (List.length rows))) /\ List.length l = List.length (concat rows) /\
    Forall (fun s => inside (st_boundary s) (mkRect 0 y w (y + h * Z.of_nat (List.length rows)))) l /\ ForallOrdPairs disjoint_boxes (map st_boundary l) /\ total_area (map st_boundary l) = w * (h * Z.of_nat (List.length rows))).
  { clear rows. induction rows as [|row rows IH]; intros x y Hr.
    - exists []. cbn [place_rows List.length concat map]. rewrite Z.mul_0_r, Z.add_0_r. split; [reflexivity|]. split; [reflexivity|]. split; [constructor|]. split; [constructor|]. unfold total_area. simpl. lia.
    - inversion Hr as [|? ? (H1 & H2 & H3) Hrs]; subst. cbn [place_rows]. destruct (rev row) as [|(c, f) rr] eqn:Er; [exfalso; apply H1; rewrite <- (rev_involutive row), Er; reflexivity|].
      assert (Hc : origin_cell h (c, f)). { rewrite Forall_forall in H2. apply H2. apply in_rev. rewrite Er. now left. } destruct Hc as (_ & Q2 & _ & Q4). cbn [fst] in Q2, Q4. rewrite Q2, Q4.
      destruct (place_row 0 y row) as (l1, x1) eqn:E1. destruct (place_row_spec h y Hh _ _ _ _ H2 E1) as (I1 & I2 & I3 & I4 & I5). destruct (IH x1 (y + (h - 0)) Hrs) as (l2 & E2 & L2 & J3 & J4 & J5). rewrite E2.
      assert (L1 : List.length l1 = List.length row). { clear - E1. revert l1 x1 E1. generalize 0 at 1. induction row as [|(t, f) row IH]; intros x0 l1 x1 E; [injection E as <- <-; reflexivity|]. cbn [place_row] in E. destruct (place_row _ y row) as (l', x') eqn:E'. injection E as <- <-. simpl. f_equal. eapply IH. exact E'. }
      exists (l1 ++ l2). assert (Hw : (match rows with [] => x1 | _ :: _ => width_of row end) = width_of row) by (destruct rows; [lia|reflexivity]). rewrite Hw. split; [f_equal; f_equal; f_equal; cbn [List.length]; lia|]. split; [simpl concat; rewrite !app_length; lia|]. split; [|split].
      + apply Forall_app. split; [eapply Forall_impl; [|exact I3]|eapply Forall_impl; [|exact J3]]; intros s Hs; unfold inside in *; cbn [llx lly urx ury List.length] in *; nia.
      + rewrite map_app. apply fop_app; try assumption. intros a b Ha Hb. apply in_map_iff in Ha as (s & <- & Hs). apply in_map_iff in Hb as (s' & <- & Hs'). rewrite Forall_forall in I3, J3. specialize (I3 s Hs). specialize (J3 s' Hs'). unfold inside, disjoint_boxes in *. cbn [llx lly urx ury] in *. lia.
      + unfold total_area in *. rewrite !map_app, fold_right_app, J5. cbn [List.length]. assert (S : forall k l, fold_right Z.add k l = k + fold_right Z.add 0 l) by (intros k; induction l as [|a l IHl]; simpl; lia). rewrite S, I5. nia. }
  intros Hr Hne. destruct (G rows 0 0 Hr) as (l & E & H). exists l. rewrite E. destruct rows; [contradiction|]. rewrite Z.add_0_l in *. split; [reflexivity|exact H].
Qed.

(** Mirrored cells are the reflection of the cell within its slot; shapes drawn inside the cell stay inside the slot. *)
Definition ordered (r : Rect) : Prop := llx r <= urx r /\ lly r <= ury r.
Theorem C55_mirror t f x y : llx (tp_bbox t) = lly (tp_bbox t) -> (forall b, In b (tp_terms t) -> ordered (at_rect b)) ->
  let tr := if f <? 0 then mkTr (x + urx (tp_bbox t) - llx (tp_bbox t)) y (-1) 1 else mkTr x y 1 1 in
  st_terms (stamp_cell t f x y) = map (fun b => mkAt (at_layer b) (at_net b) (canonical (hitRect tr (at_rect b)))) (tp_terms t).
Proof.
  intros Hb Ho tr. cbn [stamp_cell st_terms]. apply map_ext_in. intros b Hi. destruct (Ho b Hi) as (O1 & O2). f_equal. unfold tr. destruct b as [ly nt [x0 y0 x1 y1]]. cbn [at_rect llx lly urx ury] in *.
  destruct (f <? 0); unfold hitRect, hit, canonical; cbn [llx lly urx ury oX oY sX sY]; repeat match goal with |- context [?a <? ?b] => destruct (Z.ltb_spec a b) end; f_equal; lia.
Qed.
Theorem C55_inside t f x y a : llx (tp_bbox t) = 0 -> lly (tp_bbox t) = 0 -> (forall b, In b (tp_terms t) -> inside (at_rect b) (tp_bbox t)) ->
  In a (st_terms (stamp_cell t f x y)) -> inside (at_rect a) (st_boundary (stamp_cell t f x y)).
Proof.
  intros H1 H2 Hb Ha. cbn [stamp_cell st_terms] in Ha. apply in_map_iff in Ha as (b & <- & Hi). specialize (Hb b Hi). unfold inside in *. cbn [stamp_cell st_boundary at_rect llx lly urx ury]. destruct (f <? 0); cbn [llx lly urx ury]; lia.
Qed.

(** The rows of a transistor array, stamped with the cells of the PDK. *)
Section Array.
  Variables (poly m2 nf : Z) (t1 t2 ttap tfill : list aterm).
  Notation tpl := (cell_template poly m2 nf t1 t2 ttap tfill).
  Notation stamp := (stamp_rows poly m2 nf t1 t2 ttap tfill).
  Lemma omap_len {A B} (f : A -> option B) l l' : omap f l = Some l' -> List.length l' = List.length l.
  Proof. revert l'. induction l as [|a l IH]; intros l' E; [injection E as <-; reflexivity|]. simpl in E. destruct (f a); [|discriminate]. destruct (omap f l) as [k|]; [|discriminate]. injection E as <-. simpl. f_equal. now apply IH. Qed.
  Lemma omap_in {A B} (f : A -> option B) l l' b : omap f l = Some l' -> In b l' -> exists a, In a l /\ f a = Some b.
  Proof. revert l'. induction l as [|a l IH]; intros l' E Hb; [injection E as <-; destruct Hb|]. simpl in E. destruct (f a) as [b0|] eqn:Ef; [|discriminate]. destruct (omap f l) as [k|]; [|discriminate]. injection E as <-. destruct Hb as [<-|Hb]; [exists a; split; [now left|assumption]|]. destruct (IH k eq_refl Hb) as (a' & Ha & E'). exists a'. split; [now right|assumption]. Qed.
  (** What a row looks like: a filler, [n] cells that are no fillers, a filler. *)
  Definition row_shape (n : nat) (row : list acell) : Prop := exists l, row = [Fill] ++ l ++ [Fill] /\ List.length l = n /\ Forall (fun c => c <> Fill) l.
  Lemma array_row_shape tap n_dev r c g rows : array_rows tap n_dev r c g = Some rows -> List.length rows = (if tap then Datatypes.S r else r) /\ Forall (row_shape c) rows.
  Proof.
    unfold array_rows. destruct (omap _ (seq 0 r)) as [ls|] eqn:E; [|discriminate]. intros Eq. injection Eq as <-. pose proof (omap_len _ _ _ E) as L. rewrite seq_length in L. split; [destruct tap; simpl; now rewrite L|]. apply Forall_app. split.
    - destruct tap; constructor; [|constructor]. exists (repeat Tap c). split; [reflexivity|]. split; [apply repeat_length|]. apply Forall_forall. intros a Ha. apply repeat_spec in Ha. subst. discriminate.
    - apply Forall_forall. intros row Hrow. destruct (omap_in _ _ _ _ E Hrow) as (y & _ & Ey). destruct (nth_error g y) as [rw|]; [|discriminate]. unfold tx_row in Ey. destruct (omap _ (seq 0 c)) as [l|] eqn:El; [|discriminate]. injection Ey as <-. exists l. split; [reflexivity|].
      pose proof (omap_len _ _ _ El) as L2. rewrite seq_length in L2. split; [assumption|]. apply Forall_forall. intros a Ha. destruct (omap_in _ _ _ _ El Ha) as (x & _ & Ex). unfold tx_cell in Ex. destruct (nth_error rw x) as [ch|]; [|discriminate]. destruct (letter ch) as [(d, f)|]; [|discriminate]. destruct (d <=? n_dev)%nat; [|discriminate]. injection Ex as <-. discriminate.
  Qed.
  Theorem C55_array tap elements template pattern m y x rows r c : 0 <= poly -> 0 <= m2 -> 0 <= nf -> array_shape pattern m y x = Some (r, c) -> mos_array tap elements template pattern m y x = Some rows -> 0 < r -> 0 <= c ->
    let W := poly * (2 + (2 + nf) * c) in let H := m2 * 7 * (if tap then r + 1 else r) in
    exists l, place (stamp tap (known_devices elements =? 2)%nat rows) = Some (l, mkRect 0 0 W H) /\
      Forall (fun s => inside (st_boundary s) (mkRect 0 0 W H)) l /\ ForallOrdPairs disjoint_boxes (map st_boundary l) /\ total_area (map st_boundary l) = W * H.
  Proof.
    intros Hp Hm Hn Hs E Hr Hc W H. unfold mos_array in E. rewrite Hs in E. destruct (interleave_pattern _ _ _) as [g|]; [|discriminate]. apply array_row_shape in E as (El & Es). set (dual := (known_devices elements =? 2)%nat).
    assert (L : List.length (stamp tap dual rows) = List.length rows) by (unfold stamp_rows; rewrite map_length, combine_length, seq_length; lia).
    assert (Ht : Forall (tidy W (m2 * 7)) (stamp tap dual rows)).
    { apply Forall_forall. intros q Hq. unfold stamp_rows in Hq. apply in_map_iff in Hq as ((i, row) & <- & Hi). apply in_combine_r in Hi. rewrite Forall_forall in Es. destruct (Es row Hi) as (l & -> & Ll & Lf). cbn [fst snd]. split; [discriminate|]. split.
      - apply Forall_forall. intros q Hq. apply in_map_iff in Hq as (a & <- & _). destruct a; unfold origin_cell; cbn [cell_template fst tp_bbox mos_box fill_box llx lly urx ury]; (split; [reflexivity|split; [reflexivity|split; [nia|reflexivity]]]).
      - unfold width_of. rewrite map_map. cbn [app map fold_right]. rewrite map_app, fold_right_app. cbn [map fold_right cell_template fst tp_bbox fill_box urx].
        assert (S : forall k, fold_right Z.add k (map (fun a => urx (tp_bbox (fst (tpl dual (if tap then i - 1 else i)%nat a)))) l) = k + poly * (2 + nf) * Z.of_nat (List.length l)).
        { intros k. clear - Lf. induction l as [|a l IH]; [simpl; lia|]. inversion Lf as [|? ? Ha Hl]; subst. specialize (IH Hl). cbn [map fold_right List.length]. rewrite IH. destruct a; [contradiction| |]; cbn [cell_template fst tp_bbox mos_box urx]; nia. }
        rewrite S, Ll. unfold W. nia. }
    destruct (C55_tiles W (m2 * 7) (stamp tap dual rows)) as (l & E & _ & A & B & C0); [lia|assumption|intros E0; rewrite E0 in L; destruct tap; simpl in L; lia|].
    assert (HH : m2 * 7 * Z.of_nat (List.length (stamp tap dual rows)) = H) by (rewrite L, El; unfold H; destruct tap; lia). rewrite HH in *. exists l. auto.
  Qed.
  (** The two devices of an array never have the same track pattern in a row, and each device has
      both patterns in turn. *)
  Theorem C55_patterns y d f : let terms z e := tp_terms (fst (tpl true z (Tx e f))) in
    ((terms y 1%nat = t1 /\ terms y 2%nat = t2) \/ (terms y 1%nat = t2 /\ terms y 2%nat = t1)) /\
    ((d = 1 \/ d = 2)%nat -> (terms y d = t1 /\ terms (Datatypes.S y) d = t2) \/ (terms y d = t2 /\ terms (Datatypes.S y) d = t1)) /\
    tp_terms (fst (tpl false y (Tx d f))) = t1.
  Proof.
    cbn [cell_template fst tp_terms andb]. unfold second_pattern. rewrite Nat.even_succ, <- Nat.negb_even. split; [destruct (Nat.even y); auto|]. split; [|reflexivity]. intros [-> | ->]; destruct (Nat.even y); cbn; auto.
  Qed.
  (** Every cell of the rows is stamped with its template, row for row and column for column. *)
  Theorem C55_row tap dual rows i row k c : nth_error rows i = Some row -> nth_error row k = Some c ->
    exists r, nth_error (stamp tap dual rows) i = Some r /\ nth_error r k = Some (tpl dual (if tap then i - 1 else i)%nat c).
  Proof.
    intros Hi Hk. unfold stamp_rows. rewrite nth_error_map.
    assert (G : forall (l : list (list acell)) s j x, nth_error l j = Some x -> nth_error (combine (seq s (List.length l)) l) j = Some ((s + j)%nat, x)).
    { induction l as [|a l IH]; intros s [|j] x E; try discriminate; cbn [List.length seq combine nth_error] in *; [injection E as <-; now rewrite Nat.add_0_r|]. rewrite (IH (Datatypes.S s) j x E). do 2 f_equal. lia. }
    rewrite (G rows 0%nat i row Hi). cbn [option_map fst snd Nat.add]. eexists. split; [reflexivity|]. rewrite nth_error_map, Hk. reflexivity.
  Qed.
End Array.

(** Findings: the mirrored position is computed from [bbox[1]] instead of [bbox[0]], *)
Theorem C55_mirror_refuted : exists t x y a, inside (at_rect a) (tp_bbox t) /\ In a (tp_terms t) /\ ~ Forall (fun b => inside (at_rect b) (st_boundary (stamp_cell t (-1) x y))) (st_terms (stamp_cell t (-1) x y)).
Proof.
  exists (mkTpl (mkRect 0 5 10 15) [mkAt "M1" "D" (mkRect 7 5 9 15)]), 0, 0, (mkAt "M1" "D" (mkRect 7 5 9 15)). split; [unfold inside; simpl; lia|]. split; [now left|]. intros F. inversion F as [|? ? K _]; subst. unfold inside in K. simpl in K. lia.
Qed.
(** and the height of a row is that of its last cell, so that rows with taller cells overlap. *)
Theorem C55_height_refuted : exists rows l b, place rows = Some (l, b) /\ Forall (Forall (fun c => exists h, 0 < h /\ origin_cell h c)) rows /\ ~ ForallOrdPairs disjoint_boxes (map st_boundary l).
Proof.
  set (c h := (mkTpl (mkRect 0 0 10 h) [], 1)). exists [[c 20; c 10]; [c 10]]. eexists _, _. split; [reflexivity|]. split.
  - repeat constructor; eexists; (split; [|unfold origin_cell; simpl; repeat split]); lia.
  - intros F. inversion F as [|? ? K _]; subst. inversion K as [|? ? _ K2]; subst. inversion K2 as [|? ? K3 _]; subst. unfold disjoint_boxes in K3. simpl in K3. lia.
Qed.

Example C55_nonvacuous : exists rows l, mos_array true ["m0"; "m1"]%string None 1 2 2 2 = Some rows /\ array_shape 1 2 2 2 = Some (2, 2) /\
  place (stamp_rows 80 84 2 [mkAt "M1" "D" (mkRect 70 10 90 200)] [] [] [] true true rows) = Some (l, mkRect 0 0 800 1764) /\ List.length l = 12%nat /\ ordered (mkRect 70 10 90 200).
Proof. eexists _, _. split; [reflexivity|]. split; [reflexivity|]. split; [reflexivity|]. split; [reflexivity|unfold ordered; simpl; lia]. Qed.

Print Assumptions C55_tiles.
Print Assumptions C55_mirror.
Print Assumptions C55_inside.
Print Assumptions C55_array.
Print Assumptions C55_patterns.
Print Assumptions C55_row.
Print Assumptions C55_mirror_refuted.
Print Assumptions C55_height_refuted.
