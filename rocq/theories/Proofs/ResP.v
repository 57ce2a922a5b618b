(** The resistor generator draws one serpentine. *)
From Coq Require Import String ZifyBool Relations.
From Verif Require Import Base.Prelude Model.Lef Model.MosGen Model.Passives Spec.BoxNet Proofs.MosGenP Proofs.CapP.
Local Open Scope Z_scope.

Section Res.
  Variable k : respdk.
  Hypothesis OK : res_ok k.
  Variables n last : Z.
  Hypothesis Hn : 1 <= n.
  Hypothesis Hlast : 1 <= last.
  Notation F := (finger k n last 0 0).
  Notation K := (link k n last).
  Notation P := (plus_pin k last 0).
  Notation M := (minus_pin k n last 0).

  Ltac geo := unfold meet, covers, finger, link, plus_pin, minus_pin, vwire, hwire in *; cbn [b_x0 b_x1 b_y0 b_y1 b_layer c_x c_y c_layer] in *.
  Ltac facts := destruct OK as [Q1 Q2 Q3 Q4 Q5 Q6]; pose proof (half_ok _ _ Q1) as (Hh1 & Hh1'); pose proof (half_pos _ (proj1 Q3)) as Hp1.
  Lemma lastp : r_mp k <= last * r_mp k.
  Proof. assert (1 * r_mp k <= last * r_mp k) by (apply Z.mul_le_mono_nonneg_r; [destruct OK; lia|lia]). lia. Qed.
  (** Columns of fingers and links. *)
  Definition col (i : Z) : Z := step n i * r_cp k.
  Lemma col_lt i j : 0 <= i < n -> 0 <= j < n -> i < j -> col i + r_cp k <= col j.
  Proof. intros Hi Hj H. unfold col, step. destruct OK as [Q1 _ _ _ _ _]. destruct (n =? 2); nia. Qed.
  Lemma shift_col i : 0 <= i < n - 1 -> i * r_cp k = col i /\ (i + shift n + 1) * r_cp k = col (i + 1).
  Proof. intros Hi. unfold col, step, shift. destruct (Z.eqb_spec n 2) as [->|]; [assert (i = 0) as -> by lia|]; lia. Qed.
  Lemma out_is : out_col n 0 * r_cp k = col (n - 1).
  Proof. unfold out_col, x_pitch, col, step, shift. destruct (Z.eqb_spec n 2) as [->|]; lia. Qed.
  Lemma col0 : col 0 = 0.
  Proof. unfold col, step. destruct (n =? 2); lia. Qed.

  Lemma ff i j : 0 <= i < n -> 0 <= j < n -> meet (F i) (F j) -> i = j.
  Proof.
    intros Hi Hj (E & x & y & A & B). geo. facts. fold (step n i) in A. assert (A1 : col i - r_cw k / 2 <= x <= col i + r_cw k / 2) by (unfold col; lia). assert (B1 : col j - r_cw k / 2 <= x <= col j + r_cw k / 2) by (unfold col; lia).
    destruct (Z.lt_trichotomy i j) as [L|[L|L]]; [pose proof (col_lt i j Hi Hj L); lia|exact L|pose proof (col_lt j i Hj Hi L); lia].
  Qed.
  Lemma kk i j : 0 <= i < n - 1 -> 0 <= j < n - 1 -> meet (K i) (K j) -> i = j.
  Proof.
    intros Hi Hj (E & x & y & A & B). destruct (shift_col i Hi) as (Ei & Ei'), (shift_col j Hj) as (Ej & Ej'). pose proof lastp. geo. rewrite Ei, Ei' in A. rewrite Ej, Ej' in B. facts.
    destruct (Z.eq_dec i j) as [|D]; [assumption|exfalso].
    destruct (Z.eq_dec ((i + 1) mod 2) ((j + 1) mod 2)) as [Em|Em].
    - destruct (Z_lt_le_dec i j) as [L|L].
      + pose proof (col_lt (i + 1) j ltac:(lia) ltac:(lia) ltac:(lia)). lia.
      + pose proof (col_lt (j + 1) i ltac:(lia) ltac:(lia) ltac:(lia)). lia.
    - pose proof (Z.mod_pos_bound (i + 1) 2 ltac:(lia)). pose proof (Z.mod_pos_bound (j + 1) 2 ltac:(lia)).
      assert (((i + 1) mod 2 = 0 /\ (j + 1) mod 2 = 1) \/ ((i + 1) mod 2 = 1 /\ (j + 1) mod 2 = 0)) as [(Z1 & Z2)|(Z1 & Z2)] by lia; rewrite Z1 in A; rewrite Z2 in B; lia.
  Qed.
  Lemma fk i j : 0 <= i < n -> 0 <= j < n - 1 -> meet (F i) (K j) <-> i = j \/ i = j + 1.
  Proof.
    intros Hi Hj. destruct (shift_col j Hj) as (Ej & Ej'). pose proof lastp as Hl. split.
    - intros (E & x & y & A & B). geo. rewrite Ej, Ej' in B. facts. assert (A1 : col i - r_cw k / 2 <= x <= col i + r_cw k / 2) by (unfold col; lia).
      destruct (Z_lt_le_dec i j) as [L|L]; [pose proof (col_lt i j Hi ltac:(lia) L); lia|]. destruct (Z_lt_le_dec (j + 1) i) as [L'|L']; [pose proof (col_lt (j + 1) i ltac:(lia) Hi L'); lia|]. lia.
    - intros H. split; [reflexivity|]. exists (col i), (((j + 1) mod 2) * last * r_mp k). pose proof (col_lt j (j + 1) ltac:(lia) ltac:(lia) ltac:(lia)) as Hc. geo. rewrite Ej, Ej'. facts.
      assert (col i = (step n i + 0 * x_pitch n) * r_cp k) by (unfold col; lia). pose proof (Z.mod_pos_bound (j + 1) 2 ltac:(lia)) as Hm.
      assert (0 <= (j + 1) mod 2 * last * r_mp k <= last * r_mp k) by (assert ((j + 1) mod 2 = 0 \/ (j + 1) mod 2 = 1) as [Z1|Z1] by lia; rewrite Z1; lia).
      destruct H as [->| ->]; lia.
  Qed.
  Lemma pm : ~ meet P M.
  Proof.
    intros (_ & x & y & A & B). pose proof out_is as Ho. pose proof lastp as Hl. geo. rewrite Ho in B. facts. unfold out_row in B.
    assert (n mod 2 = 1 \/ n mod 2 = 0) as [Z1|Z1] by lia; rewrite Z1 in B.
    - lia.
    - assert (H2 : 2 * r_cp k <= col (n - 1)).
      { unfold col, step. destruct (Z.eqb_spec n 2) as [->|]; [lia|]. assert (2 * r_cp k <= (n - 1) * r_cp k) by (apply Z.mul_le_mono_nonneg_r; lia). lia. }
      lia.
  Qed.
  (** The vias. *)
  Lemma f_plus i : 0 <= i < n -> covers (F i) 0 0 <-> i = 0.
  Proof.
    intros Hi. pose proof lastp as Hl. split.
    - intros A. geo. facts. assert (A1 : col i - r_cw k / 2 <= 0 <= col i + r_cw k / 2) by (unfold col; lia). destruct (Z.eq_dec i 0); [assumption|]. pose proof (col_lt 0 i ltac:(lia) Hi ltac:(lia)). rewrite col0 in *. lia.
    - intros ->. pose proof col0 as H0. unfold col in H0. geo. facts. lia.
  Qed.
  Lemma k_plus i : 0 <= i < n - 1 -> ~ covers (K i) 0 0.
  Proof.
    intros Hi A. destruct (shift_col i Hi) as (Ei & Ei'). pose proof lastp as Hl. geo. rewrite Ei, Ei' in A. facts. destruct (Z.eq_dec i 0) as [->|].
    - change ((0 + 1) mod 2) with 1 in A. lia.
    - pose proof (col_lt 0 i ltac:(lia) ltac:(lia) ltac:(lia)). rewrite col0 in *. lia.
  Qed.
  Notation oc := (out_col n 0 * r_cp k).
  Notation orow := (out_row n last * r_mp k).
  Lemma f_minus i : 0 <= i < n -> covers (F i) oc orow <-> i = n - 1.
  Proof.
    intros Hi. pose proof lastp as Hl. rewrite out_is. split.
    - intros A. geo. facts. assert (A1 : col i - r_cw k / 2 <= col (n - 1) <= col i + r_cw k / 2) by (assert ((step n i + 0 * x_pitch n) * r_cp k = col i) by (unfold col; lia); lia). destruct (Z.eq_dec i (n - 1)); [assumption|]. pose proof (col_lt i (n - 1) Hi ltac:(lia) ltac:(lia)). lia.
    - intros ->. geo. facts. unfold out_row. assert (n mod 2 = 1 \/ n mod 2 = 0) as [Z1|Z1] by lia; rewrite Z1; unfold col; lia.
  Qed.
  Lemma k_minus i : 0 <= i < n - 1 -> ~ covers (K i) oc orow.
  Proof.
    intros Hi A. destruct (shift_col i Hi) as (Ei & Ei'). rewrite out_is in A. pose proof lastp as Hl. geo. rewrite Ei, Ei' in A. facts. destruct (Z.eq_dec i (n - 2)) as [->|].
    - unfold out_row in A. assert ((n mod 2 = 1 /\ (n - 2 + 1) mod 2 = 0) \/ (n mod 2 = 0 /\ (n - 2 + 1) mod 2 = 1)) as [(Z1 & Z2)|(Z1 & Z2)] by lia; rewrite Z1, Z2 in A; lia.
    - pose proof (col_lt (i + 1) (n - 1) ltac:(lia) ltac:(lia) ltac:(lia)). lia.
  Qed.
  Lemma p_plus : covers P 0 0.
  Proof. geo. facts. lia. Qed.
  Lemma m_minus : covers M oc orow.
  Proof. geo. facts. lia. Qed.
  Lemma p_minus : ~ covers P oc orow.
  Proof. intros A. apply pm. split; [reflexivity|]. exists oc, orow. split; [exact A|exact m_minus]. Qed.
  Lemma m_plus : ~ covers M 0 0.
  Proof. intros A. apply pm. split; [reflexivity|]. exists 0, 0. split; [exact p_plus|exact A]. Qed.

  Lemma box_in b : In b (res_boxes k n last 1 1) <-> (exists i, 0 <= i < n /\ b = F i) \/ (exists i, 0 <= i < n - 1 /\ b = K i) \/ b = P \/ b = M.
  Proof.
    unfold res_boxes. change (zrange 1) with [0]. cbn [flat_map]. rewrite !app_nil_r. unfold res_cell. rewrite !in_app_iff, !in_map_iff. cbn [In]. split.
    - intros [(i & <- & H)|[(i & <- & H)|[<-|[<-|[]]]]]; [left; exists i; split; [now apply in_zrange|reflexivity]|right; left; exists i; split; [now apply in_zrange|reflexivity]|auto|auto].
    - intros [(i & H & ->)|[(i & H & ->)|[->| ->]]]; [left; exists i; split; [reflexivity|now apply in_zrange]|right; left; exists i; split; [reflexivity|now apply in_zrange]|auto|auto].
  Qed.
  Lemma via_in c : In c (res_vias k n last 1 1) <-> c = plus_via \/ c = minus_via k n last 0.
  Proof. unfold res_vias. change (zrange 1) with [0]. cbn [flat_map app In]. intuition. Qed.

  (** Cutting finger [j]. *)
  Inductive side (j : Z) : box -> bool -> Prop :=
  | sd_f i s : 0 <= i < n -> i <> j -> s = (i <? j) -> side j (F i) s
  | sd_k i s : 0 <= i < n - 1 -> s = (i <? j) -> side j (K i) s
  | sd_p : side j P true
  | sd_m : side j M false.
  Lemma cut bs j : incl bs (res_boxes k n last 1 1) -> 0 <= j < n -> ~ In (F j) bs -> In P bs -> In M bs -> ~ net_connected bs (res_vias k n last 1 1) P M.
  Proof.
    intros Hin Hj Hno HP HM Hc.
    assert (Hm : forall a b s t, side j a s -> side j b t -> meet a b -> s = t).
    { intros a b s t Ha Hb Mt. assert (Mt' : meet b a) by (destruct Mt as (E & x & y & A & B); split; [now symmetry|exists x, y; now split]).
      destruct Ha as [i s Hi Di Es|i s Hi Es| |], Hb as [i' t Hi' Di' Et|i' t Hi' Et| |]; try (destruct Mt as (E & _); discriminate E); try reflexivity; subst.
      - now rewrite (ff i i' Hi Hi' Mt).
      - apply (fk i i' Hi Hi') in Mt. destruct (Z.ltb_spec i j), (Z.ltb_spec i' j); lia.
      - apply (fk i' i Hi' Hi) in Mt'. destruct (Z.ltb_spec i j), (Z.ltb_spec i' j); lia.
      - now rewrite (kk i i' Hi Hi' Mt).
      - destruct (pm Mt).
      - destruct (pm Mt'). }
    assert (true = false); [|discriminate].
    apply (net_sound bs (res_vias k n last 1 1) (side j)) with P M.
    - intros a Ha. pose proof (Hin a Ha) as Hb. apply box_in in Hb as [(i & Hi & ->)|[(i & Hi & ->)|[->| ->]]].
      + exists (i <? j). constructor; [exact Hi|intros ->; contradiction|reflexivity].
      + exists (i <? j). now constructor. + exists true. constructor. + exists false. constructor.
    - intros a b s t _ _ Ha Hb. exact (Hm a b s t Ha Hb).
    - intros c a b s t Hcv _ _ Ha Hb (La & Lb & Ca & Cb). apply via_in in Hcv as [->| ->]; cbn [plus_via minus_via c_x c_y c_layer] in *.
      + destruct Ha as [i s Hi Di Es|i s Hi Es| |]; try discriminate La; destruct Hb as [i' t Hi' Di' Et|i' t Hi' Et| |]; try discriminate Lb.
        * apply f_plus in Ca; [|exact Hi]. subst. apply Z.ltb_lt. lia.
        * destruct (m_plus Cb).
        * destruct (k_plus i Hi Ca).
        * destruct (m_plus Cb).
      + destruct Ha as [i s Hi Di Es|i s Hi Es| |]; try discriminate La; destruct Hb as [i' t Hi' Di' Et|i' t Hi' Et| |]; try discriminate Lb.
        * destruct (p_minus Cb).
        * apply f_minus in Ca; [|exact Hi]. subst. apply Z.ltb_ge. lia.
        * destruct (p_minus Cb).
        * destruct (k_minus i Hi Ca).
    - exact HP.
    - intros s Hs. apply (Hm P P s true Hs (sd_p j)). split; [reflexivity|]. exists 0, 0. split; exact p_plus.
    - constructor.
    - exact Hc.
  Qed.
  Notation con := (net_connected (res_boxes k n last 1 1) (res_vias k n last 1 1)).
  Lemma p_f : con P (F 0).
  Proof.
    apply net_sym, rt_step. split; [apply box_in; left; exists 0; split; [lia|reflexivity]|]. split; [apply box_in; auto|]. right. exists plus_via. split; [apply via_in; auto|]. left.
    split; [reflexivity|]. split; [reflexivity|]. split; [apply f_plus; lia|exact p_plus].
  Qed.
  Lemma f_m : con (F (n - 1)) M.
  Proof.
    apply rt_step. split; [apply box_in; left; exists (n - 1); split; [lia|reflexivity]|]. split; [apply box_in; auto|]. right. exists (minus_via k n last 0). split; [apply via_in; auto|]. left.
    split; [reflexivity|]. split; [reflexivity|]. split; [apply f_minus; lia|exact m_minus].
  Qed.
  Lemma f_f m : Z.of_nat m < n -> con (F 0) (F (Z.of_nat m)) .
  Proof.
    induction m as [|m IH]; intros H; [apply rt_refl|]. eapply rt_trans; [apply IH; lia|]. set (i := Z.of_nat m) in *. replace (Z.of_nat (Datatypes.S m)) with (i + 1) by lia.
    assert (Hf : forall j, 0 <= j < n -> In (F j) (res_boxes k n last 1 1)) by (intros j Hj; apply box_in; left; exists j; auto).
    assert (Hk : In (K i) (res_boxes k n last 1 1)) by (apply box_in; right; left; exists i; split; [lia|reflexivity]).
    eapply rt_trans; [|apply net_sym]; apply rt_step; (split; [apply Hf; lia|]; split; [exact Hk|]; left; apply fk; lia).
  Qed.
  Lemma through b : In b (res_boxes k n last 1 1) -> con P b.
  Proof.
    intros Hb. apply box_in in Hb as [(i & Hi & ->)|[(i & Hi & ->)|[->| ->]]].
    - eapply rt_trans; [exact p_f|]. rewrite <- (Z2Nat.id i) by lia. apply f_f. lia.
    - eapply rt_trans; [exact p_f|]. eapply rt_trans; [apply (f_f (Z.to_nat i)); lia|]. rewrite Z2Nat.id by lia. apply rt_step.
      split; [apply box_in; left; exists i; split; [lia|reflexivity]|]. split; [apply box_in; right; left; exists i; auto|]. left. apply fk; lia.
    - apply rt_refl.
    - eapply rt_trans; [exact p_f|]. eapply rt_trans; [|exact f_m]. replace (n - 1) with (Z.of_nat (Z.to_nat (n - 1))) by lia. apply f_f. lia.
  Qed.
End Res.

(** Arrays: the first finger of any cell beyond the first column is not connected. *)
Section Array.
  Variable k : respdk.
  Hypothesis OK : res_ok k.
  Variables n last : Z.
  Hypothesis Hn : 2 <= n.
  Hypothesis Hlast : 1 <= last.
  Variables X Y : Z.
  Ltac geo := unfold meet, covers, finger, link, plus_pin, minus_pin, vwire, hwire in *; cbn [b_x0 b_x1 b_y0 b_y1 b_layer c_x c_y c_layer] in *.
  Ltac facts := destruct OK as [Q1 Q2 Q3 Q4 Q5 Q6]; pose proof (half_ok _ _ Q1) as (Hh1 & Hh1').
  Lemma arr_in b : In b (res_boxes k n last X Y) -> (exists x y i, 0 <= x /\ 0 <= y /\ 0 <= i < n /\ b = finger k n last x y i) \/ (exists i, 0 <= i < n - 1 /\ b = link k n last i) \/ b_layer b = 2.
  Proof.
    unfold res_boxes. rewrite in_flat_map. intros (x & Hx & H). apply in_zrange in Hx. apply in_flat_map in H as (y & Hy & H). apply in_zrange in Hy. unfold res_cell in H. rewrite !in_app_iff, !in_map_iff in H.
    destruct H as [(i & <- & Hi)|[(i & <- & Hi)|[<-|[<-|[]]]]]; [left; exists x, y, i; apply in_zrange in Hi; repeat split; lia|right; left; exists i; apply in_zrange in Hi; auto|auto|auto].
  Qed.
  Lemma floating x y b : 1 <= x -> 0 <= y -> net_connected (res_boxes k n last X Y) (res_vias k n last X Y) (finger k n last x y 0) b -> b = finger k n last x y 0.
  Proof.
    intros Hx Hy H. apply clos_rt_rtn1 in H. induction H as [|b c (Ib & Ic & Hbc) _ IH]; [reflexivity|]. subst b.
    assert (S0 : step n 0 = 0) by (unfold step; destruct (n =? 2); lia).
    assert (Hsi : forall i, 0 <= i < n -> 0 <= step n i <= n /\ (step n i <= n - 1 \/ n = 2)) by (intros i Hi; unfold step; destruct (Z.eqb_spec n 2); lia).
    destruct Hbc as [Mt|(v & Hv & [J|J])].
    - destruct Mt as (E & px & py & A & B). destruct (arr_in c Ic) as [(x' & y' & i & Hx' & Hy' & Hi & ->)|[(i & Hi & ->)|L]]; [| |rewrite L in E; discriminate E].
      + assert (Hxx : step n i + x' * x_pitch n = x * x_pitch n).
        { geo. facts. apply near_eq with (r_cp k); [lia|]. rewrite S0 in A. lia. }
        assert (i = 0 /\ x' = x) as (-> & ->).
        { unfold x_pitch in Hxx. destruct (Hsi i Hi) as (Hs & Hs2). assert (x' = x) as -> by nia. split; [|reflexivity]. unfold step in Hxx. destruct (n =? 2); nia. }
        assert (y' = y) as ->; [|reflexivity]. geo. facts. destruct A as (_ & A), B as (_ & B). unfold y_pitch in *. set (f := if last mod 2 =? 1 then 3 else 2) in *. assert (2 <= f) by (unfold f; destruct (last mod 2 =? 1); lia).
        destruct (Z.lt_trichotomy y y') as [L|[L|L]]; [|now symmetry|].
        * assert ((y + 1) * (f + last) * r_mp k <= y' * (f + last) * r_mp k) by (apply Z.mul_le_mono_nonneg_r; [lia|]; apply Z.mul_le_mono_nonneg_r; lia).
          assert (2 * r_mp k <= f * r_mp k) by (apply Z.mul_le_mono_nonneg_r; lia). lia.
        * assert ((y' + 1) * (f + last) * r_mp k <= y * (f + last) * r_mp k) by (apply Z.mul_le_mono_nonneg_r; [lia|]; apply Z.mul_le_mono_nonneg_r; lia).
          assert (2 * r_mp k <= f * r_mp k) by (apply Z.mul_le_mono_nonneg_r; lia). lia.
      + exfalso. geo. facts. rewrite S0 in A. destruct A as (A & _), B as (B & _). assert (HA : 1 * x_pitch n <= x * x_pitch n) by (apply Z.mul_le_mono_nonneg_r; unfold x_pitch; lia).
        assert (H1 : i + shift n + 1 <= n) by (unfold shift; destruct (Z.eqb_spec n 2); lia).
        assert ((i + shift n + 1) * r_cp k <= n * r_cp k) by (apply Z.mul_le_mono_nonneg_r; lia). assert ((n + 2) * r_cp k <= x * x_pitch n * r_cp k) by (apply Z.mul_le_mono_nonneg_r; unfold x_pitch in *; lia). lia.
    - exfalso. unfold res_vias in Hv. apply in_flat_map in Hv as (x' & Hx' & Hv). apply in_zrange in Hx'. apply in_flat_map in Hv as (y' & Hy' & Hv). destruct J as (La & _ & A & _).
      assert (HA : 1 * x_pitch n <= x * x_pitch n) by (apply Z.mul_le_mono_nonneg_r; unfold x_pitch; lia).
      destruct Hv as [<-|[<-|[]]].
      + geo. facts. rewrite S0 in A. cbn [plus_via c_x c_y] in A. assert (1 * r_cp k <= x * x_pitch n * r_cp k) by (apply Z.mul_le_mono_nonneg_r; unfold x_pitch in *; lia). lia.
      + unfold minus_via in A. geo. facts. rewrite S0 in A. assert (Hxx : out_col n x' = x * x_pitch n) by (apply near_eq with (r_cp k); lia).
        unfold out_col, x_pitch, shift in Hxx. assert (Hd : (x - x') * (3 + (n - 1)) = n - 1 + (if n =? 2 then 1 else 0)) by lia. clear - Hd Hn.
        assert (Hb : 0 < n - 1 + (if n =? 2 then 1 else 0) < 3 + (n - 1)) by (destruct (n =? 2); lia). set (v := n - 1 + _) in *. set (d := x - x') in *. assert (d <= 0 \/ 1 <= d) as [L|L] by lia; nia.
    - exfalso. unfold res_vias in Hv. apply in_flat_map in Hv as (x' & Hx' & Hv). apply in_flat_map in Hv as (y' & Hy' & Hv). destruct J as (_ & Lb & _). destruct Hv as [<-|[<-|[]]]; discriminate Lb.
  Qed.
End Array.

Lemma res_value yl mohm : 0 < yl -> 67 * yl <= 2 * mohm -> - (67 * yl) <= 2 * (res_number yl mohm * (67 * yl) - mohm) <= 67 * yl.
Proof.
  intros Hy Hm. unfold res_number. pose proof (rhe_near mohm (67 * yl) ltac:(lia)) as H. set (q := round_half_even mohm (67 * yl)) in *. destruct (Z.max_spec 1 q) as [(L & ->)|(L & ->)]; [lia|]. nia.
Qed.
Lemma res_length k yl : res_ok k -> 0 < r_np k -> 0 < r_mp k ->
  yl - r_np k - r_nw k <= res_last k yl * r_mp k < yl + r_np k - r_nw k + 2 * r_mp k.
Proof.
  intros OK Hn Hm. unfold res_last. cbv zeta. pose proof (cap_size (r_np k) (r_nw k) yl Hn) as Hs. unfold cap_number in Hs. fold (res_rows k yl) in Hs. set (r := res_rows k yl) in *.
  pose proof (roundup_ge ((r - 1) * r_np k) (r_mp k) Hm) as H1. pose proof (roundup_lt ((r - 1) * r_np k) (r_mp k) Hm) as H2. unfold roundup in H1, H2. set (q := ((r - 1) * r_np k + r_mp k - 1) / r_mp k) in *.
  destruct (negb _); lia.
Qed.
Lemma res_last_pos k yl : 0 < r_np k -> 0 < r_mp k -> r_nw k < yl -> 1 <= res_last k yl.
Proof.
  intros Hn Hm Hw. unfold res_last. cbv zeta. pose proof (number_ge2 yl (r_np k) (r_nw k) Hn Hw) as Hs. unfold cap_number in Hs. fold (res_rows k yl) in Hs. set (r := res_rows k yl) in *.
  pose proof (roundup_ge ((r - 1) * r_np k) (r_mp k) Hm) as H1. unfold roundup in H1. set (q := ((r - 1) * r_np k + r_mp k - 1) / r_mp k) in *.
  assert (1 <= q) by (assert (1 * r_np k <= (r - 1) * r_np k) by (apply Z.mul_le_mono_nonneg_r; lia); nia). destruct (negb _); lia.
Qed.
