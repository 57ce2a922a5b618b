(** The two plates of the capacitor generator are two nets. *)
From Coq Require Import String ZifyBool Relations.
From Verif Require Import Base.Prelude Model.Lef Model.MosGen Model.Passives Spec.BoxNet Proofs.MosGenP.
Local Open Scope Z_scope.

Lemma near_eq p i j : 0 < p -> - p < i * p - j * p < p -> i = j.
Proof. intros Hp H. nia. Qed.
Lemma roundup_ge x p : 0 < p -> x <= roundup x p * p.
Proof. intros Hp. unfold roundup. pose proof (Z.div_mod (x + p - 1) p ltac:(lia)). pose proof (Z.mod_pos_bound (x + p - 1) p Hp). nia. Qed.
Lemma roundup_lt x p : 0 < p -> roundup x p * p < x + p.
Proof. intros Hp. unfold roundup. pose proof (Z.div_mod (x + p - 1) p ltac:(lia)). pose proof (Z.mod_pos_bound (x + p - 1) p Hp). nia. Qed.

Section Cap.
  Variable k : capdk.
  Hypothesis OK : cap_ok k.
  Variables nx ny : Z.
  Hypothesis Hx : 2 <= nx.
  Hypothesis Hy : 2 <= ny.
  Notation boxes := (cap_boxes k nx ny).

  Inductive cap_box : bool -> box -> Prop :=
  | cb_m1 i s : 0 <= i < nx - 1 -> s = (i mod 2 =? 1) -> cap_box s (m1_finger k ny i)
  | cb_m3 i s : 0 <= i < nx - 1 -> s = (i mod 2 =? 1) -> cap_box s (m3_finger k ny i)
  | cb_e1 : cap_box true (m1_end k nx ny)
  | cb_e3 : cap_box true (m3_end k nx ny)
  | cb_m2 i s : 0 <= i < ny - 1 -> s = (i mod 2 =? 0) -> cap_box s (m2_finger k nx i)
  | cb_e2 : cap_box false (m2_end k nx ny).
  Lemma cap_box_in s b : In (s, b) boxes <-> cap_box s b.
  Proof.
    unfold cap_boxes. rewrite !in_app_iff, in_flat_map, in_map_iff. cbn [In]. split.
    - intros [(i & Hi & H)|[[H|[H|[]]]|[(i & H & Hi)|[H|[]]]]].
      + apply in_zrange in Hi. unfold fingers_at in H. cbn [In] in H. destruct H as [H|[H|[]]]; injection H as <- <-; [now apply cb_m1|now apply cb_m3].
      + injection H as <- <-. constructor.
      + injection H as <- <-. constructor.
      + apply in_zrange in Hi. injection H as <- <-. now apply cb_m2.
      + injection H as <- <-. constructor.
    - intros [i t Hi E|i t Hi E| | |i t Hi E|]; subst.
      + left. exists i. split; [now apply in_zrange|]. unfold fingers_at. cbn [In]. auto.
      + left. exists i. split; [now apply in_zrange|]. unfold fingers_at. cbn [In]. auto.
      + auto. + auto.
      + right. right. left. exists i. split; [reflexivity|now apply in_zrange].
      + auto 6.
  Qed.
  Inductive cap_via : contact -> Prop :=
  | cv_1y i : 0 <= i < nx - 1 -> cap_via (mkCt 1 (i * c1p k) (((i + 1) mod 2) * Y1 k ny * m2p k))
  | cv_2y i : 0 <= i < nx - 1 -> cap_via (mkCt 2 (i * c3p k) (((i + 1) mod 2) * Y1 k ny * m2p k))
  | cv_1x i : 0 <= i < ny - 1 -> cap_via (mkCt 1 (((i + 1) mod 2) * X1 k nx * m1p k) (i * c2p k))
  | cv_2x i : 0 <= i < ny - 1 -> cap_via (mkCt 2 (((i + 1) mod 2) * X1 k nx * m3p k) (i * c2p k)).
  Lemma cap_via_in c : In c (cap_vias k nx ny) <-> cap_via c.
  Proof.
    unfold cap_vias. rewrite in_app_iff, !in_flat_map. cbv zeta. split.
    - intros [(i & Hi & H)|(i & Hi & H)]; apply in_zrange in Hi; cbn [In] in H; destruct H as [<-|[<-|[]]]; now constructor.
    - intros [i Hi|i Hi|i Hi|i Hi]; [left|left|right|right]; exists i; (split; [now apply in_zrange|cbn [In]; auto]).
  Qed.

  Lemma Xge : (nx - 1) * c1p k <= X1 k nx * m1p k.
  Proof. apply roundup_ge, OK. Qed.
  Lemma Yge : (ny - 1) * c2p k <= Y1 k ny * m2p k.
  Proof. apply roundup_ge, OK. Qed.
  Lemma far p i n : 0 < p -> 0 <= i < n - 1 -> i * p + p <= (n - 1) * p.
  Proof. intros Hp Hi. nia. Qed.
  (** The vertical wires near a column, the horizontal wires near a row. *)
  Definition half (p w : Z) := 2 * (w / 2) < p.
  Lemma half_ok w p : 0 <= w < p -> 0 <= w / 2 /\ 2 * (w / 2) < p.
  Proof. intros H. pose proof (Z.div_mod w 2 ltac:(lia)). pose proof (Z.mod_pos_bound w 2 ltac:(lia)). lia. Qed.
  Lemma half_pos w : 0 <= w -> 0 <= w / 2.
  Proof. intros H. apply Z.div_pos; lia. Qed.

  Ltac geo := unfold covers, m1_finger, m3_finger, m1_end, m3_end, m2_finger, m2_end, vwire, hwire in *; cbn [b_x0 b_x1 b_y0 b_y1 b_layer c_x c_y c_layer] in *.
  Ltac facts :=
    pose proof Xge as HX; pose proof Yge as HY; destruct OK as [Q1 Q2 Q3 Q4 Q5 Q6 Q7 Q8 Q9 Q10 Q11 Q12 Q13 Q14]; rewrite ?Q3, ?Q7 in *;
    pose proof (half_ok _ _ Q1) as (Hh1 & Hh1'); pose proof (half_ok _ _ Q2) as (Hh2 & Hh2'); pose proof (half_ok _ _ Q4) as (Hh3 & Hh3');
    pose proof (half_pos _ Q8) as Hp1; pose proof (half_pos _ Q9) as Hp2; pose proof (half_pos _ Q10) as Hp3.

  Lemma cap_meet a b s t : cap_box s a -> cap_box t b -> meet a b -> s = t.
  Proof.
    intros Ha Hb (E & x & y & Ca & Cb).
    destruct Ha as [i s Hi Es|i s Hi Es| | |i s Hi Es|], Hb as [j t Hj Et|j t Hj Et| | |j t Hj Et|]; try discriminate E; try reflexivity; geo; facts; subst.
    - assert (i = j) as -> by (apply near_eq with (c1p k); lia). reflexivity.
    - pose proof (far (c1p k) i nx ltac:(lia) Hi). exfalso. lia.
    - assert (i = j) as -> by (apply near_eq with (c1p k); lia). reflexivity.
    - pose proof (far (c1p k) i nx ltac:(lia) Hi). exfalso. lia.
    - pose proof (far (c1p k) j nx ltac:(lia) Hj). exfalso. lia.
    - pose proof (far (c1p k) j nx ltac:(lia) Hj). exfalso. lia.
    - assert (i = j) as -> by (apply near_eq with (c2p k); lia). reflexivity.
    - pose proof (far (c2p k) i ny ltac:(lia) Hi). exfalso. lia.
    - pose proof (far (c2p k) j ny ltac:(lia) Hj). exfalso. lia.
  Qed.
  (** Which net the wires at a via's column and row belong to. *)
  Lemma at_row b t s i x : cap_box t b -> b_layer b = 2 -> 0 <= i < nx - 1 -> s = (i mod 2 =? 1) -> covers b x (((i + 1) mod 2) * Y1 k ny * m2p k) -> t = s.
  Proof.
    intros Hb L Hi -> C. assert (E : (i + 1) mod 2 = if i mod 2 =? 1 then 0 else 1) by (destruct (Z.eqb_spec (i mod 2) 1); lia). rewrite E in C. clear E.
    destruct Hb as [j t Hj Et|j t Hj Et| | |j t Hj Et|]; try discriminate L; geo; facts; subst.
    - pose proof (far (c2p k) j ny ltac:(lia) Hj). destruct (i mod 2 =? 1).
      + assert (j = 0) as -> by (apply near_eq with (c2p k); lia). reflexivity.
      + exfalso. lia.
    - destruct (i mod 2 =? 1); [|reflexivity]. exfalso. assert (1 * c2p k <= (ny - 1) * c2p k) by (apply Z.mul_le_mono_nonneg_r; lia). lia.
  Qed.
  Lemma at_col b t s i y : cap_box t b -> b_layer b = 1 \/ b_layer b = 3 -> 0 <= i < ny - 1 -> s = (i mod 2 =? 0) -> covers b (((i + 1) mod 2) * X1 k nx * m1p k) y -> t = s.
  Proof.
    intros Hb L Hi -> C. assert (E : (i + 1) mod 2 = if i mod 2 =? 0 then 1 else 0) by (destruct (Z.eqb_spec (i mod 2) 0); lia). rewrite E in C. clear E.
    destruct Hb as [j t Hj Et|j t Hj Et| | |j t Hj Et|]; try (destruct L; discriminate); geo; facts; subst.
    - pose proof (far (c1p k) j nx ltac:(lia) Hj). destruct (i mod 2 =? 0); [exfalso; lia|]. assert (j = 0) as -> by (apply near_eq with (c1p k); lia). reflexivity.
    - pose proof (far (c1p k) j nx ltac:(lia) Hj). destruct (i mod 2 =? 0); [exfalso; lia|]. assert (j = 0) as -> by (apply near_eq with (c1p k); lia). reflexivity.
    - destruct (i mod 2 =? 0); [reflexivity|]. exfalso. assert (1 * c1p k <= (nx - 1) * c1p k) by (apply Z.mul_le_mono_nonneg_r; lia). lia.
    - destruct (i mod 2 =? 0); [reflexivity|]. exfalso. assert (1 * c1p k <= (nx - 1) * c1p k) by (apply Z.mul_le_mono_nonneg_r; lia). lia.
  Qed.
  Lemma at_finger b t i y : cap_box t b -> b_layer b = 1 \/ b_layer b = 3 -> 0 <= i < nx - 1 -> covers b (i * c1p k) y -> t = (i mod 2 =? 1).
  Proof.
    intros Hb L Hi C. destruct Hb as [j t Hj Et|j t Hj Et| | |j t Hj Et|]; try (destruct L; discriminate); geo; facts; subst.
    - assert (i = j) as -> by (apply near_eq with (c1p k); lia). reflexivity.
    - assert (i = j) as -> by (apply near_eq with (c1p k); lia). reflexivity.
    - pose proof (far (c1p k) i nx ltac:(lia) Hi). exfalso. lia.
    - pose proof (far (c1p k) i nx ltac:(lia) Hi). exfalso. lia.
  Qed.
  Lemma at_line b t i x : cap_box t b -> b_layer b = 2 -> 0 <= i < ny - 1 -> covers b x (i * c2p k) -> t = (i mod 2 =? 0).
  Proof.
    intros Hb L Hi C. destruct Hb as [j t Hj Et|j t Hj Et| | |j t Hj Et|]; try discriminate L; geo; facts; subst.
    - assert (i = j) as -> by (apply near_eq with (c2p k); lia). reflexivity.
    - pose proof (far (c2p k) i ny ltac:(lia) Hi). exfalso. lia.
  Qed.
  Lemma cap_join c a b s t : cap_via c -> cap_box s a -> cap_box t b -> via_joins c a b -> s = t.
  Proof.
    intros Hc Ha Hb (La & Lb & Ca & Cb). destruct Hc as [i Hi|i Hi|i Hi|i Hi]; cbn [c_layer c_x c_y] in *.
    - rewrite (at_finger a s i _ Ha ltac:(auto) Hi Ca). symmetry. exact (at_row b t _ i _ Hb Lb Hi eq_refl Cb).
    - rewrite (ok_c3 k OK) in Cb. rewrite (at_finger b t i _ Hb ltac:(auto) Hi Cb). exact (at_row a s _ i _ Ha La Hi eq_refl Ca).
    - rewrite (at_line b t i _ Hb Lb Hi Cb). exact (at_col a s _ i _ Ha ltac:(auto) Hi eq_refl Ca).
    - rewrite (ok_m3 k OK) in Cb. rewrite (at_line a s i _ Ha La Hi Ca). symmetry. exact (at_col b t _ i _ Hb ltac:(auto) Hi eq_refl Cb).
  Qed.
  Lemma cap_self s b : cap_box s b -> meet b b.
  Proof.
    intros Hb. split; [reflexivity|]. exists (b_x0 b), (b_y0 b). facts. assert (H0y : 0 <= Y1 k ny * m2p k) by (assert (0 <= (ny - 1) * c2p k) by (apply Z.mul_nonneg_nonneg; lia); lia).
    assert (H0x : 0 <= X1 k nx * m1p k) by (assert (0 <= (nx - 1) * c1p k) by (apply Z.mul_nonneg_nonneg; lia); lia).
    assert (covers b (b_x0 b) (b_y0 b)) by (destruct Hb as [j t Hj Et|j t Hj Et| | |j t Hj Et|]; geo; unfold pin_ext; try destruct (j =? 0); nia). now split.
  Qed.
  Lemma cap_sound a b s t : In (s, a) boxes -> In (t, b) boxes -> net_connected (map snd boxes) (cap_vias k nx ny) a b -> s = t.
  Proof.
    intros Ha Hb. apply (net_sound (map snd boxes) (cap_vias k nx ny) (fun b s => In (s, b) boxes)).
    - intros c Hc. apply in_map_iff in Hc as ((n & c') & <- & H). exists n. exact H.
    - intros a' b' n m _ _ H1 H2 M. apply cap_box_in in H1, H2. exact (cap_meet a' b' n m H1 H2 M).
    - intros c a' b' n m Hc _ _ H1 H2 J. apply cap_via_in in Hc. apply cap_box_in in H1, H2. exact (cap_join c a' b' n m Hc H1 H2 J).
    - apply in_map_iff. now exists (s, a).
    - intros n H. apply cap_box_in in H, Ha. exact (cap_meet a a n s H Ha (cap_self n a H)).
    - exact Hb.
  Qed.

  Lemma up a b c s t : cap_box s a -> cap_box t b -> cap_via c -> via_joins c a b -> net_connected (map snd boxes) (cap_vias k nx ny) a b.
  Proof.
    intros Ha Hb Hc J. apply rt_step. split; [apply in_map_iff; exists (s, a); split; [reflexivity|now apply cap_box_in]|]. split; [apply in_map_iff; exists (t, b); split; [reflexivity|now apply cap_box_in]|].
    right. exists c. split; [now apply cap_via_in|now left].
  Qed.
  Notation con := (net_connected (map snd boxes) (cap_vias k nx ny)).
  Definition hub (s : bool) : box := if s then m2_finger k nx 0 else m2_end k nx ny.
  Lemma Yin i : 0 <= i < ny - 1 -> 0 <= i * c2p k <= Y1 k ny * m2p k.
  Proof. intros Hi. facts. pose proof (far (c2p k) i ny ltac:(lia) Hi). assert (0 <= i * c2p k) by (apply Z.mul_nonneg_nonneg; lia). lia. Qed.
  Lemma Xin i : 0 <= i < nx - 1 -> 0 <= i * c1p k <= X1 k nx * m1p k.
  Proof. intros Hi. facts. pose proof (far (c1p k) i nx ltac:(lia) Hi). assert (0 <= i * c1p k) by (apply Z.mul_nonneg_nonneg; lia). lia. Qed.
  Lemma finger_hub i s : 0 <= i < nx - 1 -> s = (i mod 2 =? 1) -> con (m1_finger k ny i) (hub s) /\ con (hub s) (m3_finger k ny i).
  Proof.
    intros Hi Es. pose proof (Xin i Hi) as Hxi. pose proof (Yin 0 ltac:(lia)) as Hy0.
    assert (E : (i + 1) mod 2 = if s then 0 else 1) by (subst s; destruct (Z.eqb_spec (i mod 2) 1); lia).
    assert (Hs : cap_box s (hub s)) by (destruct s; [apply cb_m2; [lia|reflexivity]|constructor]). split.
    - apply (up _ _ (mkCt 1 (i * c1p k) (((i + 1) mod 2) * Y1 k ny * m2p k)) s s); [now apply cb_m1|exact Hs|now constructor|]. rewrite E. unfold via_joins, hub. destruct s; geo; facts; unfold pin_ext; cbn [Z.eqb]; lia.
    - apply (up _ _ (mkCt 2 (i * c3p k) (((i + 1) mod 2) * Y1 k ny * m2p k)) s s); [exact Hs|now apply cb_m3|now constructor|]. rewrite E. unfold via_joins, hub. destruct s; geo; facts; unfold pin_ext; cbn [Z.eqb]; lia.
  Qed.
  Lemma col_row i s : 0 <= i < ny - 1 -> s = (i mod 2 =? 0) ->
    con (if s then m1_end k nx ny else m1_finger k ny 0) (m2_finger k nx i) /\ con (m2_finger k nx i) (if s then m3_end k nx ny else m3_finger k ny 0).
  Proof.
    intros Hi Es. pose proof (Yin i Hi) as Hyi. pose proof (Xin 0 ltac:(lia)) as Hx0.
    assert (E : (i + 1) mod 2 = if s then 1 else 0) by (subst s; destruct (Z.eqb_spec (i mod 2) 0); lia).
    assert (H1 : cap_box s (if s then m1_end k nx ny else m1_finger k ny 0)) by (destruct s; [constructor|apply cb_m1; [lia|reflexivity]]).
    assert (H3 : cap_box s (if s then m3_end k nx ny else m3_finger k ny 0)) by (destruct s; [constructor|apply cb_m3; [lia|reflexivity]]). split.
    - apply (up _ _ (mkCt 1 (((i + 1) mod 2) * X1 k nx * m1p k) (i * c2p k)) s s); [exact H1|now apply cb_m2|now constructor|]. rewrite E. unfold via_joins. destruct s; geo; facts; unfold pin_ext; destruct (i =? 0); lia.
    - apply (up _ _ (mkCt 2 (((i + 1) mod 2) * X1 k nx * m3p k) (i * c2p k)) s s); [now apply cb_m2|exact H3|now constructor|]. rewrite E. unfold via_joins. destruct s; geo; facts; unfold pin_ext; destruct (i =? 0); lia.
  Qed.
  Lemma to_hub s b : cap_box s b -> con b (hub s).
  Proof.
    intros [i t Hi Et|i t Hi Et| | |i t Hi Et|].
    - exact (proj1 (finger_hub i t Hi Et)).
    - apply net_sym. exact (proj2 (finger_hub i t Hi Et)).
    - exact (proj1 (col_row 0 true ltac:(lia) eq_refl)).
    - apply net_sym. exact (proj2 (col_row 0 true ltac:(lia) eq_refl)).
    - pose proof (proj1 (col_row i t Hi Et)) as H. destruct t.
      + eapply rt_trans; [apply net_sym; exact H|]. exact (proj1 (col_row 0 true ltac:(lia) eq_refl)).
      + eapply rt_trans; [apply net_sym; exact H|]. exact (proj1 (finger_hub 0 false ltac:(lia) eq_refl)).
    - apply rt_refl.
  Qed.
  Theorem cap_nets a b s t : In (s, a) boxes -> In (t, b) boxes -> (con a b <-> s = t).
  Proof.
    intros Ha Hb. split; [now apply cap_sound|]. intros <-. apply cap_box_in in Ha, Hb. eapply rt_trans; [exact (to_hub s a Ha)|apply net_sym; exact (to_hub s b Hb)].
  Qed.
End Cap.

Lemma rhe_near a b : 0 < b -> - b <= 2 * (b * round_half_even a b - a) <= b.
Proof.
  intros Hb. unfold round_half_even. pose proof (Z.div_mod a b ltac:(lia)) as H. pose proof (Z.mod_pos_bound a b Hb). set (q := a / b) in *. set (r := a mod b) in *.
  destruct (Z.ltb_spec (2 * r) b); [nia|]. destruct (Z.ltb_spec b (2 * r)); [nia|]. destruct (Z.even q); nia.
Qed.
Lemma cap_size p w len : 0 < p -> - p <= (cap_number len p w - 1) * p + w - len <= p.
Proof. intros Hp. unfold cap_number. pose proof (rhe_near (len + p - w) (2 * p) ltac:(lia)). set (q := round_half_even _ _) in *. nia. Qed.
Lemma number_ge2 len p w : 0 < p -> w < len -> 2 <= cap_number len p w.
Proof.
  intros Hp H. unfold cap_number, round_half_even. pose proof (Z.div_mod (len + p - w) (2 * p) ltac:(lia)) as D. pose proof (Z.mod_pos_bound (len + p - w) (2 * p) ltac:(lia)).
  set (q := (len + p - w) / (2 * p)) in *. set (r := (len + p - w) mod (2 * p)) in *. assert (0 <= q) by nia.
  destruct (Z.ltb_spec (2 * r) (2 * p)); [assert (q <> 0) by (intros E; rewrite E in D; lia); lia|]. destruct (Z.ltb_spec (2 * p) (2 * r)); [lia|].
  destruct (Z.even q) eqn:E; [|lia]. assert (q <> 0) by (intros Eq; rewrite Eq in D; lia). lia.
Qed.
