(** C78: a single resistor cell is one serpentine from PLUS to MINUS of the right number of fingers; arrays are not. *)
From Coq Require Import String ZifyBool Relations.
From Verif Require Import Base.Prelude Model.Lef Model.MosGen Model.Passives Spec.BoxNet Proofs.MosGenP Proofs.CapP Proofs.ResP.
Local Open Scope Z_scope.

Section Cell.
  Variable k : respdk.
  Variables y_length mohm : Z.
  Definition count : Z := res_number y_length mohm.
  Definition top : Z := res_last k y_length.
  Definition boxes : list box := res_boxes k count top 1 1.
  Definition cuts : list contact := res_vias k count top 1 1.
  Definition leg (i : Z) : box := finger k count top 0 0 i.
  Definition bend (i : Z) : box := link k count top i.
  Definition plus : box := plus_pin k top 0.
  Definition minus : box := minus_pin k count top 0.
End Cell.
Definition usable (k : respdk) (y_length : Z) : Prop := res_ok k /\ 0 < r_np k /\ 0 < y_length /\ r_nw k < y_length.
Lemma count_pos yl mohm : 1 <= count yl mohm.
Proof. apply Z.le_max_l. Qed.
Lemma top_pos k yl : usable k yl -> 1 <= top k yl.
Proof. intros (OK & H & _ & H'). apply res_last_pos; [exact H|apply OK|exact H']. Qed.

(** Everything drawn belongs to the one resistor. *)
Theorem C78_connected k yl mohm b : usable k yl -> In b (boxes k yl mohm) -> net_connected (boxes k yl mohm) (cuts k yl mohm) (plus k yl) b.
Proof. intros U. apply through; [apply U|apply count_pos|now apply top_pos]. Qed.
Print Assumptions C78_connected.
(** No finger can be bypassed: take any one away and the terminals are apart. *)
Theorem C78_series k yl mohm j bs : usable k yl -> 0 <= j < count yl mohm -> incl bs (boxes k yl mohm) -> ~ In (leg k yl mohm j) bs -> In (plus k yl) bs -> In (minus k yl mohm) bs ->
  ~ net_connected bs (cuts k yl mohm) (plus k yl) (minus k yl mohm).
Proof. intros U Hj Hi. apply cut; [apply U|apply count_pos|now apply top_pos|exact Hi|exact Hj]. Qed.
Print Assumptions C78_series.
(** The whole of each finger carries the current: bend [j] leaves finger [j] at one end and enters the next there, the bends and contacts of a finger are at
    opposite ends, and nothing else on the layer touches. *)
Theorem C78_path k yl mohm i j : usable k yl -> 0 <= i < count yl mohm -> 0 <= j < count yl mohm - 1 ->
  (forall i', 0 <= i' < count yl mohm -> meet (leg k yl mohm i) (leg k yl mohm i') -> i = i') /\
  (forall j', 0 <= j' < count yl mohm - 1 -> meet (bend k yl mohm j) (bend k yl mohm j') -> j = j') /\
  (meet (leg k yl mohm i) (bend k yl mohm j) <-> i = j \/ i = j + 1).
Proof.
  intros U Hi Hj. pose proof (top_pos k yl U). pose proof (count_pos yl mohm). destruct U as (OK & _). split; [intros i' Hi'; now apply ff|]. split; [intros j' Hj'; now apply kk|]. now apply fk.
Qed.
Print Assumptions C78_path.
(** Centre row of a horizontal box. *)
Definition mid_row (b : box) (y : Z) : Prop := b_y0 b + b_y1 b = 2 * y.
Theorem C78_ends k yl mohm : usable k yl ->
  (forall j, 0 <= j -> mid_row (bend k yl mohm j) (if Z.even j then top k yl * r_mp k else 0)) /\
  mid_row (plus k yl) 0 /\ mid_row (minus k yl mohm) (if Z.even (count yl mohm) then 0 else top k yl * r_mp k) /\
  (forall c, In c (cuts k yl mohm) <-> c = mkCt 1 0 0 \/ c = minus_via k (count yl mohm) (top k yl) 0) /\
  (forall i, 0 <= i < count yl mohm -> (covers (leg k yl mohm i) 0 0 <-> i = 0) /\
     (covers (leg k yl mohm i) (c_x (minus_via k (count yl mohm) (top k yl) 0)) (c_y (minus_via k (count yl mohm) (top k yl) 0)) <-> i = count yl mohm - 1)).
Proof.
  intros U. pose proof (top_pos k yl U) as Ht. pose proof (count_pos yl mohm) as Hc. destruct U as (OK & _).
  split; [intros j Hj; unfold mid_row, bend, link, hwire; cbn [b_y0 b_y1]; fold (top k yl); rewrite Zeven_mod; unfold Zeq_bool; destruct (Z.even j) eqn:E; rewrite Zeven_mod in E; unfold Zeq_bool in E|].
  - assert ((j + 1) mod 2 = 1) as -> by (destruct (Z.compare_spec (j mod 2) 0); try discriminate E; lia). destruct (j mod 2 ?= 0); try discriminate E. lia.
  - assert ((j + 1) mod 2 = 0) as -> by (destruct (Z.compare_spec (j mod 2) 0); try discriminate E; lia). destruct (j mod 2 ?= 0); try discriminate E; lia.
  - split; [unfold mid_row, plus, plus_pin, hwire; cbn [b_y0 b_y1]; lia|]. split.
    + unfold mid_row, minus, minus_pin, hwire, out_row; cbn [b_y0 b_y1]. assert (E : count yl mohm mod 2 = if Z.even (count yl mohm) then 0 else 1) by (rewrite Zmod_even; reflexivity). rewrite E. destruct (Z.even _); lia.
    + split; [intros c; apply via_in|]. intros i Hi. split; [now apply f_plus|now apply f_minus].
Qed.
Print Assumptions C78_ends.
(** The number of fingers is the asked resistance over that of a finger of the asked length, to the nearest. *)
Theorem C78_value yl mohm : 0 < yl -> 67 * yl <= 2 * mohm -> - (67 * yl) <= 2 * (count yl mohm * (67 * yl) - mohm) <= 67 * yl.
Proof. apply res_value. Qed.
Print Assumptions C78_value.
(** But the fingers are drawn longer than asked: by up to two tracks. *)
Theorem C78_length k yl : usable k yl -> yl - r_np k - r_nw k <= top k yl * r_mp k < yl + r_np k - r_nw k + 2 * r_mp k.
Proof. intros (OK & H & _). apply res_length; [exact OK|exact H|apply OK]. Qed.
Print Assumptions C78_length.
Definition mockr : respdk := mkRespdk 64 32 84 64 32 36 36.
Lemma mockr_usable yl : 32 < yl -> usable mockr yl.
Proof. intros H. split; [constructor; cbn; lia|]. cbn. lia. Qed.
(** In the PDK, for fingers of 840: 84 too long, so a resistor of 562.8 ohm gets 619 in the fingers alone. *)
Theorem C78_length_refuted : usable mockr 840 /\ count 840 562800 * (67 * 840) = 562800 /\ count 840 562800 * (67 * (top mockr 840 * r_mp mockr)) = 619080.
Proof. split; [now apply mockr_usable|]. now vm_compute. Qed.
Print Assumptions C78_length_refuted.
(** Refuted for arrays: the first finger of a cell in a further column is connected to nothing. *)
Theorem C78_array_refuted k n last X Y x y b : res_ok k -> 2 <= n -> 1 <= last -> 1 <= x < X -> 0 <= y < Y ->
  net_connected (res_boxes k n last X Y) (res_vias k n last X Y) (finger k n last x y 0) b -> b = finger k n last x y 0.
Proof. intros OK Hn Hl Hx Hy. apply floating; auto; lia. Qed.
Print Assumptions C78_array_refuted.
(** A resistor of ten fingers. *)
Example C78_nonvacuous : usable mockr 840 /\ count 840 562800 = 10 /\ length (boxes mockr 840 562800) = 21%nat /\ length (cuts mockr 840 562800) = 2%nat.
Proof. split; [now apply mockr_usable|]. now vm_compute. Qed.
