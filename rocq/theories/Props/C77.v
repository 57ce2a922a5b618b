(** C77: the capacitor generator draws two separate, each fully connected, plates, of the size asked for within a pitch. *)
From Coq Require Import String ZifyBool Relations.
From Verif Require Import Base.Prelude Model.Lef Model.MosGen Model.Passives Spec.BoxNet Proofs.MosGenP Proofs.CapP.
Local Open Scope Z_scope.

(** addCap(length, width): the labelled boxes and the vias. *)
Definition drawn (k : capdk) (length width : Z) : list (bool * box) := cap_boxes k (cap_number length (c1p k) (c1w k)) (cap_number width (c2p k) (c2w k)).
Definition vias (k : capdk) (length width : Z) : list contact := cap_vias k (cap_number length (c1p k) (c1w k)) (cap_number width (c2p k) (c2w k)).
(** Two boxes are connected through the drawn wires and vias. *)
Definition joined (k : capdk) (length width : Z) : box -> box -> Prop := net_connected (map snd (drawn k length width)) (vias k length width).

(** Exactly the boxes labelled with the same plate are connected, if the length and the width exceed one wire. *)
Theorem C77_plates k length width a b s t :
  cap_ok k -> c1w k < length -> c2w k < width -> In (s, a) (drawn k length width) -> In (t, b) (drawn k length width) -> (joined k length width a b <-> s = t).
Proof. intros OK Hl Hw. apply cap_nets; [exact OK|apply number_ge2; [destruct (ok_c1 k OK); lia|exact Hl]|apply number_ge2; [destruct (ok_c2 k OK); lia|exact Hw]]. Qed.
Print Assumptions C77_plates.
(** Both plates exist and both have a pin on M2. *)
Theorem C77_pins k length width : cap_ok k -> c1w k < length -> c2w k < width ->
  (exists a, In (true, a) (drawn k length width) /\ b_layer a = 2) /\ exists b, In (false, b) (drawn k length width) /\ b_layer b = 2.
Proof.
  intros OK Hl Hw. pose proof (number_ge2 width (c2p k) (c2w k) ltac:(destruct (ok_c2 k OK); lia) Hw). unfold drawn. split.
  - exists (m2_finger k (cap_number length (c1p k) (c1w k)) 0). split; [|reflexivity]. apply cap_box_in. apply cb_m2; [lia|reflexivity].
  - eexists. split; [apply cap_box_in, cb_e2|reflexivity].
Qed.
Print Assumptions C77_pins.
(** The comb of n wires is as long as asked, within one pitch; the far wires move out by less than a track. *)
Theorem C77_size k length : cap_ok k -> let n := cap_number length (c1p k) (c1w k) in
  Z.Even n /\ - c1p k <= (n - 1) * c1p k + c1w k - length <= c1p k /\ (n - 1) * c1p k <= last_x k n * m1p k < (n - 1) * c1p k + m1p k.
Proof.
  intros OK n. destruct (ok_c1 k OK), OK. split; [exists (round_half_even (length + c1p k - c1w k) (2 * c1p k)); reflexivity|]. split; [apply cap_size; lia|]. split; [now apply roundup_ge|now apply roundup_lt].
Qed.
Print Assumptions C77_size.
(** The PDK's numbers (layers.json). *)
Definition mock : capdk := mkCapdk 64 32 64 32 64 32 80 32 84 32 80 40 36 36 36 36 36 36.
Lemma mock_ok : cap_ok mock.
Proof. constructor; vm_compute; repeat split; congruence. Qed.
(** Refuted for lengths of one wire or less: no fingers are drawn, and the end wire of PLUS stands on the column of the vias of MINUS. *)
Theorem C77_thin_refuted : exists a b, In (true, a) (drawn mock 32 300) /\ In (false, b) (drawn mock 32 300) /\ joined mock 32 300 a b.
Proof.
  exists (m1_end mock 0 6), (m2_finger mock 0 1). split; [vm_compute; auto 20|]. split; [vm_compute; auto 20|]. apply rt_step. unfold linked. split; [vm_compute; auto 20|]. split; [vm_compute; auto 20|].
  right. exists (mkCt 1 0 64). split; [vm_compute; auto 20|]. left. vm_compute. intuition congruence.
Qed.
Print Assumptions C77_thin_refuted.
(** A capacitor of 300 by 300. *)
Example C77_nonvacuous : cap_ok mock /\ c1w mock < 300 /\ length (drawn mock 300 300) = 18%nat /\ length (vias mock 300 300) = 20%nat.
Proof. split; [exact mock_ok|]. now vm_compute. Qed.
