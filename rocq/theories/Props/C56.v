(** C56: M2 tracks of a transistor array (transistor_array.py:184-198, 253-258). *)
From Coq Require Import String Ascii ZifyBool.
From Verif Require Import Base.Prelude Model.Transformation Model.TransistorArray.
Local Open Scope Z_scope.

Definition dev_net (net1 net2 : term3 -> string) (d : nat) (t : term3) : string := if (d =? 2)%nat then net2 t else net1 t.
(** In row [y] no track is given to two nets. *)
Definition no_short (net1 net2 : term3 -> string) (y : nat) : Prop := forall d e s t, (d = 1 \/ d = 2)%nat -> (e = 1 \/ e = 2)%nat ->
  track net1 net2 y d s = track net1 net2 y e t -> dev_net net1 net2 d s = dev_net net1 net2 e t.

Ltac nets := unfold track, second_pattern, track2, dev_net; intros; repeat match goal with H : (_ = 1 \/ _ = 2)%nat |- _ => destruct H as [-> | ->] end;
  repeat match goal with t : term3 |- _ => destruct t end; cbn [sources find track1 own2 Nat.eqb] in *;
  repeat match goal with H : context [String.eqb ?a ?b] |- _ => destruct (String.eqb_spec a b) end; cbn in *; try lia; try congruence.

(** On even rows the sharing of tracks is safe. *)
Theorem C56_even net1 net2 y : Nat.even y = true -> no_short net1 net2 y.
Proof. intros E d e s t Hd He. unfold track, second_pattern. rewrite !E. nets. Qed.
(** On odd rows it is safe when tracks are shared by like terminals only. *)
Definition like_only (net1 net2 : term3 -> string) : Prop := (net2 TG = net1 TS -> net2 TG = net1 TG) /\ (net2 TS = net1 TD -> net2 TS = net1 TS).
Theorem C56_odd net1 net2 y : Nat.even y = false -> like_only net1 net2 -> no_short net1 net2 y.
Proof. intros E (L1 & L2) d e s t Hd He. unfold track, second_pattern. rewrite !E. nets; try (exfalso; intuition congruence). Qed.
(** Finding: a source of the second device on the drain net of the first (two devices in series) is
    given the track of that drain; on odd rows the patterns are exchanged, and the source of the first
    device and the drain of the second are on one track. *)
Theorem C56_odd_refuted net1 net2 y : Nat.even y = false -> net2 TS = net1 TD -> net2 TS <> net1 TS -> net1 TS <> net2 TD -> track net1 net2 y 1 TS = track net1 net2 y 2 TD /\ ~ no_short net1 net2 y.
Proof.
  intros E H1 H2 H3. assert (T : track net1 net2 y 1 TS = track net1 net2 y 2 TD).
  { unfold track, second_pattern. cbn [Nat.eqb]. rewrite E. cbn [negb]. unfold track2. cbn [sources find]. destruct (String.eqb_spec (net2 TS) (net1 TS)); [contradiction|]. destruct (String.eqb_spec (net2 TS) (net1 TD)); [reflexivity|contradiction]. }
  split; [assumption|]. intros N. apply H3. exact (N 1%nat 2%nat TS TD (or_introl eq_refl) (or_intror eq_refl) T).
Qed.
(** The same with the gate of the second device on the source of the first. *)
Theorem C56_gate_refuted net1 net2 y : Nat.even y = false -> net2 TG = net1 TS -> net2 TG <> net1 TG -> net1 TG <> net2 TS -> track net1 net2 y 1 TG = track net1 net2 y 2 TS /\ ~ no_short net1 net2 y.
Proof.
  intros E H1 H2 H3. assert (T : track net1 net2 y 1 TG = track net1 net2 y 2 TS).
  { unfold track, second_pattern. cbn [Nat.eqb]. rewrite E. cbn [negb]. unfold track2. cbn [sources find]. destruct (String.eqb_spec (net2 TG) (net1 TG)); [contradiction|]. destruct (String.eqb_spec (net2 TG) (net1 TS)); [reflexivity|contradiction]. }
  split; [assumption|]. intros N. apply H3. exact (N 1%nat 2%nat TG TS (or_introl eq_refl) (or_intror eq_refl) T).
Qed.
(** The tracks are those of the cell, 1 to 6. *)
Theorem C56_range net1 net2 y d t : 1 <= track net1 net2 y d t <= 6.
Proof. unfold track, track2. destruct (second_pattern y d); [|destruct t; cbn; lia]. destruct t; cbn [sources find]; repeat match goal with |- context [String.eqb ?a ?b] => destruct (String.eqb a b) end; cbn; lia. Qed.
(** Terminals of the two devices on one net share a track in every row when they are alike. *)
Theorem C56_shared net1 net2 y t : net2 t = net1 t -> track net1 net2 y 1 t = track net1 net2 y 2 t.
Proof. intros E. unfold track, second_pattern, track2. cbn [Nat.eqb]. destruct t; cbn [sources find]; rewrite E, String.eqb_refl; destruct (Nat.even y); reflexivity. Qed.

Local Open Scope string_scope.
(** A differential pair, and two devices in series. *)
Definition dp1 (t : term3) : string := match t with TG => "INP" | TS => "TAIL" | TD => "OUTN" end.
Definition dp2 (t : term3) : string := match t with TG => "INN" | TS => "TAIL" | TD => "OUTP" end.
Definition se1 (t : term3) : string := match t with TG => "B1" | TS => "GND" | TD => "MID" end.
Definition se2 (t : term3) : string := match t with TG => "B2" | TS => "MID" | TD => "OUT" end.
Example C56_nonvacuous : like_only dp1 dp2 /\ track dp1 dp2 0 2 TS = 4 /\ track dp1 dp2 0 2 TG = 5 /\ track dp1 dp2 1 1 TD = 1 /\
  se2 TS = se1 TD /\ se2 TS <> se1 TS /\ se1 TS <> se2 TD /\ track se1 se2 1 1 TS = 2 /\ track se1 se2 1 2 TD = 2.
Proof. unfold like_only. cbn. repeat split; congruence. Qed.
Print Assumptions C56_even.
Print Assumptions C56_odd.
Print Assumptions C56_odd_refuted.
Print Assumptions C56_gate_refuted.
Print Assumptions C56_range.
Print Assumptions C56_shared.
