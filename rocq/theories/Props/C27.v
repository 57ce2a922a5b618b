(** C27: the reported transformation reproduces the solved box. *)
From Coq Require Import String QArith Qround Lqa.
From Verif Require Import Base.Prelude Base.PyDict Model.Transformation Model.RemoveDuplicates Model.Hpwl Model.PlaceGrid Model.SeqPair
  Spec.Geometry Spec.PlaceGridSpec Spec.SeqPairSpec Proofs.HpwlP Proofs.PlaceGridP Proofs.SeqPairP Proofs.SeqPairOrdP Proofs.SeqPairTrP.
Local Open Scope Q_scope.

(** For every solution with integer positions the transformation maps the block's own box, which
    starts at the origin, on the solved box; and it mirrors exactly as the solution says. *)
Theorem C27_box cs im size sp ws pg scale k s n :
  posted cs im size sp ws pg scale = Some k -> feasible k s -> sizes_ok im size -> In n (map fst im) -> int_box (v_box s n) ->
  same_rect (v_box s n) (canonical (hitRect (extract size s n) (mkRect 0 0 (fst (size n)) (snd (size n))))) /\
  unit_tr (extract size s n) /\ (sX (extract size s n) = -1 <-> v_fx s n = true)%Z /\ (sY (extract size s n) = -1 <-> v_fy s n = true)%Z.
Proof.
  intros Hp Hf Hs Hn Hi. split; [|split; [|split]].
  - destruct (inst_facts cs im size sp ws pg scale k s Hp Hf n Hn) as (_ & _ & A & B & _). destruct (Hs n Hn). now apply extract_box.
  - unfold unit_tr, extract. simpl. destruct (v_fx s n), (v_fy s n); auto.
  - unfold extract. simpl. destruct (v_fx s n); split; intros; congruence || discriminate.
  - unfold extract. simpl. destruct (v_fy s n); split; intros; congruence || discriminate.
Qed.

(** Every point of the block, for example a pin corner, lands where the program assumed it. *)
Theorem C27_points size s n r : int_box (v_box s n) ->
  inject_Z (llx (hitRect (extract size s n) r)) == placed_at (qlx (v_box s n)) (v_fx s n) (fst (size n)) (llx r) /\
  inject_Z (urx (hitRect (extract size s n) r)) == placed_at (qlx (v_box s n)) (v_fx s n) (fst (size n)) (urx r) /\
  inject_Z (lly (hitRect (extract size s n) r)) == placed_at (qly (v_box s n)) (v_fy s n) (snd (size n)) (lly r) /\
  inject_Z (ury (hitRect (extract size s n) r)) == placed_at (qly (v_box s n)) (v_fy s n) (snd (size n)) (ury r).
Proof. apply placed_corner. Qed.

Definition c27_sol (x : Q) (f : bool) : sol := mkSol 20 20 (fun _ => mkQb x 3 (x + 6) (3 + 7)) (fun _ => f) (fun _ => true) 0 (fun _ => mkQb 0 0 0 0).
Ltac c27_feas := unfold feasible; cbn [app inst_cons wires_cons flat_map map fst snd];
    repeat match goal with |- Forall _ (_ :: _) => apply Forall_cons | |- Forall _ [] => apply Forall_nil end;
      vm_compute; repeat split; (reflexivity || discriminate).

Example C27_nonvacuous : exists k, posted [] [("A", 0)]%string%nat (fun _ => (6, 7)%Z) ([0], [0])%nat [] (fun _ => []) 1 = Some k /\
  feasible k (c27_sol 6 true) /\ sizes_ok [("A", 0)]%string%nat (fun _ => (6, 7)%Z) /\ int_box (v_box (c27_sol 6 true) "A") /\
  extract (fun _ => (6, 7)%Z) (c27_sol 6 true) "A" = mkTr 12 10 (-1) (-1).
Proof.
  eexists. split; [reflexivity|]. split; [c27_feas|]. split; [intros n _; simpl; lia|]. split; [split; [exists 6%Z|exists 3%Z]; reflexivity|reflexivity].
Qed.

(** A block whose box does not start at the origin is reported in the wrong place. *)
Theorem C27_offset_refuted : exists (r : Rect) s k, ordered r /\
  posted [] [("A", 0)]%string%nat (fun _ => (width r, height r)) ([0], [0])%nat [] (fun _ => []) 1 = Some k /\ feasible k s /\
  int_box (v_box s "A") /\ ~ same_rect (v_box s "A") (canonical (hitRect (extract (fun _ => (width r, height r)) s "A") r)).
Proof.
  exists (mkRect 2 0 8 7), (c27_sol 6 false). eexists. split; [split; simpl; lia|]. split; [reflexivity|]. split; [c27_feas|]. split.
  - split; [exists 6%Z|exists 3%Z]; reflexivity.
  - intros (A & _). vm_compute in A. discriminate.
Qed.

(** Positions that are not integers are rounded, so the reported box differs. *)
Theorem C27_fraction_refuted : exists s k,
  posted [] [("A", 0)]%string%nat (fun _ => (6, 7)%Z) ([0], [0])%nat [] (fun _ => []) 1 = Some k /\ feasible k s /\
  ~ same_rect (v_box s "A") (canonical (hitRect (extract (fun _ => (6, 7)%Z) s "A") (mkRect 0 0 6 7))).
Proof.
  exists (c27_sol (1 # 2) false). eexists. split; [reflexivity|]. split; [c27_feas|]. intros (A & _). vm_compute in A. discriminate.
Qed.

Print Assumptions C27_box.
Print Assumptions C27_points.
Print Assumptions C27_offset_refuted.
Print Assumptions C27_fraction_refuted.
