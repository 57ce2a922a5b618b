(** C50: the wire-length variable bounds the weighted half-perimeter of the placed pins. *)
From Coq Require Import String QArith Qround Lqa.
From Verif Require Import Base.Prelude Base.PyDict Model.Transformation Model.RemoveDuplicates Model.Hpwl Model.PlaceGrid Model.SeqPair
  Spec.Geometry Spec.PlaceGridSpec Spec.SeqPairSpec Proofs.HpwlP Proofs.PlaceGridP Proofs.SeqPairP Proofs.SeqPairOrdP Proofs.SeqPairTrP.
Local Open Scope Q_scope.

(** In every solution the box of a wire covers both corners of every pin of the net, where they
    land after mirroring and placing the block. *)
Theorem C50_covers cs im size sp ws pg scale k s w :
  posted cs im size sp ws pg scale = Some k -> feasible k s -> In w ws ->
  (forall x, In x (pin_xs size s (snd w)) -> qlx (v_wire s (fst w)) <= x /\ x <= qux (v_wire s (fst w))) /\
  (forall y, In y (pin_ys size s (snd w)) -> qly (v_wire s (fst w)) <= y /\ y <= quy (v_wire s (fst w))).
Proof. intros Hp Hf Hw. exact (wire_covers cs im size sp ws pg scale k s Hp Hf w Hw). Qed.

(** The wire-length variable is the priority-weighted sum of the half perimeters of those boxes,
    hence at least the weighted half-perimeter length of the placed pins. *)
Theorem C50_lower_bound cs im size sp ws pg scale k s :
  posted cs im size sp ws pg scale = Some k -> feasible k s ->
  (forall w, In w ws -> (0 <= prio cs (fst w))%Z /\ snd w <> []) ->
  wire_length size (prio cs) s ws <= v_hpwl s.
Proof. intros Hp Hf H. exact (hpwl_ge cs im size sp ws pg scale k s Hp Hf H). Qed.

(** The last NetPriority entry for a net counts; nets without one have weight 1. *)
Theorem C50_priority cs : (forall w, (forall nets z, In (UNetPriority nets z) cs -> ~ In w nets) -> prio cs w = 1%Z) /\
  (forall w nets z, In w nets -> prio (cs ++ [UNetPriority nets z]) w = z).
Proof.
  assert (Hkeep : forall nets w z (d : list (string * Z)), ~ In w nets -> dget String.eqb (fold_left (fun d n => dset String.eqb d n z) nets d) w = dget String.eqb d w).
  { induction nets as [|n nets IH]; intros w z d Hn; [reflexivity|]. simpl. rewrite IH by (intros H; apply Hn; now right).
    unfold dset. rewrite (dget_dupd_other _ String.eqb_eq); [reflexivity|]. intros ->. apply Hn. now left. }
  assert (Hset : forall nets w z (d : list (string * Z)), In w nets -> dget String.eqb (fold_left (fun d n => dset String.eqb d n z) nets d) w = Some z).
  { induction nets as [|n nets IH]; intros w z d Hi; [destruct Hi|]. simpl. destruct (in_dec string_dec w nets) as [H|H]; [auto|].
    rewrite Hkeep by assumption. destruct Hi as [->|Hi]; [|contradiction]. unfold dset. now rewrite (dget_dupd_same _ String.eqb_eq). }
  split.
  - intros w Hw. unfold prio, net_priority.
    assert (G : forall l (d : list (string * Z)), (forall nets z, In (UNetPriority nets z) l -> ~ In w nets) -> dget String.eqb d w = None ->
       dget String.eqb (fold_left (fun d c => match c with UNetPriority nets w => fold_left (fun d n => dset String.eqb d n w) nets d | _ => d end) l d) w = None).
    { induction l as [|c l IH]; intros d Hl Hd; [assumption|]. simpl. apply IH; [intros nets z Hi; apply (Hl nets z); now right|].
      destruct c; try assumption. rewrite Hkeep; [assumption|]. apply (Hl nets weight). now left. }
    rewrite G; auto.
  - intros w nets z Hi. unfold prio, net_priority. rewrite fold_left_app. cbn [fold_left]. now rewrite Hset.
Qed.

(** Two blocks, one mirrored, two nets of which one has priority 3. *)
Definition c50_ws : wires_t := [("n1", [("A", mkRect 0 0 1 1); ("B", mkRect 1 2 2 3)]); ("n2", [("B", mkRect 3 3 4 4)])]%string%Z.
Definition c50_sol : sol :=
  mkSol 8 4 (fun n => if String.eqb n "A" then mkQb 0 0 4 4 else mkQb 4 0 8 4) (fun n => String.eqb n "B") (fun _ => false) 32
    (fun w => if String.eqb w "n1" then mkQb 0 0 7 3 else mkQb 4 3 5 4).
Definition c50_cs : list ucon := [UNetPriority ["n1"]%string 3].
Definition c50_im : imap := [("A", 0); ("B", 1)]%string%nat.
Example C50_nonvacuous : exists k,
  posted c50_cs c50_im (fun _ => (4, 4)%Z) ([0; 1], [0; 1])%nat c50_ws (fun _ => []) 1 = Some k /\ feasible k c50_sol /\
  (forall w, In w c50_ws -> (0 <= prio c50_cs (fst w))%Z /\ snd w <> []) /\
  wire_length (fun _ => (4, 4)%Z) (prio c50_cs) c50_sol c50_ws == 32.
Proof.
  eexists. split; [reflexivity|]. split; [|split; [|vm_compute; reflexivity]].
  - unfold feasible; cbn [app inst_cons wires_cons c50_ws flat_map map fst snd].
    repeat match goal with |- Forall _ (_ :: _) => apply Forall_cons | |- Forall _ [] => apply Forall_nil end;
      vm_compute; repeat split; (reflexivity || discriminate).
  - intros w [<-|[<-|[]]]; vm_compute; split; discriminate.
Qed.

Print Assumptions C50_covers.
Print Assumptions C50_lower_bound.
Print Assumptions C50_priority.
