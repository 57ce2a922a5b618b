(** C25: on-grid blocks stay on grid. *)
From Coq Require Import String QArith Qround Lqa.
From Verif Require Import Base.Prelude Base.PyDict Model.Transformation Model.RemoveDuplicates Model.Hpwl Model.PlaceGrid Model.SeqPair
  Spec.Geometry Spec.PlaceGridSpec Spec.SeqPairSpec Proofs.HpwlP Proofs.PlaceGridP Proofs.SeqPairP Proofs.SeqPairOrdP Proofs.SeqPairTrP.
Local Open Scope Q_scope.

(** The extracted transformation of every solution satisfies every grid constraint. *)
Theorem C25_on_grid cs im size sp ws pg scale k s n c :
  posted cs im size sp ws pg scale = Some k -> feasible k s -> In n (map fst im) -> In c (pg n) -> on_grid c (extract size s n).
Proof.
  intros Hp Hf Hn Hc. destruct (pog_inst cs im size sp ws pg scale k s Hp Hf n c Hn Hc) as (q & Eq & Hq).
  exact (pog_con_accepts size s n c q Eq Hq).
Qed.

(** ... and is accepted by [check_place_on_grid], which decides the constraints. *)
Theorem C25_check cs im size sp ws pg scale k s n :
  posted cs im size sp ws pg scale = Some k -> feasible k s -> In n (map fst im) -> (forall c, In c (pg n) -> (0 < pg_pitch c)%Z) ->
  sp_check (extract size s n) (pg n) = true.
Proof. intros Hp Hf Hn Hpos. apply sp_check_ok; [assumption|]. intros c Hc. exact (C25_on_grid cs im size sp ws pg scale k s n c Hp Hf Hn Hc). Qed.
Theorem C25_check_exact t cs : (forall c, In c cs -> (0 < pg_pitch c)%Z) -> sp_check t cs = true <-> all_on_grid cs t.
Proof. apply sp_check_ok. Qed.

(** A block with a constraint in each direction, flipped in one of them. *)
Definition c25_pg : list pog := [mkPog DH 4 [mkOt [1; 3] [1]; mkOt [2] [-1]]; mkPog DV 6 [mkOt [0] [1; -1]]]%Z.
Definition c25_sol : sol := mkSol 20 20 (fun _ => mkQb 6 3 (6 + 6) (3 + 7)) (fun _ => false) (fun _ => true) 0 (fun _ => mkQb 0 0 0 0).
Example C25_nonvacuous : exists k, posted [] [("A", 0)]%string%nat (fun _ => (6, 7)%Z) ([0], [0])%nat [] (fun _ => c25_pg) 1 = Some k /\ feasible k c25_sol /\
  extract (fun _ => (6, 7)%Z) c25_sol "A" = mkTr 6 10 1 (-1) /\ (forall c, In c c25_pg -> (0 < pg_pitch c)%Z).
Proof.
  eexists. split; [reflexivity|]. split; [|split; [reflexivity|]].
  - unfold feasible. cbn [app inst_cons wires_cons flat_map map fst snd].
    repeat match goal with |- Forall _ (_ :: _) => apply Forall_cons | |- Forall _ [] => apply Forall_nil end;
      try (vm_compute; repeat split; (reflexivity || discriminate)).
    + exists (fun z => Z.eqb z 2), 2%Z. vm_compute. repeat split; try discriminate. repeat constructor; discriminate.
    + exists (fun z => Z.eqb z 0), 1%Z. vm_compute. repeat split; try discriminate. repeat constructor; discriminate.
  - intros c [<-|[<-|[]]]; simpl; lia.
Qed.

(** Nothing legal is excluded: an on-grid integer position at a non-negative coordinate satisfies
    the constraint posted for it. *)
Theorem C25_complete size s n c : pog_ok c -> (forall t, In t (pg_terms c) -> scalings_ok (ot_scalings t) = true) ->
  (0 <= fst (size n))%Z -> (0 <= snd (size n))%Z -> 0 <= qlx (v_box s n) -> 0 <= qly (v_box s n) -> int_box (v_box s n) ->
  on_grid c (extract size s n) -> exists q, pog_con size n c = Some q /\ q s.
Proof. apply pog_con_complete. Qed.
Example C25_complete_nonvacuous : forall c, In c c25_pg -> pog_ok c /\ (forall t, In t (pg_terms c) -> scalings_ok (ot_scalings t) = true) /\
  on_grid c (extract (fun _ => (6, 7)%Z) c25_sol "A").
Proof.
  assert (H : sp_check (extract (fun _ => (6, 7)%Z) c25_sol "A") c25_pg = true) by reflexivity.
  apply sp_check_ok in H; [|intros c [<-|[<-|[]]]; simpl; lia].
  intros c Hc. split; [|split; [|exact (H c Hc)]]; destruct Hc as [<-|[<-|[]]].
  - split; [simpl; lia|]. intros t [<-|[<-|[]]]; simpl; split; intros; lia.
  - split; [simpl; lia|]. intros t [<-|[]]; simpl; split; intros; lia.
  - intros t [<-|[<-|[]]]; reflexivity.
  - intros t [<-|[]]; reflexivity.
Qed.

Print Assumptions C25_on_grid.
Print Assumptions C25_check.
Print Assumptions C25_check_exact.
Print Assumptions C25_complete.
