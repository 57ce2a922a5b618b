(** C22: merging grid constraints is conjunction. *)
From Coq Require Import String ZifyBool.
From Verif Require Import Base.Prelude Model.Transformation Model.PlaceGrid Spec.Geometry Spec.PlaceGridSpec Proofs.PlaceGridP.
Local Open Scope Z_scope.

(** Merging any non-empty list of validated constraints of one direction succeeds; the result is
    validated, its pitch is the least common multiple, and it accepts exactly the placements that
    every original accepts. *)
Theorem C22_merge_conjunction rs d : rs <> [] -> (forall r, In r rs -> pog_ok r /\ pg_dir r = d) ->
  exists m, merge rs = Some m /\ pog_ok m /\ pg_dir m = d /\ least_multiple (pg_pitch m) (map pg_pitch rs) /\
    forall o s, (s = 1 \/ s = -1) -> accepts m o s <-> forall r, In r rs -> accepts r o s.
Proof.
  intros Hne H. destruct rs as [|r0 rs]; [congruence|].
  assert (E0 : pg_dir r0 = d) by (apply H; now left).
  destruct (merge_ok r0 rs) as (m & E & A & B & C & D).
  - intros r Hr. now apply H.
  - intros r Hr. rewrite E0. now apply H.
  - exists m. rewrite <- E0. auto.
Qed.

(** [check] decides acceptance of validated constraints. *)
Theorem C22_check r x s : pog_ok r -> pog_check r x s = true <-> accepts r x s.
Proof. apply check_accepts. Qed.

(** ... and acceptance depends only on the residue modulo the pitch. *)
Theorem C22_periodic r o k s : accepts r (o + k * pg_pitch r) s <-> accepts r o s.
Proof.
  split; apply accepts_shift; [exists k|exists (- k)]; lia.
Qed.

(** Different directions are rejected. *)
Theorem C22_directions r1 r2 : pg_dir r1 <> pg_dir r2 -> merge [r1; r2] = None.
Proof.
  intros H. unfold merge. cbn [map lcm fold_left forallb]. replace (gdir_eqb (pg_dir r1) (pg_dir r2)) with false.
  - rewrite !andb_false_r. reflexivity.
  - symmetry. destruct (gdir_eqb (pg_dir r1) (pg_dir r2)) eqn:E; [apply gdir_eqb_ok in E; contradiction|reflexivity].
Qed.

Example C22_nonvacuous :
  let a := mkPog DH 4 [mkOt [1; 3] [1; -1]] in let b := mkPog DH 6 [mkOt [3] [1]; mkOt [1] [-1]] in
  pog_ok a /\ pog_ok b /\ merge [a; b] = Some (mkPog DH 12 [mkOt [3; 9] [1]; mkOt [1; 7] [-1]]).
Proof.
  cbv zeta. split; [|split; [|vm_compute; reflexivity]]; (split; [simpl; lia|]); simpl.
  - intros t [<-|[]]; simpl; split; intros; lia.
  - intros t [<-|[<-|[]]]; simpl; split; intros; lia.
Qed.

(** Offsets outside [0, pitch), which the schema rejects, would break [check] and [merge]: *)
Theorem C22_unnormalised_refuted : exists r r2 x, pog_ok r2 /\ accepts r x 1 /\ accepts r2 x 1 /\ pog_check r x 1 = false /\
  (merge [r; r2] = None \/ exists m, merge [r; r2] = Some m /\ ~ accepts m x 1).
Proof.
  exists (mkPog DV 4 [mkOt [9] [1]]), (mkPog DV 2 [mkOt [1] [1]]), 1. split; [|split; [|split; [|split; [reflexivity|]]]].
  - split; [simpl; lia|]. intros t [<-|[]]; simpl; split; intros; lia.
  - exists (mkOt [9] [1]), 9. simpl. repeat split; auto. exists (-2). reflexivity.
  - exists (mkOt [1] [1]), 1. simpl. repeat split; auto. exists 0. reflexivity.
  - right. eexists. split; [vm_compute; reflexivity|]. intros (t & off & [] & _).
Qed.

Print Assumptions C22_merge_conjunction.
Print Assumptions C22_check.
Print Assumptions C22_periodic.
Print Assumptions C22_directions.
Print Assumptions C22_unnormalised_refuted.
