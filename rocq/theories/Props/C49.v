(** C49: placements found by the integer program satisfy the solver formulae of the schema. *)
From Coq Require Import String QArith Qround Lqa.
From Verif Require Import Base.Prelude Base.PyDict Model.Transformation Model.RemoveDuplicates Model.Hpwl Model.PlaceGrid Model.SeqPair
  Spec.Geometry Spec.PlaceGridSpec Spec.SeqPairSpec Proofs.HpwlP Proofs.PlaceGridP Proofs.SeqPairP Proofs.SeqPairOrdP Proofs.SeqPairTrP.
Local Open Scope Q_scope.

(** Boxes in nanometres; [honoured] lists the constraints for which the claim holds. *)
Theorem C49_formulae cs im size sp ws pg scale max sps k s c :
  imap_ok im -> sizes_ok im size -> enumerate_sequence_pairs cs im max = Some sps -> In sp sps ->
  posted cs im size sp ws pg scale = Some k -> feasible k s -> (1 <= scale)%Z -> In c cs -> honoured im size c ->
  translate (fun n => nm scale (v_box s n)) (map fst im) (nm scale (mkQb 0 0 (v_W s) (v_H s))) c.
Proof.
  intros Him Hsz He Hi Hp Hf Hsc Hc Hh.
  exact (honoured_ok cs im size sp ws pg scale max sps k s Him Hsz He Hi Hp Hf Hsc c Hc Hh).
Qed.

Definition c49_im : imap := [("A", 0); ("B", 1); ("C", 2)]%string%nat.
Definition c49_size (h : Z) (n : string) : Z * Z := (4, if String.eqb n "B" then h else 2)%Z.
Definition c49_cs : list ucon :=
  [UOrder OLR false ["A"; "B"]; UOrder ONone false ["B"; "C"]; UAlign HBottom ["A"; "B"]; USpread true 1 ["A"; "B"]; UBoundary (Some 100) (Some 50) None (Some 0);
   USymm true [["A"; "B"]; ["C"]]]%string.
Definition c49_sol (h : Q) (gap y : Q) : sol :=
  mkSol 30 30 (fun n => if String.eqb n "A" then mkQb 0 y 4 (y + 2) else if String.eqb n "B" then mkQb (4 + gap) y (8 + gap) (y + h) else mkQb (2 + gap / 2) 0 (6 + gap / 2) 2)
    (fun _ => false) (fun _ => false) 0 (fun _ => mkQb 0 0 0 0).
Ltac feas49 := unfold feasible; cbn [app inst_cons wires_cons flat_map map fst snd];
    repeat match goal with
           | |- Forall _ (_ :: _) => apply Forall_cons
           | |- Forall _ [] => apply Forall_nil
           | |- Forall _ (_ ++ _) => apply Forall_app; split
           | |- Forall _ (bound_con _ _) => unfold bound_con
           | |- Forall _ (if ?b then _ else _) => replace b with false by reflexivity; cbv iota
           | |- Forall _ (map _ (combos _)) => cbn [combos map app]
           end;
      try (vm_compute; repeat split; (reflexivity || discriminate)).

Lemma c49_im_ok : imap_ok c49_im.
Proof. split; [|reflexivity]. repeat constructor; simpl; intuition discriminate. Qed.
Lemma c49_sizes h : (0 <= h)%Z -> sizes_ok c49_im (c49_size h).
Proof. intros Hh n _. unfold c49_size. simpl. destruct (String.eqb n "B"); lia. Qed.

Example C49_nonvacuous : imap_ok c49_im /\ sizes_ok c49_im (c49_size 2) /\
  exists sps k, enumerate_sequence_pairs c49_cs c49_im 100 = Some sps /\ In ([0; 1; 2], [2; 0; 1])%nat sps /\
    posted c49_cs c49_im (c49_size 2) ([0; 1; 2], [2; 0; 1])%nat [] (fun _ => []) 2 = Some k /\ feasible k (c49_sol 2 2 2) /\
    Forall (honoured c49_im (c49_size 2)) c49_cs.
Proof.
  split; [exact c49_im_ok|]. split; [now apply c49_sizes|]. eexists. eexists. split; [vm_compute; reflexivity|]. split; [vm_compute; tauto|]. split; [reflexivity|]. split.
  - feas49.
    + exists false. vm_compute. split; discriminate.
    + exists 5. split; [vm_compute; split; discriminate|]. repeat constructor.
  - repeat (apply Forall_cons); try apply Forall_nil; simpl; try tauto.
    + split; [reflexivity|]. repeat split; discriminate.
    + split; [reflexivity|]. split; [discriminate|]. split; [discriminate|]. intros _. split; [|repeat constructor; tauto]. repeat constructor; simpl; intuition discriminate.
    + split; [lia|]. repeat constructor; tauto.
    + repeat split; try tauto; intros w [= <-]; reflexivity.
Qed.

(** Not honoured: abutment. *)
Theorem C49_abut_refuted : exists cs im size sp sps k s c, imap_ok im /\ sizes_ok im size /\ enumerate_sequence_pairs cs im 100 = Some sps /\ In sp sps /\
  posted cs im size sp [] (fun _ => []) 1 = Some k /\ feasible k s /\ In c cs /\
  ~ translate (fun n => nm 1 (v_box s n)) (map fst im) (nm 1 (mkQb 0 0 (v_W s) (v_H s))) c.
Proof.
  exists [UOrder OLR true ["A"; "B"]]%string, c49_im, (c49_size 2), ([0; 1; 2], [2; 0; 1])%nat. eexists. eexists. exists (c49_sol 2 2 2). eexists.
  split; [exact c49_im_ok|]. split; [now apply c49_sizes|]. split; [vm_compute; reflexivity|]. split; [vm_compute; tauto|]. split; [reflexivity|].
  split; [feas49|]. split; [left; reflexivity|]. intros H. apply Forall_inv in H. vm_compute in H. discriminate.
Qed.
(** ... the undirected horizontal (and vertical) order: *)
Theorem C49_unspecific_refuted : exists cs im size sp sps k s c, imap_ok im /\ sizes_ok im size /\ enumerate_sequence_pairs cs im 100 = Some sps /\ In sp sps /\
  posted cs im size sp [] (fun _ => []) 1 = Some k /\ feasible k s /\ In c cs /\
  ~ translate (fun n => nm 1 (v_box s n)) (map fst im) (nm 1 (mkQb 0 0 (v_W s) (v_H s))) c.
Proof.
  exists [UOrder OHoriz false ["A"; "C"]]%string, c49_im, (c49_size 2), ([0; 1; 2], [2; 0; 1])%nat. eexists. eexists. exists (c49_sol 2 2 2). eexists.
  split; [exact c49_im_ok|]. split; [now apply c49_sizes|]. split; [vm_compute; reflexivity|]. split; [vm_compute; tauto|]. split; [reflexivity|].
  split; [feas49|]. split; [left; reflexivity|]. intros H. apply Forall_inv in H. vm_compute in H. intuition.
Qed.
(** ... the halo of a boundary: *)
Theorem C49_halo_refuted : exists cs im size sp sps k s c, imap_ok im /\ sizes_ok im size /\ enumerate_sequence_pairs cs im 100 = Some sps /\ In sp sps /\
  posted cs im size sp [] (fun _ => []) 1 = Some k /\ feasible k s /\ In c cs /\
  ~ translate (fun n => nm 1 (v_box s n)) (map fst im) (nm 1 (mkQb 0 0 (v_W s) (v_H s))) c.
Proof.
  exists [UBoundary (Some 100) (Some 100) (Some (1 # 1000)) (Some (1 # 1000))], c49_im, (c49_size 2), ([0; 1; 2], [2; 0; 1])%nat. eexists. eexists. exists (c49_sol 2 2 2). eexists.
  split; [exact c49_im_ok|]. split; [now apply c49_sizes|]. split; [vm_compute; reflexivity|]. split; [vm_compute; tauto|]. split; [reflexivity|].
  split; [feas49|]. split; [left; reflexivity|]. intros (_ & _ & H). destruct (H _ (or_introl eq_refl)) as (H1 & _). destruct (H1 _ eq_refl) as (H2 & _). vm_compute in H2. now apply H2.
Qed.
(** ... symmetric pairs of different size, which are aligned at their lower edges instead of
    their centres: *)
Theorem C49_symmetry_refuted : exists cs im size sp sps k s c, imap_ok im /\ sizes_ok im size /\ enumerate_sequence_pairs cs im 100 = Some sps /\ In sp sps /\
  posted cs im size sp [] (fun _ => []) 1 = Some k /\ feasible k s /\ In c cs /\
  ~ translate (fun n => nm 1 (v_box s n)) (map fst im) (nm 1 (mkQb 0 0 (v_W s) (v_H s))) c.
Proof.
  exists [USymm true [["A"; "B"]]]%string, c49_im, (c49_size 6), ([0; 1; 2], [2; 0; 1])%nat. eexists. eexists. exists (c49_sol 6 2 2). eexists.
  split; [exact c49_im_ok|]. split; [now apply c49_sizes|]. split; [vm_compute; reflexivity|]. split; [vm_compute; tauto|]. split; [reflexivity|].
  split; [feas49; exists 5; split; [vm_compute; split; discriminate|repeat constructor]|]. split; [left; reflexivity|]. intros (H & _). apply Forall_inv in H. vm_compute in H. destruct H as (H & _). now apply H.
Qed.
(** In the other direction the program is too strict: the width bound, given in micrometres, is
    compared with a width in scaled nanometres, so a block 20 nm wide under a bound of 10 um
    satisfies the formula but has no solution. *)
Theorem C49_boundary_units_refuted : exists c size, translate (fun _ => mkQb 0 0 20 1) ["A"]%string (mkQb 0 0 20 1) c /\
  size "A"%string = (20, 1)%Z /\
  exists k, posted [c] [("A", 0)]%string%nat size ([0], [0])%nat [] (fun _ => []) 1 = Some k /\ forall s, ~ feasible k s.
Proof.
  exists (UBoundary (Some 10) None None None), (fun _ => (20, 1)%Z). split; [|split; [reflexivity|]].
  - split; [|split].
    + intros w [= <-]. vm_compute. discriminate.
    + intros h [=].
    + intros b _. split; intros h [=].
  - eexists. split; [reflexivity|]. intros s Hf. set (k := _ : list con) in Hf.
    assert (Hp : posted [UBoundary (Some 10) None None None] [("A", 0)]%string%nat (fun _ => (20, 1)%Z) ([0], [0])%nat [] (fun _ => []) 1 = Some k) by reflexivity.
    destruct (inst_facts _ _ _ _ _ _ _ _ _ Hp Hf "A"%string ltac:(simpl; tauto)) as (A1 & _ & A3 & _ & A5 & _).
    pose proof (user_in _ _ _ _ _ _ _ _ _ Hp Hf _ _ (fun s => v_W s <= 10) ltac:(simpl; auto) eq_refl (or_introl eq_refl)) as B.
    simpl in B, A3. change (inject_Z 20) with 20 in *. lra.
Qed.

Print Assumptions C49_formulae.
Print Assumptions C49_abut_refuted.
Print Assumptions C49_unspecific_refuted.
Print Assumptions C49_halo_refuted.
Print Assumptions C49_symmetry_refuted.
Print Assumptions C49_boundary_units_refuted.
