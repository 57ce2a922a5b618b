(** C23: sequence-pair placements never overlap. *)
From Coq Require Import String QArith Qround Lqa.
From Verif Require Import Base.Prelude Base.PyDict Model.Transformation Model.RemoveDuplicates Model.Hpwl Model.PlaceGrid Model.SeqPair
  Spec.Geometry Spec.PlaceGridSpec Spec.SeqPairSpec Proofs.HpwlP Proofs.PlaceGridP Proofs.SeqPairP Proofs.SeqPairOrdP.
Local Open Scope Q_scope.

(** Every feasible solution for any pair of permutations: boxes have the right size, are pairwise
    disjoint and lie inside the bounding box. *)
Theorem C23_solution cs im size sp ws pg scale k s :
  imap_ok im -> sp_ok im sp -> posted cs im size sp ws pg scale = Some k -> feasible k s ->
  (forall n, In n (map fst im) -> q_inside (v_W s) (v_H s) (v_box s n) /\
     qux (v_box s n) - qlx (v_box s n) == inject_Z (fst (size n)) /\ quy (v_box s n) - qly (v_box s n) == inject_Z (snd (size n))) /\
  (forall a b, In a (map fst im) -> In b (map fst im) -> a <> b -> q_disjoint (v_box s a) (v_box s b)).
Proof.
  intros Him Hsp Hp Hf. split.
  - intros n Hn. split; [exact (inside cs im size sp ws pg scale k s Hp Hf n Hn)|].
    destruct (inst_facts cs im size sp ws pg scale k s Hp Hf n Hn) as (_ & _ & A & B & _). auto.
  - intros a b Ha Hb Hne. exact (disjoint cs im size sp ws pg scale k s Him Hsp Hp Hf a b Ha Hb Hne).
Qed.

(** ... in particular for the enumerated pairs. *)
Theorem C23_enumerated cs im max sps sp : imap_ok im -> enumerate_sequence_pairs cs im max = Some sps -> In sp sps -> sp_ok im sp.
Proof. intros _ E H. exact (enum_sp_ok cs im max sps sp E H). Qed.

(** The reported (rounded) placement: for integer positions the reported transformations place
    the blocks disjointly and inside the reported width and height. *)
Theorem C23_reported cs im size sp ws pg scale k s :
  imap_ok im -> sizes_ok im size -> sp_ok im sp -> posted cs im size sp ws pg scale = Some k -> feasible k s ->
  (forall n, In n (map fst im) -> int_box (v_box s n)) ->
  let rep n := canonical (hitRect (extract size s n) (mkRect 0 0 (fst (size n)) (snd (size n)))) in
  (forall n, In n (map fst im) -> (0 <= llx (rep n) /\ urx (rep n) <= out_width s /\ 0 <= lly (rep n) /\ ury (rep n) <= out_height s)%Z) /\
  (forall a b, In a (map fst im) -> In b (map fst im) -> a <> b -> box_disjoint (rep a) (rep b)).
Proof.
  intros Him Hsz Hsp Hp Hf Hint rep. destruct (C23_solution cs im size sp ws pg scale k s Him Hsp Hp Hf) as (Hin & Hd).
  assert (Hrep : forall n, In n (map fst im) -> same_rect (v_box s n) (rep n)).
  { intros n Hn. destruct (Hin n Hn) as (_ & A & B). destruct (Hsz n Hn). apply extract_box; auto. }
  assert (Hord : forall n, In n (map fst im) -> (llx (rep n) <= urx (rep n) /\ lly (rep n) <= ury (rep n))%Z).
  { intros n Hn. destruct (Hrep n Hn) as (A & B & C & D). destruct (Hin n Hn) as (_ & E & F). destruct (Hsz n Hn) as (G & H).
    rewrite Zle_Qle in G, H. rewrite A, C in E. rewrite B, D in F. change (inject_Z 0) with 0 in *. split; rewrite Zle_Qle; lra. }
  split.
  - intros n Hn. destruct (Hin n Hn) as ((A & B & C & D) & _). destruct (Hrep n Hn) as (E & F & G & H).
    repeat split; try (rewrite Zle_Qle; change (inject_Z 0) with 0; lra); apply py_round_ge; lra.
  - intros a b Ha Hb Hne. destruct (Hrep a Ha) as (A1 & A2 & A3 & A4). destruct (Hrep b Hb) as (B1 & B2 & B3 & B4).
    destruct (Hord a Ha). destruct (Hord b Hb). unfold box_disjoint.
    rewrite !Z.max_r, !Z.min_l by lia.
    destruct (Hd a b Ha Hb Hne) as [D|[D|[D|D]]]; rewrite ?A1, ?A2, ?A3, ?A4, ?B1, ?B2, ?B3, ?B4, <- Zle_Qle in D; auto.
Qed.

(** A problem with four blocks, two orders and a symmetry. *)
Definition c23_cs : list ucon := [UOrder OLR false ["L"; "X"]; UOrder OLR false ["Y"; "Z"]; USymm true [["X"]; ["Y"]]]%string.
Definition c23_im : imap := [("L", 0); ("X", 1); ("Y", 2); ("Z", 3)]%string%nat.
Definition c23_size (odd : bool) (n : string) : Z * Z := (if String.eqb n "X" then 2%Z else if odd then 1%Z else 2%Z, 1%Z).
Definition c23_sp : list nat * list nat := ([0; 1; 2; 3], [2; 3; 0; 1])%nat.
Definition c23_box (x y w : Q) : qbox := mkQb x y (x + w) (y + 1).
Definition c23_sol (w : Q) (yx : Q) : sol :=
  mkSol (yx + w + w) 2 (fun n => if String.eqb n "L" then c23_box 0 1 w else if String.eqb n "X" then c23_box w 1 2
           else if String.eqb n "Y" then c23_box yx 0 w else c23_box (yx + w) 0 w) (fun _ => false) (fun _ => false) 0 (fun _ => mkQb 0 0 0 0).

Ltac feas_step :=
  repeat match goal with
         | |- Forall _ (_ :: _) => apply Forall_cons
         | |- Forall _ [] => apply Forall_nil
         | |- _ /\ _ => split
         end.
Ltac feas := feas_step; try (vm_compute; repeat split; (reflexivity || discriminate)).

Lemma c23_ok : imap_ok c23_im /\ (forall odd, sizes_ok c23_im (c23_size odd)) /\ sp_ok c23_im c23_sp /\
  (exists sps, enumerate_sequence_pairs c23_cs c23_im 100 = Some sps /\ In c23_sp sps).
Proof.
  split; [|split; [|split]].
  - split; [|reflexivity]. repeat constructor; simpl; intuition discriminate.
  - intros odd n _. unfold c23_size. simpl. destruct (String.eqb n "X"), odd; lia.
  - split; simpl; [reflexivity|]. transitivity ([2; 3] ++ [0; 1])%nat; [reflexivity|]. apply Permutation_app_comm.
  - eexists. split; [vm_compute; reflexivity|]. vm_compute. tauto.
Qed.

Example C23_nonvacuous : imap_ok c23_im /\ sizes_ok c23_im (c23_size false) /\ sp_ok c23_im c23_sp /\
  exists k, posted c23_cs c23_im (c23_size false) c23_sp [] (fun _ => []) 1 = Some k /\ feasible k (c23_sol 2 2) /\
    forall n, In n (map fst c23_im) -> int_box (v_box (c23_sol 2 2) n).
Proof.
  destruct c23_ok as (A & B & C & _). split; [exact A|]. split; [apply B|]. split; [exact C|].
  eexists. split; [reflexivity|]. split.
  - unfold feasible. cbn [app inst_cons wires_cons flat_map map fst snd]. feas. exists 3. split; [vm_compute; split; discriminate|]. repeat constructor.
  - intros n [<-|[<-|[<-|[<-|[]]]]]; (split; [|(exists 1%Z; reflexivity) || (exists 0%Z; reflexivity)]); [exists 0%Z|exists 2%Z|exists 2%Z|exists 4%Z]; reflexivity.
Qed.

(** Positions are real valued and rounded one by one: with odd widths an optimal solution can
    have half-integer positions, and the reported boxes then overlap. *)
Theorem C23_rounding_refuted : exists cs im size sp k s, imap_ok im /\ sizes_ok im size /\ sp_ok im sp /\
  (exists sps, enumerate_sequence_pairs cs im 100 = Some sps /\ In sp sps) /\
  posted cs im size sp [] (fun _ => []) 1 = Some k /\ feasible k s /\
  (forall s', feasible k s' -> objective [] s <= objective [] s') /\
  exists a b, In a (map fst im) /\ In b (map fst im) /\ a <> b /\
    ~ box_disjoint (hitRect (extract size s a) (mkRect 0 0 (fst (size a)) (snd (size a)))) (hitRect (extract size s b) (mkRect 0 0 (fst (size b)) (snd (size b)))).
Proof.
  destruct c23_ok as (A & B & C & E). exists c23_cs, c23_im, (c23_size true), c23_sp. eexists. exists (c23_sol 1 (3 # 2)).
  split; [exact A|]. split; [apply B|]. split; [exact C|]. split; [exact E|]. split; [reflexivity|]. split; [|split].
  - unfold feasible. cbn [app inst_cons wires_cons flat_map map fst snd]. feas. exists 2. split; [vm_compute; split; discriminate|]. repeat constructor.
  - intros s' Hf. set (k := _ : list con) in Hf.
    assert (Hp : posted c23_cs c23_im (c23_size true) c23_sp [] (fun _ => []) 1 = Some k) by reflexivity.
    pose proof (inst_facts _ _ _ _ _ _ _ _ _ Hp Hf) as F.
    destruct (F "L"%string ltac:(simpl; tauto)) as (L1 & L2 & L3 & L4 & L5 & L6). destruct (F "X"%string ltac:(simpl; tauto)) as (X1 & X2 & X3 & X4 & X5 & X6).
    destruct (F "Y"%string ltac:(simpl; tauto)) as (Y1 & Y2 & Y3 & Y4 & Y5 & Y6). destruct (F "Z"%string ltac:(simpl; tauto)) as (Z1 & Z2 & Z3 & Z4 & Z5 & Z6).
    assert (LX : qux (v_box s' "L") <= qlx (v_box s' "X")) by (apply (proj1 (Forall_forall _ _) Hf (fun s => qux (v_box s "L") <= qlx (v_box s "X"))); subst k; simpl; tauto).
    assert (YZ : qux (v_box s' "Y") <= qlx (v_box s' "Z")) by (apply (proj1 (Forall_forall _ _) Hf (fun s => qux (v_box s "Y") <= qlx (v_box s "Z"))); subst k; simpl; tauto).
    assert (XY : quy (v_box s' "Y") <= qly (v_box s' "X")) by (apply (proj1 (Forall_forall _ _) Hf (fun s => quy (v_box s "Y") <= qly (v_box s "X"))); subst k; simpl; tauto).
    destruct (user_in _ _ _ _ _ _ _ _ _ Hp Hf (USymm true [["X"]; ["Y"]]%string) _ _ ltac:(simpl; tauto) eq_refl (or_introl eq_refl)) as (line & _ & Hs).
    rewrite Forall_forall in Hs. pose proof (Hs _ (or_introl eq_refl)) as S1. pose proof (Hs _ (or_intror (or_introl eq_refl))) as S2. simpl in S1, S2.
    assert (HP : 0 <= v_hpwl s') by (apply (wire_in _ _ _ _ _ _ _ _ _ Hp Hf (fun s => in_bounds (v_hpwl s))); now left).
    unfold objective. cbn [c23_sol v_W v_H v_hpwl].
    change (inject_Z (fst (c23_size true "L"))) with 1 in *. change (inject_Z (fst (c23_size true "X"))) with 2 in *.
    change (inject_Z (fst (c23_size true "Y"))) with 1 in *. change (inject_Z (fst (c23_size true "Z"))) with 1 in *.
    change (inject_Z (snd (c23_size true "X"))) with 1 in *. change (inject_Z (snd (c23_size true "Y"))) with 1 in *. lra.
  - exists "Y"%string, "Z"%string. split; [simpl; tauto|]. split; [simpl; tauto|]. split; [discriminate|]. vm_compute. intuition.
Qed.

Print Assumptions C23_solution.
Print Assumptions C23_enumerated.
Print Assumptions C23_reported.
Print Assumptions C23_rounding_refuted.
