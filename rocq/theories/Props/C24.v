(** C24: enumerated sequence pairs respect the order constraints. *)
From Coq Require Import String QArith Qround Lqa.
From Verif Require Import Base.Prelude Base.PyDict Model.Transformation Model.RemoveDuplicates Model.Hpwl Model.PlaceGrid Model.SeqPair
  Spec.Geometry Spec.PlaceGridSpec Spec.SeqPairSpec Proofs.HpwlP Proofs.PlaceGridP Proofs.SeqPairP Proofs.SeqPairOrdP.
Local Open Scope Q_scope.

(** Every solution for an enumerated pair orders every two instances of an Order constraint,
    adjacent in its list or not. *)
Theorem C24_order cs im max sps sp size ws pg scale k s d abut xs a b :
  imap_ok im -> enumerate_sequence_pairs cs im max = Some sps -> In sp sps ->
  posted cs im size sp ws pg scale = Some k -> feasible k s ->
  In (UOrder d abut xs) cs -> listed xs a b -> in_order d (v_box s a) (v_box s b).
Proof. intros Him He Hi Hp Hf Hc Hl. exact (listed_in_order cs im max sps sp Him He Hi size ws pg scale k s d abut xs a b Hp Hf Hc Hl). Qed.

(** Conversely no pair that respects the orders is missing, if the limit is large enough. *)
Theorem C24_complete cs im sp : imap_ok im -> sp_ok im sp -> respects cs im sp ->
  (forall d ab xs x, In (UOrder d ab xs) cs -> In x xs -> In x (map fst im)) ->
  exists M, forall max, (M <= max)%nat -> exists sps, enumerate_sequence_pairs cs im max = Some sps /\ In sp sps.
Proof. apply enum_complete. Qed.

Lemma expand_in hs cs h c : SeqPair.expand hs = Some cs -> In h hs -> (exists l, expand1 h = Some l /\ In c l) -> In c cs.
Proof.
  unfold SeqPair.expand. destruct (mapM expand1 hs) as [ls|] eqn:E; [|discriminate]. intros [= <-] Hh (l & El & Hc).
  destruct (mapM_fwd _ _ _ _ E Hh) as (l' & El' & Hl'). apply in_concat. exists l. split; [congruence|assumption].
Qed.
Lemma region_orders_in l1 r0 r1 l2 a b : In a r0 -> In b r1 -> In (UOrder OTB false [a; b]) (region_orders (l1 ++ r0 :: r1 :: l2)).
Proof.
  intros Ha Hb. induction l1 as [|r l1 IH].
  - cbn [app region_orders]. apply in_or_app. left. apply in_map_iff. exists (a, b). split; auto. now apply in_prod.
  - cbn [app region_orders]. destruct (l1 ++ r0 :: r1 :: l2)%list as [|x y] eqn:E; [destruct l1; discriminate|]. apply in_or_app. right. exact IH.
Qed.

(** Floorplan: each region lies above the next one, and with [order] each region is placed left
    to right as listed. *)
Theorem C24_floorplan hs cs im max sps sp size ws pg scale k s rs order symm :
  SeqPair.expand hs = Some cs -> imap_ok im -> enumerate_sequence_pairs cs im max = Some sps -> In sp sps ->
  posted cs im size sp ws pg scale = Some k -> feasible k s -> In (HFloorplan rs order symm) hs ->
  (forall l1 r0 r1 l2 a b, rs = (l1 ++ r0 :: r1 :: l2)%list -> In a r0 -> In b r1 -> quy (v_box s b) <= qly (v_box s a)) /\
  (order = true -> forall r a b, In r rs -> listed r a b -> qux (v_box s a) <= qlx (v_box s b)).
Proof.
  intros Hx Him He Hi Hp Hf Hh. split.
  - intros l1 r0 r1 l2 a b -> Ha Hb. refine (C24_order cs im max sps sp size ws pg scale k s OTB false [a; b] a b Him He Hi Hp Hf _ _).
    + apply (expand_in _ _ _ _ Hx Hh). eexists. split; [reflexivity|]. apply in_or_app. left. now apply region_orders_in.
    + exists [], [], []. reflexivity.
  - intros -> r a b Hr Hl. refine (C24_order cs im max sps sp size ws pg scale k s OLR false r a b Him He Hi Hp Hf _ Hl).
    apply (expand_in _ _ _ _ Hx Hh). eexists. split; [reflexivity|]. apply in_or_app. right. apply in_or_app. left.
    apply in_map, filter_In. split; [assumption|]. destruct Hl as (l1 & l2 & l3 & ->). apply Nat.ltb_lt.
    rewrite app_length. simpl. rewrite app_length. simpl. lia.
Qed.

(** Floorplan with [symmetrize]: there is one vertical line about which, in every region, the
    i-th instance from the left and the i-th from the right have mirrored centres and the same
    bottom (the middle one is its own mirror image). *)
Theorem C24_floorplan_symmetric hs cs im size sp ws pg scale k s rs order :
  SeqPair.expand hs = Some cs -> posted cs im size sp ws pg scale = Some k -> feasible k s -> In (HFloorplan rs order true) hs ->
  exists line, forall r i a b, In r rs -> nth_error r i = Some a -> nth_error (rev r) i = Some b ->
    qlx (v_box s a) + qux (v_box s a) + (qlx (v_box s b) + qux (v_box s b)) == 4 * line /\ qly (v_box s a) == qly (v_box s b).
Proof.
  intros Hx Hp Hf Hh.
  assert (Hc : In (USymm true (flat_map region_pairs rs)) cs).
  { apply (expand_in _ _ _ _ Hx Hh). eexists. split; [reflexivity|]. apply in_or_app. right. apply in_or_app. right. now left. }
  pose proof (user_in cs im size sp ws pg scale k s Hp Hf _ _ _ Hc eq_refl (or_introl eq_refl)) as (line & _ & Hall).
  exists line. intros r i a b Hr Ha Hb.
  assert (Hq : forall p, In p (region_pairs r) -> symm_con true line p s).
  { intros p Hpr. rewrite Forall_forall in Hall. apply Hall. apply in_flat_map. now exists r. }
  assert (Hi : (i < List.length r)%nat) by (apply nth_error_Some; congruence).
  assert (Eb : b = nth (List.length r - 1 - i) r EmptyString).
  { apply (nth_error_nth _ _ EmptyString) in Hb. rewrite rev_nth in Hb by assumption. rewrite <- Hb. apply (f_equal (fun j => nth j r EmptyString)). lia. }
  apply (nth_error_nth _ _ EmptyString) in Ha. subst a b. unfold region_pairs in Hq.
  destruct (Nat.leb_spec (List.length r) 2) as [Hl|Hl].
  - pose proof (Hq r (or_introl eq_refl)) as H. destruct r as [|x [|y [|z r]]]; simpl in Hi, Hl; try lia; simpl in H.
    + assert (i = 0)%nat by lia. subst i. simpl. split; [lra|reflexivity].
    + destruct H as (H1 & H2). destruct i as [|[|i]]; [| |lia]; simpl; split; (lra || (symmetry; assumption) || assumption).
  - assert (Hlt : forall j, (j < List.length r / 2)%nat -> symm_con true line [nth j r EmptyString; nth (List.length r - 1 - j) r EmptyString] s).
    { intros j Hj. apply Hq. apply in_or_app. left. apply in_map_iff. exists j. split; [reflexivity|]. apply in_seq. lia. }
    destruct (Nat.lt_trichotomy i (List.length r - 1 - i)) as [Hc'|[Hc'|Hc']].
    + destruct (Hlt i) as (H1 & H2); [apply Nat.div_le_lower_bound; lia|]. cbn [symm_con ll_of ur_of negb] in H1, H2. split; [lra|exact H2].
    + assert (Ho : Nat.odd (List.length r) = true) by (apply Nat.odd_spec; exists i; lia).
      assert (H := Hq [nth (List.length r / 2) r EmptyString]). rewrite Ho in H.
      assert (H' := H ltac:(apply in_or_app; right; left; reflexivity)). clear H. rename H' into H. cbn [symm_con ll_of ur_of negb] in H.
      replace (List.length r / 2)%nat with i in H. 2:{ symmetry. replace (List.length r) with (1 + i * 2)%nat by lia. rewrite Nat.div_add; [reflexivity|lia]. }
      rewrite <- Hc'. cbn [symm_con ll_of ur_of negb] in H. split; [lra|reflexivity].
    + destruct (Hlt (List.length r - 1 - i)%nat) as (H1 & H2); [apply Nat.div_le_lower_bound; lia|].
      replace (List.length r - 1 - (List.length r - 1 - i))%nat with i in H1, H2 by lia. cbn [symm_con ll_of ur_of negb] in H1, H2. split; [lra|symmetry; exact H2].
Qed.

(** PlaceOnBoundary: each listed instance touches the sides of the placement it is listed for. *)
Theorem C24_on_boundary cs im size sp ws pg scale k s n so e w ne nw se sw :
  posted cs im size sp ws pg scale = Some k -> feasible k s -> In (UOnBoundary n so e w ne nw se sw) cs ->
  (forall x, In x n \/ In x nw \/ In x ne -> quy (v_box s x) == v_H s) /\
  (forall x, In x so \/ In x sw \/ In x se -> qly (v_box s x) == 0) /\
  (forall x, In x e \/ In x ne \/ In x se -> qux (v_box s x) == v_W s) /\
  (forall x, In x w \/ In x nw \/ In x sw -> qlx (v_box s x) == 0).
Proof.
  intros Hp Hf Hc. pose proof (fun q => user_in cs im size sp ws pg scale k s Hp Hf _ _ q Hc eq_refl) as Hu.
  split; [|split; [|split]]; intros x Hx.
  - apply (Hu (fun st => quy (v_box st x) == v_H st)). apply in_or_app. left. apply in_map_iff. exists x. split; [reflexivity|]. rewrite !in_app_iff. tauto.
  - apply (Hu (fun st => qly (v_box st x) == 0)). apply in_or_app. right. apply in_or_app. left. apply in_map_iff. exists x. split; [reflexivity|]. rewrite !in_app_iff. tauto.
  - apply (Hu (fun st => qux (v_box st x) == v_W st)). apply in_or_app. right. apply in_or_app. right. apply in_or_app. left. apply in_map_iff. exists x. split; [reflexivity|]. rewrite !in_app_iff. tauto.
  - apply (Hu (fun st => qlx (v_box st x) == 0)). apply in_or_app. right. apply in_or_app. right. apply in_or_app. right. apply in_map_iff. exists x. split; [reflexivity|]. rewrite !in_app_iff. tauto.
Qed.

(** One row of three, symmetric, its middle at the top and its right one in a corner. *)
Definition c24b_hs : list hcon := [HFloorplan [["A"; "B"; "C"]] true true; HBase (UOnBoundary ["B"] [] [] [] ["C"] [] [] ["A"])]%string.
Definition c24b_im : imap := [("A", 0); ("B", 1); ("C", 2)]%string%nat.
Definition c24b_sol : sol :=
  let bx (x : Z) := mkQb (inject_Z x) 0 (inject_Z (x + 2)) 2 in
  mkSol 6 2 (fun n => if String.eqb n "A" then bx 0 else if String.eqb n "B" then bx 2 else bx 4)%Z%string (fun _ => false) (fun _ => false) 0 (fun _ => mkQb 0 0 0 0).
Example C24_boundary_nonvacuous : exists cs k, SeqPair.expand c24b_hs = Some cs /\
  posted cs c24b_im (fun _ => (2, 2)%Z) ([0; 1; 2], [0; 1; 2])%nat [] (fun _ => []) 1 = Some k /\ feasible k c24b_sol.
Proof.
  eexists. eexists. split; [reflexivity|]. split; [reflexivity|].
  unfold feasible. cbn [app inst_cons wires_cons flat_map map fst snd].
  repeat match goal with |- Forall _ (_ :: _) => apply Forall_cons | |- Forall _ [] => apply Forall_nil end.
  all: try (vm_compute; repeat split; (reflexivity || discriminate)).
  exists 3. split; [vm_compute; split; discriminate|]. vm_compute. repeat constructor; reflexivity.
Qed.

(** AlignInOrder, horizontal: left to right on a common line. *)
Theorem C24_align_in_order hs cs im max sps sp size ws pg scale k s l abut xs a b :
  SeqPair.expand hs = Some cs -> imap_ok im -> enumerate_sequence_pairs cs im max = Some sps -> In sp sps ->
  posted cs im size sp ws pg scale = Some k -> feasible k s -> In (HAlignInOrder l true abut xs) hs -> listed xs a b ->
  qux (v_box s a) <= qlx (v_box s b) /\ (l = ITop -> quy (v_box s a) == quy (v_box s b)) /\ (l = IBottom -> qly (v_box s a) == qly (v_box s b)).
Proof.
  intros Hx Him He Hi Hp Hf Hh Hl.
  assert (Hex : exists al, io_line l true = Some al /\ In (UAlign al xs) cs /\ In (UOrder OLR abut xs) cs).
  { unfold SeqPair.expand in Hx. destruct (mapM expand1 hs) as [ls|] eqn:E; [|discriminate]. injection Hx as <-.
    destruct (mapM_fwd _ _ _ _ E Hh) as (l' & El' & Hl'). unfold expand1 in El'. destruct (io_line l true) as [al|]; [|discriminate].
    injection El' as <-. exists al. split; [reflexivity|]. split; apply in_concat; eexists; (split; [exact Hl'|simpl; auto]). }
  destruct Hex as (al & Eal & Ha & Ho).
  split; [exact (C24_order cs im max sps sp size ws pg scale k s OLR abut xs a b Him He Hi Hp Hf Ho Hl)|].
  assert (Hal : forall f, line_coord al = Some f -> f (v_box s a) == f (v_box s b)).
  { intros f Ef. destruct (user_some cs im size sp ws pg scale k s Hp Hf _ Ha) as (x & Ex).
    pose proof (fun q => user_in cs im size sp ws pg scale k s Hp Hf _ x q Ha Ex) as Hu. simpl in Ex. rewrite Ef in Ex.
    destruct xs as [|i0 tl]; [discriminate|]. injection Ex as <-.
    assert (Heq : forall i, In i (i0 :: tl) -> f (v_box s i) == f (v_box s i0)).
    { intros i [<-|Hti]; [reflexivity|]. symmetry. apply (Hu (fun s => f (v_box s i0) == f (v_box s i))). apply in_map_iff. exists i. split; auto. }
    destruct Hl as (l1 & l2 & l3 & El). rewrite (Heq a), (Heq b); [reflexivity| |]; rewrite El; [apply in_or_app; right; right; apply in_elt|apply in_elt]. }
  split; intros ->; injection Eal as <-; now apply Hal.
Qed.

(** Two rows, the upper one ordered; a stack in between. *)
Definition c24_hs : list hcon := [HFloorplan [["A"; "B"]; ["C"]; ["D"; "E"]] true false; HAlignInOrder IBottom true false ["D"; "E"]]%string.
Definition c24_im : imap := [("A", 0); ("B", 1); ("C", 2); ("D", 3); ("E", 4)]%string%nat.
Definition c24_sol : sol :=
  let bx (x y : Z) := mkQb (inject_Z x) (inject_Z y) (inject_Z (x + 2)) (inject_Z (y + 2)) in
  mkSol 4 6 (fun n => if String.eqb n "A" then bx 0 4 else if String.eqb n "B" then bx 2 4 else if String.eqb n "C" then bx 0 2
             else if String.eqb n "D" then bx 0 0 else bx 2 0)%Z%string (fun _ => true) (fun _ => false) 0 (fun _ => mkQb 0 0 0 0).

Example C24_nonvacuous : exists cs sps sp k, SeqPair.expand c24_hs = Some cs /\ imap_ok c24_im /\
  enumerate_sequence_pairs cs c24_im 10 = Some sps /\ In sp sps /\
  posted cs c24_im (fun _ => (2, 2)%Z) sp [] (fun _ => []) 1 = Some k /\ feasible k c24_sol /\
  List.length (filter (fun c => match c with UOrder _ _ _ => true | _ => false end) cs) = 7%nat.
Proof.
  eexists. eexists. exists ([0; 1; 2; 3; 4], [3; 4; 2; 0; 1])%nat. eexists. split; [reflexivity|]. split; [|split; [vm_compute; reflexivity|split; [|split; [reflexivity|split; [|reflexivity]]]]].
  - split; [|reflexivity]. repeat constructor; simpl; intuition discriminate.
  - vm_compute. tauto.
  - unfold feasible. cbn [app inst_cons wires_cons flat_map map fst snd].
    repeat match goal with |- Forall _ (_ :: _) => apply Forall_cons | |- Forall _ [] => apply Forall_nil end; vm_compute; repeat split; (reflexivity || discriminate).
Qed.

(** The documentation of AlignInOrder says that the vertical direction is bottom to top; every
    solution is in fact top to bottom, so no solution with positive heights is as documented. *)
Theorem C24_vertical_refuted l abut xs hs cs im max sps sp size ws pg scale k s a b :
  SeqPair.expand hs = Some cs -> imap_ok im -> enumerate_sequence_pairs cs im max = Some sps -> In sp sps ->
  posted cs im size sp ws pg scale = Some k -> feasible k s -> In (HAlignInOrder l false abut xs) hs -> listed xs a b ->
  In a (map fst im) -> In b (map fst im) -> (0 < snd (size a))%Z -> (0 < snd (size b))%Z ->
  ~ quy (v_box s a) <= qly (v_box s b).
Proof.
  intros Hx Him He Hi Hp Hf Hh Hl Ia Ib Pa Pb Hbad.
  assert (Ho : In (UOrder OTB abut xs) cs).
  { unfold SeqPair.expand in Hx. destruct (mapM expand1 hs) as [ls|] eqn:E; [|discriminate]. injection Hx as <-.
    destruct (mapM_fwd _ _ _ _ E Hh) as (l' & El' & Hl'). unfold expand1 in El'. destruct (io_line l false) as [al|]; [|discriminate].
    injection El' as <-. apply in_concat. eexists. split; [exact Hl'|simpl; auto]. }
  pose proof (C24_order cs im max sps sp size ws pg scale k s OTB abut xs a b Him He Hi Hp Hf Ho Hl) as H. simpl in H.
  destruct (inst_facts cs im size sp ws pg scale k s Hp Hf a Ia) as (_ & _ & _ & A & _). destruct (inst_facts cs im size sp ws pg scale k s Hp Hf b Ib) as (_ & _ & _ & B & _).
  rewrite Zlt_Qlt in Pa, Pb. change (inject_Z 0) with 0 in *. lra.
Qed.

Print Assumptions C24_order.
Print Assumptions C24_complete.
Print Assumptions C24_floorplan.
Print Assumptions C24_floorplan_symmetric.
Print Assumptions C24_on_boundary.
Print Assumptions C24_align_in_order.
Print Assumptions C24_vertical_refuted.
