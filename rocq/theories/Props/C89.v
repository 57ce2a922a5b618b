(** C89: symmetry groups, the first sequence pair and the annealing's moves. *)
From Verif Require Import Base.Prelude Model.SeqEnum Spec.SeqEnumSpec Model.SymmGroup Spec.SymmGroupSpec
  Proofs.SymmGroupP Proofs.SeqMovesP Proofs.SeqSwapP Proofs.SeqFeasP.

(** The groups: every element of the constraints is in one group, once; two elements are in the
    same group exactly if constraints link them. *)
Theorem C89_groups sps : no_repeats sps ->
  NoDup (flat_map elems (construct sps)) /\
  (forall x, (exists g, In g (construct sps) /\ In x (elems g)) <-> (exists c, In c sps /\ In x (elems c))) /\
  (forall g x y, In g (construct sps) -> In x (elems g) -> (In y (elems g) <-> linked sps x y)).
Proof.
  intros H. destruct (construct_inv sps H) as (I1 & I2 & _). split; [exact I1|]. split.
  - intros x. rewrite <- I2. unfold flat. rewrite in_flat_map. reflexivity.
  - intros g x y Hg Hx. apply In_nth_error in Hg as (k & Hk).
    pose proof (construct_linked sps k x y H) as Q. unfold el in Q. rewrite Hk in Q. auto.
Qed.

(** The axis of a group is the axis of one of its constraints; so it is the axis of all of them,
    if linked constraints agree. *)
Theorem C89_axis sps g : no_repeats sps -> In g (construct sps) -> elems g <> [] ->
  (exists c x, In c sps /\ g_axis c = g_axis g /\ In x (elems c) /\ In x (elems g)) /\
  ((forall c c' x y, In c sps -> In c' sps -> In x (elems c) -> In y (elems c') -> linked sps x y -> g_axis c = g_axis c') ->
   forall c x, In c sps -> In x (elems c) -> In x (elems g) -> g_axis c = g_axis g).
Proof.
  intros H Hg Hne. destruct (construct_inv sps H) as (_ & _ & _ & I4 & I5). apply In_nth_error in Hg as (k & Hk).
  destruct (I5 k g Hk Hne) as (c & x & H1 & H2 & H3 & H4). split; [eauto 10|].
  intros Ha c' y Hc' Hy Hy'. rewrite <- H2. apply (Ha c' c y x); auto. apply (I4 k); unfold el; now rewrite Hk.
Qed.

(** If the constraints agree on each block, no block is in two groups. *)
Theorem C89_separate sizes same sps : no_repeats sps -> agreed sps -> separate (PDesign sizes (construct sps) same).
Proof. intros H A. exact (construct_separate sps H A). Qed.

(** The first sequence pair has every block and every axis once, in both sequences, for any
    groups. *)
Theorem C89_initial d : same_ok d -> sp_ok d (initial d).
Proof. apply initial_ok. Qed.

(** So has every sequence pair that the moves reach, if the groups have no block in common or no
    two groups are exchanged. *)
Theorem C89_moves d ms : same_ok d -> separate d \/ Forall no_swap ms -> sp_ok d (fold_left (perturb d) ms (initial d)).
Proof. intros H H'. apply perturbs_ok; auto. now apply initial_ok. Qed.

(** And each is symmetric-feasible. *)
Theorem C89_feasible d ms : separate d -> no_terminals d -> same_ok d -> feasible d (fold_left (perturb d) ms (initial d)).
Proof. intros H1 H2 H3. apply annealed_feasible; auto. Qed.

(** From the constraints to the feasible pairs. *)
Theorem C89_constraints sizes same sps ms : no_repeats sps -> agreed sps ->
  (forall c x b, In c sps -> In x (elems c) -> In b (elt_blocks x) -> b < length sizes) ->
  let d := PDesign sizes (construct sps) same in
  same_ok d -> sp_ok d (fold_left (perturb d) ms (initial d)) /\ feasible d (fold_left (perturb d) ms (initial d)).
Proof.
  intros H A Ht d Hs. apply annealed_feasible; auto.
  - now apply C89_separate.
  - intros g x b Hg Hx Hb. destruct (proj1 (proj1 (proj2 (C89_groups sps H)) x)) as (c & Hc & Hx'); [eauto|]. exact (Ht c x b Hc Hx' Hb).
Qed.

(** What the moves are: one block taken out and put in elsewhere, two blocks of a group and their
    counterparts exchanged, two groups exchanged. *)
Theorem C89_moved l a new r : move_unit l a new = Some r -> moved l r a new.
Proof. apply move_unit_moved. Qed.
Theorem C89_exchanged d k g s ab s' : sp_ok d s -> separate d -> no_terminals d -> nth_error (pd_groups d) k = Some g ->
  swap_pair d g s ab = Some s' ->
  exists a' b', mirror d k g (fst ab) a' /\ mirror d k g (snd ab) b' /\
    exchanged (p_pos s) (p_pos s') (fst ab) (snd ab) /\ exchanged (p_neg s) (p_neg s') a' b'.
Proof.
  intros (P1 & P2 & _) Hs Ht Hk E. destruct (perm_nodup d s (conj P1 P2)) as [N1 N2].
  destruct (swap_pair_ok d g s ab s' N1 N2 E) as (sa & sb & Ca & Cb & Ia & Ib & _ & _ & X1 & X2 & _).
  exists sa, sb. assert (forall x y, counterpart d x = Some y -> In x (group_blocks d g) -> mirror d k g x y) as Hm.
  { intros x y Hc Hx. pose proof (sym_mirror d Hs Ht k g x Hk) as Q. unfold sym in Q. rewrite Hc in Q. apply Q. apply in_or_app. auto. }
  auto.
Qed.
Theorem C89_swapped as_ bs l : (forall x, In x as_ -> ~ In x bs) ->
  swapped as_ bs l (swap_lists as_ bs l) /\ Permutation l (swap_lists as_ bs l).
Proof. intros H. split; [now apply swap_lists_ok|now apply swap_lists_perm]. Qed.

(** Finding: constraints that share a block but no element give two groups with a common block.
    When the two are exchanged, a block is lost and another is there twice. *)
Theorem C89_overlap_refuted : exists sps d m,
  no_repeats sps /\ pd_groups d = construct sps /\ same_ok d /\ no_terminals d /\ sp_ok d (initial d) /\
  ~ NoDup (p_pos (perturb d (initial d) m)) /\ exists x, x < blocks_no d /\ ~ In x (p_pos (perturb d (initial d) m)).
Proof.
  set (sps := [Group [(0, 1)] [] DirV; Group [(1, 2); (3, 4)] [] DirV]).
  set (d := PDesign [1; 1; 1; 1; 1] (construct sps) []).
  assert (same_ok d) as Hs.
  { split; [intros s [<-|[<-|[<-|[<-|[<-|[]]]]]]; lia|]. split; [intros g []|]. split; [intros g a b []|]. intros [|k] k2 g1 g2 i H; discriminate. }
  exists sps, d, (SwapGroups 0 1).
  split.
  { intros c [<-|[<-|[]]]; cbn; repeat constructor; cbn; intuition discriminate. }
  split; [reflexivity|]. split; [exact Hs|]. split.
  { intros g x b [<-|[<-|[]]]; cbn; intros Hx Hb; intuition; subst; cbn in Hb; intuition; subst; unfold blocks_no; cbn; lia. }
  split; [now apply initial_ok|].
  assert (p_pos (perturb d (initial d) (SwapGroups 0 1)) = [1; 3; 8; 7; 1; 4; 2]) as -> by (vm_compute; reflexivity).
  split.
  - intros H. inversion H as [|? ? H2 _]; subst. apply H2. cbn. auto 10.
  - exists 0. split; [unfold blocks_no; cbn; lia|]. cbn. intuition discriminate.
Qed.

(** Finding: if a constraint meets a group in a pair only, its axis is dropped without a word. *)
Theorem C89_axis_refuted : exists sps c g x,
  no_repeats sps /\ In c sps /\ In g (construct sps) /\ In x (elems c) /\ In x (elems g) /\ g_axis c <> g_axis g.
Proof.
  exists [Group [(0, 1)] [] DirV; Group [(0, 1); (2, 3)] [] DirH], (Group [(0, 1); (2, 3)] [] DirH),
         (Group [(0, 1); (2, 3)] [] DirV), (EPair (2, 3)).
  split; [intros c [<-|[<-|[]]]; cbn; repeat constructor; cbn; intuition discriminate|].
  split; [now right; left|]. split; [vm_compute; auto|]. cbn. split; [auto|]. split; [auto|discriminate].
Qed.

(** * Non-vacuity *)

Definition ex_sps := [Group [(0, 1)] [(2, DirV)] DirV; Group [(5, 6)] [] DirH; Group [(3, 4)] [(2, DirV)] DirV].
Definition ex_d := PDesign [2; 1; 1; 1; 3; 2; 2; 1] (construct ex_sps) [[0; 5]].
Example C89_hyps_nonvacuous : no_repeats ex_sps /\ agreed ex_sps /\ same_ok ex_d /\ no_terminals ex_d /\
  pd_groups ex_d = [Group [(0, 1); (3, 4)] [(2, DirV)] DirV; Group [(5, 6)] [] DirH].
Proof.
  split; [intros c [<-|[<-|[<-|[]]]]; cbn; repeat constructor; cbn; intuition discriminate|].
  split.
  { split.
    - intros c x [<-|[<-|[<-|[]]]]; cbn; intros Hx; intuition; subst; cbn; repeat constructor; cbn; intuition discriminate.
    - intros c c' x y b [<-|[<-|[<-|[]]]] [<-|[<-|[<-|[]]]]; cbn; intros Hx Hy; intuition; subst; cbn in *; intuition; subst; try discriminate. }
  split.
  { split; [cbn; intros s Hs; intuition lia|]. split; [intros g [<-|[]]; split; [discriminate|]; cbn; intros i Hi; intuition lia|].
    split.
    - intros g a b [<-|[]]. cbn. intros Ha Hb. intuition; subst; reflexivity.
    - intros [|[|k1]] [|[|k2]] g1 g2 i H1 H2 _ _; auto; discriminate. }
  split; [|vm_compute; reflexivity].
  intros g x b [<-|[<-|[]]]; cbn; intros Hx Hb; intuition; subst; cbn in Hb; intuition; subst; unfold blocks_no; cbn; lia.
Qed.
Example C89_moves_nonvacuous :
  initial ex_d = SP [0; 3; 10; 2; 4; 1; 5; 11; 6; 7] [0; 3; 2; 10; 4; 1; 6; 11; 5; 7] [0; 0; 0; 0; 0; 0; 0; 0] /\
  fold_left (perturb ex_d) [Pick 0 1; MoveBoth 7 0 4; SwapBlocks 0 (0, 3); SwapGroups 0 1] (initial ex_d) =
    SP [7; 5; 11; 6; 3; 0; 10; 2; 4; 1] [6; 11; 5; 0; 7; 3; 2; 10; 1; 4] [1; 0; 0; 0; 0; 1; 0; 0].
Proof. split; vm_compute; reflexivity. Qed.

Print Assumptions C89_groups.
Print Assumptions C89_axis.
Print Assumptions C89_separate.
Print Assumptions C89_initial.
Print Assumptions C89_moves.
Print Assumptions C89_feasible.
Print Assumptions C89_constraints.
Print Assumptions C89_moved.
Print Assumptions C89_exchanged.
Print Assumptions C89_swapped.
Print Assumptions C89_overlap_refuted.
Print Assumptions C89_axis_refuted.
