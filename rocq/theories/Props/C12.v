(** C12: net connectivity is the equivalence closure of the connections made
    (remove_duplicates.py:10-27). *)
From Coq Require Import Relations.
From Verif Require Import Base.Prelude Model.UnionFind Spec.UnionFindSpec Proofs.UnionFindP.

(** Every history of operations on existing objects runs without an error or an endless loop,
    and afterwards [root] answers for every object; two objects have the same root exactly when
    the history connects them. *)
Theorem C12_roots_are_closure :
  forall ops, ops_valid 0 ops ->
  exists d, ufrun [] ops = Some d /\ length d = count_new ops /\
  forall x y, x < count_new ops -> y < count_new ops ->
  exists rx dx ry dy, uf_root d x = Some (rx, dx) /\ uf_root d y = Some (ry, dy) /\
    (rx = ry <-> same_net ops x y).
Proof.
  intros ops HV. destruct (ufrun_from_empty ops HV) as (d & rep & H1 & H2 & H3 & H4).
  exists d. repeat split; auto. intros x y Hx Hy.
  destruct (uf_root_ok d rep x H3) as (dx & Ex & _ & _); [lia|].
  destruct (uf_root_ok d rep y H3) as (dy & Ey & _ & _); [lia|].
  exists (rep x), dx, (rep y), dy. repeat split; auto; intros E; apply H4; auto; lia.
Qed.
Print Assumptions C12_roots_are_closure.

(** Path compression: a query never changes the root of any object, and the root is a fixed
    point of [dad]. *)
Theorem C12_root_query_pure :
  forall ops d, ops_valid 0 ops -> ufrun [] ops = Some d ->
  forall x r d', uf_root d x = Some (r, d') ->
  nth_error d' r = Some r /\
  forall y ry dy, uf_root d y = Some (ry, dy) -> exists dy', uf_root d' y = Some (ry, dy').
Proof.
  intros ops d HV Hrun x r d' Hx.
  destruct (ufrun_from_empty ops HV) as (d0 & rep & H1 & H2 & H3 & H4).
  assert (d0 = d) by congruence. subst d0.
  assert (B : forall z w, uf_root d z = Some w -> z < length d).
  { intros z w. unfold uf_root. simpl. destruct (nth_error d z) eqn:E; [|discriminate].
    intros _. eapply nth_error_Some_lt; eauto. }
  destruct (uf_root_ok d rep x H3) as (d1 & E1 & L1 & I1); [eauto|].
  rewrite Hx in E1. injection E1 as -> ->. split.
  - apply Inv_rep_fix; auto. rewrite L1. eauto.
  - intros y ry dy Hy. destruct (uf_root_ok d rep y H3) as (d2 & E2 & _ & _); [eauto|].
    rewrite Hy in E2. injection E2 as -> ->.
    destruct (uf_root_ok d1 rep y I1) as (d3 & E3 & _ & _); [rewrite L1; eauto|]. eauto.
Qed.
Print Assumptions C12_root_query_pure.

(** Same root as a decidable observation is preserved by further queries in any order: the
    history with all [URoot] operations removed gives the same classes. *)
Theorem C12_queries_do_not_matter :
  forall ops d, ops_valid 0 ops -> ufrun [] ops = Some d ->
  exists d0, ufrun [] (filter (fun o => match o with URoot _ => false | _ => true end) ops) = Some d0 /\
  forall x y rx dx ry dy rx0 dx0 ry0 dy0,
    uf_root d x = Some (rx, dx) -> uf_root d y = Some (ry, dy) ->
    uf_root d0 x = Some (rx0, dx0) -> uf_root d0 y = Some (ry0, dy0) ->
    (rx = ry <-> rx0 = ry0).
Proof.
  intros ops d HV Hrun.
  set (ops0 := filter _ ops).
  assert (V0 : ops_valid 0 ops0).
  { unfold ops0. clear Hrun. revert HV. generalize 0. induction ops as [|[|z|a b] ops IH]; simpl; auto.
    - intros n [_ H]; auto.
    - intros n (Ha & Hb & H); auto. }
  destruct (ufrun_from_empty ops HV) as (d1 & rep & H1 & H2 & H3 & H4).
  assert (d1 = d) by congruence. subst d1.
  destruct (ufrun_from_empty ops0 V0) as (d0 & rep0 & K1 & K2 & K3 & K4).
  exists d0. split; [assumption|].
  assert (B : forall (e : heap) z w, uf_root e z = Some w -> z < length e).
  { intros e z w. unfold uf_root. simpl. destruct (nth_error e z) eqn:E; [|discriminate].
    intros _. eapply nth_error_Some_lt; eauto. }
  intros x y rx dx ry dy rx0 dx0 ry0 dy0 Ex Ey Ex0 Ey0.
  pose proof (B _ _ _ Ex). pose proof (B _ _ _ Ey). pose proof (B _ _ _ Ex0). pose proof (B _ _ _ Ey0).
  destruct (uf_root_ok d rep x H3) as (? & E1 & _); auto. rewrite Ex in E1. injection E1 as -> ->.
  destruct (uf_root_ok d rep y H3) as (? & E1 & _); auto. rewrite Ey in E1. injection E1 as -> ->.
  destruct (uf_root_ok d0 rep0 x K3) as (? & E1 & _); auto. rewrite Ex0 in E1. injection E1 as -> ->.
  destruct (uf_root_ok d0 rep0 y K3) as (? & E1 & _); auto. rewrite Ey0 in E1. injection E1 as -> ->.
  rewrite (proj2 H4), (proj2 K4) by auto. apply clos_iff. intros a b. unfold connected_pairs, ops0.
  rewrite filter_In. tauto.
Qed.
Print Assumptions C12_queries_do_not_matter.

(** Six objects, two chains, one query in between: 0,1,2,3 end up together, 4 and 5 apart. *)
Example C12_nonvacuous :
  let ops := [UNew; UNew; UNew; UNew; UNew; UNew; UConnect 0 1; UConnect 2 3; URoot 3; UConnect 1 3] in
  ops_valid 0 ops /\ ufrun [] ops = Some [0; 0; 0; 2; 4; 5] /\
  same_net ops 3 0 /\ option_map fst (uf_root [0; 0; 0; 2; 4; 5] 3) = Some 0 /\
  option_map fst (uf_root [0; 0; 0; 2; 4; 5] 4) = Some 4.
Proof.
  simpl. repeat split; try lia; try reflexivity.
  apply rst_trans with 1.
  - apply rst_sym, rst_step. unfold connected_pairs. simpl. tauto.
  - apply rst_sym, rst_step. unfold connected_pairs. simpl. tauto.
Qed.
