From Coq Require Import String ZArith QArith Qround Lqa ZifyBool.
From Verif Require Import Base.Prelude Model.Transformation Model.SeqPair Model.ConstraintDB Model.Formulas Model.SeqEnum Model.SymmGroup
  Model.KeepOrder Model.SeqCheck Model.PlaceRows Model.ReadCon Spec.SeqEnumSpec Spec.SymmGroupSpec Spec.SeqCheckSpec Spec.PlaceRowsSpec
  Spec.ReadConSpec Proofs.SeqEnumP Proofs.SymmGroupP Proofs.PlaceRowsP Proofs.PlaceMainP.
Local Open Scope Z_scope.

(** * Names *)
Lemma find_from_nth l n i k : NoDup l -> (find_from k l n = Some i <-> (k <= i)%nat /\ nth_error l (i - k) = Some n).
Proof.
  intros N. revert k. induction l as [|x l IH]; intros k; cbn [find_from].
  - split; [discriminate|]. intros [_ H]. destruct (i - k)%nat; discriminate.
  - apply NoDup_cons_iff in N. destruct N as [Nx N]. destruct (String.eqb_spec x n) as [->|D].
    + split.
      * intros E. injection E as ->. rewrite Nat.sub_diag. split; [lia|reflexivity].
      * intros [L H]. destruct (i - k)%nat as [|m] eqn:E; [f_equal; lia|]. cbn in H. apply nth_error_In in H. contradiction.
    + rewrite IH by exact N. split.
      * intros [L H]. split; [lia|]. replace (i - k)%nat with (Datatypes.S (i - Datatypes.S k)) by lia. exact H.
      * intros [L H]. destruct (i - k)%nat as [|m] eqn:E; [cbn in H; congruence|]. split; [lia|]. replace (i - Datatypes.S k)%nat with m by lia. exact H.
Qed.
Lemma find_block_nth names n i : NoDup names -> (find_block names n = Some i <-> nth_error names i = Some n).
Proof. intros N. unfold find_block. rewrite find_from_nth by exact N. rewrite Nat.sub_0_r. intuition lia. Qed.

Definition is_block (names : list string) (n : string) (i : nat) : Prop := nth_error names i = Some n.
Lemma blocks_of_all names xs : NoDup names -> (forall n, In n xs -> In n names) -> Forall2 (is_block names) xs (blocks_of names xs).
Proof.
  intros N. induction xs as [|x xs IH]; intros H; cbn [blocks_of flat_map]; [constructor|].
  destruct (In_nth_error names x (H x (or_introl eq_refl))) as [i Hi].
  rewrite (proj2 (find_block_nth names x i N) Hi). cbn [app]. constructor; [exact Hi|]. apply IH. intros n Hn. apply H. now right.
Qed.
Lemma pairwise_map2 {A B} (R : A -> B -> Prop) xs ys a b : Forall2 R xs ys -> In (a, b) (pairwise xs) ->
  exists i j, In (i, j) (pairwise ys) /\ R a i /\ R b j.
Proof.
  induction 1 as [|x y xs ys H HF IH]; [intros []|]. destruct HF as [|x' y' xs ys H' HF]; [intros []|]. cbn [pairwise]. intros [E|Hp].
  - injection E as <- <-. exists y, y'. split; [now left|auto].
  - destruct (IH Hp) as (i & j & X & Y). exists i, j. split; [now right|exact Y].
Qed.
Lemma pairwise_map2' {A B} (R : A -> B -> Prop) xs ys i j : Forall2 R xs ys -> In (i, j) (pairwise ys) ->
  exists a b, In (a, b) (pairwise xs) /\ R a i /\ R b j.
Proof.
  induction 1 as [|x y xs ys H HF IH]; [intros []|]. destruct HF as [|x' y' xs ys H' HF]; [intros []|]. cbn [pairwise]. intros [E|Hp].
  - injection E as <- <-. exists x, x'. split; [now left|auto].
  - destruct (IH Hp) as (a & b & X & Y). exists a, b. split; [now right|exact Y].
Qed.
Lemma forall2_in {A B} (R : A -> B -> Prop) xs ys a : Forall2 R xs ys -> In a xs -> exists i, In i ys /\ R a i.
Proof. induction 1 as [|x y xs ys H HF IH]; [intros []|]. intros [<-|Ha]; [exists y; cbn; auto|]. destruct (IH Ha) as (i & X & Y). exists i. cbn. auto. Qed.
Lemma forall2_in' {A B} (R : A -> B -> Prop) xs ys i : Forall2 R xs ys -> In i ys -> exists a, In a xs /\ R a i.
Proof. induction 1 as [|x y xs ys H HF IH]; [intros []|]. intros [<-|Ha]; [exists x; cbn; auto|]. destruct (IH Ha) as (a & X & Y). exists a. cbn. auto. Qed.
Lemma pairwise_in {A} (l : list A) a b : In (a, b) (pairwise l) -> In a l /\ In b l.
Proof.
  induction l as [|x l IH]; [intros []|]. destruct l as [|y l]; [intros []|]. intros [E|H]; [injection E as <- <-; cbn; auto|].
  destruct (IH H). cbn in *. tauto.
Qed.
Lemma combos_in {A} (l : list A) a b : In (a, b) (combos l) -> In a l /\ In b l /\ (NoDup l -> a <> b).
Proof.
  induction l as [|x l IH]; [intros []|]. cbn [combos]. intros H. apply in_app_iff in H. destruct H as [H|H].
  - apply in_map_iff in H. destruct H as (y & E & Hy). injection E as <- <-. split; [now left|]. split; [now right|]. intros N. apply NoDup_cons_iff in N. intros ->. tauto.
  - destruct (IH H) as (A1 & A2 & A3). split; [now right|]. split; [now right|]. intros N. apply NoDup_cons_iff in N. tauto.
Qed.

(** * What is read *)
Section Read.
Variables (names : list string) (scale : Z).
Notation rd := (read names scale).
Definition jorders (j : jcon) : list (list nat * dir) := match j with JOrder h _ bs => [(blocks_of names bs, to_dir h)] | _ => [] end.
Definition jabuts (j : jcon) : list (list nat * dir) := match j with JOrder h true bs => [(blocks_of names bs, to_dir h)] | _ => [] end.
Definition jaligns (j : jcon) : list align := match j with JAlign h l bs => [Align h l (blocks_of names bs)] | _ => [] end.
Definition jspreads (j : jcon) : list (bool * Z * list nat) := match j with JSpread h dist bs => [(h, dist * 2, blocks_of names bs)] | _ => [] end.
Definition jsyms (j : jcon) : list group :=
  match j with JSymm h ps => [Group (sym_pairs names ps) (map (fun i => (i, to_dir h)) (sym_selfs names ps)) (to_dir h)] | _ => [] end.
Lemma read_orders js n : nd_orders (rd n js) = nd_orders n ++ flat_map jorders js.
Proof.
  revert n. induction js as [|j js IH]; intros n; cbn [read fold_left flat_map]; [now rewrite app_nil_r|]. unfold read in IH. rewrite IH, app_assoc. f_equal.
  destruct n, j; cbn; now rewrite ?app_nil_r.
Qed.
Lemma read_abuts js n : nd_abuts (rd n js) = nd_abuts n ++ flat_map jabuts js.
Proof.
  revert n. induction js as [|j js IH]; intros n; cbn [read fold_left flat_map]; [now rewrite app_nil_r|]. unfold read in IH. rewrite IH, app_assoc. f_equal.
  destruct n, j as [h []| | | | |]; cbn; now rewrite ?app_nil_r.
Qed.
Lemma read_aligns js n : nd_aligns (rd n js) = nd_aligns n ++ flat_map jaligns js.
Proof.
  revert n. induction js as [|j js IH]; intros n; cbn [read fold_left flat_map]; [now rewrite app_nil_r|]. unfold read in IH. rewrite IH, app_assoc. f_equal.
  destruct n, j; cbn; now rewrite ?app_nil_r.
Qed.
Lemma read_spreads js n : nd_spreads (rd n js) = nd_spreads n ++ flat_map jspreads js.
Proof.
  revert n. induction js as [|j js IH]; intros n; cbn [read fold_left flat_map]; [now rewrite app_nil_r|]. unfold read in IH. rewrite IH, app_assoc. f_equal.
  destruct n, j; cbn; now rewrite ?app_nil_r.
Qed.
Lemma read_syms js n : nd_syms (rd n js) = nd_syms n ++ flat_map jsyms js.
Proof.
  revert n. induction js as [|j js IH]; intros n; cbn [read fold_left flat_map]; [now rewrite app_nil_r|]. unfold read in IH. rewrite IH, app_assoc. f_equal.
  destruct n, j; cbn; now rewrite ?app_nil_r.
Qed.
Definition bounds (n : node) : Z * Z * Z * Z := (nd_box_w n, nd_box_h n, nd_halo_h n, nd_halo_v n).
Lemma read_bounds js n : (forall a b c d, ~ In (JBound a b c d) js) -> bounds (rd n js) = bounds n.
Proof.
  revert n. induction js as [|j js IH]; intros n H; cbn [read fold_left]; [reflexivity|]. unfold read in IH. rewrite IH.
  - destruct n, j; try reflexivity. exfalso. exact (H _ _ _ _ (or_introl eq_refl)).
  - intros a b c d Hi. exact (H a b c d (or_intror Hi)).
Qed.
Lemma read_app n a b : rd n (a ++ b) = rd (rd n a) b.
Proof. unfold read. now rewrite fold_left_app. Qed.
End Read.

(** * What is written *)
Lemma write_app l1 l2 js : write (l1 ++ l2) = Some js <-> exists j1 j2, write l1 = Some j1 /\ write l2 = Some j2 /\ js = j1 ++ j2.
Proof.
  revert js. induction l1 as [|c l1 IH]; intros js; cbn [app write].
  - split; [intros H; exists [], js; auto|]. intros (j1 & j2 & E & H & ->). injection E as <-. exact H.
  - split.
    + destruct (wr c) as [x|]; [|discriminate]. destruct (write (l1 ++ l2)) as [y|]; [|discriminate]. intros E. injection E as <-.
      destruct (proj1 (IH y) eq_refl) as (j1 & j2 & A & B & ->). exists (x ++ j1), j2. rewrite A. split; [reflexivity|]. split; [exact B|apply app_assoc].
    + intros (j1 & j2 & A & B & ->). destruct (wr c) as [x|]; [|discriminate]. destruct (write l1) as [y|]; [|discriminate]. injection A as <-.
      rewrite (proj2 (IH (y ++ j2))) by eauto. now rewrite app_assoc.
Qed.
Lemma write_in cs js j : write cs = Some js -> (In j js <-> exists c l, In c cs /\ wr c = Some l /\ In j l).
Proof.
  revert js. induction cs as [|c cs IH]; intros js; cbn [write].
  - intros E. injection E as <-. split; [intros []|]. intros (? & ? & [] & _).
  - destruct (wr c) as [x|] eqn:W; [|discriminate]. destruct (write cs) as [y|] eqn:Wy; [|discriminate]. intros E. injection E as <-.
    rewrite in_app_iff, (IH y eq_refl). split.
    + intros [H|(c' & l & H1 & H2 & H3)]; [exists c, x; cbn; auto|exists c', l; cbn; auto].
    + intros (c' & l & [<-|H1] & H2 & H3); [left; congruence|right; eauto].
Qed.
Lemma write_supported cs : (forall c, In c cs -> supported c) <-> exists js, write cs = Some js.
Proof.
  assert (forall c, supported c <-> exists l, wr c = Some l) as S1.
  { intros [c|h v z]; cbn [supported wr]; [|split; eauto].
    destruct c as [d ? ?|l ?| | | | | |]; try (split; [eauto|tauto]).
    - destruct d; split; try (intros _; eauto; fail); try (intros (A & B & C); congruence); try (intros [l H]; discriminate); repeat split; discriminate.
    - destruct l; split; try (intros _; eauto; fail); try (intros (A & B & C); congruence); try (intros [l' H]; discriminate); repeat split; discriminate. }
  induction cs as [|c cs IH]; cbn [write]; [split; [eauto|intros _ c []]|]. split.
  - intros H. destruct (proj1 (S1 c) (H c (or_introl eq_refl))) as [l ->]. destruct (proj1 IH (fun x h => H x (or_intror h))) as [js ->]. eauto.
  - intros [js H] x [<-|Hx].
    + apply S1. destruct (wr c); [eauto|discriminate].
    + apply IH; [|exact Hx]. destruct (wr c); [|discriminate]. destruct (write cs); [eauto|discriminate].
Qed.
