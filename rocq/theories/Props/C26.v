(** C26: SameTemplate instances always get the same variant. *)
From Coq Require Import String QArith.
From Verif Require Import Base.Prelude Base.PyDict Model.Transformation Model.RemoveDuplicates Model.Hpwl Model.PlaceGrid Model.SeqPair
  Spec.SeqPairSpec Proofs.HpwlP Proofs.PlaceGridP Proofs.SeqPairP Proofs.SeqPairOrdP.
Local Open Scope nat_scope.

(** When each SameTemplate set meets at most one of the classes formed by the sets before it,
    every enumerated combination gives transitively tied instances the same variant. *)
Theorem C26_same_variant cs im vc max vs sel a b i j : imap_ok im -> chained [] (same_sets cs) ->
  enumerate_block_variants cs im vc max = Some vs -> In sel vs ->
  tied (same_sets cs) a b -> dget String.eqb im a = Some i -> dget String.eqb im b = Some j ->
  nth_error sel i = nth_error sel j.
Proof. apply same_variant. Qed.

(** Under the same condition the sets handed to the other placer are exactly the classes. *)
Theorem C26_merge cs x y : chained [] (same_sets cs) ->
  (exists g, In g (merge_sametemplate cs) /\ In x g /\ In y g) <-> (exists s, In s (same_sets cs) /\ In x s) /\ tied (same_sets cs) x y.
Proof.
  intros H. pose proof (groups_inv cs H) as HI. change (merge_sametemplate cs) with (same_groups cs). split.
  - intros (g & Hg & Hx & Hy). split; [exact (gi_from _ _ HI g x Hg Hx)|exact (gi_tied _ _ HI g x y Hg Hx Hy)].
  - intros ((s & Hs & Hx) & Ht). destruct (gi_cover _ _ HI s Hs) as (g & Hg & Hi). exists g. repeat split; auto.
    exact (ginv_closed _ _ _ _ _ HI Hg (Hi _ Hx) Ht).
Qed.

(** A later set that bridges two earlier ones: the groups overlap, and tied instances get
    different variants. *)
Definition c26_cs (bridge : bool) : list ucon :=
  [USame ["A"; "B"]; USame ["C"; "D"]; if bridge then USame ["B"; "C"] else USame ["B"; "E"]]%string.
Definition c26_im : imap := [("A", 0); ("B", 1); ("C", 2); ("D", 3); ("E", 4)]%string.
Definition c26_vc : list (string * nat) := map (fun e => (fst e, 2)) c26_im.

Lemma c26_im_ok : imap_ok c26_im.
Proof. split; [|reflexivity]. repeat constructor; simpl; intuition discriminate. Qed.

Theorem C26_refuted : exists cs im vc vs sel a b i j, imap_ok im /\ enumerate_block_variants cs im vc 100 = Some vs /\ In sel vs /\
  tied (same_sets cs) a b /\ dget String.eqb im a = Some i /\ dget String.eqb im b = Some j /\ nth_error sel i <> nth_error sel j.
Proof.
  exists (c26_cs true), c26_im, c26_vc. eexists. exists [0; 0; 1; 1; 0], "A"%string, "D"%string, 0, 3. split; [exact c26_im_ok|].
  split; [vm_compute; reflexivity|]. split; [vm_compute; tauto|]. split; [|split; [reflexivity|split; [reflexivity|discriminate]]].
  apply (tied_step _ _ "B"%string _ ["A"; "B"]%string); [simpl; tauto|simpl; tauto|simpl; tauto|].
  apply (tied_step _ _ "C"%string _ ["B"; "C"]%string); [simpl; tauto|simpl; tauto|simpl; tauto|].
  apply (tied_step _ _ "D"%string _ ["C"; "D"]%string); [simpl; tauto|simpl; tauto|simpl; tauto|]. apply tied_refl.
Qed.

Theorem C26_merge_refuted : exists cs x y, tied (same_sets cs) x y /\ (exists s, In s (same_sets cs) /\ In x s) /\
  ~ exists g, In g (merge_sametemplate cs) /\ In x g /\ In y g.
Proof.
  exists (c26_cs true), "A"%string, "D"%string. split; [|split].
  - apply (tied_step _ _ "B"%string _ ["A"; "B"]%string); [simpl; tauto|simpl; tauto|simpl; tauto|].
    apply (tied_step _ _ "C"%string _ ["B"; "C"]%string); [simpl; tauto|simpl; tauto|simpl; tauto|].
    apply (tied_step _ _ "D"%string _ ["C"; "D"]%string); [simpl; tauto|simpl; tauto|simpl; tauto|]. apply tied_refl.
  - exists ["A"; "B"]%string. simpl. tauto.
  - vm_compute. intros (g & [<-|[<-|[]]] & Hx & Hy); simpl in *; intuition discriminate.
Qed.

(** The limit on the number of combinations has no effect (the counter is never increased). *)
Theorem C26_limit_ignored cs im vc m1 m2 : 1 <= m1 -> 1 <= m2 -> enumerate_block_variants cs im vc m1 = enumerate_block_variants cs im vc m2.
Proof. intros H1 H2. unfold enumerate_block_variants. now rewrite (proj2 (Nat.leb_le _ _) H1), (proj2 (Nat.leb_le _ _) H2). Qed.

Example C26_nonvacuous : imap_ok c26_im /\ chained [] (same_sets (c26_cs false)) /\
  exists vs, enumerate_block_variants (c26_cs false) c26_im c26_vc 1 = Some vs /\ List.length vs = 4 /\ tied (same_sets (c26_cs false)) "A" "E".
Proof.
  split; [exact c26_im_ok|]. split; [|eexists; split; [vm_compute; reflexivity|split; [reflexivity|]]].
  - simpl. split; [|split; [|split; [|exact I]]].
    + intros S1 S2 x y [].
    + intros S1 S2 x y [<-|[]] [<-|[]] H1 H2 H3 H4; simpl in *; exfalso; intuition (subst; discriminate).
    + intros S1 S2 x y H1 H2 H3 H4 H5 H6. assert (x = "B"%string /\ y = "B"%string) as (-> & ->).
      { destruct H1 as [<-|[<-|[]]], H2 as [<-|[<-|[]]]; simpl in *; intuition (subst; congruence || discriminate). }
      apply tied_refl.
  - apply (tied_step _ _ "B"%string _ ["A"; "B"]%string); [simpl; tauto|simpl; tauto|simpl; tauto|].
    apply (tied_step _ _ "E"%string _ ["B"; "E"]%string); [simpl; tauto|simpl; tauto|simpl; tauto|]. apply tied_refl.
Qed.

Print Assumptions C26_same_variant.
Print Assumptions C26_merge.
Print Assumptions C26_refuted.
Print Assumptions C26_merge_refuted.
Print Assumptions C26_limit_ignored.
