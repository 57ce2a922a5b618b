(** C91: the tests that throw away sequence pairs ([CheckSymm], [CheckAlign]). *)
From Coq Require Import ZArith ZifyBool.
From Verif Require Import Base.Prelude Model.SeqEnum Model.SymmGroup Model.KeepOrder Model.SeqCheck
  Spec.SeqEnumSpec Spec.SymmGroupSpec Spec.SeqCheckSpec Proofs.SeqEnumP Proofs.SymmGroupP Proofs.KeepOrderP Proofs.SeqCheckP Proofs.SeqCheckFeasP Props.C89.

(** A sequence pair with a placement passes the alignment test. *)
Theorem C91_align d pos neg P : sequences (c_blocks d) pos neg -> within d -> fits d pos neg P -> check_align d pos neg = true.
Proof. apply align_fits. Qed.

(** It passes the symmetry test, if no pair of a horizontal axis is nested in another one. *)
Theorem C91_symm d pos neg P : sequences (c_blocks d) pos neg -> within d -> fits d pos neg P ->
  abut_even d -> none_nested d pos neg -> check_symm d pos neg = true.
Proof. intros H1 H2 H3. now apply (symm_fits d pos neg P). Qed.

(** If the symmetry constraints are met, so are the groups that are made of them. *)
Theorem C91_groups sps P : no_repeats sps ->
  (forall c c' x y, In c sps -> In c' sps -> In x (elems c) -> In y (elems c') -> linked sps x y -> g_axis c = g_axis c') ->
  (forall c, In c sps -> mirrored P c) -> forall g, In g (construct sps) -> mirrored P g.
Proof.
  intros Hn Ha Hm g Hg. destruct (elems g) as [|x0 r] eqn:E.
  { exists 0%Z. rewrite E. intros x []. }
  assert (In x0 (elems g)) as H0 by (rewrite E; now left).
  assert (elems g <> []) as Hne by (rewrite E; discriminate). clear E.
  pose proof (proj2 (C89_axis sps g Hn Hg Hne) Ha) as Hd.
  destruct (C89_groups sps Hn) as (_ & G2 & G3).
  set (mid := fun x => match g_axis g, x with
                       | DirV, EPair (a, b) => (cx P a + cx P b)%Z | DirV, ESelf (a, _) => (2 * cx P a)%Z
                       | DirH, EPair (a, b) => (cy P a + cy P b)%Z | DirH, ESelf (a, _) => (2 * cy P a)%Z end).
  assert (forall x y, linked sps x y -> In x (elems g) -> mid x = mid y) as L.
  { intros x y H. induction H as [c x y Hc Hx Hy|x y z H1 IH1 H2 IH2]; intros Hxg.
    - destruct (Hm c Hc) as (ax & M). rewrite (Hd c x Hc Hx Hxg) in M. pose proof (M x Hx) as Mx. pose proof (M y Hy) as My.
      unfold mid. destruct (g_axis g), x as [[a b]|[a m]], y as [[a' b']|[a' m']]; lia.
    - rewrite (IH1 Hxg). apply IH2. apply (G3 g x y Hg Hxg). exact H1. }
  assert (exists ax, mid x0 = (2 * ax)%Z) as (ax & Eax).
  { destruct (proj1 (G2 x0) (ex_intro _ g (conj Hg H0))) as (c & Hc & Hx). destruct (Hm c Hc) as (ax & M). exists ax.
    specialize (M x0 Hx). rewrite (Hd c x0 Hc Hx H0) in M. unfold mid. destruct (g_axis g), x0 as [[a b]|[a m]]; lia. }
  exists ax. intros x Hx. pose proof (L x0 x (proj1 (G3 g x0 x Hg H0) Hx) H0) as Q. rewrite Eax in Q. clear Eax.
  destruct (proj1 (G2 x) (ex_intro _ g (conj Hg Hx))) as (c & Hc & Hxc). destruct (Hm c Hc) as (ax' & M). specialize (M x Hxc).
  rewrite (Hd c x Hc Hxc Hx) in M. unfold mid in Q. destruct (g_axis g), x as [[a b]|[a m]]; lia.
Qed.

(** A symmetric-feasible sequence pair passes the tests of each group with a vertical axis, or
    with one pair. *)
Theorem C91_feasible d s k g : separate d -> no_terminals d -> sp_ok d s -> feasible d s -> nth_error (pd_groups d) k = Some g ->
  g_axis g = DirV \/ length (g_pairs g) <= 1 -> group_bad (at_ (p_pos s)) (at_ (p_neg s)) g = false.
Proof. intros H1 H2. now apply group_feas. Qed.

(** Finding: about a horizontal axis, one pair inside another is thrown away, although this is
    how two pairs of such a group have to lie one above the other. *)
Theorem C91_nested d pos neg g p q : NoDup pos -> NoDup neg -> In g (c_groups d) -> g_axis g = DirH ->
  two_of (g_pairs g) p q -> nested pos neg p q -> check_symm d pos neg = false.
Proof. apply nested_bad. Qed.
(** So the initial sequence pair does not pass if some horizontal axis has two pairs. *)
Theorem C91_initial d cd k g p q : separate d -> no_terminals d -> same_ok d -> c_groups cd = pd_groups d ->
  nth_error (pd_groups d) k = Some g -> g_axis g = DirH -> two_of (g_pairs g) p q ->
  check_symm cd (p_pos (initial d)) (p_neg (initial d)) = false.
Proof.
  intros H1 H2 H3 E Hk Ha Ht. destruct (C89_initial d H3) as (P1 & P2 & _). destruct (SeqFeasP.perm_nodup d _ (conj P1 P2)) as [N1 N2].
  apply (nested_bad cd _ _ g p q); auto; [rewrite E; now apply nth_error_In in Hk|]. eapply initial_nested; eauto.
Qed.

Lemma realizes_check n pos neg P : NoDup pos -> NoDup neg ->
  forallb (fun a => forallb (fun b => (0 <? pw P a)%Z && (0 <? ph P a)%Z &&
     (negb (lef (at_ pos) (at_ neg) a b) || (px P a + pw P a <=? px P b)%Z) &&
     (negb (abv (at_ pos) (at_ neg) a b) || (py P b + ph P b <=? py P a)%Z)) (seq 0 n)) (seq 0 n) = true -> realizes n pos neg P.
Proof.
  intros N1 N2 H a b Ha Hb. rewrite forallb_forall in H. specialize (H a). rewrite in_seq in H. specialize (H ltac:(lia)).
  rewrite forallb_forall in H. specialize (H b). rewrite in_seq in H. specialize (H ltac:(lia)).
  split; [lia|]. split; [lia|]. split; intros [A B]; apply precedes_at in A; auto; apply precedes_at in B; auto; unfold lef, abv in H; lia.
Qed.

(** ... although there is a placement. *)
Theorem C91_nested_refuted : exists d pos neg P,
  sequences (c_blocks d) pos neg /\ within d /\ fits d pos neg P /\ c_abuts d = [] /\ check_symm d pos neg = false.
Proof.
  set (g := Group [(0, 1); (2, 3)] [] DirH).
  exists (CDesign 4 [g] [g] [] [] (fun _ => None) (fun _ => 1%Z) 1%Z), [0; 2; 3; 1], [1; 3; 2; 0],
         (Placement (fun _ => 0%Z) (fun a => nth a [3; 0; 2; 1]%Z 0%Z) (fun _ => 1%Z) (fun _ => 1%Z)).
  assert (NoDup [0; 2; 3; 1] /\ NoDup [1; 3; 2; 0]) as [N1 N2] by (split; repeat constructor; cbn; intuition lia).
  split; [split; [exact N1|split; [exact N2|]]; intros a H; cbn in H; cbn; lia|].
  split; [split; [intros ? x a [[<-|[]]|[<-|[]]]; cbn; intuition; subst; cbn in *; lia|intros u a []]|].
  assert (mirrored (Placement (fun _ => 0%Z) (fun a => nth a [3; 0; 2; 1]%Z 0%Z) (fun _ => 1%Z) (fun _ => 1%Z)) g) as M.
  { exists 4%Z. intros x [<-|[<-|[]]]; cbn; lia. }
  split; [|split; [reflexivity|vm_compute; reflexivity]].
  split; [|split; [intros h [<-|[]]; exact M|split; [intros h [<-|[]]; exact M|intros u []]]].
  apply realizes_check; auto.
Qed.

(** Finding: a self-symmetric block above both blocks of a pair of its horizontal axis passes. *)
Theorem C91_self_refuted : exists d pos neg,
  sequences (c_blocks d) pos neg /\ within d /\ check_symm d pos neg = true /\ check_align d pos neg = true /\
  forall P, ~ fits d pos neg P.
Proof.
  set (g := Group [(0, 1)] [(2, DirH)] DirH).
  exists (CDesign 3 [g] [g] [] [] (fun _ => None) (fun _ => 1%Z) 1%Z), [2; 0; 1], [1; 0; 2].
  assert (NoDup [2; 0; 1] /\ NoDup [1; 0; 2]) as [N1 N2] by (split; repeat constructor; cbn; intuition lia).
  split; [split; [exact N1|split; [exact N2|]]; intros a H; cbn in H; cbn; lia|].
  split; [split; [intros ? x a [[<-|[]]|[<-|[]]]; cbn; intuition; subst; cbn in *; lia|intros u a []]|].
  split; [vm_compute; reflexivity|]. split; [vm_compute; reflexivity|].
  intros P (R & M & _). destruct (M g (or_introl eq_refl)) as (ax & Hx).
  assert (above [2; 0; 1] [1; 0; 2] 2 0) as A1 by (split; [exists [], [], [1]|exists [1], [], []]; reflexivity).
  assert (above [2; 0; 1] [1; 0; 2] 0 1) as A2 by (split; [exists [2], [], []|exists [], [], [2]]; reflexivity).
  cbn in R. destruct (R 2 0) as (_ & S2 & _ & Y1); [lia|lia|]. destruct (R 0 1) as (_ & S0 & _ & Y2); [lia|lia|]. destruct (R 1 1) as (_ & S1 & _); [lia|lia|].
  specialize (Y1 A1). specialize (Y2 A2).
  pose proof (Hx (EPair (0, 1)) (or_introl eq_refl)) as E1. pose proof (Hx (ESelf (2, DirH)) (or_intror (or_introl eq_refl))) as E2. unfold g in E1, E2. cbn [g_axis] in E1, E2.
  unfold cy in *. lia.
Qed.

(** Finding: one pair above both blocks of another one of its horizontal axis passes. *)
Theorem C91_pairs_refuted : exists d pos neg,
  sequences (c_blocks d) pos neg /\ within d /\ check_symm d pos neg = true /\ check_align d pos neg = true /\
  forall P, ~ fits d pos neg P.
Proof.
  set (g := Group [(0, 1); (2, 3)] [] DirH).
  exists (CDesign 4 [g] [g] [] [] (fun _ => None) (fun _ => 1%Z) 1%Z), [0; 1; 2; 3], [3; 2; 1; 0].
  assert (NoDup [0; 1; 2; 3] /\ NoDup [3; 2; 1; 0]) as [N1 N2] by (split; repeat constructor; cbn; intuition lia).
  split; [split; [exact N1|split; [exact N2|]]; intros a H; cbn in H; cbn; lia|].
  split; [split; [intros ? x a [[<-|[]]|[<-|[]]]; cbn; intuition; subst; cbn in *; lia|intros u a []]|].
  split; [vm_compute; reflexivity|]. split; [vm_compute; reflexivity|].
  intros P (R & M & _). destruct (M g (or_introl eq_refl)) as (ax & Hx).
  assert (above [0; 1; 2; 3] [3; 2; 1; 0] 0 1) as A1 by (split; [exists [], [], [2; 3]|exists [3; 2], [], []]; reflexivity).
  assert (above [0; 1; 2; 3] [3; 2; 1; 0] 1 2) as A2 by (split; [exists [0], [], [3]|exists [3], [], [0]]; reflexivity).
  assert (above [0; 1; 2; 3] [3; 2; 1; 0] 2 3) as A3 by (split; [exists [0; 1], [], []|exists [], [], [1; 0]]; reflexivity).
  cbn in R. destruct (R 0 1) as (_ & S0 & _ & Y1); [lia|lia|]. destruct (R 1 2) as (_ & S1 & _ & Y2); [lia|lia|].
  destruct (R 2 3) as (_ & S2 & _ & Y3); [lia|lia|]. destruct (R 3 3) as (_ & S3 & _); [lia|lia|].
  specialize (Y1 A1). specialize (Y2 A2). specialize (Y3 A3).
  pose proof (Hx (EPair (0, 1)) (or_introl eq_refl)) as E1. pose proof (Hx (EPair (2, 3)) (or_intror (or_introl eq_refl))) as E2. unfold g in E1, E2. cbn [g_axis] in E1, E2.
  unfold cy in *. lia.
Qed.

(** Finding: the last test of symmetric pairs is inside the loop over the alignments.  Two pairs
    of different vertical axes that cross pass if the design has no alignment, and fail if it
    has one, be it of no block at all. *)
Theorem C91_loop_refuted : exists groups pos neg,
  let d aligns := CDesign 4 groups groups aligns [] (fun _ => None) (fun _ => 1%Z) 1%Z in
  sequences 4 pos neg /\ within (d []) /\ check_symm (d []) pos neg = true /\ check_align (d []) pos neg = true /\
  (forall P, ~ fits (d []) pos neg P) /\ check_symm (d [Align true 0 []]) pos neg = false.
Proof.
  set (g := Group [(0, 1)] [] DirV). set (h := Group [(2, 3)] [] DirV).
  exists [g; h], [0; 2; 3; 1], [2; 0; 1; 3]. cbv zeta.
  assert (NoDup [0; 2; 3; 1] /\ NoDup [2; 0; 1; 3]) as [N1 N2] by (split; repeat constructor; cbn; intuition lia).
  split; [split; [exact N1|split; [exact N2|]]; intros a H; cbn; lia|].
  split; [split; [intros ? x a [[<-|[<-|[]]]|[<-|[<-|[]]]]; cbn; intuition; subst; cbn in *; lia|intros u a []]|].
  split; [vm_compute; reflexivity|]. split; [vm_compute; reflexivity|]. split; [|vm_compute; reflexivity].
  intros P (R & M & _). destruct (M g (or_introl eq_refl)) as (ax & Hx). destruct (M h (or_intror (or_introl eq_refl))) as (ax' & Hx').
  assert (above [0; 2; 3; 1] [2; 0; 1; 3] 0 2) as A1 by (split; [exists [], [], [3; 1]|exists [], [], [1; 3]]; reflexivity).
  assert (above [0; 2; 3; 1] [2; 0; 1; 3] 3 1) as A2 by (split; [exists [0; 2], [], []|exists [2; 0], [], []]; reflexivity).
  cbn in R. destruct (R 0 2) as (_ & S0 & _ & Y1); [lia|lia|]. destruct (R 3 1) as (_ & S1 & _ & Y2); [lia|lia|].
  destruct (R 2 1) as (_ & S2 & _); [lia|lia|]. destruct (R 1 1) as (_ & S3 & _); [lia|lia|].
  specialize (Y1 A1). specialize (Y2 A2).
  pose proof (Hx (EPair (0, 1)) (or_introl eq_refl)) as E1. pose proof (Hx' (EPair (2, 3)) (or_introl eq_refl)) as E2. unfold g, h in E1, E2. cbn [g_axis] in E1, E2. lia.
Qed.

(** * Non-vacuity *)

Definition ex_syms := [Group [(0, 1)] [(2, DirV)] DirV; Group [(4, 5)] [] DirH].
Definition ex_check := CDesign 6 (construct ex_syms) ex_syms [Align true 0 [0; 1; 3]; Align false 1 [4; 5]]
  [((0, 1), DirH)] (fun a => nth a [Some 1; Some 0; Some 2; None; Some 5; Some 4] None) (fun a => nth a [10; 10; 10; 10; 5; 5]%Z 0%Z) 5%Z.
Definition ex_place := Placement (fun a => nth a [0; 10; 5; 20; 30; 30]%Z 0%Z) (fun a => nth a [0; 0; 10; 0; 5; 0]%Z 0%Z)
  (fun a => nth a [10; 10; 10; 10; 5; 5]%Z 0%Z) (fun a => nth a [10; 10; 10; 10; 5; 5]%Z 0%Z).
Example C91_symm_nonvacuous :
  sequences (c_blocks ex_check) [2; 0; 1; 3; 4; 5] [0; 1; 2; 3; 5; 4] /\ within ex_check /\
  fits ex_check [2; 0; 1; 3; 4; 5] [0; 1; 2; 3; 5; 4] ex_place /\ abut_even ex_check /\
  none_nested ex_check [2; 0; 1; 3; 4; 5] [0; 1; 2; 3; 5; 4] /\ c_groups ex_check = ex_syms /\
  check_symm ex_check [0; 1; 2; 3; 4; 5] [0; 1; 2; 3; 5; 4] = false /\ check_align ex_check [0; 2; 1; 4; 5; 3] [2; 0; 1; 3; 5; 4] = true /\
  check_align ex_check [3; 2; 1; 4; 5; 0] [0; 1; 2; 3; 5; 4] = false.
Proof.
  assert (NoDup [2; 0; 1; 3; 4; 5] /\ NoDup [0; 1; 2; 3; 5; 4]) as [N1 N2] by (split; repeat constructor; cbn; intuition lia).
  split; [split; [exact N1|split; [exact N2|]]; intros a H; cbn in H; cbn; lia|].
  split.
  { split.
    - intros ? x a [[<-|[<-|[]]]|[<-|[<-|[]]]]; cbn; intuition; subst; cbn in *; lia.
    - intros u a [<-|[<-|[]]]; cbn; lia. }
  assert (forall g, In g ex_syms -> mirrored ex_place g) as M.
  { intros g [<-|[<-|[]]]; [exists 20%Z|exists 10%Z]; cbn; intros x Hx; intuition; subst; vm_compute; auto. }
  assert (construct ex_syms = ex_syms) as Ec by (vm_compute; reflexivity).
  split.
  { split; [|split; [cbn [ex_check c_groups]; rewrite Ec; exact M|split; [exact M|]]].
    - apply realizes_check; auto.
    - intros u [<-|[<-|[]]] a b; cbn; intros Ha Hb; intuition; subst; reflexivity. }
  split.
  { intros a b [H|[]] _. injection H as <- <-. now exists 1%Z. }
  split.
  { intros g p q Hg Ha (l1 & l2 & l3 & E). cbn [ex_check c_groups] in Hg. rewrite Ec in Hg. exfalso. destruct Hg as [<-|[<-|[]]]; cbn in E;
      apply (f_equal (@length _)) in E; rewrite app_length in E; cbn in E; rewrite app_length in E; cbn in E; lia. }
  split; [exact Ec|]. split; [vm_compute; reflexivity|]. split; vm_compute; reflexivity.
Qed.
Example C91_initial_nonvacuous :
  let d := PDesign [1; 1; 1; 1; 1] [Group [(0, 1); (2, 3)] [(4, DirH)] DirH] [] in
  separate d /\ no_terminals d /\ same_ok d /\ two_of (g_pairs (Group [(0, 1); (2, 3)] [(4, DirH)] DirH)) (0, 1) (2, 3).
Proof.
  cbv zeta. split; [unfold separate; cbn; repeat constructor; cbn; intuition lia|].
  split; [intros g x b [<-|[]]; cbn; intros Hx Hb; intuition; subst; cbn in Hb; intuition; subst; unfold blocks_no; cbn; lia|].
  split; [|now exists [], [], []].
  split; [cbn; intros s Hs; intuition lia|]. split; [intros g []|]. split; [intros g a b []|]. intros [|k] k2 g1 g2 i H; discriminate.
Qed.

Print Assumptions C91_align.
Print Assumptions C91_symm.
Print Assumptions C91_groups.
Print Assumptions C91_feasible.
Print Assumptions C91_nested.
Print Assumptions C91_initial.
Print Assumptions C91_nested_refuted.
Print Assumptions C91_self_refuted.
Print Assumptions C91_pairs_refuted.
Print Assumptions C91_loop_refuted.
