(** C80: the leaf cells whose layouts are collected for the placer are those the instances need. *)
From Coq Require Import String Ascii.
From Verif Require Import Base.Prelude Base.PyDict Model.PnrInput Proofs.PnrInputP.
Local Open Scope string_scope. Local Open Scope list_scope.

(** Instance [inst] of module [nm] uses template [l], which is no module. *)
Definition uses (ms : pmods) (nm inst l : string) : Prop := exists is, In (nm, is) ms /\ In (inst, l) is /\ forall is', ~ In (l, is') ms.
(** The instance is a capacitor array, to be built from unit capacitors. *)
Definition built (ds : pcons) (nm inst : string) : Prop := exists cs n u, dget String.eqb ds nm = Some cs /\ In (CC n u) cs /\ up n = inst.
Definition unit_cap (ds : pcons) (u : string) : Prop := exists nm cs n, In (nm, cs) ds /\ In (CC n u) cs.
Definition ring (ds : pcons) (r : string) : Prop := exists nm cs, In (nm, cs) ds /\ In (Ring r) cs.
Definition cap_names (cs : list pcon) : list string := flat_map (fun c => match c with CC n _ => [up n] | _ => [] end) cs.
(** No module has two capacitor arrays of one name. *)
Definition caps_distinct (ds : pcons) : Prop := forall nm cs, In (nm, cs) ds -> NoDup (cap_names cs).

Lemma no_mod (ms : pmods) l : ~ In l (map fst ms) <-> forall is', ~ In (l, is') ms.
Proof. split; [intros H is' G; apply H, in_map_iff; exists (l, is'); auto|intros H G; apply in_map_iff in G as ((l' & is') & E & G); cbn in E; subst l'; exact (H is' G)]. Qed.
Lemma used ms l : In l (map fst (leaf_calls ms)) <-> exists nm inst, uses ms nm inst l.
Proof.
  rewrite called. split; [intros (nm & inst & is & H1 & H2 & H3); exists nm, inst, is; rewrite <- no_mod; auto|intros (nm & inst & is & H1 & H2 & H3); exists nm, inst, is; rewrite no_mod; auto].
Qed.
Lemma used_cap ms ds l : In l (map fst (capacitors ms ds)) <-> exists nm inst, uses ms nm inst l /\ built ds nm inst.
Proof.
  rewrite cap_called. split; [intros (nm & inst & is & H1 & H2 & H3 & H4); exists nm, inst; split; [exists is; rewrite <- no_mod; auto|now apply is_cap_ok]|intros (nm & inst & (is & H1 & H2 & H3) & H4); exists nm, inst, is; rewrite no_mod, is_cap_ok; auto].
Qed.
Lemma units ds u : caps_distinct ds -> (In u (flat_map (fun p => map snd (snd p)) (cap_constraints ds)) <-> unit_cap ds u).
Proof.
  intros D. unfold cap_constraints. rewrite in_flat_map. split.
  - intros (p & Hp & H). apply in_map_iff in Hp as ((nm & cs) & <- & Hp). cbn [fst snd] in H. apply in_map_iff in H as ((k & u') & E & H). cbn in E. subst u'. unfold caps_of in H. apply caps_fold in H as [[]|(n & Hn & _)]. exists nm, cs, n. auto.
  - intros (nm & cs & n & Hm & Hc). exists (nm, caps_of cs). split; [apply in_map_iff; exists (nm, cs); auto|]. cbn [snd]. apply in_map_iff. exists (up n, u). split; [reflexivity|]. apply caps_all; [exact (D nm cs Hm)|exact Hc|intros k v []].
Qed.
Lemma rings ds r : In r (flat_map (fun p : string * list pcon => flat_map (fun c => match c with Ring r => [r] | _ => [] end) (snd p)) ds) <-> ring ds r.
Proof.
  rewrite in_flat_map. split.
  - intros ((nm & cs) & Hp & H). apply in_flat_map in H as (c & Hc & H). destruct c as [n u|r'|]; [destruct H| |destruct H]. destruct H as [<-|[]]. exists nm, cs. auto.
  - intros (nm & cs & Hp & Hc). exists (nm, cs). split; [exact Hp|]. apply in_flat_map. exists (Ring r). split; [exact Hc|now left].
Qed.
(** What is collected. *)
Theorem C80_leaves ms ds l : caps_distinct ds ->
  (In l (leaves ms ds) <-> ((exists nm inst, uses ms nm inst l) /\ (forall nm inst, uses ms nm inst l -> ~ built ds nm inst)) \/ unit_cap ds l \/ ring ds l).
Proof.
  intros D. unfold leaves. rewrite !in_app_iff, units by exact D. rewrite rings, filter_In, used. split; (intros [H|H]; [left|right; exact H]).
  - destruct H as (H & E). split; [exact H|]. intros nm inst U B. apply negb_true_iff in E. assert (G : In l (map fst (capacitors ms ds))) by (apply used_cap; exists nm, inst; auto). apply in_s_ok in G. congruence.
  - destruct H as (H & N). split; [exact H|]. apply negb_true_iff. destruct (in_s l (map fst (capacitors ms ds))) eqn:E; [|reflexivity]. apply in_s_ok, used_cap in E as (nm & inst & U & B). destruct (N nm inst U B).
Qed.
Print Assumptions C80_leaves.
(** Every instance gets its leaf, unless it is a capacitor array; provided no template is used by both. *)
Theorem C80_covered ms ds nm inst l : caps_distinct ds -> (forall nm' inst' nm2 inst2, uses ms nm' inst' l -> uses ms nm2 inst2 l -> built ds nm' inst' -> built ds nm2 inst2) ->
  uses ms nm inst l -> built ds nm inst \/ In l (leaves ms ds).
Proof.
  intros D Hsep U. destruct (in_s l (leaves ms ds)) eqn:E; [right; now apply in_s_ok|]. left. destruct (is_cap ds nm inst) eqn:C; [now apply is_cap_ok|].
  exfalso. assert (G : In l (leaves ms ds)); [|apply in_s_ok in G; congruence]. apply C80_leaves; [exact D|]. left. split; [exists nm, inst; exact U|]. intros nm' inst' U' B. assert (B' := Hsep _ _ _ _ U' U B). apply is_cap_ok in B'. congruence.
Qed.
Print Assumptions C80_covered.
(** Refuted without that proviso: an ordinary use of the template elsewhere does not get the cell. *)
Definition mods : pmods := [("TOP", [("C1", "CAP_2F"); ("X1", "FILT")]); ("FILT", [("C1", "CAP_2F"); ("M1", "NMOS")])].
Definition cons : pcons := [("TOP", [CC "c1" "CAP_UNIT"; Other]); ("FILT", [Ring "GR"])].
Theorem C80_shared_refuted : uses mods "FILT" "C1" "CAP_2F" /\ ~ built cons "FILT" "C1" /\ ~ In "CAP_2F" (leaves mods cons).
Proof.
  split; [exists [("C1", "CAP_2F"); ("M1", "NMOS")]; split; [cbn; auto|]; split; [cbn; auto|]; intros is' [H|[H|[]]]; discriminate H|]. split; [intros (cs & n & u & E & H & _); vm_compute in E; injection E as <-; destruct H as [H|[]]; discriminate H|]. vm_compute. intuition discriminate.
Qed.
Print Assumptions C80_shared_refuted.
(** Of two arrays of one name in a module only the last one's unit capacitor is collected. *)
Theorem C80_same_name_refuted : unit_cap [("TOP", [CC "c1" "U1"; CC "C1" "U2"])] "U1" /\ ~ In "U1" (leaves [] [("TOP", [CC "c1" "U1"; CC "C1" "U2"])]).
Proof. split; [exists "TOP", [CC "c1" "U1"; CC "C1" "U2"], "c1"; cbn; auto|]. vm_compute. intuition discriminate. Qed.
Print Assumptions C80_same_name_refuted.
(** Layouts are collected for exactly the concrete cells of the leaves, and of the guard ring. *)
Theorem C80_collateral ls prims c : In c (collateral ls prims) <-> exists a, In (a, c) prims /\ (In a ls \/ a = "GUARD_RING").
Proof.
  unfold collateral. rewrite in_flat_map. split.
  - intros ((a & c') & Hp & H). cbn [fst snd] in H. destruct (String.eqb_spec a "GUARD_RING") as [->|D]; [destruct H as [<-|[]]; exists "GUARD_RING"; auto|]. destruct (in_s a ls) eqn:E; [destruct H as [<-|[]]; exists a; split; [exact Hp|left; now apply in_s_ok]|destruct H].
  - intros (a & Hp & H). exists (a, c). split; [exact Hp|]. cbn [fst snd]. destruct H as [H| ->]; [apply in_s_ok in H; rewrite H, andb_false_r|]; now left.
Qed.
Print Assumptions C80_collateral.
(** The map file also lists the primitives reported as excluded from it. *)
Theorem C80_map_refuted : exists ls prims a c, ~ In c (collateral ls prims) /\ a <> "GUARD_RING" /\ In (a, c) (map_file prims).
Proof. exists [], [("NMOS", "NMOS_X1")], "NMOS", "NMOS_X1". split; [vm_compute; intuition|]. split; [discriminate|]. cbn. auto. Qed.
Print Assumptions C80_map_refuted.
Example C80_nonvacuous : caps_distinct cons /\ leaves mods cons = ["NMOS"; "CAP_UNIT"; "GR"] /\ uses mods "FILT" "M1" "NMOS" /\ built cons "TOP" "C1".
Proof.
  split; [intros nm cs [[= <- <-]|[[= <- <-]|[]]]; vm_compute; repeat constructor; intros []|]. split; [reflexivity|].
  split; [exists [("C1", "CAP_2F"); ("M1", "NMOS")]; split; [cbn; auto|]; split; [cbn; auto|]; intros is' [H|[H|[]]]; discriminate H|]. exists [CC "c1" "CAP_UNIT"; Other], "c1", "CAP_UNIT". cbn. auto.
Qed.
