(** C81: the part of the netlist given to a placement is the module and all it contains, no more. *)
From Coq Require Import String Ascii Relations.
From Verif Require Import Base.Prelude Base.PyDict Model.PnrInput Proofs.PnrInputP.
Local Open Scope string_scope. Local Open Scope list_scope.

(** Module [a] has an instance of [b]. *)
Definition contains (ms : smods) (a b : string) : Prop := exists ts, In (a, ts) ms /\ In b ts.
Definition hierarchy (ms : smods) : string -> string -> Prop := clos_refl_trans string (contains ms).

Lemma last_in ms a ts : NoDup (map fst ms) -> (last_def ms a = Some ts <-> In (a, ts) ms).
Proof.
  intros H. unfold last_def. assert (H' : NoDup (map fst (rev ms))) by (rewrite map_rev; now apply NoDup_rev). split; [intros E; apply (dget_in _ String.eqb_eq) in E; now apply in_rev|intros E; apply (in_dget _ String.eqb_eq); [exact H'|now apply in_rev in E]].
Qed.
Lemma below_contains ms a b : NoDup (map fst ms) -> (below ms a b <-> contains ms a b).
Proof. intros H. split; intros (ts & E & Hb); exists ts; (split; [now apply last_in|exact Hb]). Qed.
Lemma reach_hier ms a b : NoDup (map fst ms) -> (reach ms a b <-> hierarchy ms a b).
Proof.
  intros H. split.
  - intros (n & P). induction P as [x|n x y z B P IH]; [apply rt_refl|]. eapply rt_trans; [apply rt_step; exact (proj1 (below_contains ms _ _ H) B)|exact IH].
  - intros P. apply clos_rt_rt1n in P. induction P as [x|x y z B P (n & IH)]; [exists 0%nat; constructor|]. exists (Datatypes.S n). econstructor; [exact (proj2 (below_contains ms _ _ H) B)|exact IH].
Qed.
(** Whatever is returned contains exactly the definitions of the modules in the hierarchy, in the given order. *)
Theorem C81_exact ms fuel nm r : NoDup (map fst ms) -> subset_mods ms fuel nm = Some r ->
  (forall m, In m r <-> In m ms /\ hierarchy ms nm (fst m)) /\ exists p, r = filter p ms.
Proof.
  intros H. unfold subset_mods. destruct (subset_aux ms fuel [] nm) as [f|] eqn:E; [|discriminate]. intros [= <-]. destruct (subset_ok ms _ _ _ _ E) as (R & _). split; [|eexists; reflexivity].
  intros m. rewrite filter_In, in_s_ok, R, reach_hier by exact H. cbn [In]. tauto.
Qed.
Print Assumptions C81_exact.
(** So the templates of what is returned are returned too, or are leaves. *)
Theorem C81_closed ms fuel nm r m t : NoDup (map fst ms) -> subset_mods ms fuel nm = Some r -> In m r -> In t (snd m) -> In t (map fst r) \/ ~ In t (map fst ms).
Proof.
  intros H E Hm Ht. destruct (C81_exact ms fuel nm r H E) as (R & _). destruct (in_s t (map fst ms)) eqn:I; [|right; intros G; apply in_s_ok in G; congruence]. left. apply in_s_ok in I. apply in_map_iff in I as ((t' & ts) & Et & I). cbn in Et. subst t'.
  apply in_map_iff. exists (t, ts). split; [reflexivity|]. apply R in Hm as (Hm & Hh). apply R. split; [exact I|]. cbn [fst]. eapply rt_trans; [exact Hh|]. apply rt_step. destruct m as (a & ts'). exists ts'. auto.
Qed.
Print Assumptions C81_closed.
(** It ends if no module contains itself, and not otherwise. *)
Theorem C81_ends ms nm : NoDup (map fst ms) -> (exists rank : string -> nat, forall a b, contains ms a b -> (rank b < rank a)%nat) -> exists fuel, forall fuel', (fuel <= fuel')%nat -> subset_mods ms fuel' nm <> None.
Proof.
  intros H (rank & Hr). exists (Datatypes.S (rank nm)). intros fuel' Hf. unfold subset_mods. pose proof (subset_ends ms rank (fun a b B => Hr a b (proj1 (below_contains ms a b H) B)) fuel' [] nm Hf). destruct (subset_aux ms fuel' [] nm); [discriminate|contradiction].
Qed.
Print Assumptions C81_ends.
Theorem C81_cycle ms nm x : NoDup (map fst ms) -> hierarchy ms nm x -> clos_trans string (contains ms) x x -> forall fuel, subset_mods ms fuel nm = None.
Proof.
  intros H Hx Hc fuel. unfold subset_mods. assert (exists k, (0 < k)%nat /\ path ms k x x) as (k & Hk & P).
  { apply clos_trans_t1n in Hc. assert (G : forall a b, clos_trans_1n string (contains ms) a b -> exists k, (0 < k)%nat /\ path ms k a b).
    { intros a b T. induction T as [a b B|a b c B T (k & Hk & P)]; [exists 1%nat; split; [lia|]; econstructor; [exact (proj2 (below_contains ms _ _ H) B)|constructor]|exists (Datatypes.S k); split; [lia|]; econstructor; [exact (proj2 (below_contains ms _ _ H) B)|exact P]]. }
    now apply G. }
  now rewrite (subset_cycle ms nm x k (proj2 (reach_hier ms nm x H) Hx) Hk P).
Qed.
Print Assumptions C81_cycle.
(** Of two modules of one name both are returned, though only what the last contains is. *)
Theorem C81_duplicate_refuted : exists ms fuel nm r m t, subset_mods ms fuel nm = Some r /\ In m r /\ In t (snd m) /\ In t (map fst ms) /\ ~ In t (map fst r).
Proof. exists [("A", ["B"]); ("B", []); ("A", [])], 5%nat, "A". eexists. exists ("A", ["B"]), "B". split; [reflexivity|]. cbn. intuition discriminate. Qed.
Print Assumptions C81_duplicate_refuted.
Definition chip : smods := [("TOP", ["A"; "B"; "NMOS"]); ("A", ["C"; "C"]); ("B", ["C"; "NMOS"]); ("C", ["PMOS"])].
Example C81_nonvacuous : NoDup (map fst chip) /\ subset_mods chip 4 "A" = Some [("A", ["C"; "C"]); ("C", ["PMOS"])] /\ subset_mods chip 2 "A" = None.
Proof. split; [repeat constructor; cbn; intuition discriminate|]. split; reflexivity. Qed.
