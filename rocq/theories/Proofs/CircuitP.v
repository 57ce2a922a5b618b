(** [same_circuit] is reflexive and transitive. *)
From Coq Require Import String.
From Verif Require Import Base.Prelude Base.PyDict Model.Netlist Model.Hier Spec.HierSpec Spec.CircuitSpec.

Lemma ren_id d : ren_dev (fun p => p) (fun r => r) d = d.
Proof. destruct d as [p m l q]. unfold ren_dev. cbn. f_equal. rewrite (map_ext _ (fun pn => pn)); [apply map_id|]. now intros [a b]. Qed.
Lemma same_circuit_refl L c : same_circuit L c L c.
Proof.
  exists (fun p => p), (fun r => r). split; [reflexivity|]. split; [eauto|]. split; [|split; [|split]].
  - intros d H. exists d. split; [assumption|]. rewrite ren_id. repeat split; reflexivity.
  - intros d H. exists d. split; [assumption|]. rewrite ren_id. repeat split; reflexivity.
  - auto.
  - auto.
Qed.
Lemma like_comp f1 g1 f2 g2 d d1 d2 : like (ren_dev f1 g1 d) d1 -> like (ren_dev f2 g2 d1) d2 -> like (ren_dev (fun p => f2 (f1 p)) (fun r => g2 (g1 r)) d) d2.
Proof.
  intros (A1 & A2 & A3 & A4) (B1 & B2 & B3 & B4). unfold like. cbn in *. split; [congruence|]. split; [congruence|]. split; [|congruence].
  rewrite <- B3. apply (Permutation_map (fun pn => (fst pn, g2 (snd pn)))) in A3. rewrite map_map in A3. exact A3.
Qed.
Lemma same_circuit_trans L1 c1 L2 c2 L3 c3 : same_circuit L1 c1 L2 c2 -> same_circuit L2 c2 L3 c3 -> same_circuit L1 c1 L3 c3.
Proof.
  intros (f1 & g1 & A1 & A2 & A3 & A4 & A5 & A6) (f2 & g2 & B1 & B2 & B3 & B4 & B5 & B6). exists (fun p => f2 (f1 p)), (fun r => g2 (g1 r)).
  split; [intros p; now rewrite A1|]. split; [intros path n; destruct (A2 path n) as (p' & n' & ->); apply B2|]. split; [|split; [|split]].
  - intros d Hd. destruct (A3 d Hd) as (d1 & H1 & K1). destruct (B3 d1 H1) as (d2 & H2 & K2). exists d2. split; [assumption|]. exact (like_comp _ _ _ _ _ _ _ K1 K2).
  - intros d2 H2. destruct (B4 d2 H2) as (d1 & H1 & K2). destruct (A4 d1 H1) as (d & H & K1). exists d. split; [assumption|]. exact (like_comp _ _ _ _ _ _ _ K1 K2).
  - intros d e Hd He E. destruct (A3 d Hd) as (d1 & H1 & P1 & _). destruct (A3 e He) as (e1 & G1 & Q1 & _). cbn in P1, Q1. apply A5; [assumption|assumption|]. rewrite P1, Q1. apply B5; [assumption|assumption|]. now rewrite <- P1, <- Q1.
  - intros d e p q r s Hd He Hr Hs E. destruct (A3 d Hd) as (d1 & H1 & _ & _ & P1 & _). destruct (A3 e He) as (e1 & G1 & _ & _ & Q1 & _). cbn in P1, Q1.
    apply (A6 d e p q r s Hd He Hr Hs). apply (B6 d1 e1 p q _ _ H1 G1); [| |exact E].
    + apply (Permutation_in _ P1). apply in_map_iff. exists (p, r). auto.
    + apply (Permutation_in _ Q1). apply in_map_iff. exists (q, s). auto.
Qed.
