(** C71: removal of dummy devices, align/compiler/preprocess.py:372-406. *)
From Coq Require Import String Ascii.
From Verif Require Import Base.Prelude Base.PyDict Base.PyStr Model.RemoveDuplicates Model.Netlist Model.DefineSD Model.Preprocess Spec.PhysicsSpec Proofs.NetlistP Proofs.ParallelP Proofs.PreprocessP.
Local Open Scope string_scope. Local Open Scope list_scope.

(** With a supply declared exactly the dummies go, and the others stay as they are, in order.  Without one nothing goes. *)
Theorem C71_exact L power gnd els out : NoDup (map e_name els) -> remove_dummy_devices L power gnd els = Some out ->
  (power = [] /\ gnd = [] -> out = els) /\
  (power <> [] \/ gnd <> [] -> exists stay, out = filter stay els /\ forall e, In e els -> (stay e = false <-> dummy L power gnd e)).
Proof.
  intros Hnd E. destruct (remove_ok L power gnd els out Hnd E) as [(-> & -> & ->)|(-> & Hr)].
  - split; [reflexivity|]. intros [H|H]; contradiction.
  - split.
    + intros (-> & ->). cbn in E. injection E as <-. reflexivity.
    + intros _. exists (keep L power gnd). split; [reflexivity|]. intros e He. destruct (Hr e He) as (r & R). apply root_go_ok in R. unfold keep. rewrite R, negb_false_iff. now apply is_dummy_ok.
Qed.
Print Assumptions C71_exact.

(** It fails exactly when, with a supply declared, the chain of bases of some model has no end in the library, or there are
    two devices or more and all are dummies. *)
Theorem C71_fails L power gnd els : remove_dummy_devices L power gnd els = None <->
  (power <> [] \/ gnd <> []) /\ ((exists e, In e els /\ forall r, ~ root L (e_model e) r) \/ (1 < length els)%nat /\ forall e, In e els -> dummy L power gnd e).
Proof. apply remove_fails. Qed.
Print Assumptions C71_fails.

(** The root of a model is unique. *)
Theorem C71_root L m r r' : root L m r -> root L m r' -> r = r'.
Proof. rewrite !root_n. intros (n & H) (n' & H'). now destruct (rootn_det _ _ _ _ _ _ H H'). Qed.
Print Assumptions C71_root.

(** Finding: a circuit that is one dummy device is left with no device at all. *)
Theorem C71_single_refuted L power gnd e : power <> [] \/ gnd <> [] -> dummy L power gnd e -> remove_dummy_devices L power gnd [e] = Some [].
Proof.
  intros Hs Hd. destruct (remove_dummy_devices L power gnd [e]) as [out|] eqn:E.
  - assert (Hnd : NoDup (map e_name [e])) by (repeat constructor; intros []). destruct (C71_exact _ _ _ _ _ Hnd E) as (_ & H). destruct (H Hs) as (stay & -> & Hst). cbn. now rewrite (proj2 (Hst e (or_introl eq_refl)) Hd).
  - apply remove_fails in E as (_ & [(x & [<-|[]] & Hx)|(H & _)]); [|cbn in H; lia]. exfalso. destruct Hd as (d & g & s & _ & _ & _ & [(R & _)|[(R & _)|([R|R] & _)]]); exact (Hx _ R).
Qed.
Print Assumptions C71_single_refuted.

(** Finding: without a supply constraint devices with all three pins together stay. *)
Theorem C71_nosupply_refuted L els : remove_dummy_devices L [] [] els = Some els.
Proof. reflexivity. Qed.
Print Assumptions C71_nosupply_refuted.

Definition dm_lib : models := [("NLVT", MDev (Some "NFET")); ("NFET", MDev (Some "NMOS")); ("PFET", MDev (Some "PMOS")); ("NMOS", MDev None); ("PMOS", MDev None); ("CAP", MDev None); ("AMP", MCkt ["NFET"; "PFET"])].
Definition fet (i m d g s : string) : elem := mkElem i m [("D", d); ("G", g); ("S", s); ("B", "VSS")] [].
(** Off by ground; off by power; together; on; not a transistor. *)
Definition dm_els : list elem :=
  [fet "M1" "NLVT" "A" "VSS" "B"; fet "M2" "PFET" "A" "VDD" "B"; fet "M3" "NFET" "X" "X" "X"; fet "M4" "NFET" "A" "VDD" "B"; fet "X5" "AMP" "VSS" "VSS" "VSS"; mkElem "C1" "CAP" [("PLUS", "A"); ("MINUS", "VSS")] []].
Example C71_nonvacuous :
  NoDup (map e_name dm_els) /\
  remove_dummy_devices dm_lib ["VDD"] ["VSS"] dm_els = Some [fet "M4" "NFET" "A" "VDD" "B"; fet "X5" "AMP" "VSS" "VSS" "VSS"; mkElem "C1" "CAP" [("PLUS", "A"); ("MINUS", "VSS")] []] /\
  dummy dm_lib ["VDD"] ["VSS"] (fet "M1" "NLVT" "A" "VSS" "B") /\
  remove_dummy_devices dm_lib ["VDD"] [] [fet "M2" "PFET" "A" "VDD" "B"; fet "M3" "NFET" "X" "X" "X"] = None.
Proof.
  split; [repeat constructor; cbn; intuition discriminate|]. split; [reflexivity|]. split; [|reflexivity].
  exists "A", "VSS", "B". repeat (split; [reflexivity|]). right; left. split; [|now left].
  apply (root_step _ _ "NFET"); [reflexivity|]. apply (root_step _ _ "NMOS"); [reflexivity|]. apply root_end. now left.
Qed.
