(** C29: trimming keeps exactly the modules and leaves that the variants of the top module use. *)
From Coq Require Import String.
From Verif Require Import Base.Prelude Base.PyDict Model.Topo Model.PlacerPy Spec.TopoSpec Spec.PlacerPySpec Proofs.PlacerPyP.
Local Open Scope nat_scope.

Section C29.
Context {A B : Type}.
Implicit Types D : pdata A B.

(** The kept elements are those reachable, in their old order, each unchanged except that its
    'pin_bbox' is gone. *)
Theorem C29_exact D top fuel : NoDup (map pd_conc (pd_modules D)) -> List.length (pd_modules D) < fuel ->
  exists D' keep, trim fuel D top = Some D' /\ (forall n, keep n = true <-> used_by D top n) /\
    Forall2 (fun e e' => same_but_pins e e' /\ pd_pin_bbox e' = None) (filter (fun e => keep (pd_conc e)) (pd_leaves D)) (pd_leaves D') /\
    Forall2 (fun e e' => same_but_pins e e' /\ pd_pin_bbox e' = None) (filter (fun e => keep (pd_conc e)) (pd_modules D)) (pd_modules D').
Proof.
  intros Hnd Hf. destruct (trim_ok D top fuel Hnd Hf) as (used & Hu & E).
  eexists. exists (fun n => smem n used). split; [exact E|]. split; [exact Hu|]. cbn [pd_leaves pd_modules].
  assert (K : forall l : list (pelem A B), Forall2 (fun e e' => same_but_pins e e' /\ pd_pin_bbox e' = None) l (map strip l)).
  { induction l as [|e l IH]; cbn [map]; constructor; [|assumption]. repeat split. }
  split; apply K.
Qed.

(** The result is self-contained: whatever a kept module instantiates is kept if it was there. *)
Theorem C29_closed D top fuel D' : NoDup (map pd_conc (pd_modules D)) -> List.length (pd_modules D) < fuel -> trim fuel D top = Some D' ->
  forall m c e, In m (pd_modules D') -> In c (pd_insts m) -> pd_conc e = c ->
  (In e (pd_modules D) -> In (strip e) (pd_modules D')) /\ (In e (pd_leaves D) -> In (strip e) (pd_leaves D')).
Proof.
  intros Hnd Hf E m c e Hm Hc <-. destruct (trim_ok D top fuel Hnd Hf) as (used & Hu & E'). rewrite E in E'. injection E' as ->.
  cbn [pd_leaves pd_modules] in *. apply in_map_iff in Hm as (m0 & <- & Hm). apply filter_In in Hm as (Hm & Hum). apply Hu in Hum.
  assert (Hue : smem (pd_conc e) used = true).
  { apply Hu. apply child_used with (pd_conc m0); [assumption|]. exists (pd_insts m0). split; [|exact Hc].
    unfold hier. apply in_map_iff. exists m0. auto. }
  split; intros H; apply in_map; apply filter_In; auto.
Qed.

(** Trimming again changes nothing. *)
Theorem C29_idempotent D top fuel D' : NoDup (map pd_conc (pd_modules D)) -> List.length (pd_modules D) < fuel ->
  trim fuel D top = Some D' -> trim fuel D' top = Some D'.
Proof. intros. eapply trim_idem; eauto. Qed.
End C29.

(** Two variants of the top module, a shared child, an unused module and an unused leaf. *)
Example C29_nonvacuous : let D := mkPd [mkPe "l0" "l" [] (Some 1) None 0; mkPe "l1" "l" [] (Some 2) None 1]
    [mkPe "b_0" "b" ["l0"] None (Some ["vdd"]) 2; mkPe "b_1" "b" ["l1"] None None 3; mkPe "t_0" "t" ["b_0"; "l0"] None None 4; mkPe "t_1" "t" ["b_0"] None None 5]%string in
  NoDup (map pd_conc (pd_modules D)) /\ List.length (pd_modules D) < 5 /\
  trim 5 D "t" = Some (mkPd [mkPe "l0" "l" [] None None 0]
    [mkPe "b_0" "b" ["l0"] None (Some ["vdd"]) 2; mkPe "t_0" "t" ["b_0"; "l0"] None None 4; mkPe "t_1" "t" ["b_0"] None None 5])%string.
Proof. cbv zeta. split; [repeat constructor; simpl; intuition discriminate|]. split; [simpl; lia|vm_compute; reflexivity]. Qed.

Print Assumptions C29_exact.
Print Assumptions C29_closed.
Print Assumptions C29_idempotent.
