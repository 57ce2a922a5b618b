(** C31: merging parallel devices keeps the number of devices. *)
From Coq Require Import String Ascii.
From Verif Require Import Base.Prelude Base.PyDict Base.PyStr Model.RemoveDuplicates Model.Netlist Spec.NetlistSpec Proofs.NetlistP Proofs.ParallelP.
Local Open Scope Z_scope.

(** If every multiplicity is 1 and equal devices are listed in the order of their names, then for
    every visiting order of the nets the result has one device for each class of equal devices,
    whose multiplicity is the size of the class; nothing else changes. *)
Theorem C31_merge order els :
  wf_netlist els -> (forall n, In n order <-> In n (nets els)) ->
  (forall e v, In e els -> sget (e_params e) PARALLEL = Some v -> v = "1"%string) ->
  (forall l1 a l2 b l3, els = l1 ++ a :: l2 ++ b :: l3 -> multi a -> multi b -> same_device a b -> String.ltb (e_name a) (e_name b) = true) ->
  let out := add_parallel_devices order els in
  NoDup (map e_name out) /\
  (forall x, In x out -> multi x -> exists e l, In e els /\ class els e l /\ x = set_param PARALLEL (zstr (Z.of_nat (length l))) e) /\
  (forall e, In e els -> multi e -> exists x, (In x out /\ multi x /\ same_device e x) /\ forall y, In y out -> multi y -> same_device e y -> y = x) /\
  filter (fun e => negb (shas (e_params e) PARALLEL)) out = filter (fun e => negb (shas (e_params e) PARALLEL)) els.
Proof.
  intros Hwf Hns Hone Hl out. unfold out. rewrite (pass_final els Hwf Hone Hl order Hns).
  set (f := fun e => if is_multi e then (if isfirst els e then [merged els e] else []) else [e]).
  assert (Hf : forall x, In x (flat_map f els) -> multi x -> exists e, In e els /\ is_multi e = true /\ isfirst els e = true /\ x = merged els e).
  { intros x Hx Mx. apply in_flat_map in Hx as (e & He & Hx). unfold f in Hx. destruct (is_multi e) eqn:Me.
    - destruct (isfirst els e) eqn:Fe; [|destruct Hx]. destruct Hx as [<-|[]]. exists e. auto.
    - destruct Hx as [<-|[]]. apply is_multi_ok in Mx. congruence. }
  split; [|split; [|split]].
  - apply flat_names_nodup; [| |exact (proj1 Hwf)]; unfold f; intros e; destruct (is_multi e); try destruct (isfirst els e); simpl; try lia;
      intros x Hx; (destruct Hx as [<-|[]]; reflexivity) || destruct Hx.
  - intros x Hx Mx. destruct (Hf x Hx Mx) as (e & He & Me & _ & ->). exists e, (cls els e). split; [assumption|]. split; [now apply cls_class|reflexivity].
  - intros e He Me. apply is_multi_ok in Me. destruct (first_exists els Hwf Hone e He Me) as (h & Hh & Mh & Sh & Fh).
    assert (Sm : same_device h (merged els h)) by (apply merged_same; assumption).
    exists (merged els h). split; [split; [|split]|].
    + apply in_flat_map. exists h. split; [assumption|]. unfold f. rewrite Mh, Fh. now left.
    + eexists. apply sget_sset_same.
    + exact (same_trans e h _ Sh Sm).
    + intros y Hy My Sy. destruct (Hf y Hy My) as (g & Hg & Mg & Fg & ->). f_equal.
      apply (first_unique els Hwf Hone g h Hg Hh Mg Mh); [|assumption|assumption].
      apply (same_trans g e h); [|assumption]. apply (same_trans g (merged els g) e); [apply merged_same; assumption|apply same_sym; assumption].
  - rewrite <- (flat_if_filter (fun e => negb (shas (e_params e) PARALLEL)) els). apply filter_flat. intros e He. unfold f. fold (is_multi e).
    destruct (is_multi e) eqn:Me; simpl; [|fold (is_multi e); now rewrite Me].
    destruct (isfirst els e); [|reflexivity]. cbn [filter]. fold (is_multi (merged els e)). unfold merged. now rewrite set_multi.
Qed.

Definition dev (n g k : string) : elem := mkElem n "NMOS" [("D", "O"); ("G", g); ("S", "VSS"); ("B", "VSS")]%string [("W", "10"); ("PARALLEL", k)]%string.
Definition cap (n : string) : elem := mkElem n "CAP" [("PLUS", "O"); ("MINUS", "VSS")]%string [("C", "5")]%string.
Definition c31_els : list elem := [dev "M1" "A" "1"; cap "C1"; dev "M2" "X" "1"; dev "M3" "A" "1"; cap "C2"; dev "M4" "A" "1"]%string.

Lemma dev_wf n g k : wf_elem (dev n g k).
Proof.
  split; [simpl; repeat constructor; simpl; intuition discriminate|]. split; [simpl; repeat constructor; simpl; intuition discriminate|].
  split; [intros x H1 H2; simpl in *; intuition (subst; discriminate)|]. split; [simpl; intuition discriminate|discriminate].
Qed.
Lemma cap_wf n : wf_elem (cap n).
Proof.
  split; [simpl; repeat constructor; simpl; intuition discriminate|]. split; [simpl; repeat constructor; simpl; intuition discriminate|].
  split; [intros x H1 H2; simpl in *; intuition (subst; discriminate)|]. split; [simpl; intuition discriminate|discriminate].
Qed.
Lemma c31_wf els : NoDup (map e_name els) -> (forall e, In e els -> (exists n g k, e = dev n g k) \/ exists n, e = cap n) -> wf_netlist els.
Proof.
  intros Hnd H. split; [assumption|]. split.
  - apply Forall_forall. intros e He. destruct (H e He) as [(n & g & k & ->)|(n & ->)]; [apply dev_wf|apply cap_wf].
  - intros a b Ha Hb. destruct (H a Ha) as [(n & g & k & ->)|(n & ->)], (H b Hb) as [(n' & g' & k' & ->)|(n' & ->)]; try discriminate; intros _; split; intros x; reflexivity.
Qed.
(** Three of four transistors are parallel; the capacitors have no multiplicity. *)
Example C31_nonvacuous :
  wf_netlist c31_els /\ (forall e v, In e c31_els -> sget (e_params e) PARALLEL = Some v -> v = "1"%string) /\
  (forall l1 a l2 b l3, c31_els = l1 ++ a :: l2 ++ b :: l3 -> multi a -> multi b -> same_device a b -> String.ltb (e_name a) (e_name b) = true) /\
  add_parallel_devices ["VSS"; "X"; "O"; "A"]%string c31_els = [dev "M1" "A" "3"; cap "C1"; dev "M2" "X" "1"; cap "C2"]%string.
Proof.
  split; [|split; [|split; [|reflexivity]]].
  - apply c31_wf; [simpl; repeat constructor; simpl; intuition discriminate|].
    intros e He. simpl in He. repeat (destruct He as [<-|He]; [(left; eexists _, _, _; reflexivity) || (right; eexists; reflexivity)|]). destruct He.
  - intros e v He. simpl in He. repeat (destruct He as [<-|He]; [cbn; congruence|]). destruct He.
  - intros l1 a l2 b l3 E Ma Mb _.
    assert (Hc : forall n, multi (cap n) -> False) by (intros n (v & Hv); discriminate Hv).
    unfold c31_els in E.
    repeat (destruct l1 as [|? l1]; [injection E as <- E|injection E as <- E]; try (exfalso; exact (Hc _ Ma))); try (destruct l1; discriminate E);
    repeat (destruct l2 as [|? l2]; [injection E as <- E|injection E as <- E]; try (exfalso; exact (Hc _ Mb)); try reflexivity); try (destruct l2; discriminate E).
Qed.

Lemma perm3 {A} (l : list A) a b c : Permutation l [a; b; c] ->
  l = [a; b; c] \/ l = [a; c; b] \/ l = [b; a; c] \/ l = [b; c; a] \/ l = [c; a; b] \/ l = [c; b; a].
Proof.
  intros H. assert (Ha : In a l) by (apply (Permutation_in _ (Permutation_sym H)); simpl; auto).
  apply in_split in Ha as (l1 & l2 & ->). apply Permutation_sym, (Permutation_cons_app_inv l1 l2 (a := a)) in H.
  apply Permutation_length_2_inv in H as [E|E]; destruct l1 as [|x [|y l1]]; simpl in E |- *.
  all: try (rewrite E; tauto).
  all: try (injection E as E1 E2; rewrite E1, E2; tauto).
  all: injection E as E1 E2 E3; apply app_eq_nil in E3 as (-> & ->); subst; tauto.
Qed.
(** The names decide which device is updated, the netlist order which one is kept: in a netlist
    listing M2 before M1 the updated device M1 is removed, and one device is lost. *)
Theorem C31_order_refuted : exists els,
  wf_netlist els /\ (forall a b, In a els -> In b els -> same_device a b) /\ total els = 2 /\
  forall order, Permutation order (nets els) -> total (add_parallel_devices order els) = 1.
Proof.
  exists [dev "M2" "A" "1"; dev "M1" "A" "1"]%string. split; [|split; [|split; [reflexivity|]]].
  - apply c31_wf; [simpl; repeat constructor; simpl; intuition discriminate|]. intros e He. left. destruct He as [<-|[<-|[]]]; eexists _, _, _; reflexivity.
  - intros a b [<-|[<-|[]]] [<-|[<-|[]]]; repeat split.
  - intros order Hp. destruct (perm3 _ _ _ _ Hp) as [->|[->|[->|[->|[->| ->]]]]]; reflexivity.
Qed.

(** Given multiplicities are ignored: twice two devices become two. *)
Theorem C31_multiplicity_refuted : exists els,
  wf_netlist els /\ (forall a b, In a els -> In b els -> same_device a b) /\ total els = 4 /\
  forall order, Permutation order (nets els) -> total (add_parallel_devices order els) = 2.
Proof.
  exists [dev "M1" "A" "2"; dev "M2" "A" "2"]%string. split; [|split; [|split; [reflexivity|intros order Hp; destruct (perm3 _ _ _ _ Hp) as [->|[->|[->|[->|[->| ->]]]]]; reflexivity]]].
  - apply c31_wf; [simpl; repeat constructor; simpl; intuition discriminate|]. intros e He. left. destruct He as [<-|[<-|[]]]; eexists _, _, _; reflexivity.
  - intros a b [<-|[<-|[]]] [<-|[<-|[]]]; repeat split.
Qed.

(** So is the multiplicity found at the previous net: four devices, given as 1 + 1 + 2, become
    two. *)
Theorem C31_again_refuted : exists els,
  wf_netlist els /\ (forall a b, In a els -> In b els -> same_device a b) /\ total els = 4 /\
  forall order, Permutation order (nets els) -> total (add_parallel_devices order els) = 2.
Proof.
  exists [dev "M1" "A" "1"; dev "M2" "A" "1"; dev "M3" "A" "2"]%string. split; [|split; [|split; [reflexivity|intros order Hp; destruct (perm3 _ _ _ _ Hp) as [->|[->|[->|[->|[->| ->]]]]]; reflexivity]]].
  - apply c31_wf; [simpl; repeat constructor; simpl; intuition discriminate|]. intros e He. left. destruct He as [<-|[<-|[<-|[]]]]; eexists _, _, _; reflexivity.
  - assert (H : forall n n' k k', same_device (dev n "A" k) (dev n' "A" k')).
    { intros n n' k k'. split; [reflexivity|]. split; [reflexivity|]. intros x Hx. unfold sget. simpl. destruct (String.eqb x "W"); [reflexivity|].
      apply String.eqb_neq in Hx. unfold PARALLEL in Hx. now rewrite Hx. }
    intros a b [<-|[<-|[<-|[]]]] [<-|[<-|[<-|[]]]]; apply H.
Qed.

Print Assumptions C31_merge.
Print Assumptions C31_order_refuted.
Print Assumptions C31_multiplicity_refuted.
Print Assumptions C31_again_refuted.
