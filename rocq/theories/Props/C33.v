(** C33: moving elements into a new subcircuit (create_array_hierarchy.py:282-340). *)
From Coq Require Import String.
From Verif Require Import Base.Prelude Base.PyDict Model.RemoveDuplicates Model.Canvas Model.Netlist Model.Hier Model.NewHier Spec.HierSpec Proofs.HierP Proofs.FindDummyP Proofs.NewHierP.

Lemma crosses_pin p names n : NoDup (map e_name (sb_elems p)) -> crosses p names n -> In n (new_pins p names).
Proof.
  intros N (e & He & Hn & Ho & Hc). apply filter_In. split.
  - apply uniq_in, in_flat_map. exists (e_name e). split; [assumption|]. rewrite (get_element_of _ _ N He). apply neighbors_in. left. eauto.
  - unfold crossing. destruct Hc as [Hc|(e2 & He2 & Hn2 & Ho2)]; [apply in_strs_iff in Hc; now rewrite Hc|]. apply orb_true_iff. right. apply existsb_exists. exists (e_name e2). split; [apply neighbors_in; right; eauto|]. apply negb_true_iff. destruct (in_strs (e_name e2) names) eqn:E; [|reflexivity]. apply in_strs_iff in E. contradiction.
Qed.
(** The form of the result. *)
Lemma create_form L pn cn names p : well_formed L -> lfind L pn = Some (Sub p) -> lfind L cn = None -> NoDup names -> new_pins p names <> [] ->
  exists rest, NoDup (map e_name rest) /\ (forall e, In e rest <-> In e (sb_elems p) /\ ~ In (e_name e) (map e_name (found (sb_elems p) names))) /\
    create_hier L pn cn names = Some (replace_sub (L ++ [Sub (mkSub cn (new_pins p names) [] (found (sb_elems p) names))])
      (mkSub (sb_name p) (sb_pins p) (sb_params p) (rest ++ [mkElem ("X_" ++ cn)%string cn (map (fun n => (n, n)) (new_pins p names)) []]))).
Proof.
  intros W Hp Hc Hn Hne. pose proof (proj1 (proj2 W p (proj1 (lfind_in _ _ _ Hp)))) as N.
  destruct (remove_all_ok (found (sb_elems p) names) (sb_elems p) N (found_nodup _ _ Hn)) as (rest & R1 & R2 & R3); [intros e He; apply found_in in He; tauto|].
  exists rest. split; [assumption|]. split; [assumption|]. unfold create_hier. rewrite Hp. destruct (new_pins p names) as [|a l] eqn:E; [congruence|]. rewrite Hc, R1.
  assert (F : lfind (L ++ [Sub (mkSub cn (a :: l) [] (found (sb_elems p) names))]) cn = Some (Sub (mkSub cn (a :: l) [] (found (sb_elems p) names)))).
  { unfold lfind in *. clear - Hc. induction L as [|c M IH]; cbn [app find]; [cbn [cell_name sb_name]; now rewrite String.eqb_refl|]. cbn [find] in Hc. destruct (String.eqb (cell_name c) cn); [discriminate|exact (IH Hc)]. }
  unfold mk_inst. rewrite F. cbn [cell_prefix cell_pins sb_pins cell_params sb_params].
  assert (S : same_set (map fst (map (fun n => (n, n)) (a :: l))) (a :: l) = true) by (apply same_set_iff; intros z; rewrite map_map; cbn [fst]; rewrite map_id; tauto). rewrite S. cbn [negb]. reflexivity.
Qed.

(** It succeeds when some net of the group leaves it. *)
Theorem C33_completes L pn cn names p : well_formed L -> lfind L pn = Some (Sub p) -> lfind L cn = None -> NoDup names -> (exists n, crosses p names n) ->
  exists L', create_hier L pn cn names = Some L'.
Proof.
  intros W Hp Hc Hn (n & Hx). pose proof (proj1 (proj2 W p (proj1 (lfind_in _ _ _ Hp)))) as N. destruct (create_form L pn cn names p W Hp Hc Hn) as (rest & _ & _ & H); [intros E; apply (crosses_pin p names n N) in Hx; rewrite E in Hx; destruct Hx|eauto].
Qed.

(** Every subcircuit of the library keeps its ports and its flat netlist; the library stays well
    formed and free of recursion. *)
Theorem C33_flat L pn cn names L' p : well_formed L -> NoDup names -> lfind L pn = Some (Sub p) -> fresh_inst p cn names -> create_hier L pn cn names = Some L' ->
  well_formed L' /\ (acyclic L -> acyclic L') /\
  (forall n c, lfind L n = Some (Sub c) -> exists c', lfind L' n = Some (Sub c') /\ sb_pins c' = sb_pins c /\ same_netlist L c L' c') /\
  (forall n l, lfind L n = Some (Prim l) -> lfind L' n = Some (Prim l)).
Proof.
  intros W Hn Hp Hf H. assert (Hc : lfind L cn = None) by (unfold create_hier in H; rewrite Hp in H; destruct (new_pins p names); [discriminate|]; destruct (lfind L cn); [discriminate|reflexivity]).
  assert (Hne : new_pins p names <> []) by (unfold create_hier in H; rewrite Hp in H; destruct (new_pins p names); discriminate).
  destruct (create_form L pn cn names p W Hp Hc Hn Hne) as (rest & R2 & R3 & E). rewrite E in H. injection H as <-.
  split; [exact (well_formed_L' L pn cn names p rest W Hp Hc Hn R3 R2 Hf)|]. split; [exact (acyclic_L' L pn cn names p rest W Hp Hc R3 Hf)|]. split.
  - intros n c Hl. eexists. split; [exact (find_sub L pn cn names p rest Hp Hc n c Hl)|]. pose proof (proj1 (lfind_in _ _ _ Hl)) as Hcl. split; [exact (upd_pins L pn cn names p rest W Hp c Hcl)|]. exact (new_same L pn cn names p rest W Hp Hc R3 Hf c Hcl).
  - intros n l Hl. exact (proj1 (find_prim L pn cn names p rest Hp Hc n l) Hl).
Qed.

(** The new subcircuit holds exactly the group, and its pins are exactly the nets that leave it. *)
Theorem C33_child L pn cn names L' p : well_formed L -> NoDup names -> lfind L pn = Some (Sub p) -> create_hier L pn cn names = Some L' ->
  (forall e1 e2, In e1 (sb_elems p) -> In e2 (sb_elems p) -> ~ on e1 (e_name e2)) ->
  exists child p', lfind L' cn = Some (Sub child) /\ lfind L' pn = Some (Sub p') /\ NoDup (sb_pins child) /\
    (forall n, In n (sb_pins child) <-> crosses p names n) /\
    (forall e, In e (sb_elems child) <-> In e (sb_elems p) /\ In (e_name e) names) /\
    (forall e, In e (sb_elems p') <-> (In e (sb_elems p) /\ ~ In (e_name e) names) \/ e = mkElem ("X_" ++ cn)%string cn (map (fun n => (n, n)) (sb_pins child)) []).
Proof.
  intros W Hn Hp H D. assert (Hc : lfind L cn = None) by (unfold create_hier in H; rewrite Hp in H; destruct (new_pins p names); [discriminate|]; destruct (lfind L cn); [discriminate|reflexivity]).
  assert (Hne : new_pins p names <> []) by (unfold create_hier in H; rewrite Hp in H; destruct (new_pins p names); discriminate).
  pose proof (proj1 (proj2 W p (proj1 (lfind_in _ _ _ Hp)))) as N.
  destruct (create_form L pn cn names p W Hp Hc Hn Hne) as (rest & R2 & R3 & E). rewrite E in H. injection H as <-. do 2 eexists. split; [exact (find_child L pn cn names p rest Hp Hc)|]. split; [exact (find_sub L pn cn names p rest Hp Hc pn p Hp)|].
  split; [apply NoDup_filter, uniq_nodup|]. split; [|split].
  - intros n. cbn [sb_pins]. split; [|exact (crosses_pin p names n N)]. intros Hx. apply filter_In in Hx as (Ht & Hx). apply (proj1 (uniq_in _ _)), in_flat_map in Ht as (a & Ha & Ht). destruct (get_element (sb_elems p) a) as [e|] eqn:Eg; [|destruct Ht]. apply get_element_in in Eg as (He & <-).
    apply neighbors_in in Ht as [(e' & He' & En & Ho)|(e' & He' & En & Ho)]; [|exfalso; exact (D e' e He' He Ho)].
    exists e'. split; [assumption|]. split; [congruence|]. split; [assumption|]. unfold crossing in Hx. apply orb_true_iff in Hx as [Hx|Hx]; [left; now apply in_strs_iff|]. right. apply existsb_exists in Hx as (y & Hy & Hny). apply neighbors_in in Hy as [(e2 & He2 & En2 & _)|(e2 & He2 & En2 & Ho2)].
    + exfalso. apply (D e' e2 He' He2). rewrite En2. assumption.
    + exists e2. split; [assumption|]. split; [|assumption]. rewrite En2. intros Hin. apply in_strs_iff in Hin. rewrite Hin in Hny. discriminate.
  - intros e. cbn [sb_elems]. apply found_in. exact N.
  - intros e. pose proof (proj2 (lfind_in _ _ _ Hp)) as Epn. simpl in Epn. unfold upd. rewrite Epn, String.eqb_refl. cbn [sb_elems sb_pins]. rewrite in_app_iff. rewrite (rest_in L pn names p rest W Hp R3 e). simpl. intuition congruence.
Qed.

Lemma same_netlist_refl L c : same_netlist L c L c.
Proof.
  assert (E : forall d, ren_dev (fun q => q) (fun r => r) d = d) by (intros (a, m, pins, ps); unfold ren_dev; simpl; f_equal; rewrite <- (map_id pins) at 2; apply map_ext; intros (q, r); reflexivity).
  exists (fun q => q), (fun r => r). split; [reflexivity|]. split; [eauto|]. split; [intros d; now rewrite E|]. split; [intros d H; exists d; now rewrite E|]. split; auto.
Qed.
Lemma same_netlist_trans L c L1 c1 L2 c2 : same_netlist L c L1 c1 -> same_netlist L1 c1 L2 c2 -> same_netlist L c L2 c2.
Proof.
  intros (f & g & F1 & F2 & F3 & F4 & F5 & F6) (h & k & H1 & H2 & H3 & H4 & H5 & H6). exists (fun q => h (f q)), (fun r => k (g r)).
  assert (E : forall d, ren_dev h k (ren_dev f g d) = ren_dev (fun q => h (f q)) (fun r => k (g r)) d) by (intros (a, m, pins, ps); unfold ren_dev; cbn [dv_path dv_model dv_pins dv_params]; f_equal; rewrite map_map; reflexivity).
  split; [intros q; now rewrite F1, H1|]. split; [intros path n; destruct (F2 path n) as (p1 & ->); apply H2|]. split; [|split; [|split]].
  - intros d Hd. rewrite <- E. auto.
  - intros d' Hd. destruct (H4 d' Hd) as (d1 & D1 & ->). destruct (F4 d1 D1) as (d & D & ->). exists d. now rewrite E.
  - intros d1 d2 D1 D2 X. apply F5; [assumption|assumption|]. exact (H5 _ _ (F3 _ D1) (F3 _ D2) X).
  - intros d1 d2 p1 p2 r1 r2 D1 D2 I1 I2 X. apply (F6 d1 d2 p1 p2 r1 r2 D1 D2 I1 I2). apply (H6 _ _ p1 p2 (g r1) (g r2) (F3 _ D1) (F3 _ D2)); [apply in_map_iff; exists (p1, r1); auto|apply in_map_iff; exists (p2, r2); auto|assumption].
Qed.
(** The array hierarchy and the templates inside it (add_new_array_hier): any number of moves. *)
Inductive moves : lib -> lib -> Prop :=
| moves_nil L : moves L L
| moves_step L pn cn names p L1 L2 : NoDup names -> lfind L pn = Some (Sub p) -> fresh_inst p cn names -> create_hier L pn cn names = Some L1 -> moves L1 L2 -> moves L L2.
Theorem C33_arrays L L' : moves L L' -> well_formed L -> well_formed L' /\ forall n c, lfind L n = Some (Sub c) -> exists c', lfind L' n = Some (Sub c') /\ sb_pins c' = sb_pins c /\ same_netlist L c L' c'.
Proof.
  induction 1 as [L|L pn cn names p L1 L2 Hn Hp Hf Hc Hm IH]; intros W.
  - split; [assumption|]. intros n c H. exists c. split; [assumption|]. split; [reflexivity|apply same_netlist_refl].
  - destruct (C33_flat L pn cn names L1 p W Hn Hp Hf Hc) as (W1 & _ & K & _). destruct (IH W1) as (W2 & K2). split; [assumption|]. intros n c H. destruct (K n c H) as (c1 & H1 & P1 & S1). destruct (K2 n c1 H1) as (c2 & H2 & P2 & S2). exists c2. split; [assumption|]. split; [congruence|]. exact (same_netlist_trans _ _ _ _ _ _ S1 S2).
Qed.

(** Without the condition on the name of the new instance there can be two elements of one name. *)
Theorem C33_clash_refuted : exists L pn cn names L', well_formed L /\ NoDup names /\ create_hier L pn cn names = Some L' /\ ~ well_formed L'.
Proof.
  exists [Prim (mkLeaf "R" ["P"; "Q"] [] ""); Sub (mkSub "T" ["A"; "B"] [] [mkElem "R1" "R" [("P", "A"); ("Q", "N")] []; mkElem "R2" "R" [("P", "N"); ("Q", "M")] []; mkElem "X_H" "R" [("P", "M"); ("Q", "B")] []])]%string, "T"%string, "H"%string, ["R1"; "R2"]%string. eexists.
  split; [|split; [|split; [vm_compute; reflexivity|]]].
  - split; [simpl; repeat constructor; simpl; intuition discriminate|]. intros c [H|[H|[]]]; [discriminate|]. injection H as <-. split; [simpl; repeat constructor; simpl; intuition discriminate|]. intros e He. simpl in He. repeat (destruct He as [He|He]; [subst e; split; [simpl; repeat constructor; simpl; intuition discriminate|]; eexists; split; [reflexivity|]; split; [intros q; simpl; tauto|reflexivity]|]); contradiction.
  - repeat constructor; simpl; intuition discriminate.
  - intros (_ & H). specialize (H _ (or_intror (or_introl eq_refl))) as (N & _). simpl in N. inversion N as [|? ? N1 N2]. apply N1. now left.
Qed.

(** A chain of three resistors; the first two go to H.  Net N becomes internal to H. *)
Definition ex_lib : lib := [Prim (mkLeaf "R" ["P"; "Q"] [] ""); Sub (mkSub "T" ["A"; "B"] [] [mkElem "R1" "R" [("P", "A"); ("Q", "N")] []; mkElem "R2" "R" [("P", "N"); ("Q", "M")] []; mkElem "R3" "R" [("P", "M"); ("Q", "B")] []]); Sub (mkSub "U" ["A"; "B"] [] [mkElem "X1" "T" [("A", "A"); ("B", "K")] []; mkElem "X2" "T" [("A", "K"); ("B", "B")] []])]%string.
Example C33_nonvacuous : exists p L', well_formed ex_lib /\ NoDup ["R1"; "R2"]%string /\ lfind ex_lib "T" = Some (Sub p) /\ fresh_inst p "H" ["R1"; "R2"]%string /\
  (forall e1 e2, In e1 (sb_elems p) -> In e2 (sb_elems p) -> ~ on e1 (e_name e2)) /\ crosses p ["R1"; "R2"]%string "M" /\
  create_hier ex_lib "T" "H" ["R1"; "R2"]%string = Some L' /\
  lfind L' "H" = Some (Sub (mkSub "H" ["A"; "M"] [] [mkElem "R1" "R" [("P", "A"); ("Q", "N")] []; mkElem "R2" "R" [("P", "N"); ("Q", "M")] []]))%string /\
  lfind L' "T" = Some (Sub (mkSub "T" ["A"; "B"] [] [mkElem "R3" "R" [("P", "M"); ("Q", "B")] []; mkElem "X_H" "H" [("A", "A"); ("M", "M")] []]))%string.
Proof.
  do 2 eexists. split; [|split; [|split; [reflexivity|split; [|split; [|split; [|split; [vm_compute; reflexivity|split; reflexivity]]]]]]].
  - split; [simpl; repeat constructor; simpl; intuition discriminate|]. intros c [H|[H|[H|[]]]]; [discriminate| |]; injection H as <-; (split; [simpl; repeat constructor; simpl; intuition discriminate|]; intros e He; simpl in He; repeat (destruct He as [He|He]; [subst e; split; [simpl; repeat constructor; simpl; intuition discriminate|]; eexists; split; [reflexivity|]; split; [intros q; simpl; tauto|reflexivity]|]); contradiction).
  - repeat constructor; simpl; intuition discriminate.
  - intros e He Hn. simpl in He. repeat (destruct He as [<-|He]; [simpl; discriminate|]). contradiction.
  - intros e1 e2 H1 H2 (q & Ho). simpl in H1, H2. repeat (destruct H1 as [<-|H1]; [simpl in Ho; repeat (destruct H2 as [<-|H2]; [simpl in Ho; intuition discriminate|]); contradiction|]). contradiction.
  - eexists. split; [simpl; right; left; reflexivity|]. split; [simpl; auto|]. split; [exists "Q"%string; simpl; auto|]. right. eexists. split; [simpl; right; right; left; reflexivity|]. split; [simpl; intuition discriminate|]. exists "P"%string. simpl. auto.
Qed.
Print Assumptions C33_completes.
Print Assumptions C33_flat.
Print Assumptions C33_child.
Print Assumptions C33_arrays.
Print Assumptions C33_clash_refuted.
