(** C64: hierarchies for arrays (create_array_hierarchy.py:234-257). *)
From Coq Require Import String.
From Verif Require Import Base.Prelude Model.RemoveDuplicates Model.Canvas Model.Netlist Model.Hier Model.NewHier Model.SymConst Model.FindSym Model.ArraySearch Model.ArrayHier.
From Verif Require Import Spec.HierSpec Spec.ArrayFindSpec Proofs.HierP Proofs.NewHierP Proofs.ArrayHierP Props.C33 Props.C63.

(** New names for subcircuits are always found. *)
Theorem C64_new_name L base : exists t, new_subckt_name L base = Some t /\ lfind L t = None.
Proof. apply new_name_ok. Qed.

(** Every subcircuit keeps its ports and its flat netlist. *)
Theorem C64_flat ord nodes pn L todo L' sub : (forall l, Permutation (ord l) l) -> well_formed L -> tidy L -> add_arrays ord nodes pn L todo = Some (L', sub) ->
  well_formed L' /\ forall n c, lfind L n = Some (Sub c) -> exists c', lfind L' n = Some (Sub c') /\ sb_pins c' = sb_pins c /\ same_netlist L c L' c'.
Proof.
  intros Ho W T H. enough (M : moves L L') by exact (C33_arrays L L' M W). unfold add_arrays in H. revert H. generalize (@nil string). revert L W T.
  induction todo as [|kr todo IH]; intros L W T s H; cbn [foldM] in H; [injection H as <- _; constructor|]. destruct (one_array ord nodes pn (L, s) kr) as [(L1, s1)|] eqn:E; [|discriminate].
  destruct (one_moves ord nodes Ho pn L s kr L1 s1 W T E) as (M1 & W1 & T1). exact (moves_trans _ _ _ M1 (IH L1 W1 T1 s1 H)).
Qed.

Lemma once_row sub rows r1 r2 l1 l2 l3 (x : string) : rows = l1 ++ r1 :: l2 ++ r2 :: l3 -> once rows sub x -> In x r1 -> ~ In x r2.
  Proof.
    intros E (H & _) I1 I2. rewrite E in H. rewrite concat_app in H. cbn [concat] in H. rewrite concat_app in H. cbn [concat] in H. rewrite !count_occ_app in H. apply (count_occ_In string_dec) in I1, I2. lia.
  Qed.

Section Shape.
  Variables (ord : list string -> list string) (nodes sub : list string) (rows : list (list string)).
  Hypothesis Ho : forall l, Permutation (ord l) l.
  Hypothesis Hnodes : forall r x, In r rows -> In x r -> In x nodes.
  Lemma count_all x : count x (all_inst nodes sub rows) = if in_strs x sub then 0%nat else count x (concat rows).
  Proof.
    unfold all_inst, count. assert (K : forall l, (forall y, In y l -> In y nodes) -> count_occ string_dec (filter (fun x => in_strs x nodes && negb (in_strs x sub)) l) x = if in_strs x sub then 0%nat else count_occ string_dec l x).
    { induction l as [|y l IH]; intros Hl; cbn [filter]; [destruct (in_strs x sub); reflexivity|]. specialize (IH (fun z Hz => Hl z (or_intror Hz))). assert (Hy : in_strs y nodes = true) by (apply in_strs_iff, Hl; now left). rewrite Hy. cbn [andb]. destruct (in_strs y sub) eqn:E1; cbn [negb count_occ].
      - rewrite IH. destruct (in_strs x sub) eqn:E2; [reflexivity|]. destruct (string_dec y x); [congruence|reflexivity].
      - destruct (string_dec y x) as [->|]; rewrite IH; [rewrite E1; reflexivity|reflexivity]. }
    apply K. intros y Hy. apply in_concat in Hy as (r & Hr & Hy). eauto.
  Qed.
  Lemma chosen_in x : In x (chosen ord nodes sub rows) <-> once rows sub x.
  Proof.
    unfold chosen. transitivity (In x (filter (fun x => negb (repeated (all_inst nodes sub rows) x)) (uniq (all_inst nodes sub rows)))); [split; apply Permutation_in; [|symmetry]; apply Ho|].
    rewrite filter_In, uniq_in. unfold repeated. rewrite count_all. unfold once. pose proof (count_all x) as C. unfold count in *. rewrite (count_occ_In string_dec (all_inst nodes sub rows) x), C. destruct (in_strs x sub) eqn:E.
    - apply in_strs_iff in E. split; [intros (H & _); lia|tauto].
    - assert (~ In x sub) by (rewrite <- in_strs_iff; congruence). rewrite negb_true_iff, Nat.ltb_ge. split; [intros (H1 & H2); split; [lia|assumption]|intros (H1 & _); lia].
  Qed.
  Lemma row_in r x : In r rows -> In x (row_of ord nodes sub rows r) <-> In x r /\ (In x sub \/ once rows sub x).
  Proof.
    intros Hr. unfold row_of. transitivity (In x (filter (fun x => negb (repeated (all_inst nodes sub rows) x)) (uniq r))); [split; apply Permutation_in; [|symmetry]; apply Ho|].
    rewrite filter_In, uniq_in. unfold repeated. rewrite count_all. unfold once, count. rewrite negb_true_iff, Nat.ltb_ge. destruct (in_strs x sub) eqn:E.
    - apply in_strs_iff in E. split; [tauto|]. intros (H & _). split; [assumption|lia].
    - assert (~ In x sub) by (rewrite <- in_strs_iff; congruence). split.
      + intros (H1 & H2). split; [assumption|]. right. split; [|assumption]. assert (I : In x (concat rows)) by (apply in_concat; eauto). apply (count_occ_In string_dec) in I. lia.
      + intros (H1 & [H2|(H2 & _)]); [contradiction|]. split; [assumption|lia].
  Qed.
End Shape.

Lemma map_split {A B} (f : A -> B) l : forall l1 b l2, map f l = l1 ++ b :: l2 -> exists m1 a m2, l = m1 ++ a :: m2 /\ map f m1 = l1 /\ f a = b /\ map f m2 = l2.
Proof.
  intros l1. revert l. induction l1 as [|y l1 IH]; intros l b l2 H; destruct l as [|x l]; try discriminate; cbn [map app] in H; injection H as H1 H2.
  - exists [], x, l. auto.
  - destruct (IH l b l2 H2) as (m1 & a & m2 & -> & <- & <- & <-). exists (x :: m1), a, m2. subst y. auto.
Qed.

(** One start point: the elements that occur once in the rows, and were not moved before, move to the
    hierarchy, one template for every row; the other elements stay. *)
Theorem C64_shape ord nodes pn L sub key rows L' sub' p : (forall l, Permutation (ord l) l) -> well_formed L -> tidy L -> lfind L pn = Some (Sub p) ->
  (forall r x, In r rows -> In x r -> In x nodes) -> (forall r t, In r rows -> ~ In ("X_ARRAY_TEMPLATE" ++ t)%string r) ->
  one_array ord nodes pn (L, sub) (key, rows) = Some (L', sub') ->
  (forall x, In x sub' <-> In x sub \/ once rows sub x) /\
  (L' = L /\ (forall x y, once rows sub x -> once rows sub y -> x = y) \/
   exists p' h ts, lfind L' pn = Some (Sub p') /\ lfind L' ("ARRAY_HIER_" ++ key) = Some (Sub h) /\
    (forall e, In e (sb_elems p') <-> (In e (sb_elems p) /\ ~ once rows sub (e_name e)) \/ e = mkElem ("X_ARRAY_HIER_" ++ key) ("ARRAY_HIER_" ++ key) (map (fun n => (n, n)) (sb_pins h)) []) /\
    (forall e, In e (sb_elems h) <-> exists t c, In t ts /\ lfind L' t = Some (Sub c) /\ e = mkElem ("X_" ++ t) t (map (fun n => (n, n)) (sb_pins c)) []) /\
    NoDup ts /\ Forall2 (fun t r => lfind L t = None /\ exists c, lfind L' t = Some (Sub c) /\ forall e, In e (sb_elems c) <-> In e (sb_elems p) /\ In (e_name e) r /\ once rows sub (e_name e)) ts rows)%string.
Proof.
  intros Ho W T Hp Hn Hx H. unfold one_array in H. pose proof (chosen_in ord nodes sub rows Ho Hn) as CI. destruct (Nat.leb (length (chosen ord nodes sub rows)) 1) eqn:E1.
  - injection H as <- <-. split; [intros x; rewrite in_app_iff, CI; tauto|]. left. split; [reflexivity|]. intros x y Ox Oy. apply CI in Ox, Oy. apply Nat.leb_le in E1. destruct (chosen ord nodes sub rows) as [|a [|b l]]; [destruct Ox| |cbn [length] in E1; lia]. destruct Ox as [<-|[]], Oy as [<-|[]]. reflexivity.
  - destruct (create_hier L pn _ _) as [L1|] eqn:C; [|discriminate]. destruct (foldM _ _ (L1, [])) as [(L2, ts)|] eqn:F; [|discriminate]. cbn [option_map fst] in H. injection H as <- <-. split; [intros x; rewrite in_app_iff, CI; tauto|]. right.
    pose proof (chosen_nodup ord nodes Ho sub rows) as CN. destruct (move_one L pn _ _ L1 W T CN (eq_refl : String.prefix "ARRAY_" ("ARRAY_HIER_" ++ key) = true) C) as (_ & W1 & T1).
    destruct (create_facts L pn _ _ L1 W CN C) as (p0 & h0 & p' & F1 & F2 & F3 & F4 & F5 & F6 & F7 & F8 & F9 & F10). rewrite Hp in F1. injection F1 as <-.
    destruct (templates_shape ("ARRAY_HIER_" ++ key)%string (map (row_of ord nodes sub rows) rows) L1 [] L2 ts h0) as (new & h & I1 & I2 & I3 & I4 & I5 & I6); try assumption.
    + intros r Hr. apply in_map_iff in Hr as (r0 & <- & _). apply (row_nodup ord nodes Ho).
    + intros r1 r2 e l1 l2 l3 He El Hr1 Hr2. apply F7 in He as (_ & He). apply CI in He. destruct (map_split _ _ _ _ _ El) as (m1 & a & m2 & E2 & E3 & E4 & E5). symmetry in E5. destruct (map_split _ _ _ _ _ (eq_sym E5)) as (m3 & b & m4 & E6 & E7 & E8 & E9).
      rewrite <- E4 in Hr1. rewrite <- E8 in Hr2. apply (row_in ord nodes sub rows Ho Hn) in Hr1 as (Hr1 & _); [|rewrite E2; apply in_or_app; right; now left]. apply (row_in ord nodes sub rows Ho Hn) in Hr2 as (Hr2 & _); [|rewrite E2; apply in_or_app; right; right; rewrite E6; apply in_or_app; right; now left].
      revert Hr2. apply (once_row sub rows a b m1 m3 m4); [rewrite E2, E6; reflexivity|assumption|assumption].
    + intros r t Hr [].
    + intros r t Hr Hi. apply in_map_iff in Hr as (r0 & <- & Hr). apply (row_in ord nodes sub rows Ho Hn) in Hi as (Hi & _); [|assumption]. exact (Hx r0 t Hr Hi).
    + cbn [app] in I1. subst new.
      assert (PH : pn <> ("ARRAY_HIER_" ++ key)%string) by congruence.
      exists p', h, ts. split; [rewrite I3; [assumption|assumption|congruence]|]. split; [assumption|]. split; [|split; [|split; [assumption|]]].
      * intros e. rewrite F8. rewrite CI. assert (PP : sb_pins h = sb_pins h0); [|rewrite PP; reflexivity].
        pose proof (templates_moves ("ARRAY_HIER_" ++ key)%string (map (row_of ord nodes sub rows) rows) (L1, []) (L2, ts)) as TM. destruct TM as (TM & _ & _); [intros r Hr; apply in_map_iff in Hr as (r0 & <- & _); apply (row_nodup ord nodes Ho)|assumption|assumption|assumption|].
        destruct (C33_arrays _ _ TM W1) as (_ & K). destruct (K _ _ F3) as (c' & K1 & K2 & _). cbn [fst] in K1. rewrite I2 in K1. injection K1 as <-. assumption.
      * intros e. rewrite I6. split; [|intros He; now right]. intros [(H1 & H2)|He]; [|assumption]. exfalso. apply H2. apply F7 in H1 as (_ & H1). apply CI in H1. pose proof H1 as (H3 & H4). assert (I : In (e_name e) (concat rows)) by (apply (count_occ_In string_dec); lia). apply in_concat in I as (r & Hr & I). apply in_concat. exists (row_of ord nodes sub rows r). split; [now apply in_map|]. apply (row_in ord nodes sub rows Ho Hn r); auto.
      * assert (GEN : forall new l, (forall r, In r l -> In r rows) -> Forall2 (fun t r => lfind L1 t = None /\ t <> ("ARRAY_HIER_" ++ key)%string /\ exists c, lfind L2 t = Some (Sub c) /\ forall e, In e (sb_elems c) <-> In e (sb_elems h0) /\ In (e_name e) r) new (map (row_of ord nodes sub rows) l) ->
          Forall2 (fun t r => lfind L t = None /\ exists c, lfind L2 t = Some (Sub c) /\ forall e, In e (sb_elems c) <-> In e (sb_elems p) /\ In (e_name e) r /\ once rows sub (e_name e)) new l).
        { intros new l. revert new. induction l as [|r l IH]; intros new S FF; inversion FF as [|t r' new' l' (A1 & A2 & c & A3 & A4) FF' X1 X2]; subst; constructor; [|apply IH; [intros; apply S; now right|assumption]]. split.
          - destruct (String.eqb_spec t pn) as [->|Np]; [congruence|]. rewrite <- (F9 t Np A2). assumption.
          - exists c. split; [assumption|]. intros e. rewrite A4, F7, CI, (row_in ord nodes sub rows Ho Hn r) by (apply S; now left). tauto. }
        apply GEN; auto.
Qed.

(** The array is made if its names are free and every row has an element to move on a net that leaves the array. *)
Theorem C64_completes ord nodes pn L sub key rows p : (forall l, Permutation (ord l) l) -> well_formed L -> tidy L -> lfind L pn = Some (Sub p) ->
  (forall r x, In r rows -> In x r -> In x nodes) -> (forall r t, In r rows -> ~ In ("X_ARRAY_TEMPLATE" ++ t)%string r) ->
  lfind L ("ARRAY_HIER_" ++ key)%string = None ->
  (forall r, In r rows -> exists e n, In e (sb_elems p) /\ In (e_name e) r /\ once rows sub (e_name e) /\ on e n /\ (In n (sb_pins p) \/ exists e2, In e2 (sb_elems p) /\ ~ once rows sub (e_name e2) /\ on e2 n)) ->
  exists st, one_array ord nodes pn (L, sub) (key, rows) = Some st.
Proof.
  intros Ho W T Hp Hn Hx Hk Hc. unfold one_array. pose proof (chosen_in ord nodes sub rows Ho Hn) as CI. destruct (Nat.leb (length (chosen ord nodes sub rows)) 1) eqn:E1; [eauto|].
  pose proof (chosen_nodup ord nodes Ho sub rows) as CN.
  assert (CR : forall r, In r rows -> exists e n, In e (sb_elems p) /\ In (e_name e) r /\ once rows sub (e_name e) /\ on e n /\ crosses p (chosen ord nodes sub rows) n).
  { intros r Hr. destruct (Hc r Hr) as (e & n & H1 & H2 & H3 & H4 & H5). exists e, n. repeat (split; [assumption|]). exists e. split; [assumption|]. split; [now apply CI|]. split; [assumption|]. destruct H5 as [H5|(e2 & H5 & H6 & H7)]; [now left|]. right. exists e2. split; [assumption|]. split; [rewrite CI; assumption|assumption]. }
  assert (RR : exists r, In r rows). { apply Nat.leb_gt in E1. destruct (chosen ord nodes sub rows) as [|a l] eqn:E; [cbn [length] in E1; lia|]. assert (I : once rows sub a) by (apply CI; now left). destruct I as (I & _). assert (J : In a (concat rows)) by (apply (count_occ_In string_dec); lia). apply in_concat in J as (r & Hr & _). eauto. }
  destruct RR as (r1 & Hr1). destruct (CR r1 Hr1) as (e1 & n1 & _ & _ & _ & _ & X1). destruct (C33_completes L pn ("ARRAY_HIER_" ++ key) (chosen ord nodes sub rows) p W Hp Hk CN (ex_intro _ n1 X1)) as (L1 & C). rewrite C.
  destruct (move_one L pn _ _ L1 W T CN (eq_refl : String.prefix "ARRAY_" ("ARRAY_HIER_" ++ key) = true) C) as (_ & W1 & T1).
  destruct (create_facts L pn _ _ L1 W CN C) as (p0 & h0 & p' & F1 & F2 & F3 & F4 & F5 & F6 & F7 & F8 & F9 & F10). rewrite Hp in F1. injection F1 as <-.
  assert (HP : sb_pins h0 = new_pins p (chosen ord nodes sub rows)).
  { pose proof (proj1 (proj2 W p (proj1 (lfind_in _ _ _ Hp)))) as N. assert (Hne : new_pins p (chosen ord nodes sub rows) <> []) by (intros E; apply (crosses_pin _ _ _ N) in X1; rewrite E in X1; destruct X1).
    destruct (create_form L pn _ _ p W Hp Hk CN Hne) as (rest & R2 & R3 & E). rewrite E in C. injection C as <-. pose proof (find_child L pn ("ARRAY_HIER_" ++ key)%string (chosen ord nodes sub rows) p rest Hp Hk) as FC. cbv zeta in FC. change (lfind (replace_sub (L ++ [Sub (mkSub ("ARRAY_HIER_" ++ key)%string (new_pins p (chosen ord nodes sub rows)) [] (NewHier.found (sb_elems p) (chosen ord nodes sub rows)))]) (mkSub (sb_name p) (sb_pins p) (sb_params p) (rest ++ [mkElem ("X_" ++ ("ARRAY_HIER_" ++ key))%string ("ARRAY_HIER_" ++ key)%string (map (fun n => (n, n)) (new_pins p (chosen ord nodes sub rows))) []]))) ("ARRAY_HIER_" ++ key)%string = Some (Sub h0)) in F3. rewrite FC in F3. injection F3 as <-. reflexivity. }
  destruct (templates_complete ("ARRAY_HIER_" ++ key)%string (map (row_of ord nodes sub rows) rows) L1 [] h0) as (st & ->); try assumption; [| | | |eexists; reflexivity].
  - intros r Hr. apply in_map_iff in Hr as (r0 & <- & _). apply (row_nodup ord nodes Ho).
  - intros q1 q2 e l1 l2 l3 He El Hq1 Hq2. apply F7 in He as (_ & He). apply CI in He. destruct (map_split _ _ _ _ _ El) as (m1 & a & m2 & E2 & E3 & E4 & E5). destruct (map_split _ _ _ _ _ E5) as (m3 & b & m4 & E6 & E7 & E8 & E9).
    rewrite <- E4 in Hq1. rewrite <- E8 in Hq2. apply (row_in ord nodes sub rows Ho Hn) in Hq1 as (Hq1 & _); [|rewrite E2; apply in_or_app; right; now left]. apply (row_in ord nodes sub rows Ho Hn) in Hq2 as (Hq2 & _); [|rewrite E2; apply in_or_app; right; right; rewrite E6; apply in_or_app; right; now left].
    revert Hq2. apply (once_row sub rows a b m1 m3 m4); [rewrite E2, E6; reflexivity|assumption|assumption].
  - intros r t Hr Hi. apply in_map_iff in Hr as (r0 & <- & Hr). apply (row_in ord nodes sub rows Ho Hn) in Hi as (Hi & _); [|assumption]. exact (Hx r0 t Hr Hi).
  - intros r Hr. apply in_map_iff in Hr as (r0 & <- & Hr). destruct (CR r0 Hr) as (e & n & H1 & H2 & H3 & H4 & H5). exists e, n. split; [apply F7; split; [assumption|now apply CI]|]. split; [apply (row_in ord nodes sub rows Ho Hn r0); auto|]. split; [assumption|]. rewrite HP. apply crosses_pin; [|assumption]. exact (proj1 (proj2 W p (proj1 (lfind_in _ _ _ Hp)))).
Qed.

Local Open Scope string_scope. Local Open Scope list_scope.
Definition mosleaf (n : string) : cell := Prim (mkLeaf n ["D"; "G"; "S"; "B"] [("W", "1")] "").
Definition mlib (els : list elem) : lib := [mosleaf "NMOS"; mosleaf "PMOS"; Sub (mkSub "T" ["O"; "VSS"; "VDD"; "G1"; "G2"; "SUB"] [] els)].
Definition mnodes (els : list elem) : list string := flat_map (fun e => e_name e :: map snd (e_pins e)) els.

Ltac wf_lib := split; [simpl; repeat constructor; simpl; intuition discriminate|]; intros c Hc; simpl in Hc; repeat (destruct Hc as [Hc|Hc]; [first [discriminate Hc|injection Hc as <-]|]); [|contradiction];
  split; [simpl; repeat constructor; simpl; intuition discriminate|]; intros e He; simpl in He; repeat (destruct He as [He|He]; [subst e; split; [simpl; repeat constructor; simpl; intuition discriminate|]; eexists; split; [reflexivity|]; split; [intros q; simpl; tauto|reflexivity]|]); contradiction.

(** Two stacks become two templates of one hierarchy. *)
Example C64_nonvacuous : exists L' sub, well_formed (mlib stacks) /\ tidy (mlib stacks) /\
  (forall r x, In r [["MA1"; "MB1"]; ["MA2"; "MB2"]] -> In x r -> In x (mnodes stacks)) /\ (forall r t, In r [["MA1"; "MB1"]; ["MA2"; "MB2"]] -> ~ In ("X_ARRAY_TEMPLATE" ++ t)%string r) /\
  (forall r, In r [["MA1"; "MB1"]; ["MA2"; "MB2"]] -> exists e n, In e stacks /\ In (e_name e) r /\ once [["MA1"; "MB1"]; ["MA2"; "MB2"]] [] (e_name e) /\ on e n /\ In n ["O"; "VSS"; "VDD"; "G1"; "G2"; "SUB"]) /\
  add_arrays idl (mnodes stacks) "T" (mlib stacks) [("O", [["MA1"; "MB1"]; ["MA2"; "MB2"]])] = Some (L', sub) /\
  (exists h, lfind L' "ARRAY_HIER_O" = Some (Sub h) /\ map e_name (sb_elems h) = ["X_ARRAY_TEMPLATE"; "X_ARRAY_TEMPLATE1"]) /\
  (exists c, lfind L' "ARRAY_TEMPLATE1" = Some (Sub c) /\ map e_name (sb_elems c) = ["MA2"; "MB2"]).
Proof.
  do 2 eexists. split; [wf_lib|]. split.
  { intros c e cn Hc He E _. simpl in Hc. repeat (destruct Hc as [Hc|Hc]; [first [discriminate Hc|injection Hc as <-]|]); [|contradiction]. simpl in He. repeat (destruct He as [<-|He]; [discriminate E|]). contradiction. }
  split; [intros r x Hr Hx; repeat (destruct Hr as [<-|Hr]; [repeat (destruct Hx as [<-|Hx]; [vm_compute; tauto|]); contradiction|]); contradiction|].
  split; [intros r t Hr; repeat (destruct Hr as [<-|Hr]; [intros H; repeat (destruct H as [H|H]; [discriminate H|]); contradiction|]); contradiction|].
  split. { intros r [<-|[<-|[]]]; [exists (nm "MA1" "O" "G1" "N1"), "O"|exists (nm "MA2" "O" "G1" "N2"), "O"]; (split; [simpl; auto|]; split; [simpl; auto|]; split; [split; [reflexivity|intros []]|]; split; [exists "D"; simpl; auto|simpl; auto]). }
  split; [vm_compute; reflexivity|]. split; eexists; (split; [reflexivity|reflexivity]).
Qed.

(** Two circuits with an array on a net of the same name: the name of the second hierarchy is taken. *)
Theorem C64_name_refuted : (forall ord nodes pn L sub key rows, lfind L ("ARRAY_HIER_" ++ key) <> None -> (1 < length (chosen ord nodes sub rows))%nat -> one_array ord nodes pn (L, sub) (key, rows) = None) /\
  exists els L1 sub, let L0 := mlib els ++ [Sub (mkSub "T2" ["O"; "VSS"; "VDD"; "G1"; "G2"; "SUB"] [] els)] in let todo := [("O", [["MA1"; "MB1"]; ["MA2"; "MB2"]])] in
    find_array (device_graph els) idl 20 ["VSS"; "VDD"] "O" = Ok (Some (Arrays [["MA1"; "MB1"]; ["MA2"; "MB2"]])) /\
    add_arrays idl (mnodes els) "T" L0 todo = Some (L1, sub) /\ add_arrays idl (mnodes els) "T2" L0 todo <> None /\ add_arrays idl (mnodes els) "T2" L1 todo = None.
Proof.
  split.
  - intros ord nodes pn L sub key rows H1 H2. unfold one_array. replace (Nat.leb (length (chosen ord nodes sub rows)) 1) with false by (symmetry; apply Nat.leb_gt; assumption). unfold create_hier. destruct (lfind L ("ARRAY_HIER_" ++ key)) as [x|]; [|congruence]. destruct (lfind L pn) as [[?|p]|]; [reflexivity| |reflexivity]. destruct (new_pins p (chosen ord nodes sub rows)); reflexivity.
  - exists stacks. do 2 eexists. split; [vm_compute; reflexivity|]. split; [vm_compute; reflexivity|]. split; [vm_compute; discriminate|vm_compute; reflexivity].
Qed.

(** Two start points of one circuit: a row of the second has been moved by the first, and its template is empty.
    Each of the two alone is fine. *)
Theorem C64_overlap_refuted : exists els ra rb, let stop := ["VSS"; "VDD"; "SUB"] in
  find_array (device_graph els) idl 20 stop "A" = Ok (Some (Arrays ra)) /\ find_array (device_graph els) idl 20 stop "O" = Ok (Some (Arrays rb)) /\
  add_arrays idl (mnodes els) "T" (mlib els) [("A", ra)] <> None /\ add_arrays idl (mnodes els) "T" (mlib els) [("O", rb)] <> None /\
  add_arrays idl (mnodes els) "T" (mlib els) [("A", ra); ("O", rb)] = None.
Proof.
  exists [nm "MA1" "O" "G1" "N1"; nm "MB1" "N1" "A" "VSS"; nm "MA2" "O" "G1" "N2"; nm "MB2" "N2" "A" "VSS"; nm "MA3" "O" "G1" "N3"; nm "MB3" "N3" "G2" "VSS"]. do 2 eexists.
  split; [vm_compute; reflexivity|]. split; [vm_compute; reflexivity|]. split; [vm_compute; discriminate|]. split; [vm_compute; discriminate|vm_compute; reflexivity].
Qed.

(** Instances found aligned at one start point are moved by the array of another: they are no elements of
    the circuit that carries the Align constraint. *)
Theorem C64_aligned_refuted : exists els l ra L' sub p', let stop := ["VSS"; "VDD"; "SUB"] in
  find_array (device_graph els) idl 20 stop "G2" = Ok (Some (Aligned l)) /\ find_array (device_graph els) idl 20 stop "O" = Ok (Some (Arrays ra)) /\
  add_arrays idl (mnodes els) "T" (mlib els) [("O", ra)] = Some (L', sub) /\ lfind L' "T" = Some (Sub p') /\
  (forall x, In x l -> In x (map e_name els)) /\ exists x, In x l /\ ~ In x (map e_name (sb_elems p')).
Proof.
  exists (stacks ++ [nm "MB3" "N3" "G2" "VSS"; pm "MC3" "N3" "G3" "VDD"]). do 5 eexists.
  split; [vm_compute; reflexivity|]. split; [vm_compute; reflexivity|]. split; [vm_compute; reflexivity|]. split; [vm_compute; reflexivity|]. split; [intros x Hx; simpl in Hx; simpl; tauto|].
  exists "MB1". split; [simpl; auto|]. simpl. intuition discriminate.
Qed.

Print Assumptions C64_new_name.
Print Assumptions C64_flat.
Print Assumptions C64_shape.
Print Assumptions C64_completes.
Print Assumptions C64_name_refuted.
Print Assumptions C64_overlap_refuted.
Print Assumptions C64_aligned_refuted.
