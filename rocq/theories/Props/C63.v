(** C63: the search for arrays (create_array_hierarchy.py:84-204). *)
From Coq Require Import String.
From Verif Require Import Base.Prelude Base.PyDict Model.PySort Model.RemoveDuplicates Model.Canvas Model.Netlist Model.Hier Model.NewHier Model.GroupBlock Model.SymConst Model.FindSym Model.ArraySearch.
From Verif Require Import Spec.ArrayFindSpec Proofs.PySortP Proofs.HierP Proofs.GroupBlockP Proofs.CanvasP Proofs.ArraySearchP.

(** The groups are exactly the classes of two or more neighbours with the same property. *)
Theorem C63_groups G node l gs : matching_groups G node l = Some gs -> NoDup l ->
  (forall g, In g gs -> NoDup g /\ (2 <= length g)%nat /\ exists s, forall n, In n g <-> In n l /\ a_sig G node n = Some s) /\
  (forall a b, In a l -> In b l -> a <> b -> a_sig G node a = a_sig G node b -> exists g, In g gs /\ In a g /\ In b g).
Proof.
  intros H N. destruct (groups_spec _ _ _ _ H) as (S & K).
  assert (SG : forall n s, In n l -> String.eqb (sig_of G node n) s = true <-> a_sig G node n = Some s).
  { intros n s Hn. unfold sig_of. specialize (S n Hn). destruct (a_sig G node n) as [t|]; [|contradiction]. rewrite String.eqb_eq. split; congruence. }
  split.
  - intros g Hg. apply K in Hg as (s & -> & Hl). split; [now apply NoDup_filter|]. split; [lia|]. exists s. intros n. rewrite filter_In. split; intros (H1 & H2); (split; [assumption|]); now apply (SG n s H1).
  - intros a b Ha Hb Hab E. specialize (S a Ha). destruct (a_sig G node a) as [s|] eqn:Es; [|contradiction]. set (g := filter (fun n => String.eqb (sig_of G node n) s) l).
    assert (Ia : In a g) by (apply filter_In; split; [assumption|now apply SG]). assert (Ib : In b g) by (apply filter_In; split; [assumption|now apply SG]).
    exists g. split; [|split; assumption]. apply K. exists s. split; [reflexivity|]. destruct g as [|x [|y g']]; [destruct Ia| |cbn [length]; lia]. destruct Ia as [<-|[]], Ib as [<-|[]]. contradiction.
Qed.

Lemma trace_group_inv G ord fuel stop start group A : (forall l, Permutation (ord l) l) -> NoDup group -> group <> [] -> trace_group G ord fuel stop start group = Some A ->
  map fst A = ksorted (fun x => x) group /\ exists K, done G (start :: stop) group K A.
Proof.
  intros Ho N Hne H. unfold trace_group in H. set (m := map (fun el => (el, [el])) (ksorted (fun x => x) group)) in *.
  assert (Hm : forall a r, In (a, r) m <-> In a group /\ r = [a]).
  { intros a r. unfold m. rewrite in_map_iff. split; [intros (x & E & Hx); injection E as <- <-; split; [now apply ksorted_in|reflexivity]|intros (Ha & ->); exists a; split; [reflexivity|now apply ksorted_in]]. }
  assert (Hf : map fst m = ksorted (fun x => x) group) by (unfold m; rewrite map_map; apply map_id).
  assert (ND : NoDup (map fst m)) by (rewrite Hf; eapply Permutation_NoDup; [symmetry; apply ksorted_perm|assumption]).
  assert (Hl : In (last (ksorted (fun x => x) group) EmptyString) group).
  { apply ksorted_in. destruct (ksorted (fun x => x) group) as [|x l] eqn:E using rev_ind; [|rewrite last_last; apply in_or_app; right; now left].
    pose proof (ksorted_perm (fun x => x) group) as P. rewrite E in P. apply Permutation_nil in P. contradiction. }
  rewrite <- Hf. apply (trace_done G ord Ho (start :: stop) group fuel 0 m (group ++ stop ++ [last (ksorted (fun x => x) group) EmptyString] ++ [start]) m A); [|assumption|assumption]. constructor.
  - assumption.
  - intros a r Hr. apply Hm in Hr as (Ha & ->). split; [discriminate|]. intros x. unfold level. cbn [levels fst]. simpl. intuition.
  - intros a x (Ha & ->). rewrite Hf. now apply ksorted_in.
  - intros x. cbn [levels snd]. rewrite !in_app_iff. simpl. split; [|tauto]. intros [H1|[H1|[[H1|[]]|[H1|[]]]]]; [tauto|tauto|subst x; tauto|tauto].
  - intros a r Hr x. apply Hm in Hr as (Ha & ->). split; [intros [<-|[]]; exists 0%nat; split; [lia|]; unfold level; cbn [levels fst]; auto|intros (j & Hj & Hx); assert (j = 0)%nat by lia; subst j; destruct Hx as (_ & ->); now left].
  - intros a r Hr. apply Hm in Hr as (_ & ->). eauto.
  - auto.
  - intros a b ra rb Ha Hb _. apply Hm in Ha as (_ & ->). apply Hm in Hb as (_ & ->). exists []. reflexivity.
  - intros a b ra rb _ Ha Hb. apply Hm in Ha as (_ & ->). apply Hm in Hb as (_ & ->). reflexivity.
Qed.
Lemma fold_last {A B} (f : A -> option B) l : forall s r, fold_s (fun _ g => match f g with Some a => Ok (Some a) | None => Out end) l s = Ok r ->
  (l = [] /\ r = s) \/ exists l' g a, l = l' ++ [g] /\ f g = Some a /\ r = Some a.
Proof.
  induction l as [|g l IH]; intros s r H; cbn [fold_s] in H; [left; split; congruence|]. destruct (f g) as [a|] eqn:E; cbn [bind_s] in H; [|discriminate]. right. destruct (IH _ _ H) as [(-> & ->)|(l' & g' & a' & -> & Hf & ->)]; [exists [], g, a; auto|exists (g :: l'), g', a'; auto].
Qed.

(** The rows found start at the members of one class of neighbours of the start point; no class is larger.  Each row
    holds the nodes at distance at most K from its first node; apart from the first nodes, of two rows one has
    the kinds of nodes of the other and possibly more; and K is the largest possible. *)
Theorem C63_rows G ord fuel stop start A : (forall l, Permutation (ord l) l) -> NoDup (a_nb G start) -> find_rows G ord fuel stop start = Ok (Some A) ->
  exists s K, NoDup (map fst A) /\ (2 <= length A)%nat /\ (forall n, In n (map fst A) <-> In n (a_nb G start) /\ ~ In n stop /\ a_sig G start n = Some s) /\
    (forall s' l, NoDup l -> (forall n, In n l -> In n (a_nb G start) /\ ~ In n stop /\ a_sig G start n = Some s') -> (length l <= length A)%nat) /\
    (forall a r, In (a, r) A -> (forall x, In x r <-> exists j, (j <= K)%nat /\ level G (start :: stop) (map fst A) j a x) /\ exists t, r = a :: t) /\
    (forall a b ra rb, In (a, ra) A -> In (b, rb) A -> (length ra <= length rb)%nat -> exists rest, Permutation (map (kind G) (tl rb)) (map (kind G) (tl ra) ++ rest)) /\
    ((forall a x, ~ level G (start :: stop) (map fst A) (Datatypes.S K) a x) \/ meet G (start :: stop) (map fst A) K \/ differ G (start :: stop) (map fst A) (Datatypes.S K)).
Proof.
  intros Ho N H. unfold find_rows in H. destruct (matching_groups G start (minus ord (a_nb G start) stop)) as [gs|] eqn:E; [|discriminate].
  assert (NM : NoDup (minus ord (a_nb G start) stop)) by (unfold minus; eapply Permutation_NoDup; [symmetry; apply Ho|now apply NoDup_filter]).
  destruct (C63_groups _ _ _ _ E NM) as (C1 & C2). destruct (fold_last _ _ _ _ H) as [(_ & X)|(l' & g & a & El & Ht & X)]; [discriminate|]. injection X as <-.
  assert (Hg : In g gs) by (apply (sort_by_in (fun g => Z.of_nat (length g))); rewrite El; apply in_or_app; right; now left). destruct (C1 g Hg) as (Ng & Lg & s & Sg).
  assert (Gne : g <> []) by (destruct g; [cbn [length] in Lg; lia|discriminate]).
  destruct (trace_group_inv G ord fuel stop start g A Ho Ng Gne Ht) as (F & K & D).
  assert (P : Permutation (map fst A) g) by (rewrite F; apply ksorted_perm).
  assert (LA : length A = length g) by (rewrite <- (Permutation_length P); now rewrite map_length).
  assert (LV : forall k, (forall a x, level G (start :: stop) (map fst A) k a x <-> level G (start :: stop) g k a x) /\ (forall x, snd (levels G (start :: stop) (map fst A) k) x <-> snd (levels G (start :: stop) g k) x)).
  { assert (PI : forall x, In x (map fst A) <-> In x g) by (intros x; split; apply Permutation_in; [assumption|now symmetry]).
    intros k. induction k as [|k (I1 & I2)]; unfold level in *; cbn [levels fst snd]; [split; intros; rewrite PI; reflexivity|].
    assert (FN : forall a x, fresh_nbr G (start :: stop) (fst (levels G (start :: stop) (map fst A) k) a) (snd (levels G (start :: stop) (map fst A) k)) x <-> fresh_nbr G (start :: stop) (fst (levels G (start :: stop) g k) a) (snd (levels G (start :: stop) g k)) x).
    { intros a x. unfold fresh_nbr. split; intros (n & H1 & H2 & H3 & H4 & H5); exists n; (split; [now apply I1|]); (split; [assumption|]); (split; [assumption|]); (split; [assumption|]); rewrite I2 in *; assumption. }
    split; [exact FN|]. intros x. rewrite I2. split; (intros [Hx|(a & Hx)]; [now left|right; exists a; now apply FN]). }
  exists s, K. split; [eapply Permutation_NoDup; [symmetry; exact P|assumption]|]. split; [lia|]. split; [|split; [|split; [|split]]].
  - intros n. transitivity (In n g); [split; apply Permutation_in; [assumption|now symmetry]|]. rewrite Sg, (minus_in ord Ho). tauto.
  - intros s' l Nl Hl. rewrite LA. destruct l as [|x l0]; [cbn [length]; lia|]. destruct l0 as [|y l1]; [cbn [length]; lia|].
    assert (Hxy : x <> y) by (inversion Nl as [|? ? X _]; intros ->; apply X; now left).
    destruct (Hl x (or_introl eq_refl)) as (X1 & X2 & X3), (Hl y (or_intror (or_introl eq_refl))) as (Y1 & Y2 & Y3).
    destruct (C2 x y ltac:(apply (minus_in ord Ho); auto) ltac:(apply (minus_in ord Ho); auto) Hxy ltac:(congruence)) as (g' & Hg' & Gx & Gy).
    destruct (C1 g' Hg') as (_ & _ & s2 & S2). assert (s2 = s') by (apply S2 in Gx as (_ & Gx); congruence). subst s2.
    apply Nat.le_trans with (length g').
    + apply NoDup_incl_length; [assumption|]. intros n Hn. apply S2. destruct (Hl n Hn) as (N1 & N2 & N3). split; [apply (minus_in ord Ho); auto|assumption].
    + pose proof (sort_by_sorted (fun g => Z.of_nat (length g)) gs) as SS. unfold key_sorted in SS. rewrite El in SS. assert (I : In g' (l' ++ [g])) by (rewrite <- El; now apply sort_by_in).
      apply in_app_iff in I as [I|[<-|[]]]; [|lia]. clear - SS I. induction l' as [|z l' IH]; [destruct I|]. cbn [app] in SS. inversion SS as [|? ? S1 S2]; subst. destruct I as [<-|I]; [|now apply IH]. rewrite Forall_forall in S2. specialize (S2 g ltac:(apply in_or_app; right; now left)). cbn beta in S2. lia.
  - intros a0 r Hr. destruct (proj1 D a0 r Hr) as (D1 & D2). split; [|assumption]. intros x. rewrite D1. split; intros (j & Hj & Hx); exists j; (split; [assumption|]); now apply (proj1 (LV j)).
  - exact (proj1 (proj2 D)).
  - destruct (proj2 (proj2 D)) as [D3|[(x & y & z & D3 & D4 & D5 & D6)|(x & y & la & lb & D3 & D4 & D5 & D6 & D7)]].
    + left. intros a0 x Hx. apply (D3 a0 x). now apply (proj1 (LV (Datatypes.S K))).
    + right. left. exists x, y, z. split; [assumption|]. split; [now apply (proj1 (LV K))|]. split; [now apply (proj1 (LV K))|assumption].
    + right. right. exists x, y, la, lb. split; [assumption|]. split; [assumption|]. split; [intros z; rewrite D5; symmetry; apply (proj1 (LV (Datatypes.S K)))|]. split; [intros z; rewrite D6; symmetry; apply (proj1 (LV (Datatypes.S K)))|assumption].
Qed.

(** Fuel: the search ends. *)
Lemma free_drop (all V W : list string) x : In x all -> ~ In x V -> In x W -> (length (filter (fun y => negb (in_strs y (V ++ W))) all) < length (filter (fun y => negb (in_strs y V)) all))%nat.
Proof.
  intros Hx Hv Hw. assert (LE : forall l, (length (filter (fun y => negb (in_strs y (V ++ W))) l) <= length (filter (fun y => negb (in_strs y V)) l))%nat).
  { intros l. induction l as [|y l IH]; [reflexivity|]. cbn [filter]. destruct (in_strs y V) eqn:E1; destruct (in_strs y (V ++ W)) eqn:E2; cbn [negb length]; try lia. apply in_strs_iff in E1. exfalso. apply not_true_iff_false in E2. apply E2, in_strs_iff, in_or_app. now left. }
  induction all as [|y l IH]; [destruct Hx|]. cbn [filter]. destruct Hx as [->|Hx].
  - assert (E1 : in_strs x V = false) by (apply not_true_iff_false; rewrite in_strs_iff; assumption). assert (E2 : in_strs x (V ++ W) = true) by (apply in_strs_iff, in_or_app; now right). rewrite E1, E2. cbn [negb length]. specialize (LE l). lia.
  - specialize (IH Hx). destruct (in_strs y V) eqn:E1; destruct (in_strs y (V ++ W)) eqn:E2; cbn [negb length]; try lia. apply in_strs_iff in E1. exfalso. apply not_true_iff_false in E2. apply E2, in_strs_iff, in_or_app. now left.
Qed.
Lemma trace_ends G ord all : (forall l, Permutation (ord l) l) -> (forall n x, In x (a_nb G n) -> In x all) ->
  forall fuel m V A, (length (filter (fun y => negb (in_strs y V)) all) < fuel)%nat -> trace G ord fuel m V A <> None.
Proof.
  intros Ho Ha. induction fuel as [|fuel IH]; intros m V A H; [lia|]. cbn [trace]. destruct (next_level G ord m V) as [|(a, r) nx] eqn:E; [discriminate|]. rewrite <- E. destruct (match_branches G _); [|discriminate]. destruct (apart_rows G [] _); [|discriminate].
  apply IH. assert (Hn : In (a, r) (next_level G ord m V)) by (rewrite E; now left). apply (next_in G ord m V a r) in Hn as ((r0 & _ & Er) & Hr). destruct r as [|x r]; [contradiction|].
  assert (Hx : In x (go G ord V r0)) by (rewrite <- Er; now left). apply (go_in G ord Ho) in Hx as (n & _ & X1 & _ & X2). eapply Nat.lt_le_trans; [apply (free_drop all V _ x); [eauto|assumption|rewrite E; cbn [flat_map snd]; now left]|lia].
Qed.
Theorem C63_terminates G ord all fuel stop start : (forall l, Permutation (ord l) l) -> (forall n x, In x (a_nb G n) -> In x all) -> (length all < fuel)%nat ->
  find_array G ord fuel stop start <> Out.
Proof.
  intros Ho Ha Hf. unfold find_array. assert (K : find_rows G ord fuel stop start <> Out).
  { unfold find_rows. destruct (matching_groups _ _ _) as [gs|]; [|discriminate]. generalize (sort_by (fun g : list string => Z.of_nat (length g)) gs). intros l. assert (I : forall s, fold_s (fun _ g => match trace_group G ord fuel stop start g with Some a => Ok (Some a) | None => Out end) l s <> Out); [|apply I].
    induction l as [|g l IH]; intros s; cbn [fold_s]; [discriminate|]. destruct (trace_group G ord fuel stop start g) as [a|] eqn:E; cbn [bind_s]; [apply IH|]. exfalso. revert E. apply (trace_ends G ord all Ho Ha). eapply Nat.le_lt_trans; [|exact Hf].
    clear. induction all as [|x l IH]; [reflexivity|]. cbn [filter]. destruct (negb _); cbn [length]; lia. }
  destruct (find_rows G ord fuel stop start) as [[a|]| |]; cbn [bind_s]; try discriminate; [|contradiction]. destruct (process_results G a); discriminate.
Qed.

(** What is made of the rows: their elements; when the first row has a single element, one element of
    every row, which is the first one if no row has more. *)
Theorem C63_result G ord fuel stop start res : (forall l, Permutation (ord l) l) -> NoDup (a_nb G start) -> (forall n s, a_sig G start n = Some s -> a_el G n <> None) ->
  find_array G ord fuel stop start = Ok (Some res) -> exists A, find_rows G ord fuel stop start = Ok (Some A) /\
  match res with
  | Arrays l => Forall2 (fun r x => Permutation x (filter (is_el G) (snd r))) A l /\ (forall x, hd_error l = Some x -> (2 <= length x)%nat)
  | Aligned l => Forall2 (fun r x => In x (snd r) /\ a_el G x <> None) A l /\ ((forall a r x, In (a, r) A -> In x (tl r) -> a_el G x = None) -> l = map fst A)
  end.
Proof.
  intros Ho N He H. unfold find_array in H. destruct (find_rows G ord fuel stop start) as [[A|]| |] eqn:E; cbn [bind_s] in H; try discriminate. exists A. split; [reflexivity|].
  destruct (C63_rows G ord fuel stop start A Ho N E) as (s & K & R1 & R2 & R3 & _ & R5 & _). unfold process_results in H. set (f := fun r : string * list string => filter (is_el G) (ksorted (fun x => x) (snd r))) in *.
  assert (EL : forall x, is_el G x = true <-> a_el G x <> None) by (intros x; unfold is_el; destruct (a_el G x); split; congruence).
  assert (HD : forall a r, In (a, r) A -> exists t, r = a :: t /\ is_el G a = true).
  { intros a r Hr. destruct (R5 a r Hr) as (_ & t & ->). exists t. split; [reflexivity|]. apply EL. apply (He a s). apply R3, in_fst. eauto. }
  destruct (map f A) as [|r0 rs] eqn:Em; [discriminate|]. destruct (Nat.eqb (length r0) 1) eqn:E1.
  - rewrite <- Em in H. destruct (mapM _ (map f A)) as [l|] eqn:Er; [|discriminate]. injection H as <-.
    assert (F : Forall2 (fun r x => nth_error (f r) 0 = Some x) A l).
    { clear - Er. revert l Er. induction A as [|r A IH]; intros l Er; cbn [map mapM] in Er; [injection Er as <-; constructor|]. destruct (nth_error (f r) 0) eqn:E; [|discriminate]. destruct (mapM _ (map f A)) eqn:E2; [|discriminate]. injection Er as <-. constructor; auto. }
    assert (IN : forall r x, nth_error (f r) 0 = Some x -> In x (snd r) /\ a_el G x <> None).
    { intros r x Hx. apply nth_error_In in Hx. unfold f in Hx. apply filter_In in Hx as (Hx & He'). split; [now apply (ksorted_in (snd r) x)|now apply EL]. }
    split.
    + clear - F IN. induction F; constructor; auto.
    + intros Hs. clear - F IN Hs HD. induction F as [|(a, r) x A l Hx F IH]; [reflexivity|]. cbn [map fst]. f_equal; [|apply IH; [intros b rb Hb; apply (HD b rb); now right|intros b rb y Hb; apply (Hs b rb y); now right]].
      apply IN in Hx as (Hx & Hn). destruct (HD a r (or_introl eq_refl)) as (t & -> & _). cbn [snd] in Hx. destruct Hx as [Hx|Hx]; [now symmetry|]. exfalso. apply Hn. apply (Hs a (a :: t) x); [now left|assumption].
  - injection H as <-. rewrite <- Em. split.
    + clear. induction A as [|r A IH]; cbn [map]; constructor; [|assumption]. unfold f. clear. set (l := ksorted _ _). assert (P : Permutation l (snd r)) by apply ksorted_perm. clearbody l. induction P; cbn [filter]; repeat match goal with |- context [is_el G ?y] => destruct (is_el G y) end; try reflexivity; try (now constructor); try apply perm_swap; eauto using perm_trans.
    + intros x Hx. destruct A as [|(a, r) A]; [discriminate|]. cbn [map hd_error] in Hx, Em. injection Hx as <-. injection Em as Em _. rewrite Em. apply Nat.eqb_neq in E1. destruct (HD a r (or_introl eq_refl)) as (t & Er & Ea).
      assert (I : In a r0) by (rewrite <- Em; unfold f; apply filter_In; split; [apply ksorted_in; cbn [snd]; rewrite Er; now left|assumption]). destruct r0 as [|y [|z r0]]; [destruct I|cbn [length] in E1; lia|cbn [length]; lia].
Qed.

(** A start point with a net beside it, that is an instance, makes the search raise an exception, although the
    symmetry search gives instances with more than ten nets as start points (find_constraint.py:75-78). *)
Theorem C63_instance_refuted G ord fuel stop start n : (forall l, Permutation (ord l) l) -> In n (a_nb G start) -> ~ In n stop -> a_sig G start n = None -> find_array G ord fuel stop start = Fail.
Proof.
  intros Ho H1 H2 H3. unfold find_array, find_rows, matching_groups. destruct (forallb _ _) eqn:E; [|reflexivity]. rewrite forallb_forall in E. specialize (E n ltac:(apply (minus_in ord Ho); auto)). rewrite H3 in E. discriminate.
Qed.

Local Open Scope string_scope.
Local Open Scope list_scope.
Definition nm (name d g s : string) : elem := mkElem name "NMOS" [("D", d); ("G", g); ("S", s); ("B", "SUB")] [("W", "4")].
Definition pm (name d g s : string) : elem := mkElem name "PMOS" [("D", d); ("G", g); ("S", s); ("B", "VDD")] [("W", "4")].
Definition idl (l : list string) : list string := l.
(** Two stacks of two transistors on net O. *)
Definition stacks : list elem := [nm "MA1" "O" "G1" "N1"; nm "MB1" "N1" "G2" "VSS"; nm "MA2" "O" "G1" "N2"; nm "MB2" "N2" "G2" "VSS"].
Example C63_nonvacuous : find_array (device_graph stacks) idl 20 ["VSS"; "VDD"] "O" = Ok (Some (Arrays [["MA1"; "MB1"]; ["MA2"; "MB2"]])) /\
  find_rows (device_graph stacks) idl 20 ["VSS"; "VDD"] "O" = Ok (Some [("MA1", ["MA1"; "N1"; "MB1"]); ("MA2", ["MA2"; "N2"; "MB2"])]) /\
  (forall l, Permutation (idl l) l) /\ NoDup (a_nb (device_graph stacks) "O") /\ (forall n s, a_sig (device_graph stacks) "O" n = Some s -> a_el (device_graph stacks) n <> None).
Proof.
  split; [vm_compute; reflexivity|]. split; [vm_compute; reflexivity|]. split; [reflexivity|]. split; [vm_compute; repeat constructor; simpl; intuition discriminate|].
  intros n s. cbn [device_graph a_sig a_el]. destruct (get_element stacks n); discriminate.
Qed.
(** Only one class of neighbours is used: with two loads on the same net the stacks are not found, though
    without them they are. *)
Theorem C63_rest_refuted : exists els extra l, find_array (device_graph els) idl 20 ["VSS"; "VDD"] "O" = Ok (Some (Arrays [["MA1"; "MB1"]; ["MA2"; "MB2"]])) /\
  find_array (device_graph (els ++ extra)) idl 20 ["VSS"; "VDD"] "O" = Ok (Some (Aligned l)) /\ forall e, In e els -> ~ In (e_name e) l.
Proof.
  exists stacks, [pm "MC1" "O" "G3" "VDD"; pm "MC2" "O" "G3" "VDD"], ["MC1"; "MC2"]. split; [vm_compute; reflexivity|]. split; [vm_compute; reflexivity|].
  intros e He. simpl in He. repeat (destruct He as [<-|He]; [simpl; intuition discriminate|]). contradiction.
Qed.
(** Rows of different shape; then the aligned instances can be ones that do not touch the start point. *)
Theorem C63_aligned_refuted : exists els A l x, find_rows (device_graph els) idl 20 ["VSS"; "VDD"] "O" = Ok (Some A) /\
  (exists a b ra rb, In (a, ra) A /\ In (b, rb) A /\ length ra <> length rb) /\
  find_array (device_graph els) idl 20 ["VSS"; "VDD"] "O" = Ok (Some (Aligned l)) /\ In x l /\ ~ In x (a_nb (device_graph els) "O").
Proof.
  exists [nm "M1" "O" "G1" "VSS"; nm "M2" "O" "G1" "N1"; nm "A0" "N1" "G2" "VSS"]. do 2 eexists. exists "A0". split; [vm_compute; reflexivity|]. split; [exists "M1", "M2"; do 2 eexists; split; [now left|]; split; [right; now left|discriminate]|]. split; [vm_compute; reflexivity|]. split; [simpl; auto|]. vm_compute. intuition discriminate.
Qed.
(** Rows can share an element: the tail transistor of a differential pair. *)
Theorem C63_shared_refuted : exists els l x, find_array (device_graph els) idl 20 ["VSS"; "VDD"] "O" = Ok (Some (Arrays l)) /\ forall r, In r l -> In x r.
Proof.
  exists [nm "M1" "O" "G1" "T"; nm "M2" "O" "G1" "T"; nm "MT" "T" "G2" "VSS"]. eexists. exists "MT". split; [vm_compute; reflexivity|]. intros r [<-|[<-|[]]]; simpl; auto.
Qed.
Print Assumptions C63_groups.
Print Assumptions C63_rows.
Print Assumptions C63_terminates.
Print Assumptions C63_result.
Print Assumptions C63_instance_refuted.
Print Assumptions C63_rest_refuted.
Print Assumptions C63_aligned_refuted.
Print Assumptions C63_shared_refuted.
