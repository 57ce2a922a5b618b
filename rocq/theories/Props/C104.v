(** C104: the sets and lines by which a common-centroid capacitor is routed. *)
From Coq Require Import ZArith ZifyBool Relations.
From Verif Require Import Base.Prelude Model.CapPlace Model.CapRoute Spec.CapPlaceSpec Spec.CapRouteSpec Proofs.CapGridP Proofs.CapSetP Proofs.CapLineP Props.C103.
Local Open Scope Z_scope.

(** The sets of a net are its cells, each in one set, and two cells are in the same set exactly if one can go from one to the other within the net. *)
Theorem C104_sets P cells : NoDup cells -> exists ss, Sets P cells = Some ss /\ Permutation (concat ss) cells /\ (forall t, In t ss -> t <> []) /\
  forall c d, In c cells -> In d cells -> (linked P cells c d <-> exists t, In t ss /\ In c t /\ In d t).
Proof.
  intros N. destruct (sets_from_ok P cells cells [] (incl_refl _) (incl_nil_l _) (NoDup_nil _)) as (ss & F & A1 & A2 & A3 & A4 & A5); [intros e d []|]. cbn [app] in *. exists ss. split; [exact F|]. split; [apply NoDup_Permutation; auto; intros x; split; [apply A2|apply A3]|]. split.
  - intros t Ht ->. destruct (A5 [] Ht) as (c & [] & _).
  - intros c d Hc Hd. split.
    + intros L. pose proof (A3 c Hc) as I. apply in_concat in I. destruct I as (t & Ht & It). exists t. split; [exact Ht|]. split; [exact It|]. destruct (A5 t Ht) as (b & _ & B). apply B. split; [exact Hd|]. apply B in It. eapply linked_trans; [apply It|exact L].
    + intros (t & Ht & It & Jt). destruct (A5 t Ht) as (b & _ & B). apply B in It, Jt. eapply linked_trans; [apply linked_sym, It|apply Jt].
Qed.
(** A placement gives such sets for all its nets and the dummies, in columns of the grid. *)
Theorem C104_placed ki r s dummy ev : 0 < r -> 0 < s -> Forall (fun z => 0 <= z) ki -> place ki r s dummy = Some ev ->
  let R := full dummy r in let S := full dummy s in exists nets, columns R S (placed_nets ki R S ev) = Some nets /\ Forall (good R) nets /\ length nets = (length ki + 1)%nat /\ 0 < R.
Proof.
  intros Hr Hs Hk Hp R S. destruct (RS r s dummy Hr Hs) as [HR HS]. fold R S in HR, HS. destruct (C103_counts ki r s dummy Hr Hs Hk ev Hp) as (_ & Nd & Gr & _). fold R S in Gr.
  assert (forall cells, In cells (placed_nets ki R S ev) -> NoDup cells /\ forall c, In c cells -> in_grid R S (pos R S c)) as H.
  { intros cells Hc. unfold placed_nets in Hc. apply in_app_or in Hc. destruct Hc as [Hc|[<-|[]]].
    - apply in_map_iff in Hc. destruct Hc as (k & <- & Hk'). split; [now apply (index_nodup ki r s dummy Hr Hs Hk ev Hp)|]. intros c Hc. apply in_index in Hc. now apply (Gr c k).
    - split; [apply NoDup_filter, seq_NoDup|]. intros c Hc. apply filter_In in Hc. destruct Hc as [Hc _]. apply in_seq in Hc. apply pos_split; auto. lia. }
  assert (length (placed_nets ki R S ev) = (length ki + 1)%nat) as Ln by (unfold placed_nets; rewrite app_length, map_length, seq_length; reflexivity). unfold columns. rewrite <- Ln. clear Ln. revert H. generalize (placed_nets ki R S ev) as l. induction l as [|cells l IH]; intros H.
  - exists []. repeat split; auto.
  - destruct IH as (nets & E & G & L & _); [intros x Hx; apply H; now right|]. destruct (all_some (map (Sets (pos R S)) l)) as [sl|] eqn:El; [|discriminate]. cbn in E. injection E as <-.
    destruct (H cells (or_introl eq_refl)) as [Nc Gc]. destruct (C104_sets (pos R S) cells Nc) as (ss & Es & Pm & Ne & _). exists (map (map (fun c => fst (pos R S c))) ss :: map (map (map (fun c => fst (pos R S c)))) sl). cbn [map all_some]. rewrite Es, El. split; [reflexivity|]. split; [constructor; [|exact G]|split; [cbn; now rewrite L|exact HR]].
    intros xs Hx. apply in_map_iff in Hx. destruct Hx as (t & <- & Ht). split; [intros E; apply map_eq_nil in E; now apply (Ne t)|]. intros x Hx. apply in_map_iff in Hx. destruct Hx as (c & <- & Hc). apply Gc. apply (Permutation_in _ Pm). apply in_concat. now exists t.
Qed.

Section Lines.
Variables (r : Z) (nets : list (list (list Z))).
Hypotheses (Hr : 0 < r) (Hg : Forall (good r) nets).
Let n := Z.of_nat (length nets).
Lemma both ps ns : Router_Cap r nets = Some (ps, ns) -> exists num num', route_nets r n false nets (fun _ => 0) = Some (ps, num) /\ route_nets r n true nets num = Some (ns, num').
Proof.
  unfold Router_Cap. fold n. destruct (route_nets r n false nets (fun _ => 0)) as [[ps' num]|]; [|discriminate]. destruct (route_nets r n true nets num) as [[ns' num']|] eqn:E; [|discriminate]. intros H. injection H as <- <-. eauto.
Qed.
Lemma forall2_weak {A B} (R1 R2 : A -> B -> Prop) l m : (forall a b, R1 a b -> R2 a b) -> Forall2 R1 l m -> Forall2 R2 l m.
Proof. intros H F. induction F; constructor; auto. Qed.
(** If the lines are chosen at all, each set of each net is reached by a line of the net, both on the positive and on the negative side. *)
Theorem C104_reached ps ns : Router_Cap r nets = Some (ps, ns) -> Forall2 (reached r) nets ps /\ Forall2 (reached r) nets ns.
Proof. intros H. destruct (both ps ns H) as (num & num' & E1 & E2). split; [eapply forall2_weak; [|apply (nets_ok _ _ _ Hr _ _ _ _ Hg E1)]|eapply forall2_weak; [|apply (nets_ok _ _ _ Hr _ _ _ _ Hg E2)]]; intros a b Hab; apply Hab. Qed.
(** A net for which a line and its opposite are enough gets just these two. *)
Theorem C104_symmetric ps ns : Router_Cap r nets = Some (ps, ns) ->
  let two := fun sets (lv : Z -> bool) => (exists l, fair r sets l) -> exists j, fair r sets j /\ forall l, lv l = true <-> l = j \/ l = r - j in Forall2 two nets ps /\ Forall2 two nets ns.
Proof. intros H. destruct (both ps ns H) as (num & num' & E1 & E2). split; [eapply forall2_weak; [|apply (nets_ok _ _ _ Hr _ _ _ _ Hg E1)]|eapply forall2_weak; [|apply (nets_ok _ _ _ Hr _ _ _ _ Hg E2)]]; intros a b Hab; apply Hab. Qed.
(** The positive nets always get their lines. *)
Theorem C104_positive : exists ps num, route_nets r n false nets (fun _ => 0) = Some (ps, num) /\ Forall2 (reached r) nets ps.
Proof.
  destruct (nets_some r n false Hr nets (fun _ => 0) 0 Hg) as [[ps num] E]; [intros; lia|unfold n; lia|]. exists ps, num. split; [exact E|]. eapply forall2_weak; [|apply (nets_ok _ _ _ Hr _ _ _ _ Hg E)]. intros a b Hab. apply Hab.
Qed.
(** So do the negative ones if two opposite lines are enough for each net. *)
Theorem C104_routed : Forall (fun sets => exists l, fair r sets l) nets -> exists ps ns, Router_Cap r nets = Some (ps, ns).
Proof.
  intros F. unfold Router_Cap. fold n. destruct (nets_some r n false Hr nets (fun _ => 0) 0 Hg) as [[ps num] E]; [intros; lia|unfold n; lia|]. rewrite E.
  destruct (nets_ok _ _ _ Hr _ _ _ _ Hg E) as [_ B]. destruct (nets_some r n true Hr nets num n Hg) as [[ns num'] ->]; [intros l Ml; specialize (B l Ml); fold n in B; lia|split; [unfold n; lia|exact F]|eauto].
Qed.
End Lines.
(** Two opposite lines are enough for a net of one set, and for one whose sets all have a cell in one column or the opposite one. *)
Theorem C104_enough r sets x : 0 <= x < r -> (forall xs, In xs sets -> In x xs \/ In (r - 1 - x) xs) -> fair r sets x.
Proof. intros Hx H. split; [lia|]. intros xs Hs. destruct (H xs Hs) as [I|I]; [left; exists x; auto|right; exists (r - 1 - x); split; auto; right; lia]. Qed.
Theorem C104_one r xs : good r [xs] -> exists l, fair r [xs] l.
Proof. intros G. destruct (G xs (or_introl eq_refl)) as [N B]. destruct xs as [|x xs]; [congruence|]. exists x. apply C104_enough; [apply B; now left|]. intros ys [<-|[]]. left. now left. Qed.

(** The wires of all nets on a line fit between the two columns: each has the distance [m] from the cells and from the wires of other nets;
    the capacitors left and right of the line agree on its place. *)
Theorem C104_tracks r nets w m i f l t : 0 < m -> Z.even w = true -> 0 <= l <= r -> nth_error (trails nets (fun _ => 0)) i = Some f -> f l = Some t ->
  let sp := span m (max_num r (map snd nets)) in let x := wire_from_left w sp m l t in
  wire_from_right w sp m l t = x /\ cap_x w sp (l - 1) + w / 2 + m <= x <= cap_x w sp l - w / 2 - m /\
  forall j g t', nth_error (trails nets (fun _ => 0)) j = Some g -> j <> i -> g l = Some t' -> m <= Z.abs (x - wire_from_left w sp m l t').
Proof.
  intros Hm Hw Hl Hi Hf sp x. assert (Z.quot w 2 = w / 2 /\ 2 * (w / 2) = w) as [Q1 Q2]. { apply Z.even_spec in Hw. destruct Hw as [v ->]. rewrite Z.mul_comm, Z.quot_mul, Z.div_mul by lia. lia. }
  assert (forall j g t', nth_error (trails nets (fun _ => 0)) j = Some g -> g l = Some t' -> t' = uses l (firstn j nets) + 1 /\ t' = uses l (firstn (S j) nets) /\ 1 <= t' <= max_num r (map snd nets)) as T.
  { intros j g t' Hj Hg. destruct (trails_at nets _ j g l Hj) as (nb & E1 & E2). rewrite Hg in E2. destruct (used_by l nb) eqn:U; [|discriminate]. cbn beta in E2. assert (t' = 0 + uses l (firstn (S j) nets)) as E3 by congruence. pose proof (uses_more l nets j nb E1 U). pose proof (uses_num l nets (S j)). pose proof (max_num_ge r (map snd nets) l Hl). assert (0 <= uses l (firstn j nets)) by (unfold uses; lia). lia. }
  destruct (T i f t Hi Hf) as (T1 & T2 & T3). unfold x, sp, wire_from_right, wire_from_left, cap_x, span in *. rewrite Q1. set (mx := max_num r (map snd nets)) in *. clearbody mx. set (h := w / 2) in *. clearbody h. subst w. split; [ring|]. split.
  { assert (m <= m * t <= mx * m) as B by nia. assert ((2 * h + (mx + 1) * m) * l = (2 * h + (mx + 1) * m) * (l - 1) + 2 * h + mx * m + m) as X by ring. rewrite X. clear - B. generalize dependent (m * t). generalize dependent (mx * m). generalize ((2 * h + (mx + 1) * m) * (l - 1)). intros. lia. }
  intros j g t' Hj Nj Hg. destruct (T j g t' Hj Hg) as (T1' & T2' & T3'). assert (t <> t') as Nt. { destruct (Nat.lt_trichotomy i j) as [L|[L|L]]; [|congruence|]; [pose proof (uses_mono l nets (S i) j ltac:(lia))|pose proof (uses_mono l nets (S j) i ltac:(lia))]; lia. }
  clear - Hm Nt. replace (h + (2 * h + (mx + 1) * m) * (l - 1) + h + m * t - (h + (2 * h + (mx + 1) * m) * (l - 1) + h + m * t')) with (m * (t - t')) by ring. nia.
Qed.
(** Every net with capacitors has a wire on each of its lines. *)
Theorem C104_wires nets i lv l : nth_error nets i = Some (true, lv) -> lv l = true -> exists f t, nth_error (trails nets (fun _ => 0)) i = Some f /\ f l = Some t.
Proof.
  intros H L. destruct (nth_error (trails nets (fun _ => 0)) i) as [f|] eqn:E.
  - destruct (trails_at _ _ _ _ l E) as (nb & E1 & E2). rewrite H in E1. injection E1 as <-. unfold used_by in E2. cbn in E2. rewrite L in E2. eauto.
  - apply nth_error_None in E. rewrite trails_len in E. assert (nth_error nets i <> None) as N by congruence. apply nth_error_Some in N. lia.
Qed.

(** Finding: with capacitors of 6 and 11 units on the square grid the placer takes by itself, a negative net is left without a line: the limit in
    capplacer.cpp:945 is the number of nets, though the positive nets have used the lines before (the assertion of 955 fails). *)
Theorem C104_stuck_refuted : exists ki ev nets, temp_r (zsum ki) = 5 /\ temp_s (zsum ki) = 4 /\ place ki 5 4 false = Some ev /\ columns 5 4 (placed_nets ki 5 4 ev) = Some nets /\ Router_Cap 5 nets = None.
Proof.
  exists [6; 11]. destruct (place [6; 11] 5 4 false) as [ev|] eqn:E; [|vm_compute in E; discriminate]. exists ev. destruct (columns 5 4 (placed_nets [6; 11] 5 4 ev)) as [nets|] eqn:F.
  - exists nets. repeat split; try reflexivity. vm_compute in E. injection E as <-. vm_compute in F. injection F as <-. vm_compute. reflexivity.
  - exfalso. vm_compute in E. injection E as <-. vm_compute in F. discriminate.
Qed.
(** Finding: a net may be placed about the middle and yet have lines which are not symmetric. *)
Theorem C104_symmetric_refuted : exists ki ev nets ps ns lv k l, place ki 5 5 false = Some ev /\ Z.even (size ki k) = true /\ columns 5 5 (placed_nets ki 5 5 ev) = Some nets /\ Router_Cap 5 nets = Some (ps, ns) /\ nth_error ps k = Some lv /\ lv l <> lv (5 - l).
Proof.
  exists [4; 9; 8]. destruct (place [4; 9; 8] 5 5 false) as [ev|] eqn:E; [|vm_compute in E; discriminate]. exists ev. destruct (columns 5 5 (placed_nets [4; 9; 8] 5 5 ev)) as [nets|] eqn:F; [|exfalso; vm_compute in E; injection E as <-; vm_compute in F; discriminate]. exists nets.
  vm_compute in E. injection E as <-. vm_compute in F. injection F as <-.
  match goal with |- context [Router_Cap 5 ?x] => set (nn := x) end. assert (match Router_Cap 5 nn with Some (ps, ns) => match nth_error ps 2 with Some lv => lv 0 = true /\ lv 5 = false | None => False end | None => False end) as H by (vm_compute; split; reflexivity).
  destruct (Router_Cap 5 nn) as [[ps ns]|]; [|destruct H]. destruct (nth_error ps 2) as [lv|] eqn:G; [|destruct H]. destruct H as [H1 H2]. exists ps, ns, lv, 2%nat, 0. repeat split; auto. change (5 - 0) with 5. rewrite H1, H2. discriminate.
Qed.
(** Finding: a net without capacitors (here that of the dummies, in a full grid) takes lines, for which the columns are moved apart. *)
Theorem C104_empty_refuted : exists ki ev nets ps ns lv, place ki 2 2 false = Some ev /\ dummies 2 2 ev = [] /\ columns 2 2 (placed_nets ki 2 2 ev) = Some nets /\ Router_Cap 2 nets = Some (ps, ns) /\ nth_error ps (length ki) = Some lv /\ exists l, lv l = true.
Proof.
  exists [4]. destruct (place [4] 2 2 false) as [ev|] eqn:E; [|vm_compute in E; discriminate]. exists ev. destruct (columns 2 2 (placed_nets [4] 2 2 ev)) as [nets|] eqn:F; [|exfalso; vm_compute in E; injection E as <-; vm_compute in F; discriminate]. exists nets.
  vm_compute in E. injection E as <-. vm_compute in F. injection F as <-.
  match goal with |- context [Router_Cap 2 ?x] => set (nn := x) end. assert (match Router_Cap 2 nn with Some (ps, ns) => match nth_error ps 1 with Some lv => existsb lv [0; 1; 2] = true | None => False end | None => False end) as H by (vm_compute; reflexivity).
  destruct (Router_Cap 2 nn) as [[ps ns]|]; [|destruct H]. destruct (nth_error ps 1) as [lv|] eqn:G; [|destruct H]. apply existsb_exists in H. destruct H as (l & _ & H). exists ps, ns, lv. repeat split; auto. now exists l.
Qed.

(** Not vacuous: a placement whose nets all get lines, with a net of several sets for which two opposite lines are enough. *)
Example C104_nonvacuous : exists ki ev nets ps ns, place ki 5 5 false = Some ev /\ columns 5 5 (placed_nets ki 5 5 ev) = Some nets /\ Router_Cap 5 nets = Some (ps, ns) /\
  Exists (fun sets => (exists l, fair 5 sets l) /\ (1 < length sets)%nat) nets /\ length ps = 4%nat.
Proof.
  exists [4; 9; 8]. destruct (place [4; 9; 8] 5 5 false) as [ev|] eqn:E; [|vm_compute in E; discriminate]. exists ev. destruct (columns 5 5 (placed_nets [4; 9; 8] 5 5 ev)) as [nets|] eqn:F; [|exfalso; vm_compute in E; injection E as <-; vm_compute in F; discriminate]. exists nets.
  vm_compute in E. injection E as <-. vm_compute in F. injection F as <-.
  match goal with |- context [Router_Cap 5 ?x] => set (nn := x) end. assert (match Router_Cap 5 nn with Some (ps, ns) => length ps = 4%nat | None => False end) as H by (vm_compute; reflexivity).
  destruct (Router_Cap 5 nn) as [[ps ns]|] eqn:R; [|destruct H]. exists ps, ns. repeat split; auto.
  apply Exists_exists. assert (existsb (fun sets => existsb (routable 5 sets) (zrange 6) && (1 <? length sets)%nat) nn = true) as X by (vm_compute; reflexivity). apply existsb_exists in X. destruct X as (sets & I & X). apply andb_true_iff in X. destruct X as [X1 X2]. exists sets. split; [exact I|]. split; [now apply (fair_dec 5)|now apply Nat.ltb_lt].
Qed.

Print Assumptions C104_sets.
Print Assumptions C104_placed.
Print Assumptions C104_reached.
Print Assumptions C104_symmetric.
Print Assumptions C104_positive.
Print Assumptions C104_routed.
Print Assumptions C104_enough.
Print Assumptions C104_one.
Print Assumptions C104_tracks.
Print Assumptions C104_wires.
Print Assumptions C104_stuck_refuted.
Print Assumptions C104_symmetric_refuted.
Print Assumptions C104_empty_refuted.
