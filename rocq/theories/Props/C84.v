(** C84: routing bottom up makes exactly one node for each placement of a cell that is used, and keeps the design. *)
From Coq Require Import String Ascii.
From Verif Require Import Base.Prelude Base.PyDict Base.PyStr Model.PnrGeom Model.UpdateConst Model.RouteHier Model.RouteUp Spec.Unfold Spec.Sharing Proofs.RouteHierP Proofs.RouteUpP.
Local Open Scope list_scope.

Definition node_of (L : nat) (cells : list (nat * nat)) (x : nat * nat) (k : nat) : Prop := exists n, nth_error cells n = Some x /\ k = (L + n)%nat.
(** [cells]: the placements in the order of their new nodes. *)
Theorem C84_nodes ord fuel db topidx idx n runs db' res : (forall l, Permutation (ord l) l) -> wf db -> uniform db -> NoDup (map h_name db) -> nth_error db idx = Some n -> runs <> [] ->
  route_bottom_up ord fuel db topidx idx runs = Some (db', res) ->
  idx = topidx /\ (forall i, (i < length db)%nat -> option_map frozen (nth_error db' i) = option_map frozen (nth_error db i)) /\
  exists cells, NoDup cells /\ (forall x, In x cells <-> used db idx runs x) /\ length db' = (length db + length cells)%nat /\
    (forall c i j, nth_error cells c = Some (i, j) -> exists n0 m, nth_error db i = Some n0 /\ nth_error db' (length db + c) = Some m /\
       copied n0 j (node_of (length db) cells) m /\
       NoDup (h_parent m) /\ (forall q, In q (h_parent m) <-> exists mq b, (length db <= q)%nat /\ nth_error db' q = Some mq /\ In b (h_blocks mq) /\ b_child b = Some (length db + c)%nat) /\
       nth_error res c = Some (h_name n0 ++ us :: print_Z (Z.of_nat j), (start_path n0 j, (length db + c)%nat))) /\
    length res = length cells /\ NoDup (map fst res).
Proof.
  intros Ord W Un Nm Hn Hr E. assert (Hi : (idx < length db)%nat) by (apply nth_error_Some; congruence). destruct (bottom_up_ok db W Un Nm ord Ord fuel topidx idx runs db' res Hi Hr E) as (Et & cells & tbl & N & X & (I1 & I2 & _ & I4 & I5 & I6)). cbn [u_db u_res] in *.
  split; [exact Et|]. split; [exact I1|]. exists cells. split; [exact N|]. split; [exact X|]. split; [exact I2|].
  assert (Er : forall c i j n0, nth_error cells c = Some (i, j) -> nth_error db i = Some n0 -> nth_error res c = Some (up_name n0 j, (start_path n0 j, (length db + c)%nat))).
  { intros c i j n0 Hc H0. rewrite I4, nth_error_map. assert (Hcs : nth_error (combine cells (seq (length db) (length cells))) c = Some ((i, j), (length db + c)%nat)).
    { clear - Hc. generalize (length db). revert c Hc. induction cells as [|x cells IH]; intros [|c] Hc a; try discriminate Hc; cbn in *; [injection Hc as ->; do 2 f_equal; lia|]. rewrite IH by exact Hc. do 2 f_equal. lia. }
    rewrite Hcs. cbn [option_map]. unfold entry. cbn [fst snd]. now rewrite H0. }
  split; [|split].
  - intros c i j Hc. destruct (I5 _ _ Hc) as (n0 & m & H0 & Hm & Cm). cbn [fst snd] in *. exists n0, m. split; [exact H0|]. split; [exact Hm|]. split; [eapply copied_impl; [|exact Cm]; intros x k (n' & _ & A & B); exists n'; auto|].
    destruct (I6 c m) as (P1 & P2); [apply nth_error_Some; congruence|exact Hm|]. split; [exact P1|]. split; [exact P2|]. exact (Er c i j n0 Hc H0).
  - rewrite I4, map_length, combine_length, seq_length. lia.
  - rewrite NoDup_nth_error. rewrite map_length. intros a b Ha Hab. assert (Lr : length res = length cells) by (rewrite I4, map_length, combine_length, seq_length; lia). rewrite !nth_error_map in Hab.
    destruct (nth_error cells a) as [(i & j)|] eqn:Ea; [|apply nth_error_None in Ea; lia]. destruct (I5 _ _ Ea) as (n0 & m & H0 & _). cbn [fst] in H0. rewrite (Er a i j n0 Ea H0) in Hab. cbn in Hab.
    destruct (nth_error res b) as [e|] eqn:Eb; [|discriminate]. assert (b < length cells)%nat by (rewrite <- Lr; apply nth_error_Some; congruence). destruct (nth_error cells b) as [(i' & j')|] eqn:Ecb; [|apply nth_error_None in Ecb; lia]. destruct (I5 _ _ Ecb) as (n0' & m' & H0' & _). cbn [fst] in H0'.
    rewrite (Er b i' j' n0' Ecb H0') in Eb. injection Eb as <-. injection Hab as Hab. apply up_name_inj in Hab as (Hab & ->). rewrite (names_at db Nm _ _ _ _ H0 H0' Hab) in Ea. apply (proj1 (NoDup_nth_error cells) N); [|congruence]. lia.
Qed.
Print Assumptions C84_nodes.

(** The new node of a placement unfolds to the design below that placement, to every depth. *)
Theorem C84_unfolds ord fuel db topidx idx n runs db' res : (forall l, Permutation (ord l) l) -> wf db -> uniform db -> NoDup (map h_name db) -> nth_error db idx = Some n -> runs <> [] ->
  route_bottom_up ord fuel db topidx idx runs = Some (db', res) ->
  forall i j, used db idx runs (i, j) -> exists n0 k, nth_error db i = Some n0 /\ dget chars_eqb res (h_name n0 ++ us :: print_Z (Z.of_nat j)) = Some (start_path n0 j, k) /\ forall d t, shape d db' k t <-> design d db i j t.
Proof.
  intros Ord W Un Nm Hn Hr E i j Hu. destruct (C84_nodes ord fuel db topidx idx n runs db' res Ord W Un Nm Hn Hr E) as (_ & _ & cells & N & X & _ & C & _ & Nr). apply X in Hu. apply In_nth_error in Hu as (c & Hc). destruct (C c i j Hc) as (n0 & m & H0 & _ & _ & _ & _ & Hres). exists n0, (length db + c)%nat. split; [exact H0|].
  split; [apply (in_dget _ chars_eqb_ok); [exact Nr|eapply nth_error_In; exact Hres]|]. intros d. clear Hres H0 n0 m. revert i j c Hc. induction d as [|d IH]; intros i j c Hc t; [cbn; tauto|]. destruct (C c i j Hc) as (n0 & m & H0 & Hm & (C1 & _ & _ & _ & _ & bs & Hp & F) & _). cbn [shape design].
  assert (G : forall ks, Forall2 (fun b kd => fst kd = info b /\ match b_child b, snd kd with None, None => True | Some c, Some t' => shape d db' c t' | _, _ => False end) (h_blocks m) ks <->
              Forall2 (fun b k => fst k = info b /\ match b_child b, snd k with None, None => True | Some c, Some t' => design d db c (b_sel b) t' | _, _ => False end) bs ks).
  { clear - F IH. induction F as [|b b' bs bs' (G1 & _ & G2) F IHF]; intros ks; [split; intros H; inversion H; constructor|].
    assert (A : forall k : (chars * omark * bbox) * option htree, (fst k = info b' /\ match b_child b', snd k with None, None => True | Some c, Some t' => shape d db' c t' | _, _ => False end) <-> (fst k = info b /\ match b_child b, snd k with None, None => True | Some c, Some t' => design d db c (b_sel b) t' | _, _ => False end)).
    { intros k. rewrite G1. destruct (b_child b) as [c|], (b_child b') as [c'|]; try (destruct G2; fail); [|tauto]. destruct G2 as (n' & Hn' & ->). destruct (snd k); [|tauto]. now rewrite (IH _ _ _ Hn'). }
    split; intros H; inversion H; subst; constructor; try (apply A; assumption); apply IHF; assumption. }
  split.
  - intros (m' & Hm' & Ht & Fk). rewrite Hm in Hm'. injection Hm' as <-. exists n0, bs. split; [exact H0|]. split; [exact Hp|]. split; [congruence|]. now apply G.
  - intros (n' & bs' & Hn' & Hp' & Ht & Fk). rewrite H0 in Hn'. injection Hn' as <-. rewrite Hp in Hp'. injection Hp' as <-. exists m. split; [exact Hm|]. split; [congruence|]. now apply G.
Qed.
Print Assumptions C84_unfolds.

(** No assertion of the walk fails: children come before parents, and all their placements are there. *)
Theorem C84_succeeds ord fuel db idx n runs : (forall l, Permutation (ord l) l) -> wf db -> uniform db -> NoDup (map h_name db) -> nth_error db idx = Some n -> runs <> [] ->
  (forall l, In l runs -> exists t, design fuel db idx l t) -> (forall i j m, used db idx runs (i, j) -> nth_error db i = Some m -> fst (h_box m) = (0, 0)%Z /\ h_ort m = oN) ->
  route_bottom_up ord fuel db idx idx runs <> None.
Proof. intros Ord W Un Nm Hn. apply bottom_up_total; auto. apply nth_error_Some. congruence. Qed.
Print Assumptions C84_succeeds.

Local Open Scope Z_scope.
(** A top with two placements; AMP has two placements, of which the first is used twice by one and once by the other. *)
Definition ampb (nm : string) (sel : nat) (x : Z) : tblk := mkTblk (Some 1%nat) sel (str nm) oN ((x, 0), (x + 40, 30)).
Definition leafb (nm : string) (x : Z) : tblk := mkTblk None 0 (str nm) oS ((x, 0), (x + 10, 10)).
Definition amp : hnode := mkHnode (str "AMP") false 0 [0%nat] [leafb "M1" 0] [(40, 30, [leafb "M1" 0]); (20, 60, [leafb "M1" 5])] ((0, 0), (40, 30)) oN.
Definition topn : hnode := mkHnode (str "TOP") true 0 [] [ampb "X1" 0 0; ampb "X2" 0 0] [(100, 60, [ampb "X1" 0 0; ampb "X2" 0 50]); (90, 70, [ampb "X1" 1 0; ampb "X2" 0 30])] ((0, 0), (100, 60)) oN.
Definition chip : hdb := [topn; amp].
Lemma chip_wf : wf chip /\ uniform chip.
Proof.
  split; intros i n sel bs Hi Hp.
  - destruct i as [|[|i]]; [| |destruct i; discriminate]; injection Hi as <-; unfold placement in Hp; cbn [h_as topn amp] in Hp; (destruct sel as [|[|sel]]; [| |destruct sel; discriminate]); injection Hp as <-; intros c Hc; cbn in Hc; try destruct Hc; subst; exists amp; intuition (subst; auto).
  - destruct i as [|[|i]]; [| |destruct i; discriminate]; injection Hi as <-; unfold placement in Hp; cbn [h_as topn amp] in Hp; (destruct sel as [|[|sel]]; [| |destruct sel; discriminate]); injection Hp as <-; reflexivity.
Qed.
Example C84_nonvacuous : wf chip /\ uniform chip /\ NoDup (map h_name chip) /\
  option_map (fun r => (map (fun e => (fst e, snd (snd e))) (snd r), map (fun m => (map b_child (h_blocks m), h_parent m, h_box m)) (skipn 2 (fst r)))) (route_bottom_up (fun l => l) 5 chip 0 0 [0; 1]%nat) =
  Some ([(str "AMP_0", 2); (str "AMP_1", 3); (str "TOP_0", 4); (str "TOP_1", 5)]%nat,
        [([None], [4; 5]%nat, ((0, 0), (40, 30))); ([None], [5]%nat, ((0, 0), (20, 60))); ([Some 2; Some 2]%nat, [], ((0, 0), (100, 60))); ([Some 3; Some 2]%nat, [], ((0, 0), (90, 70)))]).
Proof. split; [apply chip_wf|]. split; [apply chip_wf|]. split; [repeat constructor; cbn; intuition discriminate|]. vm_compute. reflexivity. Qed.
