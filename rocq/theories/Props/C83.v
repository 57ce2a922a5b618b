(** C83: routing top down makes one fresh node for each occurrence of a cell, with the design's shape, at its place. *)
From Coq Require Import String Ascii.
From Verif Require Import Base.Prelude Base.PyDict Base.PyStr Model.PnrGeom Model.RouteHier Spec.Unfold Proofs.RouteHierP.
Local Open Scope list_scope.

(** The run succeeds exactly if each placement to run has an unfolding; [fuel] bounds its depth. *)
Theorem C83_succeeds fuel db idx l n w h bs : wf db -> nth_error db idx = Some n -> nth_error (h_as n) l = Some (w, h, bs) ->
  (run_one fuel (db, []) idx l <> None <-> exists t, design fuel db idx l t).
Proof.
  intros W Hn Hl. unfold run_one. cbn [fst]. rewrite Hn, Hl. split.
  - destruct (top_down fuel (db, []) _ oN idx l l _) as [(s' & k)|] eqn:E; [|contradiction]. intros _. destruct (call_ok db W fuel _ _ _ _ _ _ _ _ _ n E) as (t & p & D & _); [intros i _; reflexivity|cbn; lia|exact Hn|auto|]. exists t. exact D.
  - intros (t & D). eapply call_total; [exact W|exact D|intros i _; reflexivity|cbn; lia|exact Hn|auto].
Qed.
Print Assumptions C83_succeeds.

(** Each placement to run gets a copy of the design's tree, box and orientation of each node in the top's frame, each
    node's parent the node that holds it; the tree has as many new nodes as the unfolded design. The given cells
    keep all but their counters and the placement last looked at. *)
Theorem C83_copies fuel db idx n runs db' res ks : wf db -> NoDup (map h_name db) -> nth_error db idx = Some n -> route_top_down fuel (db, []) idx runs = Some ((db', res), ks) ->
  (forall i, (i < length db)%nat -> option_map frozen (nth_error db' i) = option_map frozen (nth_error db i)) /\
  exists p, Forall2 (fun l k => exists w h bs t lo, nth_error (h_as n) l = Some (w, h, bs) /\ design fuel db idx l t /\ (length db <= lo)%nat /\ (k + 1 = lo + hsize t)%nat /\
     routed fuel db' p lo k ((0, 0)%Z, (w, h)) oN (start_path n l) t) runs ks.
Proof.
  intros W Nm Hn E. destruct (runs_ok db W Nm idx n Hn fuel runs _ _ _ E) as (S & _ & _ & _ & lx & p & _ & _ & _ & _ & F); [intros i _; reflexivity|cbn; lia|]. cbn [fst snd] in *. split; [exact S|]. exists p.
  eapply F2_impl; [|exact F]. intros l k _ _ (w & h & bs & t & lo & G1 & G2 & G3 & G4 & G5 & _). exists w, h, bs, t, lo. repeat split; try assumption; lia.
Qed.
Print Assumptions C83_copies.

(** All new nodes are in the results under names of their own, if the top's name is no other cell's name with a number. *)
Definition no_clash (db : hdb) (n : hnode) : Prop := forall m c, In m db -> h_top m = false -> h_name n <> h_name m ++ us :: num c.
Theorem C83_results fuel db idx n runs db' res ks : wf db -> NoDup (map h_name db) -> nth_error db idx = Some n -> (forall m, In m db -> h_top m = true -> m = n) -> no_clash db n -> NoDup runs ->
  route_top_down fuel (db, []) idx runs = Some ((db', res), ks) ->
  (forall x q j, In (x, (q, j)) res -> exists m l, (length db <= j)%nat /\ nth_error db' j = Some m /\ In l runs /\ x = result_name m l) /\
  (forall j m, (length db <= j)%nat -> nth_error db' j = Some m -> exists l q, In l runs /\ dget chars_eqb res (result_name m l) = Some (q, j)).
Proof.
  intros W Nm Hn Ht Hcl Nr E. destruct (runs_ok db W Nm idx n Hn fuel runs _ _ _ E) as (S & Hlen & _ & (C1 & C2 & C3) & lx & p & Q & X & M & B & F); [intros i _; reflexivity|cbn; lia|]. cbn [fst snd] in *. subst res. split.
  - intros x q j H. apply records_in in H as [[]|(j' & m & Hj & Hm & -> & Ev)]. injection Ev as -> <-. apply in_seq in Hj. exists m, (lx j). split; [lia|]. split; [exact Hm|]. split; [apply X; lia|reflexivity].
  - intros j m Hj Hm. assert (Hjl : (j < length db')%nat) by (apply nth_error_Some; congruence). exists (lx j), (p j). split; [apply X; lia|]. apply records_get; [apply seq_NoDup|apply in_seq; lia|exact Hm|].
    intros j' m' Hj' Hne Hm' Eq. apply in_seq in Hj'. apply result_inj in Eq as (El & Eq).
    destruct (C2 j ltac:(lia)) as (i & n1 & c & Hi & Sj & _ & Tj). destruct (C2 j' ltac:(lia)) as (i' & n1' & c' & Hi' & Sj' & _ & Tj').
    unfold sig in Sj, Sj'. rewrite Hm in Sj. rewrite Hm' in Sj'. cbn [option_map] in Sj, Sj'. injection Sj as En Et Ec. injection Sj' as En' Et' Ec'. rewrite Et, Et' in Eq.
    assert (In1 : In n1 db) by (eapply nth_error_In; exact Hi). assert (In1' : In n1' db) by (eapply nth_error_In; exact Hi').
    destruct (h_top n1') eqn:T1', (h_top n1) eqn:T1.
    + assert (K : In j ks) by auto. assert (K' : In j' ks) by auto. apply Hne. assert (Nk : NoDup (map lx ks)) by (rewrite M; exact Nr). clear -Nk K K' El. induction ks as [|k ks IH]; [destruct K|]. cbn [map] in Nk. inversion_clear Nk as [|? ? N1 N2].
      destruct K as [->|K], K' as [->|K']; [reflexivity| | |auto]; exfalso; apply N1; [rewrite <- El|rewrite El]; now apply in_map.
    + apply Ht in T1'; [|exact In1']. subst n1'. rewrite En' in Eq. rewrite En in Eq. exact (Hcl n1 _ In1 T1 Eq).
    + apply Ht in T1; [|exact In1]. subst n1. rewrite En in Eq. rewrite En' in Eq. exact (Hcl n1' _ In1' T1' Eq).
    + destruct Eq as (Eq1 & Eq2). destruct (Nat.lt_trichotomy j j') as [Lt|[Lt|Lt]]; [|congruence|].
      * apply (C3 j j' (h_name m) (h_top m) (h_top m') (h_copies m) (h_copies m')); [lia|lia|unfold sig; now rewrite Hm|unfold sig; rewrite Hm'; cbn; now rewrite Eq1|congruence].
      * apply (C3 j' j (h_name m) (h_top m') (h_top m) (h_copies m') (h_copies m)); [lia|lia|unfold sig; rewrite Hm'; cbn; now rewrite Eq1|unfold sig; now rewrite Hm|congruence].
Qed.
Print Assumptions C83_results.

Local Open Scope Z_scope.
(** A top of 100 by 60 with two copies of AMP, one of them flipped, and a leaf; AMP has a leaf. *)
Definition leafb (nm : string) (o : omark) (b : bbox) : tblk := mkTblk None 0 (str nm) o b.
Definition ampb (nm : string) (o : omark) (x : Z) : tblk := mkTblk (Some 1%nat) 0 (str nm) o ((x, 0), (x + 40, 30)).
Definition amp : hnode := mkHnode (str "AMP") false 0 [0%nat] [] [(40, 30, [leafb "M1" oN ((0, 0), (10, 10))])] ((0, 0), (40, 30)) oN.
Definition topn (nm : string) : hnode := mkHnode (str nm) true 0 [] [] [(100, 60, [ampb "X1" oN 0; ampb "X2" oFN 50; leafb "M2" oS ((0, 40), (10, 50))])] ((0, 0), (100, 60)) oN.
Definition chip (nm : string) : hdb := [topn nm; amp].
Lemma chip_wf nm : wf (chip nm).
Proof.
  intros i n sel bs Hi Hp c Hc. destruct i as [|[|i]]; [| |destruct i; discriminate]; injection Hi as <-; unfold placement in Hp; cbn [h_as topn amp] in Hp; (destruct sel as [|sel]; [|destruct sel; discriminate]); injection Hp as <-; cbn in Hc.
  - exists amp. destruct Hc as [<-|[<-|[]]]; split; reflexivity.
  - destruct Hc.
Qed.
(** Without the condition on the top's name a result is lost: three nodes, two results. *)
Theorem C83_results_refuted : exists db idx n runs db' res ks, wf db /\ NoDup (map h_name db) /\ nth_error db idx = Some n /\ (forall m, In m db -> h_top m = true -> m = n) /\
  route_top_down 5 (db, []) idx runs = Some ((db', res), ks) /\ exists j m, (length db <= j)%nat /\ nth_error db' j = Some m /\ forall x q, ~ In (x, (q, j)) res.
Proof.
  exists (chip "AMP_0"), 0%nat, (topn "AMP_0"), [0%nat]. eexists _, _, _. split; [apply chip_wf|]. split; [repeat constructor; cbn; intuition discriminate|]. split; [reflexivity|]. split; [intros m [<-|[<-|[]]] E; [reflexivity|discriminate E]|].
  split; [vm_compute; reflexivity|]. exists 2%nat. eexists. split; [cbn; lia|]. split; [reflexivity|]. intros x q [H|[H|[]]]; congruence.
Qed.
Print Assumptions C83_results_refuted.
Lemma chip_clash : no_clash (chip "TOP") (topn "TOP").
Proof. intros m c [<-|[<-|[]]] Hm; [discriminate Hm|]. cbn. discriminate. Qed.
Example C83_nonvacuous : wf (chip "TOP") /\ no_clash (chip "TOP") (topn "TOP") /\
  option_map (fun r => (snd r, map (fun e => (fst e, snd (snd e))) (snd (fst r)), map (fun m => (h_parent m, h_box m, h_ort m)) (skipn 2 (fst (fst r))))) (route_top_down 5 (chip "TOP", []) 0 [0%nat]) =
  Some ([4%nat], [(str "AMP_0_0", 2); (str "AMP_1_0", 3); (str "TOP_0", 4)]%nat, [([4%nat], ((0, 0), (40, 30)), oN); ([4%nat], ((50, 0), (90, 30)), oFN); ([], ((0, 0), (100, 60)), oN)]).
Proof. split; [apply chip_wf|]. split; [apply chip_clash|]. vm_compute. reflexivity. Qed.
