(** C97: the graph and the trees of the global router. *)
From Coq Require Import ZArith.
From Verif Require Import Base.Prelude Model.GlobalGraph Spec.GlobalGraphSpec Proofs.DijkstraP Proofs.GlobalGraphP Proofs.SteinerP Proofs.FindSTsP.
Local Open Scope Z_scope.

(** The graph of all tiles. *)
Theorem C97_graph ts : (forall t e k, In t ts -> In e (t_next t) -> te_next e = Some k -> (k < length ts)%nat) ->
  exists g, CreateAdjacentList ts = Some g /\ describes ts (fun _ => true) (length ts) g.
Proof. intros wf. destruct (create_ok ts wf) as (g & E & H & _). eauto. Qed.

(** The graph of the tiles within the layers of a net, if these come before all others. *)
Theorem C97_layers ts l hi : (forall t e k, In t ts -> In e (t_next t) -> te_next e = Some k -> (k < length ts)%nat) ->
  (forall i j t u, (i <= j)%nat -> nth_error ts i = Some t -> nth_error ts j = Some u -> in_layers l hi u = true -> in_layers l hi t = true) ->
  exists m g, CreateAdjacentList_New ts l hi = Some g /\ describes ts (in_layers l hi) m g.
Proof. intros wf Pf. destruct (create_new_ok ts l hi wf Pf) as (g & E & H & _). eauto. Qed.

(** One path is a shortest one between the two sets, or there is none; the graph is restored after it. *)
Theorem C97_shortest m g src dst : proper m g -> (forall v, In v src -> (v < m)%nat) -> (forall v, In v dst -> (v < m)%nat) ->
  exists g1, SetSrcDest src dst g = Some g1 /\ RMSrcDest src dst g1 = Some g /\
    ((exists p, dijkstra g1 = Some p /\ p <> [] /\ shortest (nodes g) src dst p) \/
     ((dijkstra g1 = None \/ dijkstra g1 = Some []) /\ ~ reachable (nodes g) src dst)).
Proof.
  intros P Hs Hd. destruct (set_ok m g src dst P Hs Hd) as (g1 & E & _). exists g1. split; [exact E|]. split; [exact (rm_ok m g src dst P Hs Hd g1 E)|].
  destruct (shortest_path m g src dst P Hs Hd g1 E); auto.
Qed.

(** The tree of [MST] connects all pins, the graph is as before; it is found if the pins can be connected. *)
Theorem C97_tree m g pins : proper m g -> (forall p v, In p pins -> In v p -> (v < m)%nat) ->
  (forall g' wl es, MST pins g = Some (g', wl, es) -> g' = g /\ connects (nodes g) pins es) /\
  (hd [] pins <> [] -> routable (nodes g) pins -> exists wl es, MST pins g = Some (g, wl, es)).
Proof.
  intros P L. split; [|exact (mst_some m g pins P L)]. intros g' wl es E. destruct (mst_ok m g pins P L _ _ _ E) as (-> & C & _). auto.
Qed.

Lemma described_weighed ts ok m g : describes ts ok m g -> weighed ts m g.
Proof.
  intros (P & N & _ & Ed) k n [b w] Hk Hn He. rewrite (N k n Hk Hn). destruct (proj1 (Ed k b w)) as (t & u & c & T & U & _ & _ & _ & _ & ->); [exists n; auto|].
  exists t, u. split; [exact T|]. split; [exact U|]. cbn. unfold manhattan. lia.
Qed.
(** [FindSTs] gives as many trees as asked for; each of them connects all pins, and the weights of the graph are restored. *)
Theorem C97_found ts ok m g k pins cands g' trees : describes ts ok m g ->
  (forall p v, In p pins -> In v p -> (v < m)%nat) -> (forall c, In c cands -> (c < m)%nat) ->
  FindSTs ts k pins cands g = Some (g', trees) ->
  g' = g /\ (concat pins = [] /\ trees = [] \/ concat pins <> [] /\ length trees = k) /\ forall es, In es trees -> connects (nodes g) pins es.
Proof.
  intros D L C. pose proof (described_weighed _ _ _ _ D) as W. destruct D as (P & _). unfold FindSTs.
  destruct (forallb (fun p => match p with [] => true | _ => false end) pins) eqn:Em.
  - intros [= <- <-]. split; [reflexivity|]. split; [left; split; [|reflexivity]|intros es []]. clear - Em. induction pins as [|[|a p] l IH]; cbn in *; auto; discriminate.
  - destruct (find_ok m k pins cands g P L C) as [F _]. destruct (find_loop k pins cands g) as [[[g1 c1] tr]|]; [|discriminate]. destruct (F _ _ _ eq_refl) as (S1 & S2 & S3).
    rewrite (refresh_ok ts m g g1 P W S1). intros [= <- <-]. split; [reflexivity|]. split; [right; split; [|exact S2]|exact S3].
    intros E. clear - Em E. induction pins as [|[|a p] l IH]; cbn in *; try discriminate. auto.
Qed.
Theorem C97_trees ts ok m g k pins cands : describes ts ok m g ->
  (forall p v, In p pins -> In v p -> (v < m)%nat) -> (forall c, In c cands -> (c < m)%nat) ->
  hd [] pins <> [] -> routable (nodes g) (pins ++ map (fun c => [c]) cands) ->
  exists trees, FindSTs ts k pins cands g = Some (g, trees) /\ length trees = k /\ forall es, In es trees -> connects (nodes g) pins es.
Proof.
  intros D L C Hh R. pose proof (described_weighed _ _ _ _ D) as W. pose proof D as (P & _).
  destruct (find_ok m k pins cands g P L C) as [F1 F2]. specialize (F2 Hh R).
  assert (exists tr, FindSTs ts k pins cands g = Some (g, tr)) as [tr E].
  { unfold FindSTs. destruct (forallb _ pins); [eauto|]. destruct (find_loop k pins cands g) as [[[g1 c1] tr]|]; [|congruence].
    destruct (F1 _ _ _ eq_refl) as (S1 & _). rewrite (refresh_ok ts m g g1 P W S1). eauto. }
  exists tr. destruct (C97_found ts ok m g k pins cands g tr D L C E) as (_ & [[E1 _]|[_ E1]] & E2); [|auto].
  exfalso. destruct pins as [|[|a p] l]; cbn in Hh, E1; try congruence.
Qed.

(** Findings. *)
Definition at_ (x y : Z) (ns : list nat) : tile := Tile x y [1] (map (fun n => TEdge (Some n) 1) ns).
Definition line4 : list tile := [at_ 0 0 [1%nat]; at_ 1 0 [0%nat; 2%nat]; at_ 2 0 [1%nat; 3%nat]; at_ 3 0 [2%nat]].
Lemma line4_wf t e k : In t line4 -> In e (t_next t) -> te_next e = Some k -> (k < length line4)%nat.
Proof. intros H1 H2 H3. cbn in *. repeat destruct H1 as [<-|H1]; cbn in H2; try contradiction; repeat (destruct H2 as [<-|H2]; [cbn in H3; injection H3 as <-; lia|]); try contradiction; destruct H2. Qed.

(** If a layer below the others is not used, the tiles are not at their place in the graph: no path is found between neighbours. *)
Definition two_layers : list tile := [Tile 0 0 [0] []; Tile 0 0 [1] [TEdge (Some 2%nat) 1]; Tile 1 0 [1] [TEdge (Some 1%nat) 1]].
Theorem C97_layers_refuted : exists ts a b g, (forall t e k, In t ts -> In e (t_next t) -> te_next e = Some k -> (k < length ts)%nat) /\
  (exists t u, nth_error ts a = Some t /\ nth_error ts b = Some u /\ in_layers 1 1 t = true /\ in_layers 1 1 u = true /\
     In (TEdge (Some b) 1) (t_next t) /\ In (TEdge (Some a) 1) (t_next u)) /\
  CreateAdjacentList_New ts 1 1 = Some g /\ MST [[a]; [b]] g = None.
Proof.
  exists two_layers, 1%nat, 2%nat. eexists. split; [|split; [|split; [reflexivity|reflexivity]]].
  - intros t e k H1 H2 H3. cbn in H1. destruct H1 as [<-|[<-|[<-|[]]]]; cbn in H2; [destruct H2| |]; destruct H2 as [<-|[]]; injection H3 as <-; cbn; lia.
  - do 2 eexists. repeat split; now left.
Qed.

(** The first Steiner node is always added, also if it makes the tree longer. *)
Theorem C97_steiner_refuted : exists ts pins cands g pins' cands' wl wl' es es', CreateAdjacentList ts = Some g /\
  Iterated_Steiner pins cands g = Some (g, pins', cands') /\ MST pins g = Some (g, wl, es) /\ MST pins' g = Some (g, wl', es') /\ wl < wl'.
Proof.
  exists line4, [[0]; [1]; [2]]%nat, [3%nat]. do 7 eexists. split; [reflexivity|]. split; [vm_compute; reflexivity|]. split; [vm_compute; reflexivity|]. split; [vm_compute; reflexivity|]. lia.
Qed.

(** The length handed back with the best candidate is that of the last one. *)
Theorem C97_last_refuted : exists ts pins cands g wl i c wl' es, CreateAdjacentList ts = Some g /\
  GetWireLength pins 0 cands g INT_MAX INT_MAX None = Some (g, wl, Some i) /\ nth_error cands i = Some c /\ MST (pins ++ [[c]]) g = Some (g, wl', es) /\ wl' < wl.
Proof.
  exists line4, [[0]; [1]; [2]]%nat, [1; 3]%nat. do 6 eexists. split; [reflexivity|]. split; [vm_compute; reflexivity|]. split; [reflexivity|]. split; [vm_compute; reflexivity|]. lia.
Qed.

(** Only the last path can be joined: a tree may use and count an edge twice. *)
Definition fork : list tile := [at_ 0 0 [1%nat]; at_ 10 0 [0; 2; 4]%nat; at_ 20 0 [1; 3]%nat; at_ 25 0 [2%nat]; at_ 10 15 [1%nat]].
Theorem C97_forgets_refuted : exists ts pins g wl es, CreateAdjacentList ts = Some g /\ MST pins g = Some (g, wl, es) /\ ~ NoDup es.
Proof.
  exists fork, [[0]; [2]; [3]; [4]]%nat. do 3 eexists. split; [reflexivity|]. split; [vm_compute; reflexivity|]. intros H. apply NoDup_cons_iff in H. destruct H as [H _]. apply H. cbn. tauto.
Qed.

Ltac line_walk := first [apply w_one | eapply w_step; [|line_walk]; eexists; split; [reflexivity|cbn; eauto]].
Example C97_nonvacuous : exists g, describes line4 (fun _ => true) 4 g /\ routable (nodes g) ([[0%nat]; [3%nat]] ++ map (fun c => [c]) [1%nat]) /\
  exists trees, FindSTs line4 2 [[0%nat]; [3%nat]] [1%nat] g = Some (g, trees) /\ trees = [[(0, 1); (1, 2); (2, 3)]; [(0, 1); (1, 2); (2, 3)]]%nat.
Proof.
  destruct (C97_graph line4 line4_wf) as (g & E & D). exists g. split; [exact D|]. injection E as <-. split.
  - intros a b Ha Hb. cbn in Ha, Hb. destruct Ha as [<-|[<-|[<-|[]]]], Hb as [<-|[<-|[<-|[]]]].
    + exists [0%nat]. eexists. line_walk.
    + exists [0; 1; 2; 3]%nat. eexists. line_walk.
    + exists [0; 1]%nat. eexists. line_walk.
    + exists [3; 2; 1; 0]%nat. eexists. line_walk.
    + exists [3%nat]. eexists. line_walk.
    + exists [3; 2; 1]%nat. eexists. line_walk.
    + exists [1; 0]%nat. eexists. line_walk.
    + exists [1; 2; 3]%nat. eexists. line_walk.
    + exists [1%nat]. eexists. line_walk.
  - eexists. split; vm_compute; reflexivity.
Qed.

Definition low_first : list tile := [Tile 0 0 [1] [TEdge (Some 1%nat) 1; TEdge (Some 2%nat) 3]; Tile 1 0 [1] [TEdge (Some 0%nat) 1]; Tile 0 0 [2] [TEdge (Some 0%nat) 3]].
Example C97_layers_nonvacuous :
  (forall t e k, In t low_first -> In e (t_next t) -> te_next e = Some k -> (k < length low_first)%nat) /\
  (forall i j t u, (i <= j)%nat -> nth_error low_first i = Some t -> nth_error low_first j = Some u -> in_layers 1 1 u = true -> in_layers 1 1 t = true) /\
  in_layers 1 1 (Tile 0 0 [2] []) = false.
Proof.
  split; [|split; [|reflexivity]].
  - intros t e k H1 H2 H3. cbn in H1. destruct H1 as [<-|[<-|[<-|[]]]]; cbn in H2; repeat (destruct H2 as [<-|H2]; [injection H3 as <-; cbn; lia|]); destruct H2.
  - intros [|[|[|i]]] [|[|[|j]]] t u H1 H2 H3 H4; cbn in H2, H3; try lia; try (injection H2 as <-); try (injection H3 as <-); try reflexivity; try discriminate; try (destruct i; discriminate); destruct j; discriminate.
Qed.

Print Assumptions C97_graph.
Print Assumptions C97_layers.
Print Assumptions C97_shortest.
Print Assumptions C97_tree.
Print Assumptions C97_found.
Print Assumptions C97_trees.
Print Assumptions C97_layers_refuted.
Print Assumptions C97_steiner_refuted.
Print Assumptions C97_last_refuted.
Print Assumptions C97_forgets_refuted.
