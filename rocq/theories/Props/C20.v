(** C20: the module order lists every reachable module and leaf exactly once, children first. *)
From Coq Require Import String.
From Verif Require Import Base.Prelude Base.PyDict Model.RemoveDuplicates Model.Topo Spec.TopoSpec Proofs.TopoP.
Local Open Scope nat_scope.

(** The recursion is never deeper than the number of modules plus one, cyclic or not; it visits
    exactly the reachable names, each once, and sorts them into modules and leaves. *)
Theorem C20_exactly_once ch top : NoDup (map fst ch) -> forall fuel, List.length ch < fuel ->
  exists s, compute_topoorder fuel ch top = Some s /\ NoDup (t_order s) /\
    (forall x, In x (t_order s) <-> reach ch top x) /\
    (forall x, In x (t_mods s) <-> reach ch top x /\ In x (map fst ch)) /\
    (forall x, In x (t_leaves s) <-> reach ch top x /\ ~ In x (map fst ch)) /\
    (exists l, t_order s = l ++ [top]).
Proof.
  intros Hnd fuel Hf. destruct (topo_total ch top Hnd fuel Hf) as (s & E & H1 & H2 & H3 & H4 & _ & H6). exists s. auto 8.
Qed.

(** In an acyclic hierarchy everything a module instantiates comes before it. *)
Theorem C20_children_first ch top fuel s : NoDup (map fst ch) -> acyclic ch -> List.length ch < fuel ->
  compute_topoorder fuel ch top = Some s ->
  forall l1 m l2, t_order s = l1 ++ m :: l2 -> forall c, child ch m c -> In c l1.
Proof.
  intros Hnd (rank & HA) Hf E. destruct (topo_total ch top Hnd fuel Hf) as (s' & E' & _ & _ & _ & _ & H & _).
  assert (s' = s) by congruence. subst s'. exact (H rank HA).
Qed.

(** A diamond with a shared leaf: the hypotheses hold. *)
Example C20_diamond : let ch := [("top", ["a"; "b"]); ("a", ["c"; "leaf"]); ("b", ["c"]); ("c", ["leaf"])]%string in
  NoDup (map fst ch) /\ acyclic ch /\
  compute_topoorder 5 ch "top"%string = Some (mkTopo ["leaf"; "c"; "a"; "b"; "top"] ["b"; "c"; "a"; "top"] ["leaf"])%string.
Proof.
  cbv zeta. split; [|split; [|vm_compute; reflexivity]].
  - repeat constructor; simpl; intuition discriminate.
  - exists (fun s => if String.eqb s "top" then 3 else if String.eqb s "a" then 2 else if String.eqb s "b" then 2 else if String.eqb s "c" then 1 else 0).
    intros m c (cs & H & Hc). simpl in H.
    destruct H as [H|[H|[H|[H|[]]]]]; injection H as <- <-; simpl in Hc; [destruct Hc as [<-|[<-|[]]]|destruct Hc as [<-|[<-|[]]]|destruct Hc as [<-|[]]|destruct Hc as [<-|[]]]; vm_compute; lia.
Qed.

(** On a cycle a child can come after its parent, so acyclicity is needed. *)
Example C20_cycle_order : exists ch s, NoDup (map fst ch) /\ compute_topoorder 3 ch "a"%string = Some s /\
  t_order s = ["b"; "a"]%string /\ child ch "b"%string "a"%string.
Proof.
  exists [("a", ["b"]); ("b", ["a"])]%string. eexists. split; [repeat constructor; simpl; intuition discriminate|].
  split; [vm_compute; reflexivity|]. split; [reflexivity|]. exists ["a"]%string. simpl. auto.
Qed.

Print Assumptions C20_exactly_once.
Print Assumptions C20_children_first.
