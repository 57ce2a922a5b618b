(** C90: the sequence pair of the annealing and the ordering constraints (KeepOrdering). *)
From Verif Require Import Base.Prelude Model.SeqEnum Model.SymmGroup Model.KeepOrder Spec.SeqEnumSpec Spec.KeepOrderSpec
  Proofs.SeqEnumP Proofs.KeepOrderP Proofs.KeepSortP Proofs.KeepMainP.

(** Success means that all ordering constraints are kept. *)
Theorem C90_sound : forall fuel d w pos neg p n,
  keep_ordering fuel d w pos neg = Some (p, n, true) ->
  forall a b m, In ((a, b), m) (o_orders d) -> a <> b -> keeps p n ((a, b), m).
Proof. intros fuel d w pos neg p n H. exact (proj1 (keep_sound fuel d w pos neg p n H)). Qed.
Print Assumptions C90_sound.

(** The topological sort, for all shuffles: a listing of the blocks in order if there is no
    cycle; otherwise exactly what depends on no cycle is listed. *)
Theorem C90_sort : forall b e sh,
  NoDup b -> NoDup e -> (forall u v, In (u, v) e -> In u b /\ In v b) -> (forall v l, Permutation l (sh v l)) ->
  (acyclic e -> listing b e (topo_sort sh b e)) /\
  NoDup (topo_sort sh b e) /\ incl (topo_sort sh b e) b /\
  (forall u v, In (u, v) e -> In v (topo_sort sh b e) -> precedes (topo_sort sh b e) u v) /\
  (forall v, In v b -> ~ In v (topo_sort sh b e) -> exists u, In (u, v) e /\ ~ In u (topo_sort sh b e)).
Proof.
  intros b e sh H1 H2 H3 H4. split; [|exact (topo_spec b e sh H1 H2 H3 H4)]. intros Ha. now apply topo_listing.
Qed.
Print Assumptions C90_sort.

(** Only ordering constraints, which can be met: it succeeds whatever is drawn, keeps every
    constraint and moves no other block. *)
Theorem C90_plain : forall fuel d w pos neg p0 q0,
  o_aligns d = [] -> o_syms d = [] -> o_abuts d = [] ->
  NoDup pos -> NoDup neg -> (forall a b m, In ((a, b), m) (o_orders d) -> In a pos /\ In b pos /\ In a neg /\ In b neg) -> shuffles w ->
  NoDup p0 -> NoDup q0 -> (forall c, In c (o_orders d) -> keeps p0 q0 c) -> 0 < fuel ->
  exists p n, keep_ordering fuel d w pos neg = Some (p, n, true) /\ rearranged (constrained d) pos p /\ rearranged (constrained d) neg n /\
    forall c, In c (o_orders d) -> keeps p n c.
Proof. exact keep_plain. Qed.
Print Assumptions C90_plain.

(** With symmetry, alignment and abutment, if the edges of the positive sequence are between
    constrained blocks and acyclic: it ends; blocks are neither lost nor doubled in the positive
    sequence; it fails only for abutments or if the edges of the negative sequence have a cycle. *)
Theorem C90_complete : forall fuel d w pos,
  NoDup pos -> holds_all d pos -> proper d -> shuffles w ->
  (forall u v, In (u, v) (pos_edges d pos) -> constrained d u /\ constrained d v) -> acyclic (pos_edges d pos) ->
  fact (length pos) <= fuel ->
  exists p, Permutation pos p /\
    forall neg, NoDup neg -> holds_all d neg ->
      (o_abuts d <> [] /\ keep_ordering fuel d w pos neg = Some (p, neg, false)) \/
      (acyclic (neg_edges d p) -> exists n, keep_ordering fuel d w pos neg = Some (p, n, true) /\
          rearranged (fun x => In x (neg_blocks d)) neg n).
Proof. exact keep_complete. Qed.
Print Assumptions C90_complete.

(** The negative sequence is never corrected: the second test of the visited sequences follows the
    first, which has just added the corrected one, so that success means that the sorted sequence
    needed no correction. *)
Theorem C90_once : forall fuel d w pos neg p n,
  keep_ordering fuel d w pos neg = Some (p, n, true) ->
  place neg (neg_blocks d) (topo_sort (l_neg w) (neg_blocks d) (neg_edges d p)) = Some n.
Proof. intros fuel d w pos neg p n H. exact (proj2 (keep_sound fuel d w pos neg p n H)). Qed.
Print Assumptions C90_once.

Definition keep_order (_ : nat) (l : list nat) : list nat := l.
Definition no_luck : luck := Luck keep_order keep_order (fun _ _ => 0).
Definition cp_of (l : list (nat * nat)) (v : nat) : option nat :=
  fold_left (fun a p => if fst p =? v then Some (snd p) else if snd p =? v then Some (fst p) else a) l None.

(** It fails although its correction met all constraints. *)
Theorem C90_fixup_refuted :
  exists d pos neg p n, NoDup pos /\ NoDup neg /\ holds_all d pos /\ holds_all d neg /\ proper d /\
    (forall fuel, 4 <= fuel -> keep_ordering fuel d no_luck pos neg = Some (p, n, false)) /\
    Permutation pos p /\ Permutation neg n /\ forall c, In c (o_orders d) -> keeps p n c.
Proof.
  set (d := ODesign 6 [((0, 2), DirH); ((4, 5), DirH)] [] [Group [(0, 1); (2, 3)] [] DirV] [] (cp_of [(0, 1); (2, 3)])).
  exists d, [0;1;8;3;2;4;5], [4;3;8;5;2;0;1], [0;1;8;3;4;2;5], [4;3;8;5;0;2;1].
  assert (NoDup [0;1;8;3;2;4;5] /\ NoDup [4;3;8;5;2;0;1]) as [N1 N2] by (split; repeat constructor; cbn; lia).
  assert (forall l, Permutation [0;1;8;3;2;4;5] l -> holds_all d l) as HH.
  { intros l Hl. apply (holds_perm d _ _ Hl). split; [|split].
    - intros a b m [H|[H|[]]]; injection H as <- <- <-; cbn; lia.
    - intros g [<-|[]]. split; [|intros s []]. intros a b [H|[H|[]]]; injection H as <- <-; cbn; lia.
    - intros a b m []. }
  assert (Permutation [0;1;8;3;2;4;5] [4;3;8;5;2;0;1]) as PP by (apply NoDup_Permutation; auto; intros x; cbn; lia).
  split; [exact N1|]. split; [exact N2|]. split; [now apply HH|]. split; [now apply HH|]. split.
  { split; [|intros a b m []]. intros g a b [<-|[]] [H|[H|[]]]; injection H as <- <-; cbn; lia. }
  split.
  { intros fuel Hf. do 4 (destruct fuel as [|fuel]; [lia|]). reflexivity. }
  split; [apply NoDup_Permutation; [auto|repeat constructor; cbn; lia|]; intros x; cbn; lia|].
  split; [apply NoDup_Permutation; [auto|repeat constructor; cbn; lia|]; intros x; cbn; lia|].
  intros c [<-|[<-|[]]]; (split; (apply at_precedes; [vm_compute; lia|cbn; lia])).
Qed.
Print Assumptions C90_fixup_refuted.

(** It reports success although a block is lost from the negative sequence and another is there
    twice: a pair and a self-symmetric block of its group give a cycle. *)
Theorem C90_lost_refuted :
  exists d pos neg p n, NoDup pos /\ NoDup neg /\ holds_all d pos /\ holds_all d neg /\ proper d /\
    (forall fuel, 4 <= fuel -> keep_ordering fuel d no_luck pos neg = Some (p, n, true)) /\ In 1 neg /\ ~ In 1 n /\ ~ NoDup n.
Proof.
  set (d := ODesign 5 [((0, 2), DirH); ((3, 4), DirH)] [] [Group [(0, 1)] [(2, DirV)] DirV] [] (cp_of [(0, 1); (2, 2)])).
  exists d, [1;0;7;2;3;4], [3;1;7;4;0;2], [1;0;7;3;2;4], [3;4;7;4;0;2].
  assert (NoDup [1;0;7;2;3;4] /\ NoDup [3;1;7;4;0;2]) as [N1 N2] by (split; repeat constructor; cbn; lia).
  assert (forall l, Permutation [1;0;7;2;3;4] l -> holds_all d l) as HH.
  { intros l Hl. apply (holds_perm d _ _ Hl). split; [|split].
    - intros a b m [H|[H|[]]]; injection H as <- <- <-; cbn; lia.
    - intros g [<-|[]]. split; [|intros s [<-|[]]; cbn; lia]. intros a b [H|[]]; injection H as <- <-; cbn; lia.
    - intros a b m []. }
  split; [exact N1|]. split; [exact N2|]. split; [now apply HH|].
  split; [apply HH; apply NoDup_Permutation; auto; intros x; cbn; lia|]. split.
  { split; [|intros a b m []]. intros g a b [<-|[]] [H|[]]; injection H as <- <-; cbn; lia. }
  split; [intros fuel Hf; do 4 (destruct fuel as [|fuel]; [lia|]); reflexivity|].
  split; [cbn; lia|]. split; [cbn; lia|]. intros H. apply NoDup_cons_iff in H as [_ H]. apply NoDup_cons_iff in H as [H _]. apply H. cbn. lia.
Qed.
Print Assumptions C90_lost_refuted.

(** An alignment with a self-symmetric block adds blocks to the sort that have no place of their
    own: more are written back than there are places. *)
Theorem C90_range_refuted :
  exists d pos neg, NoDup pos /\ holds_all d pos /\ proper d /\ acyclic (pos_edges d pos) /\
    length (sorted (map (at_ pos) (order_blocks (o_orders d)))) < length (topo_sort keep_order (order_blocks (o_orders d)) (pos_edges d pos)) /\
    forall fuel, keep_ordering fuel d no_luck pos neg = None.
Proof.
  set (d := ODesign 4 [((0, 1), DirH)] [(true, [0; 3])] [Group [(0, 2)] [(3, DirV)] DirV] [] (cp_of [(0, 2); (3, 3)])).
  exists d, [0;1;6;3;2], [0;1;3;6;2].
  split; [repeat constructor; cbn; lia|]. split.
  { split; [|split].
    - intros a b m [H|[]]; injection H as <- <- <-; cbn; lia.
    - intros g [<-|[]]. split; [|intros s [<-|[]]; cbn; lia]. intros a b [H|[]]; injection H as <- <-; cbn; lia.
    - intros a b m []. }
  split; [split; [|intros a b m []]; intros g a b [<-|[]] [H|[]]; injection H as <- <-; cbn; lia|].
  split; [|split; [vm_compute; lia|reflexivity]].
  exists (fun x => match x with 0 => 0 | 3 => 1 | 2 => 2 | _ => 3 end).
  intros u v H. vm_compute in H. destruct H as [H|[H|[H|[]]]]; injection H as <- <-; lia.
Qed.
Print Assumptions C90_range_refuted.

(** * The hypotheses are met *)

(** Two constraints that the sequences break, shuffles that reverse. *)
Example C90_plain_nonvacuous :
  let d := ODesign 4 [((2, 0), DirH); ((1, 0), DirV)] [] [] [] (fun _ => None) in
  let w := Luck (fun _ l => rev l) (fun _ l => rev l) (fun _ _ => 0) in
  shuffles w /\ (forall c, In c (o_orders d) -> keeps [2;1;0;3] [2;0;1;3] c) /\
  keep_ordering 1 d w [0;3;1;2] [1;0;3;2] = Some ([2;3;1;0], [2;0;3;1], true).
Proof.
  split; [split; intros v l; apply Permutation_rev|]. split; [|reflexivity].
  intros c [<-|[<-|[]]]; (split; (apply at_precedes; [vm_compute; lia|cbn; lia])).
Qed.

(** A pair around a self-symmetric block, with an ordering. *)
Example C90_complete_nonvacuous :
  let d := ODesign 5 [((0, 2), DirH); ((4, 0), DirV)] [] [Group [(0, 1)] [(2, DirV)] DirV] [((2, 3), DirV)] (cp_of [(0, 1); (2, 2)]) in
  let pos := [0;7;4;2;1;3] in let neg := [0;2;7;1;3;4] in
  NoDup pos /\ NoDup neg /\ holds_all d pos /\ holds_all d neg /\ proper d /\
  (forall u v, In (u, v) (pos_edges d pos) -> constrained d u /\ constrained d v) /\ acyclic (pos_edges d pos) /\
  acyclic (neg_edges d [4;7;0;2;1;3]) /\
  keep_ordering 720 d no_luck pos neg = Some ([4;7;0;2;1;3], [0;2;7;4;3;1], true).
Proof.
  cbv zeta. match goal with |- NoDup ?p /\ _ => assert (NoDup p) as N1 by (repeat constructor; cbn; lia) end.
  match goal with |- _ /\ NoDup ?p /\ _ => assert (NoDup p) as N2 by (repeat constructor; cbn; lia) end.
  match goal with |- _ /\ _ /\ holds_all ?d ?p /\ _ => assert (holds_all d p) as HH end.
  { split; [|split].
    - intros a b m [H|[H|[]]]; injection H as <- <- <-; cbn; lia.
    - intros g [<-|[]]. split; [|intros s [<-|[]]; cbn; lia]. intros a b [H|[]]; injection H as <- <-; cbn; lia.
    - intros a b m [H|[]]. injection H as <- <- <-. cbn. lia. }
  split; [exact N1|]. split; [exact N2|]. split; [exact HH|].
  split; [eapply holds_perm; [|exact HH]; apply NoDup_Permutation; auto; intros x; cbn; lia|].
  split; [split; [intros g a b [<-|[]] [H|[]]; injection H as <- <-; cbn; lia|intros a b m [H|[]]; injection H as <- <- <-; lia]|].
  split.
  { intros u v H. vm_compute in H. destruct H as [H|[H|[]]]; injection H as <- <-; split.
    - exists 0, 2, DirH. cbn. auto.
    - exists 0, 2, DirH. cbn. auto.
    - exists 4, 0, DirV. cbn. auto.
    - exists 4, 0, DirV. cbn. auto. }
  split; [exists (fun x => match x with 4 => 0 | 0 => 1 | _ => 2 end); intros u v H; vm_compute in H; destruct H as [H|[H|[]]]; injection H as <- <-; lia|].
  split; [|reflexivity].
  exists (fun x => match x with 0 => 0 | 2 => 1 | 4 => 2 | _ => 3 end). intros u v H. vm_compute in H.
  repeat (destruct H as [H|H]; [injection H as <- <-; lia|]). contradiction.
Qed.

(** Blocks 3 and 4 depend on each other; 5 depends on them. *)
Example C90_sort_nonvacuous :
  let b := [0;1;2;3;4;5] in let e := [(2, 0); (0, 1); (3, 4); (4, 3); (4, 5)] in
  NoDup b /\ NoDup e /\ (forall u v, In (u, v) e -> In u b /\ In v b) /\ topo_sort keep_order b e = [2;0;1] /\
  acyclic [(2, 0); (0, 1)] /\ topo_sort keep_order b [(2, 0); (0, 1)] = [2;3;4;5;0;1].
Proof.
  cbv zeta. split; [repeat constructor; cbn; lia|]. split; [repeat constructor; cbn; intuition congruence|]. split.
  - intros u v H. repeat (destruct H as [H|H]; [injection H as <- <-; cbn; lia|]). contradiction.
  - split; [reflexivity|]. split; [|reflexivity]. exists (fun x => match x with 2 => 0 | 0 => 1 | _ => 2 end).
    intros u v H. repeat (destruct H as [H|H]; [injection H as <- <-; lia|]). contradiction.
Qed.
