(** C61: automatic symmetry constraints (compiler/find_constraint.py:371-496). *)
From Coq Require Import String.
From Verif Require Import Base.Prelude Model.PySort Model.RemoveDuplicates Model.Netlist Model.GroupBlock Model.ConstraintDB Model.FindSym Model.SymConst Spec.SymSpec Spec.SymConstSpec Proofs.FindSymP Proofs.SymConstP.

(** Constraints are only added; no instance gets into two block constraints, or into two pairs of one; no net
    gets into two net constraints; names constrained by the user are left alone; each block constraint
    describes one axis, taken from one pairing, and each net constraint a pair of one. *)
Theorem C61_added F repr tr base unsat valid nets V stop all d0 w0 d w :
  add_symmetry F repr tr base unsat valid nets V stop all (d0, w0) = Some (d, w) ->
  exists added, root d = root d0 ++ added /\
  NoDup (flat_map insts added) /\ NoDup (flat_map nets_of added) /\
  forall c, In c added ->
    (exists p, c = Blocks p /\ worth p = true /\ valid p = true /\ axis V stop (names_of w0) all p) \/
    (exists a b p1 p2, c = Nets a b p1 p2 /\ a <> b /\ (exists m, In m all /\ In (a, b) m) /\ v_net V a = true /\ ~ In a stop /\ ~ In a (names_of w0) /\ ~ In b (names_of w0) /\ exists w', nets a b w' = Some (Some (p1, p2))).
Proof.
  intros H. destruct (add_symmetry_inv F repr tr base unsat valid nets V stop d0 w0 all (d, w) H) as (added & R & G & N1 & N2 & _). exists added. split; [exact R|]. split; [assumption|]. split; [assumption|].
  intros c Hc. rewrite Forall_forall in G. specialize (G c Hc). destruct c as [s|p|a b p1 p2]; cbn in G; [destruct G|left; exists p; auto|right; exists a, b, p1, p2; auto].
Qed.
Print Assumptions C61_added.
(** The names of what was added are in [written_symmblocks] in the end. *)
Theorem C61_written F repr tr base unsat valid nets V stop all d0 w0 d w :
  add_symmetry F repr tr base unsat valid nets V stop all (d0, w0) = Some (d, w) ->
  exists added, root d = root d0 ++ added /\ forall x, In x (names_of w0) \/ (exists c, In c added /\ (In x (insts c) \/ In x (nets_of c))) -> In x (names_of w).
Proof.
  intros H. destruct (add_symmetry_inv F repr tr base unsat valid nets V stop d0 w0 all (d, w) H) as (added & R & _ & _ & _ & N). exists added. split; [exact R|]. intros x [Hx|(c & Hc & [Hx|Hx])]; apply N; [now left|right; left; apply in_flat_map; eauto|right; right; apply in_flat_map; eauto].
Qed.
Print Assumptions C61_written.
(** A pair of instances that shares no name with another pair of its pairing is not lost by the filter. *)
Theorem C61_kept V stop w k v q pairs p : In k (v_nodes V) -> v_net V k = false -> ~ In k (names_of w) -> ~ In v (names_of w) ->
  ((k <> v /\ q = [k; v]) \/ (k = v /\ q = [k] /\ ~ In (v_base V k) ["NMOS"; "PMOS"; "RES"; "CAP"]%string)) ->
  (forall k' v', In (k', v') pairs -> k' = k \/ k' = v \/ v' = k \/ v' = v -> k' = k /\ v' = v) -> In (k, v) pairs ->
  filter_blocks V stop w [] pairs = Some p -> In q p.
Proof. intros H1 H2 H3 H4 H5 H6 H7. apply (filter_blocks_kept V stop w k v q pairs H1 H2 H3 H4 H5 H6 H7); intros []. Qed.
Print Assumptions C61_kept.
(** On the pairings of the search (C60) nothing raises, when the second node of a pair of nets is still in
    the graph and no net is floating; in particular the assertion on power ports holds. *)
Theorem C61_runs F repr tr base unsat valid nets V G fuel nodes stop ports wt found s :
  find_symmetry G fuel nodes stop ports wt = Ok found ->
  (forall key m k v, In (key, m) found -> In (k, v) (pd m) -> In k (v_nodes V) -> v_net V k = true -> In v (v_nodes V)) ->
  (forall k v w, nets k v w <> None) ->
  add_symmetry F repr tr base unsat valid nets V stop (map (fun e => pd (snd e)) found) s <> None.
Proof.
  intros H Hv Hn. apply add_symmetry_ok.
  - intros m k v Hm Hk. apply in_map_iff in Hm as ((key, p) & <- & Hp). destruct (find_sound _ _ _ _ _ _ _ _ _ _ _ H Hp Hk) as (_ & p1 & p2 & w & _ & _ & _ & _ & X). exact (proj1 (parallel_stop _ _ _ _ _ _ X)).
  - intros m k v Hm Hk. apply in_map_iff in Hm as ((key, p) & <- & Hp). exact (Hv key p k v Hp Hk).
  - intros m k v w _ _. apply Hn.
Qed.
Print Assumptions C61_runs.

(** ** What a rejected constraint leaves behind *)
(** [add_or_revert_const] swallows the exception of a block constraint that the solver rejects, but the
    formula stays with the solver: from then on no block constraint is added, satisfiable or not. *)
Theorem C61_poison F repr tr base unsat valid nets V stop :
  (forall l l', (forall f, In f l -> In f l') -> unsat l = true -> unsat l' = true) -> (forall p, tr (Blocks p) <> None) ->
  forall p d d1 rest w s', put F repr tr base unsat (Blocks p) d = (d1, false) -> add_symmetry F repr tr base unsat valid nets V stop rest (d1, w) = Some s' ->
  exists added, root (fst s') = root d ++ added /\ forall q, ~ In (Blocks q) added.
Proof.
  intros M Hh p d d1 rest w s' P H. destruct (add_symmetry_dead F repr tr base unsat valid nets V stop M Hh rest (d1, w) s' (put_rejected F repr tr base unsat _ _ _ P) H) as (more & R & N). exists more. split; [|assumption].
  destruct (put_cases _ _ _ _ _ _ _ _ _ P) as [(X & _)|(X & _)]; [discriminate|]. cbn [fst] in R. now rewrite R, X.
Qed.
Print Assumptions C61_poison.

(** A circuit with instances only; the solver refuses pairs with [a]. *)
Local Open Scope string_scope.
Local Open Scope list_scope.
Definition flatV := mkV ["a"; "b"; "c"; "d"; "e"; "f"; "g"; "n"; "m"] (fun x => in_strs x ["n"; "m"]) (fun x => if String.eqb x "g" then "OTA" else "NMOS") (fun _ => ["M"]).
Definition t_repr (c : auto) : string := match c with Before s => s | Blocks p => String.concat "," (map (String.concat "+") p) | Nets a b _ _ => String.append a b end.
Definition t_tr (c : auto) : option (list string) := match c with Blocks p => Some (concat p) | _ => None end.
Definition t_unsat (l : list (list string)) : bool := existsb (in_strs "a") l.
Definition t_nets (a b : string) (w : list written) : option (option (list string * list string)) := Some (Some (["e/D"; "g/D"], ["f/D"; "g/S"])).
Definition empty : cst (list string) := init auto (list string) [].
Definition found1 : list dict := [[("e", "f"); ("g", "g")]; [("a", "b"); ("c", "d"); ("n", "m")]; [("d", "e"); ("c", "c")]].

(** The pairing with [e] and [f] is accepted on its own, and lost after the rejected one. *)
Theorem C61_poison_refuted : exists F repr tr base unsat valid nets V stop bad good d w,
  (forall l l', (forall f, In f l -> In f l') -> unsat l = true -> unsat l' = true) /\
  (exists q d1 w1, add_symmetry F repr tr base unsat valid nets V stop [good] (d, w) = Some (d1, w1) /\ In (Blocks q) (root d1)) /\
  (exists d2 w2, add_symmetry F repr tr base unsat valid nets V stop [bad; good] (d, w) = Some (d2, w2) /\ forall q, ~ In (Blocks q) (root d2)).
Proof.
  exists (list string), t_repr, t_tr, [], t_unsat, (fun _ => true), t_nets, flatV, [], [("a", "b"); ("c", "d")], [("e", "f"); ("g", "g")], empty, []. split.
  - intros l l' Hi H. unfold t_unsat in *. apply existsb_exists in H as (x & Hx & H). apply existsb_exists. exists x. auto.
  - split; [exists [["e"; "f"]; ["g"]]; eexists; eexists; split; [vm_compute; reflexivity|now left]|]. eexists. eexists. split; [vm_compute; reflexivity|]. intros q [].
Qed.
Print Assumptions C61_poison_refuted.
(** Only the first node of a pair is looked for in the graph: when the second one, a net, has disappeared into a new
    hierarchy, its neighbours cannot be compared and the compiler stops. *)
Theorem C61_value_refuted : exists V stop w k v, In k (v_nodes V) /\ ~ In k stop /\ ~ In v stop /\ pre_filter V stop w k v = None.
Proof. exists flatV, [], [], "n", "x". split; [cbn; tauto|]. split; [intros []|]. split; [intros []|]. reflexivity. Qed.
Print Assumptions C61_value_refuted.

(** Two pairings are accepted here, the one with most pairs first; the overlapping one adds nothing; a net
    constraint is added for the nets. *)
Example C61_nonvacuous :
  exists w, add_symmetry (list string) t_repr t_tr [] (fun _ => false) (fun _ => true) t_nets flatV ["vdd"] found1 (empty, [WName "u"]) =
    Some (mkDb [Blocks [["a"; "b"]; ["c"; "d"]]; Blocks [["e"; "f"]; ["g"]]; Nets "n" "m" ["e/D"; "g/D"] ["f/D"; "g/S"]] []
            (map t_repr [Nets "n" "m" [] []; Blocks [["e"; "f"]; ["g"]]; Blocks [["a"; "b"]; ["c"; "d"]]]) (Some [[["a"; "b"; "c"; "d"]; ["e"; "f"; "g"]]]), w).
Proof. eexists. vm_compute. reflexivity. Qed.
