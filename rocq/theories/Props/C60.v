(** C60: the search for symmetric parts of a circuit (compiler/find_constraint.py:22-228). *)
From Coq Require Import String.
From Verif Require Import Base.Prelude Base.PyDict Model.RemoveDuplicates Model.Netlist Model.FindSym Spec.SymSpec Proofs.FindSymP.

(** Two nodes are recorded as symmetric only if their identifiers are equal (same model, parameters and
    number of nets; same kinds of neighbours) and they end walks of equal length, avoiding the stop
    points, that start at two ports of equal weight. *)
Theorem C60_sound G fuel nodes stop ports weight all key p k v :
  find_symmetry G fuel nodes stop ports weight = Ok all -> In (key, p) all -> In (k, v) (pd p) ->
  g_id G k = g_id G v /\ ~ In k stop /\ ~ In v stop /\
  exists p1 p2 w, In p1 ports /\ In p2 ports /\ weight p1 = Some w /\ weight p2 = Some w /\ parallel G stop p1 p2 k v.
Proof.
  intros H Hp Hk. destruct (find_sound _ _ _ _ _ _ _ _ _ _ _ H Hp Hk) as (E & p1 & p2 & w & P1 & P2 & W1 & W2 & Hpar). split; [assumption|].
  destruct (parallel_stop _ _ _ _ _ _ Hpar) as (S1 & S2). split; [assumption|]. split; [assumption|]. exists p1, p2, w. auto.
Qed.
Print Assumptions C60_sound.
(** The search ends: the depth of the recursion is at most twice the number of nodes, plus two. *)
Theorem C60_terminates G fuel nodes stop ports weight V : (forall n x, In n V -> In x (g_nb G n) -> In x V) -> (forall p, In p ports -> In p V) ->
  (2 * length V + 2 <= fuel)%nat -> find_symmetry G fuel nodes stop ports weight <> Out.
Proof. apply find_term. Qed.
Print Assumptions C60_terminates.
(** and a bound that suffices gives the result of every larger one. *)
Theorem C60_fuel G f1 f2 nodes stop ports weight : (f1 <= f2)%nat -> find_symmetry G f1 nodes stop ports weight <> Out -> find_symmetry G f2 nodes stop ports weight = find_symmetry G f1 nodes stop ports weight.
Proof. apply find_fuel. Qed.
Print Assumptions C60_fuel.
(** [find_unique_matching_branches]: it succeeds exactly when each first node has exactly one second node
    with its identifier, and returns that node. *)
Theorem C60_branches G l1 l2 m : NoDup l1 -> NoDup l2 ->
  (unique_branches G l1 l2 [] = Some m <-> map fst m = l1 /\ forall k v, In (k, v) m -> In v l2 /\ g_id G v = g_id G k /\ forall y, In y l2 -> g_id G y = g_id G k -> y = v).
Proof. apply branches_iff. Qed.
Print Assumptions C60_branches.
(** It is one-to-one when the identifiers of the first nodes differ. *)
Theorem C60_branches_inj G l1 l2 m : NoDup l1 -> NoDup l2 -> (forall a b, In a l1 -> In b l1 -> g_id G a = g_id G b -> a = b) ->
  unique_branches G l1 l2 [] = Some m -> forall k k' v, In (k, v) m -> In (k', v) m -> k = k'.
Proof.
  intros N1 N2 Hi H k k' v H1 H2. apply (proj1 (branches_iff _ _ _ _ N1 N2)) in H as (E & Hm). destruct (Hm _ _ H1) as (_ & A & _). destruct (Hm _ _ H2) as (_ & B & _). apply Hi; [rewrite <- E; now apply (in_map fst _ _ H1)|rewrite <- E; now apply (in_map fst _ _ H2)|congruence].
Qed.
Print Assumptions C60_branches_inj.

(** ** Graphs for the cases below *)
Local Open Scope string_scope.
Local Open Scope list_scope.
(** A graph from its edges; an instance-net edge carries the pins. *)
Definition graph (e : list (string * string * list string)) (ids : list (string * string)) : cgraph :=
  mkG (fun n => flat_map (fun x => if String.eqb (fst (fst x)) n then [snd (fst x)] else if String.eqb (snd (fst x)) n then [fst (fst x)] else []) e)
      (fun _ _ => true)
      (fun n m => existsb (fun x => (String.eqb (fst (fst x)) n && String.eqb (snd (fst x)) m || String.eqb (fst (fst x)) m && String.eqb (snd (fst x)) n) && existsb (fun p => negb (String.eqb p "G")) (snd x)) e)
      (fun n => match sget ids n with Some i => i | None => n end)
      (fun n m => flat_map (fun x => if String.eqb (fst (fst x)) n && String.eqb (snd (fst x)) m || String.eqb (fst (fst x)) m && String.eqb (snd (fst x)) n then snd x else []) e).
(** A differential pair with resistive loads. *)
Definition diff := graph
  [(("m1", "inp"), ["G"]); (("m1", "o1"), ["D"]); (("m1", "t"), ["S"]); (("m2", "inn"), ["G"]); (("m2", "o2"), ["D"]); (("m2", "t"), ["S"]);
   (("r1", "o1"), ["P"]); (("r1", "vdd"), ["M"]); (("r2", "o2"), ["P"]); (("r2", "vdd"), ["M"]); (("m5", "t"), ["D"]); (("m5", "b"), ["G"]); (("m5", "vss"), ["S"])]
  [("m1", "M"); ("m2", "M"); ("o1", "O"); ("o2", "O"); ("inn", "I"); ("inp", "I"); ("r1", "R"); ("r2", "R")].
Definition diff_nodes := ["inn"; "inp"; "b"; "m1"; "m2"; "m5"; "o1"; "o2"; "r1"; "r2"; "t"; "vdd"; "vss"].
Definition w_G (p : string) : option string := if in_strs p ["inn"; "inp"; "b"] then Some "G" else None.
(** Two branches of [p], one of [q]. *)
Definition two := graph [(("a1", "p"), ["D"]); (("a2", "p"), ["G"]); (("b1", "q"), ["D"; "G"])] [("p", "N"); ("q", "N"); ("a1", "M"); ("a2", "M"); ("b1", "M")].
(** Nets with eleven more neighbours each. *)
Definition fan (n : string) := map (fun i => ((n ++ i, n), ["G"]))%string ["0";"1";"2";"3";"4";"5";"6";"7";"8";"9";"a"].
Definition wide := graph ([(("a1", "p"), ["D"]); (("a2", "p"), ["D"]); (("b1", "q"), ["D"]); (("b2", "q"), ["D"]);
  (("a1", "k1"), ["S"]); (("a2", "k2"), ["S"]); (("b1", "l1"), ["S"]); (("b2", "l2"), ["S"])] ++ fan "k1" ++ fan "k2" ++ fan "l1" ++ fan "l2")
  [("p", "N"); ("q", "N"); ("a1", "M"); ("b1", "M"); ("a2", "P"); ("b2", "P"); ("k1", "K"); ("l1", "K"); ("k2", "L"); ("l2", "L")].
(** Two ports whose only neighbours differ. *)
Definition stay := graph [(("a1", "p"), ["D"]); (("b1", "q"), ["D"])] [("p", "N"); ("q", "N")].

(** In general two branches can be matched with the same branch, and then two instances have the same
    partner. *)
Theorem C60_one_to_one_refuted : exists G nodes ports weight all key p k k' v, find_symmetry G 40 nodes [] ports weight = Ok all /\ In (key, p) all /\ In (k, v) (pd p) /\ In (k', v) (pd p) /\ k <> k'.
Proof.
  exists two, ["a1"; "a2"; "b1"; "p"; "q"], ["p"; "q"], (fun _ => Some "DG"). eexists. exists ("p", "q"), (mkP [("p", "q"); ("a1", "b1"); ("a2", "b1")] None), "a1", "a2", "b1".
  split; [vm_compute; reflexivity|]. split; [right; left; reflexivity|]. split; [right; left; reflexivity|]. split; [right; right; left; reflexivity|discriminate].
Qed.
Print Assumptions C60_one_to_one_refuted.
(** A pair is to be dropped when its branches do not match ([match_pair = {}], find_constraint.py:180),
    but the assignment only rebinds a local name: the pair stays. *)
Theorem C60_discard_refuted : exists G nodes ports weight all key p a b, find_symmetry G 40 nodes [] ports weight = Ok all /\ In (key, p) all /\ In (a, b) (pd p) /\ a <> b /\
  free_nbrs G [a; b] a <> [] /\ free_nbrs G [a; b] b <> [] /\ unique_branches G (free_nbrs G [a; b] a) (free_nbrs G [a; b] b) [] = None /\ sp p = None.
Proof.
  exists stay, ["a1"; "b1"; "p"; "q"], ["p"; "q"], (fun _ => Some "D"). eexists. exists ("p", "q"), (mkP [("p", "q")] None), "p", "q".
  split; [vm_compute; reflexivity|]. split; [right; left; reflexivity|]. split; [left; reflexivity|]. split; [discriminate|]. split; [discriminate|]. split; [discriminate|]. split; reflexivity.
Qed.
Print Assumptions C60_discard_refuted.
(** A second net with more than ten neighbours in one traversal fails the assertion of line 76 and stops
    the compiler. *)
Theorem C60_assert_refuted : exists G nodes ports weight, find_symmetry G 40 nodes [] ports weight = Fail.
Proof. exists wide, ["p"; "q"], ["p"; "q"], (fun _ => Some "D"). vm_compute. reflexivity. Qed.
Print Assumptions C60_assert_refuted.

(** The hypotheses hold for a differential pair, whose halves are found: the input transistors, the
    outputs and the loads are paired, and the tail is symmetric to itself. *)
Example C60_nonvacuous :
  (forall n x, In n diff_nodes -> In x (g_nb diff n) -> In x diff_nodes) /\
  exists all, find_symmetry diff 40 diff_nodes ["vdd"; "vss"] ["b"; "inn"; "inp"; "vdd"; "vss"] w_G = Ok all /\
  In (("inn", "inp"), mkP [("inn", "inp"); ("m2", "m1"); ("o2", "o1"); ("r2", "r1"); ("t", "t"); ("m5", "m5")] None) all.
Proof.
  split; [|eexists; split; [vm_compute; reflexivity|right; right; left; reflexivity]]. intros n x Hn. unfold diff_nodes in Hn. cbn [In] in Hn. repeat (destruct Hn as [<-|Hn]; [cbn; intuition|]). destruct Hn.
Qed.
