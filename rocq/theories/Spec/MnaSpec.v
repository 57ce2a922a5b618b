(** What an electrical network of resistors, current sources and voltage sources obeys: Ohm's law, the sources, and Kirchhoff's current law.
    Nodes have numbers from 1; every other number is the reference node, whose potential is 0. *)
From Coq Require Import ZArith QArith Qcanon.
From Verif Require Import Base.Prelude Model.Mna.
Local Open Scope Z_scope.

(** Device [d] with the current [c] from its start to its end, under the potentials [v]. *)
Definition element (v : Z -> Qc) (d : device) (c : Qc) : Prop :=
  match d_kind d with
  | KR => (c * d_value d = v (d_start d) - v (d_end d))%Qc
  | KI => c = d_value d
  | KV => v (d_start d) = d_value d
  end.
Fixpoint leaving (k : Z) (ds : list device) (cs : list Qc) : Qc :=
  match ds, cs with
  | d :: ds, c :: cs => ((if d_start d =? k then c else 0) - (if d_end d =? k then c else 0) + leaving k ds cs)%Qc
  | _, _ => 0%Qc
  end.
Definition circuit (N : Z) (ds : list device) (v : Z -> Qc) (cs : list Qc) : Prop :=
  Forall2 (element v) ds cs /\ forall k, 1 <= k <= N -> leaving k ds cs = 0%Qc.
(** The highest number of a node. *)
Definition highest (ds : list device) (N : Z) : Prop :=
  0 <= N /\ (forall d, In d ds -> d_start d <= N /\ d_end d <= N) /\ (N = 0 \/ exists d, In d ds /\ (d_start d = N \/ d_end d = N)).
(** Resistors are between two nodes; current sources have nodes of their own; voltage sources have different places, which are rows after those of the nodes. *)
Definition i_nodes (d : device) : list Z := match d_kind d with KI => d_start d :: if 0 <? d_end d then [d_end d] else [] | _ => [] end.
Definition v_place (N P : Z) (d : device) : list Z :=
  match d_kind d with KV => [if is_zero (d_value d) then N + P / 2 + (- d_end d - 1) else N + (- d_end d - 1)] | _ => [] end.
Definition good_dev (N P : Z) (d : device) : Prop :=
  match d_kind d with
  | KR => 1 <= d_start d <= N /\ 1 <= d_end d <= N /\ d_start d <> d_end d /\ d_value d <> 0%Qc
  | KI => 1 <= d_start d <= N /\ 0 <= d_end d <= N /\ d_start d <> d_end d
  | KV => 1 <= d_start d <= N /\ d_end d < 0 /\ (0 <= d_value d)%Qc /\ (forall r, In r (v_place N P d) -> r < N + P)
  end.
Definition good (N P : Z) (ds : list device) : Prop :=
  Forall (good_dev N P) ds /\ NoDup (flat_map i_nodes ds) /\ NoDup (flat_map (v_place N P) ds) /\ Z.even P = true.
(** A node is fed if resistors lead from it to a voltage source. *)
Inductive fed (ds : list device) : Z -> Prop :=
| fed_source d : In d ds -> d_kind d = KV -> fed ds (d_start d)
| fed_from d : In d ds -> d_kind d = KR -> fed ds (d_start d) -> fed ds (d_end d)
| fed_to d : In d ds -> d_kind d = KR -> fed ds (d_end d) -> fed ds (d_start d).
(** No two resistors join the same nodes, and every node has one. *)
Definition r_pairs (d : device) : list (Z * Z) := match d_kind d with KR => [(d_start d, d_end d); (d_end d, d_start d)] | _ => [] end.
Definition simple (N : Z) (ds : list device) : Prop :=
  NoDup (flat_map r_pairs ds) /\ (forall d, In d ds -> d_kind d = KR -> (0 < d_value d)%Qc) /\
  forall k, 1 <= k <= N -> exists d, In d ds /\ d_kind d = KR /\ (d_start d = k \/ d_end d = k).
