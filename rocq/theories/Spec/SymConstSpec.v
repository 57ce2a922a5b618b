(** What automatic symmetry constraints are to satisfy. *)
From Coq Require Import String.
From Verif Require Import Base.Prelude Model.SymConst.

(** Instances of a block constraint, nets of a net constraint. *)
Definition insts (c : auto) : list string := match c with Blocks p => concat p | _ => [] end.
Definition nets_of (c : auto) : list string := match c with Nets a b _ _ => [a; b] | _ => [] end.
(** A pair of a block constraint comes from a pair of the pairing [d]: two different nodes, or one node with
    itself that is not a single device.  The first is an instance and not a stop point; neither is named by the constraints of the user. *)
Definition from_pair (V : view) (stop user : list string) (d : list (string * string)) (q : list string) : Prop :=
  exists k v, In (k, v) d /\ In k (v_nodes V) /\ v_net V k = false /\ ~ In k stop /\ ~ In k user /\ ~ In v user /\
    ((k <> v /\ q = [k; v]) \/ (k = v /\ q = [k] /\ ~ In (v_base V k) ["NMOS"; "PMOS"; "RES"; "CAP"]%string)).
(** One axis of symmetry: all pairs of a constraint come from one pairing. *)
Definition axis (V : view) (stop user : list string) (all : list (list (string * string))) (p : list (list string)) : Prop :=
  exists d, In d all /\ forall q, In q p -> from_pair V stop user d q.
