(** What it means for a placement to be on grid. *)
From Coq Require Import String.
From Verif Require Import Base.Prelude Base.PyDict Model.Transformation Model.Hpwl Model.PlaceGrid Spec.Geometry.
Local Open Scope Z_scope.

(** A block placed at offset [o] with scaling [s] in the direction of the constraint. *)
Definition accepts (r : pog) (o s : Z) : Prop :=
  exists t off, In t (pg_terms r) /\ In off (ot_offsets t) /\ In s (ot_scalings t) /\ (pg_pitch r | o - off).

Definition on_grid (c : pog) (t : Tr) : Prop :=
  match pg_dir c with DH => accepts c (oY t) (sY t) | DV => accepts c (oX t) (sX t) end.
Definition all_on_grid (cs : list pog) (t : Tr) : Prop := forall c, In c cs -> on_grid c t.

(** Validated constraints. *)
Definition pog_ok (r : pog) : Prop :=
  0 < pg_pitch r /\
  forall t, In t (pg_terms r) -> (forall o, In o (ot_offsets t) -> 0 <= o < pg_pitch r) /\ (forall s, In s (ot_scalings t) -> s = 1 \/ s = -1).

(** [n] is the least common multiple of the positive numbers [xs]. *)
Definition least_multiple (n : Z) (xs : list Z) : Prop :=
  0 < n /\ (forall x, In x xs -> (x | n)) /\ forall m, (forall x, In x xs -> (x | m)) -> (n | m).

(** Occurrences of templates below a placed cell. *)
Inductive occurs (mods : list modl) : string -> Tr -> string -> Tr -> Prop :=
| oc_here c t : occurs mods c t c t
| oc_below m i t c' t' : In m mods -> In i (md_insts m) -> occurs mods (mi_ctn i) (mult t (mi_tr i)) c' t' -> occurs mods (md_name m) t c' t'.

(** Well-formed inputs of the pass. *)
Record gpl_ok (G : gpl) (st : gstate) : Prop := {
  go_mods : NoDup (map md_name (gp_mods G));
  go_leaves : NoDup (map fst (gp_leaves G));
  go_disj : forall m, In m (gp_mods G) -> ~ In (md_name m) (map fst (gp_leaves G));
  go_known : forall m i, In m (gp_mods G) -> In i (md_insts m) -> In (mi_ctn i) (map fst (gp_leaves G)) \/ In (mi_ctn i) (map md_name (gp_mods G));
  go_tr : forall m i, In m (gp_mods G) -> In i (md_insts m) -> unit_tr (mi_tr i);
  go_lcons : forall c cs r, In (c, cs) (gp_leaves G) -> In r cs -> pog_ok r;
  go_mcons : forall m r, In m (gp_mods G) -> In r (st (md_name m)) -> pog_ok r;
  go_acyclic : exists rank : string -> nat, forall m i, In m (gp_mods G) -> In i (md_insts m) -> (rank (mi_ctn i) < rank (md_name m))%nat }.

(** The constraints given for a template before the pass. *)
Definition given (G : gpl) (st : gstate) (c : string) (r : pog) : Prop :=
  (exists cs, In (c, cs) (gp_leaves G) /\ In r cs) \/ (In c (map md_name (gp_mods G)) /\ In r (st c)).
