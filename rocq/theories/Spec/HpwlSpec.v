(** Vocabulary for wire-length statements. *)
From Coq Require Import String.
From Verif Require Import Base.Prelude Base.PyDict Model.Transformation Model.Hpwl Spec.Geometry Spec.TopoSpec.
Local Open Scope Z_scope.

(** [v] is the least / greatest element of the (non-empty) list of coordinates. *)
Definition least (v : Z) (l : list Z) : Prop := In v l /\ forall x, In x l -> v <= x.
Definition greatest (v : Z) (l : list Z) : Prop := In v l /\ forall x, In x l -> x <= v.
Definition xs (rs : list Rect) : list Z := flat_map (fun r => [llx r; urx r]) rs.
Definition ys (rs : list Rect) : list Z := flat_map (fun r => [lly r; ury r]) rs.

(** [d] is the half perimeter of the bounding box of [rs]; 0 without rectangles. *)
Definition half_perimeter (rs : list Rect) (d : Z) : Prop :=
  (rs = [] /\ d = 0) \/
  exists x0 x1 y0 y1, least x0 (xs rs) /\ greatest x1 (xs rs) /\ least y0 (ys rs) /\ greatest y1 (ys rs) /\
    d = (x1 - x0) + (y1 - y0).

(** Well-formed placed hierarchies. *)
Record hier_ok (P : pvd) : Prop := {
  ho_mods : NoDup (map md_name (pv_mods P));
  ho_insts : forall m, In m (pv_mods P) -> NoDup (map mi_name (md_insts m));
  ho_formals : forall m i, In m (pv_mods P) -> In i (md_insts m) -> NoDup (map fst (mi_fa i));
  ho_leaves : forall lf m, In lf (pv_leaves P) -> In m (pv_mods P) -> lf_name lf <> md_name m;
  (* instances of modules connect exactly the parameters *)
  ho_params : forall m i m', In m (pv_mods P) -> In i (md_insts m) -> In m' (pv_mods P) -> mi_ctn i = md_name m' ->
     forall p, In p (map fst (mi_fa i)) <-> In p (md_params m');
  ho_tr : forall m i, In m (pv_mods P) -> In i (md_insts m) -> unit_tr (mi_tr i);
  ho_acyclic : exists rank : string -> nat, forall m i, In m (pv_mods P) -> In i (md_insts m) -> (rank (mi_ctn i) < rank (md_name m))%nat }.

(** Formal and global names do not clash: a formal with a global's name is tied to that global,
    and leaf terminals with a global's name are connected. *)
Record no_clash (P : pvd) : Prop := {
  nc_formal : forall m i f a, In m (pv_mods P) -> In i (md_insts m) -> In (f, a) (mi_fa i) -> In f (pv_globals P) -> a = f;
  nc_leaf : forall m i lf t r, In m (pv_mods P) -> In i (md_insts m) -> In lf (pv_leaves P) -> mi_ctn i = lf_name lf ->
     In (t, r) (lf_terms lf) -> In t (pv_globals P) -> In t (map fst (mi_fa i)) }.
