(** What a placement means geometrically, independently of the scaling code. *)
From Coq Require Import String.
From Verif Require Import Base.Prelude Model.Transformation Model.ScalePlacement.
Local Open Scope Z_scope.

(** [r] is the global place of the local rectangle [b] of a cell [c], reached from cell [n] under transformation [t]; the path of instance names is [path]. *)
Inductive reaches (d : placement) : string -> Tr -> list string -> string -> Tr -> Prop :=
| reach_here n t : reaches d n t [] n t
| reach_inst m i n t path c t' : In m (p_modules d) -> In i (m_instances m) -> m_name m = n ->
    reaches d (i_ctn i) (mult t (i_tr i)) path c t' -> reaches d n t (i_name i :: path) c t'.

Definition leaf_shape (d : placement) (c : string) (b : Rect) : Prop :=
  exists l, In l (p_leaves d) /\ l_name l = c /\ (b = l_bbox l \/ exists t, In t (l_terminals l) /\ b = t_rect t).
Definition module_shape (d : placement) (c : string) (b : Rect) : Prop := exists m, In m (p_modules d) /\ m_name m = c /\ b = m_bbox m.
Definition shape (d : placement) (c : string) (b : Rect) : Prop := leaf_shape d c b \/ module_shape d c b.

(** Shapes of the flattened layout. *)
Definition flat_shape (d : placement) (top : string) (path : list string) (c : string) (r : Rect) : Prop :=
  exists t b, reaches d top (mkTr 0 0 1 1) path c t /\ shape d c b /\ r = hitRect t b.

(** A length in the ratio [mul : div]. *)
Definition ratio (mul div x y : Z) : Prop := div * y = mul * x.
Definition rect_ratio (mul div : Z) (r s : Rect) : Prop :=
  ratio mul div (llx r) (llx s) /\ ratio mul div (lly r) (lly s) /\ ratio mul div (urx r) (urx s) /\ ratio mul div (ury r) (ury s).

(** Interiors of two rectangles do not meet. *)
Definition apart (a b : Rect) : Prop := urx a <= llx b \/ urx b <= llx a \/ ury a <= lly b \/ ury b <= lly a.
(** The box of an instance whose cell has bounding box [b]. *)
Definition inst_box (i : instance) (b : Rect) : Rect := canonical (hitRect (i_tr i) b).
Definition within (a b : Rect) : Prop := llx b <= llx a /\ lly b <= lly a /\ urx a <= urx b /\ ury a <= ury b.
Definition at_origin (b : Rect) : Prop := llx b = 0 /\ lly b = 0 /\ 0 <= urx b /\ 0 <= ury b.
Definition reflection (t : Tr) : Prop := (sX t = 1 \/ sX t = -1) /\ (sY t = 1 \/ sY t = -1).
