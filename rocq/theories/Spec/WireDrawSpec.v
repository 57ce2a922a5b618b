(** What blocking and drawing have to give, stated with places and rectangles. *)
From Coq Require Import ZArith.
From Verif Require Import Base.Prelude Model.AStar Model.DetailGrid Model.WireDraw Spec.AStarSpec Spec.DetailGridSpec.
Local Open Scope Z_scope.

Definition mult (u z : Z) : Prop := exists k, z = k * u.
(** A metal next to m. *)
Definition beside (R : rules) (m m' : Z) : Prop := m' = m - 1 /\ m <> 0 \/ m' = m + 1 /\ m <> r_layers R - 1.
(** The way along a line (y of a vertical metal) and the place of the line. *)
Definition along (R : rules) (m x y : Z) : Z := if r_vert R m then y else x.
Definition across (R : rules) (m x y : Z) : Z := if r_vert R m then x else y.
(** The ends of an obstacle along its metal, with the space that is kept; dist_ee twice for a vertical metal. *)
Definition gap_ends (R : rules) (m : Z) : Z := if r_vert R m then 2 * r_ee R m else r_ee R m.
Definition lo_end (R : rules) (o : sink) : Z := along R (s_metal o) (s_x0 o) (s_y0 o) - gap_ends R (s_metal o).
Definition hi_end (R : rules) (o : sink) : Z := along R (s_metal o) (s_x1 o) (s_y1 o) + gap_ends R (s_metal o).
Definition no_place (R : rules) (o : sink) (m' : Z) : Prop := forall z, mult (r_cross R m') z -> ~ lo_end R o <= z <= hi_end R o.
(** The points to block: lines nearer than the pitch less half the width, places between the ends, or the last one before them. *)
Definition touched (R : rules) (o : sink) (x y : Z) : Prop :=
  let m := s_metal o in let c := across R m x y in let z := along R m x y in let h := Z.quot (r_width R m) 2 in
  mult (r_unit R m) c /\ across R m (s_x0 o) (s_y0 o) - r_unit R m + h < c < across R m (s_x1 o) (s_y1 o) + r_unit R m - h /\
  exists m', beside R m m' /\ mult (r_cross R m') z /\
    (lo_end R o <= z <= hi_end R o \/ no_place R o m' /\ z <= lo_end R o < z + r_cross R m').
(** No metal is between the lines of the next metals. *)
Definition broad (R : rules) (o : sink) : Prop := r_vert R (s_metal o) = false -> forall m', beside R (s_metal o) m' -> ~ no_place R o m'.
Record positive (R : rules) : Prop := { po_unit : forall m, 0 < r_unit R m; po_cross : forall m, 0 < r_cross R m; po_width : forall m, 0 <= r_width R m; po_layers : 1 < r_layers R }.
(** The first node at a place. *)
Definition first_sits (vs : list vertex) (u : nat) (m x y : Z) : Prop := sits vs u m x y /\ forall k, (k < u)%nat -> ~ sits vs k m x y.

(** The rules are those of the grid, which has no offsets. *)
Record matches (R : rules) (d : pdk) : Prop := {
  ma_vert : forall m, r_vert R m = vert d m; ma_unit : forall m, r_unit R m = unit d m; ma_cross : forall m, r_cross R m = unit d m;
  ma_off : forall m, off d m = 0; ma_layers : r_layers R = layers d; ma_some : 1 < layers d }.
(** Two rectangles have space: the pitch less the width at the sides, more than gap_ends at the ends. *)
Definition clear (R : rules) (w o : sink) : Prop :=
  let m := s_metal o in let s := r_unit R m - r_width R m in
  s_metal w <> m \/
  across R m (s_x1 w) (s_y1 w) + s <= across R m (s_x0 o) (s_y0 o) \/ across R m (s_x1 o) (s_y1 o) + s <= across R m (s_x0 w) (s_y0 w) \/
  along R m (s_x1 w) (s_y1 w) < lo_end R o \/ hi_end R o < along R m (s_x0 w) (s_y0 w).
(** The rectangle of a line: as long as the line, half the width on both sides. *)
Definition drawn (R : rules) (l : line) (w : sink) : Prop :=
  let m := l_metal l in let h := Z.quot (r_width R m) 2 in
  s_metal w = m /\
  along R m (s_x0 w) (s_y0 w) = Z.min (along R m (l_x0 l) (l_y0 l)) (along R m (l_x1 l) (l_y1 l)) /\
  along R m (s_x1 w) (s_y1 w) = Z.max (along R m (l_x0 l) (l_y0 l)) (along R m (l_x1 l) (l_y1 l)) /\
  across R m (s_x0 w) (s_y0 w) = across R m (l_x0 l) (l_y0 l) - h /\ across R m (s_x1 w) (s_y1 w) = across R m (l_x0 l) (l_y0 l) + h.
Definition level (R : rules) (l : line) : Prop := across R (l_metal l) (l_x0 l) (l_y0 l) = across R (l_metal l) (l_x1 l) (l_y1 l).
Definition is_point (l : line) : Prop := l_x0 l = l_x1 l /\ l_y0 l = l_y1 l.
(** Line l' is l with p more at the lower and q more at the higher end. *)
Definition longer (R : rules) (p q : Z) (l l' : line) : Prop :=
  let m := l_metal l in l_metal l' = m /\ level R l' /\ across R m (l_x0 l') (l_y0 l') = across R m (l_x0 l) (l_y0 l) /\
  Z.min (along R m (l_x0 l') (l_y0 l')) (along R m (l_x1 l') (l_y1 l')) = Z.min (along R m (l_x0 l) (l_y0 l)) (along R m (l_x1 l) (l_y1 l)) - p /\
  Z.max (along R m (l_x0 l') (l_y0 l')) (along R m (l_x1 l') (l_y1 l')) = Z.max (along R m (l_x0 l) (l_y0 l)) (along R m (l_x1 l) (l_y1 l)) + q.

Definition opened (es : list edit) (m x y : Z) : Prop := exists pl, In (Open pl) es /\ In (x, y) (pl m).
(** Two lines on metals next to each other, the lower one first, have an end in common. *)
Definition share_end (a b : line) (x y : Z) : Prop :=
  l_metal b = l_metal a + 1 /\ (x = l_x0 a /\ y = l_y0 a \/ x = l_x1 a /\ y = l_y1 a) /\ (x = l_x0 b /\ y = l_y0 b \/ x = l_x1 b /\ y = l_y1 b).
(** Both ends of a wire are between crossings of one track. *)
Definition at_x (d : pdk) (m c z : Z) : Z := if vert d m then c else z.
Definition at_y (d : pdk) (m c z : Z) : Z := if vert d m then z else c.
Definition within (a : args) (m c lo hi : Z) : Prop := exists s e lo' hi', longest a m s e /\ aligned a m (s, e) /\ lo' <= lo /\ hi <= hi' /\
  crosses (dr a) m lo' /\ crosses (dr a) m hi' /\ on_line (dr a) m c /\
  inside (track_box a (s, e)) (at_x (dr a) m c lo') (at_y (dr a) m c lo') /\ inside (track_box a (s, e)) (at_x (dr a) m c hi') (at_y (dr a) m c hi').
Definition within_line (a : args) (l : line) : Prop :=
  let d := dr a in let m := l_metal l in let z0 := if vert d m then l_y0 l else l_x0 l in let z1 := if vert d m then l_y1 l else l_x1 l in
  within a m (if vert d m then l_x0 l else l_y0 l) (Z.min z0 z1) (Z.max z0 z1).
(** Two rectangles of one metal overlap. *)
Definition overlap (w o : sink) : Prop := s_metal w = s_metal o /\ s_x0 w < s_x1 o /\ s_x0 o < s_x1 w /\ s_y0 w < s_y1 o /\ s_y0 o < s_y1 w.
