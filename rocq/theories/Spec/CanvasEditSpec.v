(** What joining wires and dropping vias may do. *)
From Coq Require Import String.
From Verif Require Import Base.Prelude Model.Transformation Model.Grid Model.Canvas Model.RemoveDuplicates Model.CanvasEdit Spec.GridSpec.
Local Open Scope Z_scope.

(** Extent along a track. *)
Definition from (d : direction) (r : Rect) : Z := match d with H => llx r | V => lly r end.
Definition to (d : direction) (r : Rect) : Z := match d with H => urx r | V => ury r end.
(** Extent across it. *)
Definition near (d : direction) (r : Rect) : Z := match d with H => lly r | V => llx r end.
Definition far (d : direction) (r : Rect) : Z := match d with H => ury r | V => urx r end.

(** [a] is directly followed by [b]. *)
Definition followed_by {A} (l : list A) (a b : A) : Prop := exists l1 l2, l = l1 ++ a :: b :: l2.
(** A track: wires in order, none empty, with gaps between them. *)
Definition track (d : direction) (l : list srect) : Prop :=
  Forall (fun s => from d (sr_rect s) < to d (sr_rect s)) l /\ StronglySorted (fun a b => to d (sr_rect a) < from d (sr_rect b)) l.
(** The closed rectangles have no point in common. *)
Definition clear_of (a b : Rect) : Prop := urx a < llx b \/ urx b < llx a \/ ury a < lly b \/ ury b < lly a.

(** Consecutive grid lines. *)
Definition next_line (g : Grid) (p c1 c2 : Z) : Prop := on_line g p c1 /\ on_line g p c2 /\ c1 < c2 /\ forall c, on_line g p c -> ~ (c1 < c < c2).
(** Two boxes have a gap smaller than [s]. *)
Definition gap_below (s a b : Z) : Prop := a < b /\ b < a + s.

(** A net that is selected: not excluded, and included if there is a list. *)
Definition chosen (s : netsel) (n : string) : Prop := ~ In n (sel_ex s) /\ forall l, sel_in s = Some l -> In n l.
(** Wires long enough for the via [r], with the enclosures of the two layers. *)
Definition room_for (mh_lower : bool) (vd : viadef) (h v r : Rect) : Prop :=
  let eh := if mh_lower then vd_low vd else vd_high vd in let ev := if mh_lower then vd_high vd else vd_low vd in
  llx h + eh <= llx r /\ urx r + eh <= urx h /\ lly v + ev <= lly r /\ ury r + ev <= ury v.
