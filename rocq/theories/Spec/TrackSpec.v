(** Wires on tracks: a wire of direction [d] on track [k] of a layer (offset, pitch, width), from [x] to [y].  The ends are
    stop points: [stop] before or after a track of a neighbouring layer. *)
From Verif Require Import Base.Prelude Model.Transformation Model.Canvas.
Local Open Scope Z_scope.

Definition track (offset pitch k : Z) : Z := offset + k * pitch.
Definition wire_rect (d : direction) (c w x y : Z) : Rect := match d with H => mkRect x (c - w / 2) y (c + w / 2) | V => mkRect (c - w / 2) x (c + w / 2) y end.
Definition stop_point (offset pitch stop x : Z) : Prop := exists t, x = track offset pitch t - stop \/ x = track offset pitch t + stop.
(** The two sides of a rectangle along a direction, and across. *)
Definition along (d : direction) (r : Rect) : Z * Z := match d with H => (llx r, urx r) | V => (lly r, ury r) end.
Definition across (d : direction) (r : Rect) : Z * Z := match d with H => (lly r, ury r) | V => (llx r, urx r) end.
Definition turn (d : direction) : direction := match d with H => V | V => H end.

From Coq Require Import String Ascii.
From Verif Require Import Base.PyStr Model.DefaultCanvas.
(** What a layer of a PDK must look like, given the names of the layers before it. *)
Definition is_even (z : Z) : Prop := exists k, z = 2 * k.
Definition numbers (d : dim) : list Z := match d with One z => [z] | Many l => l end.
Definition capital (c : ascii) : Prop := (65 <= code c <= 90)%N.
Inductive fits (before : list string) : string -> layer -> Prop :=
| fits_metal s m : Forall is_even (numbers (me_pitch m)) -> fits before (String "M" s) (LMetal m)
| fits_via s v : is_even (vi_spx v) -> is_even (vi_spy v) -> is_even (vi_wx v) ->
    (forall l, vi_lower v = Some l \/ vi_upper v = Some l -> In l before) -> fits before (String "V" s) (LVia v)
| fits_other c s : capital c -> c <> "M"%char -> c <> "V"%char -> fits before (String c s) LOther.
