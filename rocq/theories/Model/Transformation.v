(** Model of align/cell_fabric/transformation.py and of
    align/pnr/render_placement.py:19-29 (gen_transformation). *)
From Verif Require Import Base.Prelude.
Local Open Scope Z_scope.

(** transformation.py:2-7 [Rect]: four integer coordinates.
    Simplified: the [None] coordinates allowed by the constructor are not modelled here. *)
Record Rect := mkRect { llx : Z; lly : Z; urx : Z; ury : Z }.

(** transformation.py:9-13 [Rect.canonical]: swap per axis when out of order. *)
Definition canonical (r : Rect) : Rect :=
  let '(x0, x1) := if urx r <? llx r then (urx r, llx r) else (llx r, urx r) in
  let '(y0, y1) := if ury r <? lly r then (ury r, lly r) else (lly r, ury r) in
  mkRect x0 y0 x1 y1.

(** transformation.py:27-31 [Transformation.__init__] (field order oX,oY,sX,sY). *)
Record Tr := mkTr { oX : Z; oY : Z; sX : Z; sY : Z }.

(** transformation.py:27 default arguments. *)
Definition tr_default : Tr := mkTr 0 0 1 1.

(** transformation.py:24 the keys of the dictionary of orientation tags.
    Simplified: other strings raise KeyError; here the type has only the four tags. *)
Inductive tag := FN | FS | N | S.

(** transformation.py:24 the dictionary. *)
Definition tag_scale (t : tag) : Z * Z :=
  match t with FN => (-1, 1) | FS => (1, -1) | N => (1, 1) | S => (-1, -1) end.

(** transformation.py:22-25 [genTr]. *)
Definition genTr (t : tag) (w h : Z) : Tr :=
  let '(sx, sy) := tag_scale t in
  mkTr (if sx =? 1 then 0 else w) (if sy =? 1 then 0 else h) sx sy.

(** transformation.py:48-50 [hit]. *)
Definition hit (t : Tr) (p : Z * Z) : Z * Z :=
  let '(x, y) := p in (sX t * x + oX t, sY t * y + oY t).

(** transformation.py:52-55 [hitRect]. *)
Definition hitRect (t : Tr) (r : Rect) : Rect :=
  let '(a, b) := hit t (llx r, lly r) in
  let '(c, d) := hit t (urx r, ury r) in
  mkRect a b c d.

(** transformation.py:57-70 [inv]. *)
Definition inv (t : Tr) : Tr :=
  mkTr (- oX t * sX t) (- oY t * sY t) (sX t) (sY t).

(** transformation.py:73-83 [mult]. *)
Definition mult (A B : Tr) : Tr :=
  mkTr (sX A * oX B + oX A) (sY A * oY B + oY A) (sX A * sX B) (sY A * sY B).

(** transformation.py:85-86 [preMult]. *)
Definition preMult (self A : Tr) : Tr := mult A self.

(** transformation.py:88-89 [postMult]. *)
Definition postMult (self A : Tr) : Tr := mult self A.

(** The fields of a PnR block read by render_placement.py:19-29. *)
Record Blk := mkBlk {
  b_orient : tag; b_width : Z; b_height : Z;
  b_originBox : Rect; b_placedBox : Rect }.

(** render_placement.py:19-29 [gen_transformation]. Simplified: the debug log is dropped. *)
Definition gen_transformation (b : Blk) : Tr :=
  let tr_reflect := genTr (b_orient b) (b_width b) (b_height b) in
  let tr_offset := mkTr (llx (b_placedBox b) - llx (b_originBox b))
                        (lly (b_placedBox b) - lly (b_originBox b)) 1 1 in
  postMult tr_offset tr_reflect.
