(** Model of the scaling of placements, align/pnr/render_placement.py:126-170. *)
From Coq Require Import String.
From Verif Require Import Base.Prelude Model.Transformation.
Local Open Scope Z_scope.

(** render_placement.py:130-139 [scalar_rational_scaling] for integer [mul] and [div > 0]: the quotient, and whether the error is logged.
    Not modelled: the branch for [mul] of type float (133-135), used only for the GUI. *)
Definition scalar_rational_scaling (mul div v : Z) : Z * bool := (mul * v / div, negb ((mul * v) mod div =? 0)).

(** The parts of placement_verilog_d that are read or changed: modules with bounding box and instances, leaves with bounding box and terminals.
    Simplified: the other fields are copied unchanged by copy.deepcopy (146) and left out; the list of four numbers is a [Rect]. *)
Record instance := mkInst { i_name : string; i_ctn : string; i_tr : Tr }.
Record module_ := mkMod { m_name : string; m_bbox : Rect; m_instances : list instance }.
Record terminal := mkTerm { t_name : string; t_rect : Rect }.
Record leaf := mkLeaf { l_name : string; l_bbox : Rect; l_terminals : list terminal }.
Record placement := mkPl { p_modules : list module_; p_leaves : list leaf }.

Section Scale.
  Variables mul div : Z.
  Notation sc v := (fst (scalar_rational_scaling mul div v)).
  Notation err v := (snd (scalar_rational_scaling mul div v)).
  (** render_placement.py:141-142 [array_rational_scaling] on a rectangle. *)
  Definition scale_rect (r : Rect) : Rect := mkRect (sc (llx r)) (sc (lly r)) (sc (urx r)) (sc (ury r)).
  (** 158-160: only the offsets are scaled. *)
  Definition scale_tr (t : Tr) : Tr := mkTr (sc (oX t)) (sc (oY t)) (sX t) (sY t).
  Definition scale_inst (i : instance) : instance := mkInst (i_name i) (i_ctn i) (scale_tr (i_tr i)).
  (** 155-160 *)
  Definition scale_mod (m : module_) : module_ := mkMod (m_name m) (scale_rect (m_bbox m)) (map scale_inst (m_instances m)).
  (** 164-165 *)
  Definition scale_term (t : terminal) : terminal := mkTerm (t_name t) (scale_rect (t_rect t)).
  (** 162-165 *)
  Definition scale_leaf (l : leaf) : leaf := mkLeaf (l_name l) (scale_rect (l_bbox l)) (map scale_term (l_terminals l)).
  (** The numbers scaled, in order of the calls. *)
  Definition rect_numbers (r : Rect) : list Z := [llx r; lly r; urx r; ury r].
  Definition mod_numbers (m : module_) : list Z := rect_numbers (m_bbox m) ++ flat_map (fun i => [oX (i_tr i); oY (i_tr i)]) (m_instances m).
  Definition leaf_numbers (l : leaf) : list Z := rect_numbers (l_bbox l) ++ flat_map (fun t => rect_numbers (t_rect t)) (l_terminals l).
  Definition numbers (d : placement) : list Z := flat_map mod_numbers (p_modules d) ++ flat_map leaf_numbers (p_leaves d).
  (** The scaled placement and the numbers for which an error is logged. *)
  Definition scale_with (d : placement) : placement * list Z :=
    (mkPl (map scale_mod (p_modules d)) (map scale_leaf (p_leaves d)), filter (fun v => err v) (numbers d)).
End Scale.

(** render_placement.py:144-168 [scale_placement_verilog]. *)
Definition scale_placement_verilog (d : placement) (scale_factor : Z) (invert : bool) : placement * list Z :=
  if invert then scale_with 2 scale_factor d else scale_with scale_factor 2 d.
