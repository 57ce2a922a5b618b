(** align/cell_fabric/routing_collateral.py:4-72, [MetalTemplate]: the widths, spaces and stops written for a wire from its grids.
    Simplified: colours are integers (Model/Grid.v); the layer, the name and the printing of numbers are left out. *)
From Verif Require Import Base.Prelude Model.PySort Model.Grid Model.Canvas.
Local Open Scope Z_scope.

(** Lines 19-21 and 43: the lines of a grid whose index is legal, with their index. *)
Definition legal_lines (g : Grid) : list (Z * (Z * attrs)) := filter (fun ip => existsb (Z.eqb (fst ip)) (legalIndices g)) (enumerate (grid g)).
(** Lines 26-38, the loop over the centre lines: widths, spaces, colours. [last] is [(last_c, last_width)]. [None] = attrs of a line is None, so that line 26 raises. *)
Fixpoint metal_loop (last : option (Z * Z)) (l : list (Z * (Z * attrs))) : option (list Z * list Z * list Z) :=
  match l with
  | [] => Some ([], [], [])
  | (_, (c, Some (width, color))) :: t =>
      match metal_loop (Some (c, width)) t with
      | Some (ws, ss, cs) =>
          Some (width :: ws,
                match last with Some (last_c, last_width) => (c - last_c - (last_width + width) / 2) :: ss | None => ss end,
                match color with Some k => k :: cs | None => cs end)
      | None => None
      end
  | (_, (_, None)) :: _ => None
  end.
(** Lines 43-48: the legal stop lines, and the first one of the next period if the last legal line is not the last line. [None] = IndexError or an assertion of [value];
    its argument [check] is the attrs of the first line. *)
Definition stop_tuples (g : Grid) : option (list (Z * (Z * attrs))) :=
  match legal_lines g with
  | [] => None
  | (idx, (c, a)) :: t =>
      let l := (idx, (c, a)) :: t in
      if fst (last l (idx, (c, a))) <? n_lines g then
        match value g (Pair 1 idx) (match a with Some _ => true | None => false end) with
        | Some v => Some (l ++ [(idx + n_lines g, v)])
        | None => None
        end
      else Some l
  end.
(** Lines 50-59. *)
Fixpoint stop_loop (last_c : option Z) (l : list (Z * (Z * attrs))) : list Z :=
  match l with
  | [] => []
  | (_, (c, _)) :: t => match last_c with Some lc => if c =? lc then [] else [c - lc] | None => [] end ++ stop_loop (Some c) t
  end.
(** Lines 23-24 and 52-53. *)
Definition first_c (l : list (Z * (Z * attrs))) : option Z := match l with [] => None | (_, (c, _)) :: _ => Some c end.

Record Template := mkTemplate { t_widths : list Z; t_spaces : list Z; t_colors : list Z; t_offset : option Z; t_stops : list Z; t_stop_offset : option Z }.
Definition metal_template (w : Wire) : option Template :=
  match metal_loop None (legal_lines (w_clg w)), stop_tuples (w_spg w) with
  | Some (ws, ss, cs), Some tl => Some (mkTemplate ws ss cs (first_c (legal_lines (w_clg w))) (stop_loop None tl) (first_c tl))
  | _, _ => None
  end.
(** Lines 61-72: the numbers of the written line: widths, spaces, colours, stops, stop offset. *)
Definition written (t : Template) := (t_widths t, t_spaces t, t_colors t, t_stops t, t_stop_offset t).
