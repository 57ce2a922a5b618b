(** Editing a canvas along its scan lines: joining wires and dropping vias
    (cell_fabric/canvas.py). *)
From Coq Require Import String.
From Verif Require Import Base.Prelude Model.Transformation Model.Grid Model.Canvas Model.RemoveDuplicates.
Local Open Scope Z_scope.

(** A rectangle of a scan line after [removeDuplicates] (canvas.py:114, 155): box, net of its
    root and type.  Scan lines are keyed by twice the centre coordinate. *)
Record srect := mkSr { sr_rect : Rect; sr_net : name; sr_type : string }.
Definition slines := list (Z * list srect).
Definition along (d : direction) : sdir := match d with H => DH | V => DV end.

(** canvas.py:103-111, 124-129: the nets considered.  [None] for [include_nets] means all. *)
Record netsel := mkSel { sel_ex : list string; sel_in : option (list string) }.
Definition selected (s : netsel) (n : string) : bool :=
  negb (in_strs n (sel_ex s)) && match sel_in s with None => true | Some l => in_strs n l end.

(** A joined pair and the rectangle drawn for it. *)
Record join := mkJ { j_net : string; j_a : srect; j_b : srect; j_rect : Rect }.

Section Join.
  Variables (w : Wire) (sel : netsel) (max_l : option Z).
  Notation lo := (fun s => dlo (along (w_dir w)) (sr_rect s)).
  Notation hi := (fun s => dhi (along (w_dir w)) (sr_rect s)).
  Notation width := (fun s => whi (along (w_dir w)) (sr_rect s) - wlo (along (w_dir w)) (sr_rect s)).
  Definition fits (l : Z) : bool := match max_l with None => true | Some m => l <=? m end.

  (** canvas.py:139-143: the wire is drawn between grid lines that bracket the two ends. *)
  Definition draw (c : Z * Z) (b e : Z) : option Rect :=
    match inverseBounds (w_spg w) b, inverseBounds (w_spg w) e with
    | Some (bi, _), Some (_, ei) => wire_segment w (Pair (fst c) (snd c)) (Pair (fst bi) (snd bi)) (Pair (fst ei) (snd ei))
    | _, _ => None
    end.
  (** canvas.py:119-145, the loop over one scan line; [nl] is [new_length].  [None] is an
      exception.  [addWire] uses the grid's width and type "drawing". *)
  Fixpoint join_go (c : Z * Z) (nl : Z) (l : list srect) : option (list join) :=
    match l with
    | [] => Some []
    | s :: tl =>
        if String.eqb (sr_type s) "blockage" then join_go c nl tl
        else match sr_net s with
        | None => join_go c 0 tl
        | Some n =>
            if negb (selected sel n) then join_go c 0 tl
            else match tl with
            | [] => Some []
            | nx :: _ =>
                let nl' := nl + (hi nx - lo s) in
                if name_eqb (sr_net s) (sr_net nx) && (width s =? width nx) && fits nl' && String.eqb (sr_type s) (sr_type nx) then
                  match draw c (lo s) (hi nx), join_go c (nl' - (hi nx - lo nx)) tl with
                  | Some r, Some js => Some (mkJ n s nx r :: js)
                  | _, _ => None
                  end
                else join_go c 0 tl
            end
        end
    end.
  (** canvas.py:117-119 *)
  Fixpoint join_lines (ls : slines) : option (list (Z * list join)) :=
    match ls with
    | [] => Some []
    | (cl, l) :: tl =>
        match inverseBounds (w_clg w) (cl / 2) with
        | None => None
        | Some (c, _) => match join_go c 0 l, join_lines tl with Some js, Some r => Some ((cl, js) :: r) | _, _ => None end
        end
    end.
End Join.

(** * drop_via *)

(** The entries of the PDK used (canvas.py:225-238): widths, spacings and the enclosures of the
    horizontal and the vertical wire. *)
Record viadef := mkVD { vd_wx : Z; vd_wy : Z; vd_sx : Z; vd_sy : Z; vd_low : Z; vd_high : Z }.
Definition venca_h (mh_lower : bool) (v : viadef) : Z := if mh_lower then vd_low v else vd_high v.
Definition venca_v (mh_lower : bool) (v : viadef) : Z := if mh_lower then vd_high v else vd_low v.

(** The nested dictionary: first key the line of the horizontal wire, second that of the
    vertical one. *)
Definition vmatrix := list ((Z * Z) * Rect).
Definition zz_eqb (a b : Z * Z) : bool := (fst a =? fst b) && (snd a =? snd b).
Definition vm_mem (m : vmatrix) (k : Z * Z) : bool := existsb (fun e => zz_eqb (fst e) k) m.
Fixpoint vm_set (m : vmatrix) (k : Z * Z) (r : Rect) : vmatrix :=
  match m with
  | [] => [(k, r)]
  | e :: tl => if zz_eqb (fst e) k then (k, r) :: tl else e :: vm_set tl k r
  end.
Definition vm_row (m : vmatrix) (y : Z) : vmatrix := filter (fun e => fst (fst e) =? y) m.

(** canvas.py:209-219 [_construct_via_matrix] *)
Definition construct_via_matrix (vias : list Rect) : vmatrix :=
  fold_left (fun m r => vm_set m (llx r + urx r, lly r + ury r) r) vias [].

(** canvas.py:170-196: the crossings visited, in order. *)
Record crossing := mkX { x_hcl : Z; x_h : srect; x_vcl : Z; x_v : srect; x_net : string }.
Fixpoint cross_rects (hcl : Z) (h : srect) (n : string) (vcl : Z) (l : list srect) : list crossing :=
  match l with
  | [] => []
  | v :: tl =>
      if negb (name_eqb (sr_net v) (Some n)) then cross_rects hcl h n vcl tl
      else if 2 * ury (sr_rect v) <? hcl then cross_rects hcl h n vcl tl
      else if hcl <? 2 * lly (sr_rect v) then []
      else mkX hcl h vcl v n :: cross_rects hcl h n vcl tl
  end.
Definition cross_lines (hcl : Z) (h : srect) (n : string) (vls : slines) : list crossing :=
  flat_map (fun vl => if (fst vl <? 2 * llx (sr_rect h)) || (2 * urx (sr_rect h) <? fst vl) then [] else cross_rects hcl h n (fst vl) (snd vl)) vls.
Definition crossings (sel : netsel) (hls vls : slines) : list crossing :=
  flat_map (fun hl => flat_map (fun h => match sr_net h with
                                         | None => []
                                         | Some n => if selected sel n then cross_lines (fst hl) h n vls else []
                                         end) (snd hl)) hls.

Section Drop.
  Variables (vd : viadef) (via : Via) (mh_lower : bool) (hclg vclg : Grid).
  Definition via_at (hcl vcl : Z) : Rect :=
    mkRect (vcl / 2 - vd_wx vd / 2) (hcl / 2 - vd_wy vd / 2) (vcl / 2 + vd_wx vd / 2) (hcl / 2 + vd_wy vd / 2).
  (** canvas.py:240-248 *)
  Definition enclosed (h v : Rect) (r : Rect) : bool :=
    (llx h <=? llx r - venca_h mh_lower vd) && (urx r + venca_h mh_lower vd <=? urx h) &&
    (lly v <=? lly r - venca_v mh_lower vd) && (ury r + venca_v mh_lower vd <=? ury v).
  (** 250-256 *)
  Definition row_clean (m : vmatrix) (hcl : Z) (r : Rect) : bool :=
    forallb (fun e => let q := snd e in
      negb ((urx q <? llx r) && (llx r - vd_sx vd <? urx q)) && negb ((urx r <? llx q) && (llx q <? urx r + vd_sx vd))) (vm_row m hcl).
  (** 264-277; [below] and [above] are twice the neighbouring grid lines (258-261). *)
  Definition col_clean (m : vmatrix) (below above vcl : Z) (r : Rect) : bool :=
    forallb (fun e => negb ((snd (fst e) =? vcl) && (ury (snd e) <? lly r) && (lly r - vd_sy vd <? ury (snd e)))) (vm_row m below) &&
    forallb (fun e => negb ((snd (fst e) =? vcl) && (ury r <? lly (snd e)) && (lly (snd e) <? ury r + vd_sy vd))) (vm_row m above).
  Definition line_below (hcl : Z) : option Z :=
    match inverseBounds hclg (hcl / 2 - 1) with
    | Some (b, _) => option_map (fun ca => 2 * fst ca) (value hclg (Pair (fst b) (snd b)) true)
    | None => None
    end.
  Definition line_above (hcl : Z) : option Z :=
    match inverseBounds hclg (hcl / 2 + 1) with
    | Some (_, b) => option_map (fun ca => 2 * fst ca) (value hclg (Pair (fst b) (snd b)) true)
    | None => None
    end.

  (** A via handed to [addVia]: its key, net and rectangle. *)
  Record drop := mkDrop { d_key : Z * Z; d_net : string; d_rect : Rect; d_h : srect; d_v : srect }.
  (** canvas.py:194-198 and 224-285 [_drop_via_if_dr_clean].  [None] is an exception. *)
  Definition drop_one (st : vmatrix * list drop) (x : crossing) : option (vmatrix * list drop) :=
    let '(m, out) := st in
    let k := (x_hcl x, x_vcl x) in
    let r := via_at (x_hcl x) (x_vcl x) in
    if vm_mem m k then Some st
    else if negb (enclosed (sr_rect (x_h x)) (sr_rect (x_v x)) r) then Some st
    else if negb (row_clean m (x_hcl x) r) then Some st
    else match line_below (x_hcl x), line_above (x_hcl x) with
         | Some b, Some a =>
             if negb (col_clean m b a (x_vcl x) r) then Some st
             else match inverseBounds vclg (x_vcl x / 2), inverseBounds hclg (x_hcl x / 2) with
                  | Some (cx, _), Some (cy, _) =>
                      match via_segment via (Pair (fst cx) (snd cx)) (Pair (fst cy) (snd cy)) with
                      | Some rect => Some (vm_set m k r, out ++ [mkDrop k (x_net x) rect (x_h x) (x_v x)])
                      | None => None
                      end
                  | _, _ => None
                  end
         | _, _ => None
         end.
  Definition drop_all (m : vmatrix) (xs : list crossing) : option (vmatrix * list drop) := foldM drop_one xs (m, []).
  (** canvas.py:147-196 [drop_via]; [vias] are the rectangles of the via layer. *)
  Definition drop_via (sel : netsel) (hls vls : slines) (vias : list Rect) : option (vmatrix * list drop) :=
    drop_all (construct_via_matrix vias) (crossings sel hls vls).
End Drop.
