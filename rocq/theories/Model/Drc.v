(** Model of align/cell_fabric/drc.py.  Error messages are replaced by the data they print;
    the log output is omitted. *)
From Coq Require Import String Ascii.
From Verif Require Import Base.Prelude Base.PyDict Model.Transformation Model.PySort Model.Grid Model.RemoveDuplicates.
Local Open Scope Z_scope.

(** The scan lines of [canvas.rd.store_scan_lines]: layer -> twice_center -> rectangles.  Net
    names only occur in messages and are dropped. *)
Definition scan_store := list (string * list (Z * list Rect)).

(** The scan lines left by removeDuplicates (the checker runs on [canvas.rd]). *)
Definition scan_of (res : rd_result) : scan_store :=
  map (fun ll => (fst ll, map (fun l => (fst l, map (rect_of (r_state res)) (snd l))) (snd ll))) (r_store res).

Inductive drc_err :=
| EVSpace (layer : string) (a b : Rect)
| EHSpace (layer : string) (a b : Rect)
| EVAdjacent (layer : string) (r : Rect)
| EHAdjacent (layer : string) (r : Rect)
| EEnclosure (via metal : string) (r : Rect) (found : option Rect)
| EAttacker (layer : string) (a b : Rect)
| EMinLength (layer : string) (r : Rect)
| EMinSpace (layer : string) (a b : Rect).

(** The fields of [canvas.pdk[layer]] that are read.  [p_dir] is the upper-cased direction
    ([true] = 'V'). *)
Record rules := mkRules {
  p_spacex : option Z; p_spacey : option Z; p_maxx : option Z; p_maxy : option Z;
  p_stack : option string * option string; p_vencl : Z; p_vench : Z;
  p_vertical : bool; p_minl : Z; p_ete : Z; p_attack : option Z; p_pitch : Z }.

Record drcenv := mkEnv {
  en_pdk : list (string * rules);
  en_layers : list (string * sdir);                 (* canvas.rd.layers *)
  en_clg : list (string * (Grid * Grid));           (* getattr(canvas, via).h_clg, .v_clg *)
  en_regions : list Rect }.                         (* rectangles of terminals on 'Boundary' *)

(** drc.py:14-21 [contained_in]. *)
Definition contained_in (regions : list Rect) (rect : Rect) : bool :=
  existsb (fun r => (llx r <=? llx rect) && (urx rect <=? urx r) && (lly r <=? lly rect) && (ury rect <=? ury r)) regions.

(** Neighbours [(rects[idx], rects[idx+1])]. *)
Fixpoint neighbours {A} (l : list A) : list (A * A) :=
  match l with
  | a :: ((b :: _) as tl) => (a, b) :: neighbours tl
  | _ => []
  end.

(** drc.py:75-81. *)
Definition check_space_y (layer : string) (space : Z) (vv : list (Z * list Rect)) : list drc_err :=
  flat_map (fun l => flat_map (fun ab => if (ury (fst ab) <? lly (snd ab)) && (lly (snd ab) <? ury (fst ab) + space)
                                         then [EVSpace layer (fst ab) (snd ab)] else []) (neighbours (snd l))) vv.

(** drc.py:85-91 and 121-127: rows of vias, each sorted by the left edge. *)
Definition rows (vv : list (Z * list Rect)) : list (Z * list Rect) :=
  map (fun b => (fst b, sort_by llx (snd b)))
      (group_by Z.eqb (fun r => lly r + ury r) (concat (map snd vv))).

(** drc.py:90-97. *)
Definition check_space_x (layer : string) (space : Z) (vv : list (Z * list Rect)) : list drc_err :=
  flat_map (fun l => flat_map (fun ab => if (urx (fst ab) <? llx (snd ab)) && (llx (snd ab) <? urx (fst ab) + space)
                                         then [EHSpace layer (fst ab) (snd ab)] else []) (neighbours (snd l))) (rows vv).

(** drc.py:103-114 / 128-139: the counting loop.  [idx] is [inverseBounds(..)[0][0]] of each via;
    the result lists the positions whose count exceeds the limit. *)
Fixpoint count_loop {A} (max : Z) (st : option (Z * Z)) (l : list (Z * A)) : list A :=
  match l with
  | [] => []
  | (idx, a) :: tl =>
    let count := match st with
                 | None => 1
                 | Some (prev, c) => if idx - prev =? 1 then c + 1 else 0
                 end in
    (if max <? count then [a] else []) ++ count_loop max (Some (idx, count)) tl
  end.

(** [inverseBounds(x)[0][0]]; [None] = exception. *)
Definition grid_q (g : Grid) (x : Z) : option Z :=
  match inverseBounds g x with Some ((q, _), _) => Some q | None => None end.

Fixpoint mapM {A B} (f : A -> option B) (l : list A) : option (list B) :=
  match l with
  | [] => Some []
  | a :: tl => match f a, mapM f tl with Some b, Some bs => Some (b :: bs) | _, _ => None end
  end.

Definition flat_mapM {A B} (f : A -> option (list B)) (l : list A) : option (list B) :=
  option_map (@concat B) (mapM f l).

(** drc.py:99-114. *)
Definition check_adj_y (layer : string) (max : Z) (h_clg : Grid) (vv : list (Z * list Rect)) : option (list drc_err) :=
  flat_mapM (fun l => match mapM (fun r => option_map (fun q => (q, r)) (grid_q h_clg ((lly r + ury r) / 2))) (snd l) with
                      | None => None
                      | Some qs => Some (map (EVAdjacent layer) (count_loop max None qs))
                      end) vv.

(** drc.py:116-139.  Line 139 prints the variable [slr] left over from line 123, the last via of
    the layer. *)
Definition check_adj_x (layer : string) (max : Z) (v_clg : Grid) (vv : list (Z * list Rect)) : option (list drc_err) :=
  let stale := last (concat (map snd vv)) (mkRect 0 0 0 0) in
  flat_mapM (fun l => match mapM (fun r => option_map (fun q => (q, r)) (grid_q v_clg ((llx r + urx r) / 2))) (snd l) with
                      | None => None
                      | Some qs => Some (map (fun _ => EHAdjacent layer stale) (count_loop max None qs))
                      end) (rows vv).

(** drc.py:67-139 [_check_via_rules]. *)
Definition check_via_rules (env : drcenv) (layer : string) (p : rules) (vv : list (Z * list Rect)) : option (list drc_err) :=
  let e1 := match p_spacey p with None => [] | Some s => check_space_y layer s vv end in
  let e2 := match p_spacex p with None => [] | Some s => check_space_x layer s vv end in
  let clg := dget String.eqb (en_clg env) layer in
  let e3 := match p_maxy p with
            | None => Some []
            | Some m => match clg with None => None | Some (h, _) => check_adj_y layer m h vv end end in
  let e4 := match p_maxx p with
            | None => Some []
            | Some m => match clg with None => None | Some (_, v) => check_adj_x layer m v vv end end in
  match e3, e4 with Some a, Some b => Some (e1 ++ e2 ++ a ++ b) | _, _ => None end.

(** rect[o+0], rect[o+2] for [o = 1 if metal_dir == 'V' else 0]. *)
Definition alo (vert : bool) (r : Rect) : Z := if vert then lly r else llx r.
Definition ahi (vert : bool) (r : Rect) : Z := if vert then ury r else urx r.

(** drc.py:198-211 [binary_search] on [sl.rects[l:u]]; the fuel is [u - l + 1]. *)
Fixpoint bsearch (fuel : nat) (vert : bool) (sl : list Rect) (l u : nat) (v : Z) : option Rect :=
  match fuel with
  | O => None
  | Datatypes.S f =>
    if (l =? u)%nat then None
    else if (l + 1 =? u)%nat then
      match nth_error sl l with
      | Some r => if (alo vert r <=? v) && (v <=? ahi vert r) then Some r else None
      | None => None
      end
    else
      let m := ((l + u + 1) / 2)%nat in
      match nth_error sl m with
      | Some r => if alo vert r <=? v then bsearch f vert sl m u v else bsearch f vert sl l m v
      | None => None
      end
  end.

(** drc.py:192-218 [_find_rect_covering_via]; outer [None] = KeyError (no scan line there). *)
Definition find_covering (sto : scan_store) (r : Rect) (ly : string) (vert : bool) : option (option Rect) :=
  let cx2 := llx r + urx r in
  let cy2 := lly r + ury r in
  let '(c2a, c2p) := if vert then (cy2, cx2) else (cx2, cy2) in
  match dget String.eqb sto ly with
  | None => None
  | Some ls =>
    match dget Z.eqb ls c2p with
    | None => None
    | Some sl => Some (bsearch (Datatypes.S (List.length sl)) vert sl 0 (List.length sl) (c2a / 2))
    end
  end.

(** drc.py:152-162 [check_single_metal]. *)
Definition check_single (sto : scan_store) (via : string) (r : Rect) (ly : string) (vert : bool) (enc : Z)
  : option (list drc_err) :=
  match find_covering sto r ly vert with
  | None => None
  | Some None => Some [EEnclosure via ly r None]
  | Some (Some m) =>
    if (alo vert r - enc <? alo vert m) || (ahi vert m <? ahi vert r + enc)
    then Some [EEnclosure via ly r (Some m)] else Some []
  end.

(** drc.py:141-169 [_check_via_enclosure_rules]. *)
Definition check_enclosure (env : drcenv) (sto : scan_store) (layer : string) (p : rules) (vv : list (Z * list Rect))
  : option (list drc_err) :=
  let vdir ly := match dget String.eqb (en_pdk env) ly with None => None | Some q => Some (p_vertical q) end in
  let one r o enc := match o with
                     | None => Some []
                     | Some ly => match vdir ly with None => None | Some v => check_single sto layer r ly v enc end end in
  let defined o := match o with None => true | Some ly => match vdir ly with None => false | Some _ => true end end in
  if defined (fst (p_stack p)) && defined (snd (p_stack p)) then
    flat_mapM (fun r => match one r (fst (p_stack p)) (p_vencl p), one r (snd (p_stack p)) (p_vench p) with
                        | Some a, Some b => Some (a ++ b)
                        | _, _ => None
                        end) (concat (map snd vv))
  else None.

(** drc.py:171-190 [_check_adjacent_metals]. *)
Definition check_attack (layer : string) (p : rules) (vv : list (Z * list Rect)) : list drc_err :=
  match p_attack p with
  | None => []
  | Some dist =>
    let v := p_vertical p in
    flat_map (fun l0 =>
      flat_map (fun c1 =>
        match dget Z.eqb vv c1 with
        | None => []
        | Some l1 =>
          flat_map (fun r0 => flat_map (fun r1 =>
            if (0 <? alo v r1 - ahi v r0) && (alo v r1 - ahi v r0 <=? dist) then [EAttacker layer r0 r1] else []) l1) (snd l0)
        end) [fst l0 - 2 * p_pitch p; fst l0 + 2 * p_pitch p]) vv
  end.

(** drc.py:228-239 [_check_min_length]. *)
Definition check_min_length (regions : list Rect) (layer : string) (minl : Z) (d : sdir) (sl : list Rect) : list drc_err :=
  flat_map (fun r => if (dhi d r - dlo d r <? minl) && negb (contained_in regions r) then [EMinLength layer r] else []) sl.

(** drc.py:241-255 [_check_min_spacing]. *)
Definition check_min_spacing (regions : list Rect) (layer : string) (space : Z) (d : sdir) (sl : list Rect) : list drc_err :=
  flat_map (fun ab => if (0 <? dlo d (snd ab) - dhi d (fst ab)) && (dlo d (snd ab) - dhi d (fst ab) <? space) &&
                         negb (contained_in regions (snd ab))
                      then [EMinSpace layer (fst ab) (snd ab)] else []) (neighbours sl).

(** drc.py:220-226 [_check_metal_rules]. *)
Definition check_metal (env : drcenv) (layer : string) (p : rules) (d : sdir) (vv : list (Z * list Rect)) : list drc_err :=
  flat_map (fun l => check_min_length (en_regions env) layer (p_minl p) d (snd l) ++
                     check_min_spacing (en_regions env) layer (p_ete p) d (snd l)) vv.

Definition first_is (c : ascii) (s : string) : bool :=
  match s with String c' _ => Ascii.eqb c c' | EmptyString => false end.

(** drc.py:39-65 [run]: the list [self.errors]. *)
Definition drc_run (env : drcenv) (sto : scan_store) : option (list drc_err) :=
  flat_mapM (fun lv =>
    let '(layer, vv) := lv in
    if first_is "V"%char layer || first_is "M"%char layer then
      match dget String.eqb (en_pdk env) layer with
      | None => Some []
      | Some p =>
        match dget String.eqb (en_layers env) layer with
        | None => None
        | Some DStar =>
          match check_via_rules env layer p vv, check_enclosure env sto layer p vv with
          | Some a, Some b => Some (a ++ b)
          | _, _ => None
          end
        | Some d => Some (check_metal env layer p d vv ++ check_attack layer p vv)
        end
      end
    else Some []) sto.
