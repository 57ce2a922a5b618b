(** Model of parts of align/cell_fabric/canvas.py and generators.py. *)
From Verif Require Import Base.Prelude Model.Transformation Model.Grid.
Local Open Scope Z_scope.

(** The part of [Canvas] state touched by transforms and drawing (canvas.py:381,384):
    the transform stack (head = python's [trStack[-1]]) and the terminal rectangles in the
    order they were appended.  Simplified: net name, layer and type are a single tag. *)
Record CState := mkC { trStack : list Tr; terms : list (Z * Rect) }.

(** canvas.py:384,381 initial state. *)
Definition c_init : CState := mkC [tr_default] [].

Inductive cop :=
| OPush (t : Tr)          (* pushTr *)
| OPop                    (* popTr *)
| OHitTop (t : Tr)        (* hitTopTr *)
| OAdd (tag : Z) (r : Rect). (* transform_and_add, called by addWire/addVia/addRegion *)

(** canvas.py:44-47 [transform_and_add], 394-395 [pushTr], 397-398 [hitTopTr],
    400-402 [popTr].  [None] = exception ([IndexError] on an empty stack, or the assertion in
    [popTr] that the stack is not empty afterwards). *)
Definition cstep (s : CState) (o : cop) : option CState :=
  match o, trStack s with
  | OPush t, top :: _ => Some (mkC (postMult top t :: trStack s) (terms s))
  | OHitTop t, top :: rest => Some (mkC (postMult top t :: rest) (terms s))
  | OPop, _ :: rest => match rest with [] => None | _ => Some (mkC rest (terms s)) end
  | OAdd tag r, top :: _ => Some (mkC (trStack s) (terms s ++ [(tag, canonical (hitRect top r))]))
  | _, [] => None
  end.

Fixpoint crun (s : CState) (p : list cop) : option CState :=
  match p with
  | [] => Some s
  | o :: tl => match cstep s o with Some s' => crun s' tl | None => None end
  end.

(** generators.py:2-9 [Wire] and 61-84 [Via] (fields used here). *)
Inductive direction := H | V.
Record Wire := mkWire { w_dir : direction; w_clg : Grid; w_spg : Grid }.
Record Via := mkVia { v_hclg : Grid; v_vclg : Grid; v_WidthX : Z; v_WidthY : Z; v_hext : Z; v_vext : Z }.

(** generators.py:11-33 [Wire.segment], rectangle only ([bS], [eS] = the wire's own grid).
    [None] = an assertion of [Grid.value] failed or the centre line has no width. *)
Definition wire_segment (w : Wire) (center b e : Idx) : option Rect :=
  match value (w_clg w) center true, value (w_spg w) b true, value (w_spg w) e true with
  | Some (c, Some (wd, _)), Some (bP, _), Some (eP, _) =>
      let c0 := c - wd / 2 in
      let c1 := c + wd / 2 in
      Some (match w_dir w with H => mkRect bP c0 eP c1 | V => mkRect c0 bP c1 eP end)
  | _, _, _ => None
  end.

(** generators.py:86-106 [Via.physical_xs], [physical_ys], [segment], rectangle only. *)
Definition via_segment (v : Via) (cx cy : Idx) : option Rect :=
  match value (v_vclg v) cx true, value (v_hclg v) cy true with
  | Some (x, _), Some (y, _) =>
      Some (mkRect (x - v_WidthX v / 2) (y - v_WidthY v / 2) (x + v_WidthX v / 2) (y + v_WidthY v / 2))
  | _, _ => None
  end.

(** generators.py:108-110 [center_to_metal_edge]. *)
Definition center_to_metal_edge (v : Via) (d : direction) : Z :=
  match d with H => v_hext v | V => v_vext v end.

Fixpoint mapM {A B} (f : A -> option B) (l : list A) : option (list B) :=
  match l with
  | [] => Some []
  | a :: tl => match f a, mapM f tl with Some b, Some bs => Some (b :: bs) | _, _ => None end
  end.

(** canvas.py:66,71: the flattened list of (via, index). *)
Definition flat_vias (lp : list (Via * list Idx)) : list (Via * Idx) :=
  flat_map (fun vl => map (fun i => (fst vl, i)) (snd vl)) lp.

(** canvas.py:66: centre of a via along the wire ([value(idx, check=False)[0]]). *)
Definition via_center (d : direction) (vi : Via * Idx) : option Z :=
  match value (match d with H => v_vclg (fst vi) | V => v_hclg (fst vi) end) (snd vi) false with
  | Some (c, _) => Some c
  | None => None
  end.

(** canvas.py:62-90 [addWireAndMultiViaSet]: the wire's end coordinates before snapping, i.e.
    lines 66-73.  [dim_tuples.index(m)] is the first via whose centre is the extreme one. *)
Definition wire_extent (d : direction) (vias : list (Via * Idx)) (cs : list Z) : option (Z * Z) :=
  match zmin_list cs, zmax_list cs with
  | Some mn, Some mx =>
      match find (fun vc => snd vc =? mn) (combine (map fst vias) cs),
            find (fun vc => snd vc =? mx) (combine (map fst vias) cs) with
      | Some (v1, _), Some (v2, _) =>
          Some (mn - center_to_metal_edge v1 d, mx + center_to_metal_edge v2 d)
      | _, _ => None
      end
  | _, _ => None
  end.

(** canvas.py:62-90 [addWireAndMultiViaSet].  Result: the via rectangles and the wire
    rectangle handed to [transform_and_add].  [None] = an exception on some line. *)
Definition addWireAndMultiViaSet (w : Wire) (c : Idx) (lp : list (Via * list Idx))
  : option (list Rect * Rect) :=
  let vias := flat_vias lp in
  match mapM (via_center (w_dir w)) vias with
  | None => None
  | Some cs =>
    match wire_extent (w_dir w) vias cs with
    | None => None
    | Some (mnP, mxP) =>
      match inverseBounds (w_spg w) mnP, inverseBounds (w_spg w) mxP with
      | Some (mn, _), Some (_, mx) =>
        match snapToLegal (w_spg w) mn Down, snapToLegal (w_spg w) mx Up with
        | Some mn', Some mx' =>
          match mapM (fun vi => match w_dir w with
                                | V => via_segment (fst vi) c (snd vi)
                                | H => via_segment (fst vi) (snd vi) c
                                end) vias with
          | None => None
          | Some vrects =>
            match wire_segment w c (Pair (fst mn') (snd mn')) (Pair (fst mx') (snd mx')) with
            | Some r => Some (vrects, r)
            | None => None
            end
          end
        | _, _ => None
        end
      | _, _ => None
      end
    end
  end.
