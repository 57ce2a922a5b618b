(** Model of align/cell_fabric/positive_coord.py and of the geometry part of
    align/cell_fabric/gen_gds_json.py. *)
From Coq Require Import String.
From Verif Require Import Base.Prelude Model.Transformation.
Local Open Scope Z_scope.

(** A layout: bounding box and terminals.  Simplified: all other terminal fields are one
    opaque payload [A] which json_pos writes back unchanged. *)
Record layout (A : Type) := mkLayout { l_bbox : Rect; l_terms : list (A * Rect) }.
Arguments mkLayout {A}. Arguments l_bbox {A}. Arguments l_terms {A}.

(** positive_coord.py:16-20: the shift of one rectangle. *)
Definition shift_rect (x0 y0 : Z) (r : Rect) : Rect :=
  mkRect (llx r - x0) (lly r - y0) (urx r - x0) (ury r - y0).

(** positive_coord.py:3-23 [json_pos] (file reading and writing left out). *)
Definition json_pos {A} (j : layout A) : layout A :=
  let x0 := llx (l_bbox j) in
  let y0 := lly (l_bbox j) in
  mkLayout (mkRect 0 0 (urx (l_bbox j) - x0) (ury (l_bbox j) - y0))
           (map (fun t => (fst t, shift_rect x0 y0 (snd t))) (l_terms j)).

(** gen_gds_json.py:13-15 [flat_rect_to_boundary]: r indexed by the listed pairs. *)
Definition rect_nth (r : Rect) (i : nat) : Z :=
  match i with 0%nat => llx r | 1%nat => lly r | 2%nat => urx r | _ => ury r end.
Definition flat_rect_to_boundary (r : Rect) : list Z :=
  flat_map (fun p => [rect_nth r (fst p); rect_nth r (snd p)])
           [(0,1); (0,3); (2,3); (2,1); (0,1)]%nat.

(** gen_gds_json.py:75-124: the elements emitted for the top structure.  Layers, net names
    and colours are strings.  Coordinates are integers, so [scale] is the identity. *)
Record gterm := mkG { g_layer : string; g_net : option string; g_pin : bool;
                      g_color : option string; g_rect : Rect }.

Inductive gdt := Draw | PinT | ColorT (c : string).   (* which GdsDatatype entry is used *)
Inductive gelem :=
| GBoundary (layer : string) (dt : gdt) (xy : list Z)
| GText (layer : string) (s : option string) (xy : Z * Z)
| GSref (layer : string) (xy : Z * Z).

(** Settings: via generator table membership, exclusion by name, presence of a 'Label'
    datatype, required labels, and the guard-ring V0 splitting parameters
    (10*WidthX limit, number, width, space). *)
Record gcfg := mkCfg {
  in_viagen : string -> bool; excluded : option string -> bool; has_label : string -> bool;
  req_label : option string -> bool; pinSwitch : bool; labelOnce : bool;
  v0_limit : Z; v0_num : nat; v0_w : Z; v0_s : Z }.

(** python [int(x/2)]: float division then truncation towards zero (exact below 2^53). *)
Definition int_half (x : Z) : Z := Z.quot x 2.

Definition opt_string_eqb (a b : option string) : bool :=
  match a, b with
  | Some x, Some y => String.eqb x y
  | None, None => true
  | _, _ => false
  end.

(** gen_gds_json.py:75-108, one non-via terminal; [labels] is the set of labels drawn. *)
Definition gds_nonvia (c : gcfg) (labels : list (option string)) (t : gterm)
  : list gelem * list (option string) :=
  if in_viagen c (g_layer t) || excluded c (g_net t) then ([], labels)
  else
    let r := g_rect t in
    let '(els, labels') :=
      if String.eqb (g_layer t) "V0" && (v0_limit c <? urx r - llx r) then
        (map (fun n : nat =>
           let x := llx r + Z.of_nat n * (v0_w c + v0_s c) in
           GBoundary (g_layer t) Draw (flat_rect_to_boundary (mkRect x (lly r) (x + v0_w c) (ury r))))
         (seq 0 (v0_num c)), labels)
      else if pinSwitch c && g_pin t then
        let b := GBoundary (g_layer t) PinT (flat_rect_to_boundary r) in
        if has_label c (g_layer t) && req_label c (g_net t)
           && (negb (labelOnce c) || negb (existsb (opt_string_eqb (g_net t)) labels)) then
          ([b; GText (g_layer t) (g_net t)
                 (int_half (llx r + urx r), int_half (lly r + ury r))], g_net t :: labels)
        else ([b], labels)
      else ([GBoundary (g_layer t) Draw (flat_rect_to_boundary r)], labels) in
    (els ++ match g_color t with
            | Some col => [GBoundary (g_layer t) (ColorT col) (flat_rect_to_boundary r)]
            | None => [] end, labels').

Fixpoint gds_nonvias (c : gcfg) (labels : list (option string)) (ts : list gterm) : list gelem :=
  match ts with
  | [] => []
  | t :: tl => let '(els, labels') := gds_nonvia c labels t in els ++ gds_nonvias c labels' tl
  end.

(** gen_gds_json.py:110-120, the via references. *)
Definition gds_vias (c : gcfg) (ts : list gterm) : list gelem :=
  flat_map (fun t =>
    if negb (in_viagen c (g_layer t)) || excluded c (g_net t) then []
    else [GSref (g_layer t) ((llx (g_rect t) + urx (g_rect t)) / 2, (lly (g_rect t) + ury (g_rect t)) / 2)]) ts.

(** gen_gds_json.py:49-125: elements of the structure, in order. *)
Definition translate_data (c : gcfg) (bbox : Rect) (ts : list gterm) : list gelem :=
  gds_nonvias c [] ts ++ gds_vias c ts ++ [GBoundary "Bbox" Draw (flat_rect_to_boundary bbox)].
