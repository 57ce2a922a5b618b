(** What a correct placement is, independent of how the integer program is posted. *)
From Coq Require Import String QArith.
From Verif Require Import Base.Prelude Model.Transformation Model.SeqPair.
Local Open Scope Q_scope.

(** Open interiors do not meet. *)
Definition q_disjoint (a b : qbox) : Prop :=
  qux a <= qlx b \/ qux b <= qlx a \/ quy a <= qly b \/ quy b <= qly a.
(** Inside the box from the origin to (w, h). *)
Definition q_inside (w h : Q) (b : qbox) : Prop :=
  0 <= qlx b /\ qux b <= w /\ 0 <= qly b /\ quy b <= h.

(** [a] comes before [b] in direction [d]; no requirement for the unspecific directions. *)
Definition in_order (d : odir) (a b : qbox) : Prop :=
  match d with
  | OLR => qux a <= qlx b
  | ORL => qux b <= qlx a
  | OBT => quy a <= qly b
  | OTB => quy b <= qly a
  | _ => True
  end.
Definition listed (xs : list string) (a b : string) : Prop := exists l1 l2 l3, xs = l1 ++ a :: l2 ++ b :: l3.

(** The instance map numbers its instances 0, 1, .. *)
Definition imap_ok (im : imap) : Prop := NoDup (map fst im) /\ map snd im = seq 0 (length im).
Definition sp_ok (im : imap) (sp : list nat * list nat) : Prop :=
  Permutation (fst sp) (seq 0 (length im)) /\ Permutation (snd sp) (seq 0 (length im)).
Definition sizes_ok (im : imap) (size : string -> Z * Z) : Prop :=
  forall n, In n (map fst im) -> (0 <= fst (size n))%Z /\ (0 <= snd (size n))%Z.

(** The values of a box are integers. *)
Definition is_int (q : Q) : Prop := exists z, q == inject_Z z.
Definition int_box (b : qbox) : Prop := is_int (qlx b) /\ is_int (qly b).

(** The integer rectangle with the same coordinates. *)
Definition same_rect (b : qbox) (r : Rect) : Prop :=
  qlx b == inject_Z (llx r) /\ qly b == inject_Z (lly r) /\ qux b == inject_Z (urx r) /\ quy b == inject_Z (ury r).

(** Tied together by a list of sets, transitively. *)
Inductive tied (sets : list (list string)) : string -> string -> Prop :=
| tied_refl a : tied sets a a
| tied_step a b c S : In S sets -> In a S -> In b S -> tied sets b c -> tied sets a c.

(** Every set meets at most one of the classes built by the sets before it. *)
Fixpoint chained (done todo : list (list string)) : Prop :=
  match todo with
  | [] => True
  | s :: tl =>
      (forall S1 S2 x y, In S1 done -> In S2 done -> In x S1 -> In x s -> In y S2 -> In y s -> tied done x y) /\
      chained (done ++ [s]) tl
  end.

(** The solved box in nanometres. *)
Definition nm (scale : Z) (b : qbox) : qbox :=
  let r := / inject_Z scale in mkQb (qlx b * r) (qly b * r) (qux b * r) (quy b * r).

(** Half perimeter of the bounding box of a list of points. *)
Definition q_min (x : Q) (l : list Q) : Q := fold_right (fun a b => if Qle_bool a b then a else b) x l.
Definition q_max (x : Q) (l : list Q) : Q := fold_right (fun a b => if Qle_bool a b then b else a) x l.
Definition spread (l : list Q) : Q := match l with [] => 0 | x :: tl => q_max x tl - q_min x tl end.

(** The coordinate of a block point after placing the block, possibly mirrored, at [ll]. *)
Definition placed_at (ll : Q) (flip : bool) (size : Z) (off : Z) : Q :=
  if flip then ll + inject_Z size - inject_Z off else ll + inject_Z off.
Definition pin_xs (size : string -> Z * Z) (s : sol) (pins : list (string * Rect)) : list Q :=
  flat_map (fun p => map (placed_at (qlx (v_box s (fst p))) (v_fx s (fst p)) (fst (size (fst p)))) [llx (snd p); urx (snd p)]) pins.
Definition pin_ys (size : string -> Z * Z) (s : sol) (pins : list (string * Rect)) : list Q :=
  flat_map (fun p => map (placed_at (qly (v_box s (fst p))) (v_fy s (fst p)) (snd (size (fst p)))) [lly (snd p); ury (snd p)]) pins.
Definition wire_length (size : string -> Z * Z) (weight : string -> Z) (s : sol) (ws : wires_t) : Q :=
  sumQl (map (fun w => inject_Z (weight (fst w)) * (spread (pin_xs size s (snd w)) + spread (pin_ys size s (snd w)))) ws).

(** The constraints whose solver formula the placer guarantees. *)
Definition honoured (im : imap) (size : string -> Z * Z) (c : ucon) : Prop :=
  let known n := In n (map fst im) in
  match c with
  | UOrder d abut xs => abut = false /\ d <> OHoriz /\ d <> OVert /\ (d = ONone -> NoDup xs /\ Forall known xs)
  | UAlign _ xs => True
  | USpread _ dist xs => (0 <= dist)%Z /\ Forall known xs
  | UBoundary mw mh hh hv =>
      (forall w, mw = Some w -> 0 < w) /\ (forall h, mh = Some h -> 0 < h) /\
      (hh = None \/ hh = Some 0) /\ (hv = None \/ hv = Some 0)
  | USymm vert pairs =>
      Forall (fun p => match p with
                       | [a] => known a
                       | [a; b] => known a /\ known b /\ (if vert then snd (size a) = snd (size b) else fst (size a) = fst (size b))
                       | _ => False
                       end) pairs
  | _ => True
  end.
