(** Model of the sequence-pair placer, align/pnr/placer_pythonic_sp.py, and of the expansion of
    user constraints and the solver formulae in align/schema/constraint.py that it relies on. *)
From Coq Require Import String QArith Qround.
From Verif Require Import Base.Prelude Base.PyDict Model.Transformation Model.RemoveDuplicates Model.Hpwl Model.PlaceGrid.
Local Open Scope Q_scope.

(** * Constraints (align/schema/constraint.py) *)

(** constraint.py:158-162 [Order.direction]; the default [None] is [ONone]. *)
Inductive odir := OHoriz | OVert | OLR | ORL | OBT | OTB | ONone.
(** constraint.py:247-250 [Align.line]. *)
Inductive aline := HAny | HTop | HBottom | HCenter | VAny | VLeft | VRight | VCenter | LNone.
(** constraint.py:503-507 [AlignInOrder.line]. *)
Inductive ioline := ITop | IBottom | ILeft | IRight | ICenter.

(** The low level constraints seen by the placer.  Simplified: the remaining classes carry
    nothing that the placer reads and are [UOther]. *)
Inductive ucon :=
| UOrder (d : odir) (abut : bool) (xs : list string)
| UAlign (l : aline) (xs : list string)
| USpread (horizontal : bool) (dist : Z) (xs : list string)
| UBoundary (mw mh hh hv : option Q)
| UOnBoundary (north south east west northeast northwest southeast southwest : list string)
| USymm (vertical : bool) (pairs : list (list string))
| USame (xs : list string)
| UNetPriority (nets : list string) (weight : Z)
| UOther.

(** User level constraints: constraint.py:466-544 [AlignInOrder], 547-614 [Floorplan]. *)
Inductive hcon :=
| HBase (c : ucon)
| HAlignInOrder (l : ioline) (horizontal : bool) (abut : bool) (xs : list string)
| HFloorplan (regions : list (list string)) (order symmetrize : bool).

(** constraint.py:535-538: the line [f'{direction[0]}_{line}'].  Simplified: a name that is not
    one of the eight lines (a ValidationError) is [None]; the validator at 512-531 excludes it. *)
Definition io_line (l : ioline) (horizontal : bool) : option aline :=
  match horizontal, l with
  | true, ITop => Some HTop | true, IBottom => Some HBottom | true, ICenter => Some HCenter
  | false, ILeft => Some VLeft | false, IRight => Some VRight | false, ICenter => Some VCenter
  | _, _ => None
  end.

(** constraint.py:581-587 pairs of adjacent regions. *)
Fixpoint region_orders (rs : list (list string)) : list ucon :=
  match rs with
  | r0 :: ((r1 :: _) as tl) => map (fun p : string * string => UOrder OTB false [fst p; snd p]) (list_prod r0 r1) ++ region_orders tl
  | _ => []
  end.

(** constraint.py:598-606 symmetric pairs of one region. *)
Definition region_pairs (r : list string) : list (list string) :=
  if (length r <=? 2)%nat then [r]
  else map (fun i => [nth i r EmptyString; nth (length r - 1 - i) r EmptyString]) (seq 0 (length r / 2))
       ++ (if Nat.odd (length r) then [[nth (length r / 2) r EmptyString]] else []).

(** constraint.py:533-544 and 575-614 [yield_constraints]; 1561-1569 [expand_user_constraints].
    Simplified: [DoNotIdentify] is not read by the placer and is dropped; the assertion at
    585-586 (a region listed both above and below) is not modelled. *)
Definition expand1 (h : hcon) : option (list ucon) :=
  match h with
  | HBase c => Some [c]
  | HAlignInOrder l hor ab xs =>
      match io_line l hor with
      | Some al => Some [UAlign al xs; UOrder (if hor then OLR else OTB) ab xs]
      | None => None
      end
  | HFloorplan rs order symm =>
      Some (region_orders rs
            ++ (if order then map (UOrder OLR false) (filter (fun r => (1 <? length r)%nat) rs) else [])
            ++ (if symm then [USymm true (flat_map region_pairs rs)] else []))
  end.
Definition expand (hs : list hcon) : option (list ucon) :=
  option_map (@concat ucon) (mapM expand1 hs).

(** * Sequence pairs (placer_pythonic_sp.py:52-94) *)

(** [instance_map] (364-370): names to indices, in order. *)
Notation imap := (list (string * nat)).

Fixpoint pairwise {A} (l : list A) : list (A * A) :=
  match l with
  | a :: ((b :: _) as tl) => (a, b) :: pairwise tl
  | _ => []
  end.

(** 61-80: edges of the two graphs for one consecutive pair of an [Order]. *)
Definition order_edges (d : odir) (a b : nat) : list (nat * nat) * list (nat * nat) :=
  match d with
  | OLR => ([(a, b)], [(a, b)])
  | ORL => ([(b, a)], [(b, a)])
  | OBT => ([(b, a)], [(a, b)])
  | OTB => ([(a, b)], [(b, a)])
  | _ => ([], [])
  end.

(** The look-ups [instance_map[..]] are only made in the four branches; [None] = KeyError. *)
Definition pair_edges (im : imap) (d : odir) (p : string * string) : option (list (nat * nat) * list (nat * nat)) :=
  match d with
  | OLR | ORL | OBT | OTB =>
      match dget String.eqb im (fst p), dget String.eqb im (snd p) with
      | Some a, Some b => Some (order_edges d a b)
      | _, _ => None
      end
  | _ => Some ([], [])
  end.
Definition con_edges (im : imap) (c : ucon) : option (list (list (nat * nat) * list (nat * nat))) :=
  match c with
  | UOrder d _ xs => mapM (pair_edges im d) (pairwise xs)
  | _ => Some []
  end.
Definition graph_edges (im : imap) (cs : list ucon) : option (list (nat * nat) * list (nat * nat)) :=
  match mapM (con_edges im) cs with
  | Some ess => Some (flat_map fst (concat ess), flat_map snd (concat ess))
  | None => None
  end.

(** [nx.all_topological_sorts].  Simplified: networkx is modelled by the enumeration that always
    picks a node without predecessor among the remaining ones; the order of the results may
    differ, and a cycle (NetworkXUnfeasible) gives no result. *)
Definition is_edge (es : list (nat * nat)) (a b : nat) : bool :=
  existsb (fun e => (fst e =? a)%nat && (snd e =? b)%nat) es.
Definition sources (es : list (nat * nat)) (rem : list nat) : list nat :=
  filter (fun n => forallb (fun m => negb (is_edge es m n)) rem) rem.
Fixpoint tsorts (fuel : nat) (es : list (nat * nat)) (rem : list nat) : list (list nat) :=
  match rem with
  | [] => [[]]
  | _ =>
    match fuel with
    | O => []
    | Datatypes.S f => flat_map (fun n => map (cons n) (tsorts f es (remove Nat.eq_dec n rem))) (sources es rem)
    end
  end.

(** 82-94: the nested loops with the counter.  The pair that makes [count] exceed
    [max_sequences] is still kept, hence the [max 1]. *)
Definition enumerate_sequence_pairs (cs : list ucon) (im : imap) (max_sequences : nat) : option (list (list nat * list nat)) :=
  match graph_edges im cs with
  | Some (pe, ne) =>
      let n := length im in
      Some (firstn (Nat.max 1 max_sequences) (list_prod (tsorts n pe (seq 0 n)) (tsorts n ne (seq 0 n))))
  | None => None
  end.

(** * Block variants (placer_pythonic_sp.py:97-138) *)

Definition str_mem (x : string) (l : list string) : bool := existsb (String.eqb x) l.
(** [set.intersection] is non-empty. *)
Definition meets (a b : list string) : bool := existsb (fun x => str_mem x b) a.
(** [set.union]. *)
Definition str_union (a b : list string) : list string := a ++ filter (fun x => negb (str_mem x a)) b.

(** 106-113: merge into the first group that meets the set. *)
Fixpoint add_group (s : list string) (gs : list (list string)) : list (list string) :=
  match gs with
  | [] => [s]
  | g :: tl => if meets s g then str_union s g :: tl else g :: add_group s tl
  end.
Definition same_sets (cs : list ucon) : list (list string) :=
  flat_map (fun c => match c with USame xs => [xs] | _ => [] end) cs.
Definition same_groups (cs : list ucon) : list (list string) :=
  fold_left (fun gs s => add_group s gs) (same_sets cs) [].
(** write_constraint.py:22-41 [merge_sametemplate_const]: the merged [SameTemplate] sets handed to
    the C++ placer; [flag] stops after the first set that meets the new one, so a step is
    [add_group] again. *)
Definition merge_sametemplate (cs : list ucon) : list (list string) :=
  fold_left (fun gs s => add_group s gs) (same_sets cs) [].
(** 115-118: singleton groups. *)
Definition all_groups (cs : list ucon) (im : imap) : list (list string) :=
  same_groups cs ++ map (fun i => [i]) (filter (fun i => negb (str_mem i (concat (same_sets cs)))) (map fst im)).

(** 120-125.  Simplified: the arbitrary element of the set is the first one of the list;
    [None] = KeyError.  An empty first group would leave [instance] unbound. *)
Definition group_variants (vc : list (string * nat)) (gs : list (list string)) : option (list (list nat)) :=
  mapM (fun g => match g with
                 | [] => None
                 | i :: _ => option_map (seq 0) (dget String.eqb vc i)
                 end) gs.
(** [itertools.product]. *)
Fixpoint product {A} (ls : list (list A)) : list (list A) :=
  match ls with
  | [] => [[]]
  | l :: tl => flat_map (fun x => map (cons x) (product tl)) l
  end.

(** [selection[k] = v]; an index out of range is an error. *)
Fixpoint set_nth {A} (l : list A) (k : nat) (v : A) : option (list A) :=
  match l, k with
  | [], _ => None
  | _ :: tl, O => Some (v :: tl)
  | x :: tl, Datatypes.S k => option_map (cons x) (set_nth tl k v)
  end.
(** 130-134. *)
Definition assign (im : imap) (sel : list nat) (p : list string * nat) : option (list nat) :=
  foldM (fun sel i => match dget String.eqb im i with Some k => set_nth sel k (snd p) | None => None end) (fst p) sel.
Definition selection (im : imap) (gs : list (list string)) (variant : list nat) : option (list nat) :=
  foldM (assign im) (combine gs variant) (repeat 0%nat (length im)).
(** 127-138: [count] stays 1, so the loop is left early only when [max_variants] is 0. *)
Definition enumerate_block_variants (cs : list ucon) (im : imap) (vc : list (string * nat)) (max_variants : nat) : option (list (list nat)) :=
  let gs := all_groups cs im in
  match group_variants vc gs with
  | Some gv => mapM (selection im gs) (if (1 <=? max_variants)%nat then product gv else firstn 1 (product gv))
  | None => None
  end.

(** * The integer program (placer_pythonic_sp.py:141-300) *)

Record qbox := mkQb { qlx : Q; qly : Q; qux : Q; quy : Q }.
(** An assignment of values to the variables.  Simplified: values are exact rationals (the code
    reads floating point numbers from the solver), variables are identified by their role instead
    of a string (so an instance and a wire of the same name do not clash), and the variables that
    occur in one constraint only are quantified there. *)
Record sol := mkSol {
  v_W : Q; v_H : Q;
  v_box : string -> qbox;
  v_fx : string -> bool; v_fy : string -> bool;
  v_hpwl : Q; v_wire : string -> qbox }.
Definition con := sol -> Prop.

(** 146. *)
Definition upper_bound : Q := inject_Z 1000000000.
Definition in_bounds (q : Q) : Prop := 0 <= q /\ q <= upper_bound.
Definition b2q (b : bool) : Q := if b then 1 else 0.
Definition b2z (b : bool) : Z := if b then 1%Z else 0%Z.

(** 150-166: variables, size and bounding box of one instance. *)
Definition inst_cons (size : string -> Z * Z) (n : string) : list con :=
  [ (fun s => in_bounds (qlx (v_box s n)));
    (fun s => in_bounds (qly (v_box s n)));
    (fun s => in_bounds (qux (v_box s n)));
    (fun s => in_bounds (quy (v_box s n)));
    (fun s => qux (v_box s n) - qlx (v_box s n) == inject_Z (fst (size n)));
    (fun s => quy (v_box s n) - qly (v_box s n) == inject_Z (snd (size n)));
    (fun s => qux (v_box s n) <= v_W s);
    (fun s => quy (v_box s n) <= v_H s) ].

Definition all_in (l m : list Z) : bool := forallb (fun x => zmem x m) l.
Definition set_eqb (l m : list Z) : bool := all_in l m && all_in m l.
(** 181 *)
Definition scalings_ok (l : list Z) : bool := set_eqb l [1%Z] || set_eqb l [(-1)%Z] || set_eqb l [(-1)%Z; 1%Z].
(** 176-183 [offset_scalings]. *)
Definition offset_scalings (c : pog) : list (Z * list Z) :=
  fold_left (fun d t => fold_left (fun d o => dupd Z.eqb d o (fun x => match x with Some l => (l ++ ot_scalings t)%list | None => ot_scalings t end))
                                  (ot_offsets t) d) (pg_terms c) [].
(** 188-191 *)
Definition scal_con (sc : list Z) (v : bool) (flip : bool) : Prop :=
  if set_eqb sc [1%Z] then (b2z v + b2z flip <= 1)%Z
  else if set_eqb sc [(-1)%Z] then (b2z v <= b2z flip)%Z else True.
Definition zsuml (l : list Z) : Z := fold_right Z.add 0%Z l.
(** 168-196: one PlaceOnGrid constraint of an instance; the binary variables are a function of
    the (distinct) offsets.  [None] = failed assertion. *)
Definition pog_con (size : string -> Z * Z) (n : string) (c : pog) : option con :=
  if forallb (fun t => scalings_ok (ot_scalings t)) (pg_terms c) then
    Some (fun s => exists (v : Z -> bool) (grid : Z),
      let os := offset_scalings c in
      let flip := match pg_dir c with DH => v_fy s n | DV => v_fx s n end in
      let sz := match pg_dir c with DH => snd (size n) | DV => fst (size n) end in
      let ll := match pg_dir c with DH => qly (v_box s n) | DV => qlx (v_box s n) end in
      Forall (fun e => scal_con (snd e) (v (fst e)) flip) os /\
      zsuml (map (fun e => b2z (v (fst e))) os) = 1%Z /\
      (0 <= grid)%Z /\
      inject_Z (grid * pg_pitch c + zsuml (map (fun e => fst e * b2z (v (fst e))) os) - sz * b2z flip)%Z == ll)
  else None.
Definition pog_cons (size : string -> Z * Z) (n : string) (cs : list pog) : option (list con) :=
  if (length cs <=? 2)%nat then mapM (pog_con size n) cs else None.

(** 199-201: positions in a sequence; later entries win, as in the dict comprehension. *)
Definition position (l : list nat) (k : nat) : option nat :=
  dget Nat.eqb (fold_left (fun d p => dset Nat.eqb d (snd p) (fst p)) (combine (seq 0 (length l)) l) []) k.
Fixpoint combos {A} (l : list A) : list (A * A) :=
  match l with
  | [] => []
  | x :: tl => map (pair x) tl ++ combos tl
  end.
(** 202-215: one constraint per unordered pair; [None] = KeyError or failed assertion. *)
Definition sp_con (sp : list nat * list nat) (e0 e1 : string * nat) : option con :=
  let n0 := fst e0 in
  let n1 := fst e1 in
  match position (fst sp) (snd e0), position (fst sp) (snd e1), position (snd sp) (snd e0), position (snd sp) (snd e1) with
  | Some p0, Some p1, Some m0, Some m1 =>
      if (p0 <? p1)%nat && (m0 <? m1)%nat then Some (fun s => qux (v_box s n0) <= qlx (v_box s n1))
      else if (p1 <? p0)%nat && (m1 <? m0)%nat then Some (fun s => qux (v_box s n1) <= qlx (v_box s n0))
      else if (p0 <? p1)%nat && (m1 <? m0)%nat then Some (fun s => quy (v_box s n1) <= qly (v_box s n0))
      else if (p1 <? p0)%nat && (m0 <? m1)%nat then Some (fun s => quy (v_box s n0) <= qly (v_box s n1))
      else None
  | _, _, _, _ => None
  end.
Definition sp_cons (sp : list nat * list nat) (im : imap) : option (list con) :=
  mapM (fun p => sp_con sp (fst p) (snd p)) (combos im).

(** 247: the coordinate of a supported line; [None] = failed assertion. *)
Definition line_coord (l : aline) : option (qbox -> Q) :=
  match l with
  | HBottom => Some qly | HTop => Some quy | VLeft => Some qlx | VRight => Some qux
  | _ => None
  end.
(** 223-226: posted only when the value is given and not 0. *)
Definition bound_con (v : sol -> Q) (m : option Q) : list con :=
  match m with
  | Some q => if Qeq_bool q 0 then [] else [fun s => v s <= q]
  | None => []
  end.
Definition ll_of (x : bool) : qbox -> Q := if x then qlx else qly.
Definition ur_of (x : bool) : qbox -> Q := if x then qux else quy.
(** 261-268: one group of a symmetry constraint.  Simplified: the schema
    (constraint.py:977-979) excludes lists of other lengths. *)
Definition symm_con (vert : bool) (line : Q) (pair : list string) (s : sol) : Prop :=
  match pair with
  | [a] => ll_of vert (v_box s a) + ur_of vert (v_box s a) == 2 * line
  | a :: b :: _ =>
      ll_of vert (v_box s a) + ur_of vert (v_box s a) + ll_of vert (v_box s b) + ur_of vert (v_box s b) == 4 * line /\
      ll_of (negb vert) (v_box s a) == ll_of (negb vert) (v_box s b)
  | [] => False
  end.
(** 217-278 *)
Definition user_con (scale : Z) (c : ucon) : option (list con) :=
  match c with
  | UBoundary mw mh _ _ => Some (bound_con v_W mw ++ bound_con v_H mh)
  | UOnBoundary n s e w ne nw se sw =>
      Some (map (fun x st => quy (v_box st x) == v_H st) (n ++ nw ++ ne)
            ++ map (fun x st => qly (v_box st x) == 0) (s ++ sw ++ se)
            ++ map (fun x st => qux (v_box st x) == v_W st) (e ++ ne ++ se)
            ++ map (fun x st => qlx (v_box st x) == 0) (w ++ nw ++ sw))
  | UAlign l xs =>
      match line_coord l, xs with
      | Some f, i0 :: tl => Some (map (fun i1 s => f (v_box s i0) == f (v_box s i1)) tl)
      | _, _ => None
      end
  | USymm vert pairs => Some [fun s => exists line, in_bounds line /\ Forall (fun p => symm_con vert line p s) pairs]
  | USpread hor dist xs =>
      Some (map (fun (p : string * string) s => exists v : bool,
              inject_Z (dist * scale) - ll_of hor (v_box s (snd p)) + ur_of hor (v_box s (fst p)) - upper_bound * b2q v <= 0 /\
              inject_Z (dist * scale) - ll_of hor (v_box s (fst p)) + ur_of hor (v_box s (snd p)) - upper_bound * (1 - b2q v) <= 0)
            (combos xs))
  | _ => Some []
  end.

(** 238-242 [net_priority], later entries win. *)
Definition net_priority (cs : list ucon) : list (string * Z) :=
  fold_left (fun d c => match c with UNetPriority nets w => fold_left (fun d n => dset String.eqb d n w) nets d | _ => d end) cs [].
Definition prio (cs : list ucon) (w : string) : Z :=
  match dget String.eqb (net_priority cs) w with Some z => z | None => 1%Z end.

(** [wires]: for each net, the instances on it with the pin's box in the block (402-411). *)
Notation wires_t := (list (string * list (string * Rect))).
(** 290: a pin coordinate in the placed block. *)
Definition pin_at (ll : Q) (flip : bool) (size off : Z) : Q :=
  ll + inject_Z off + inject_Z (size - 2 * off) * b2q flip.
(** 283-292: one pin of a wire, both corners on both axes. *)
Definition wire_con (size : string -> Z * Z) (w i : string) (r : Rect) : con := fun s =>
  let x off := pin_at (qlx (v_box s i)) (v_fx s i) (fst (size i)) off in
  let y off := pin_at (qly (v_box s i)) (v_fy s i) (snd (size i)) off in
  x (llx r) <= qux (v_wire s w) /\ qlx (v_wire s w) <= x (llx r) /\
  y (lly r) <= quy (v_wire s w) /\ qly (v_wire s w) <= y (lly r) /\
  x (urx r) <= qux (v_wire s w) /\ qlx (v_wire s w) <= x (urx r) /\
  y (ury r) <= quy (v_wire s w) /\ qly (v_wire s w) <= y (ury r).
Definition sumQl (l : list Q) : Q := fold_right Qplus 0 l.
(** 281-300 *)
Definition wires_cons (size : string -> Z * Z) (cs : list ucon) (ws : wires_t) : list con :=
  [fun s => in_bounds (v_hpwl s)]
  ++ flat_map (fun w => [fun s => 0 <= qlx (v_wire s (fst w)) /\ 0 <= qly (v_wire s (fst w)) /\ 0 <= qux (v_wire s (fst w)) /\ 0 <= quy (v_wire s (fst w))]
                        ++ map (fun ir => wire_con size (fst w) (fst ir) (snd ir)) (snd w)) ws
  ++ [fun s => sumQl (map (fun w => inject_Z (prio cs (fst w)) * qux (v_wire s (fst w)) + inject_Z (prio cs (fst w)) * quy (v_wire s (fst w))) ws)
               - sumQl (map (fun w => inject_Z (prio cs (fst w)) * qlx (v_wire s (fst w)) + inject_Z (prio cs (fst w)) * qly (v_wire s (fst w))) ws)
               == v_hpwl s].

(** 141-300: all posted constraints; [None] = an exception while posting. *)
Definition posted (cs : list ucon) (im : imap) (size : string -> Z * Z) (sp : list nat * list nat)
    (ws : wires_t) (pg : string -> list pog) (scale : Z) : option (list con) :=
  match concatM (fun e => option_map (app (inst_cons size (fst e))) (pog_cons size (fst e) (pg (fst e)))) im,
        sp_cons sp im, concatM (user_con scale) cs with
  | Some a, Some b, Some c =>
      Some ([fun s => in_bounds (v_W s); fun s => in_bounds (v_H s)] ++ a ++ b ++ c ++ wires_cons size cs ws)
  | _, _, _ => None
  end.
Definition feasible (k : list con) (s : sol) : Prop := Forall (fun c => c s) k.

(** 303-305: the objective. *)
Definition objective (ws : wires_t) (s : sol) : Q :=
  v_W s + v_H s + (match ws with [] => 1 | _ => 1 / inject_Z (Z.of_nat (length ws)) end) * v_hpwl s.

(** * Extraction (placer_pythonic_sp.py:331-352) *)

(** Python's [round]: to nearest, ties to even. *)
Definition py_round (q : Q) : Z :=
  let f := Qfloor q in
  let d := q - inject_Z f in
  if Qle_bool d (1 # 2) then (if Qle_bool (1 # 2) d then (if Z.even f then f else f + 1) else f)%Z else (f + 1)%Z.

Definition extract (size : string -> Z * Z) (s : sol) (n : string) : Tr :=
  mkTr (py_round (qlx (v_box s n) + b2q (v_fx s n) * inject_Z (fst (size n))))
       (py_round (qly (v_box s n) + b2q (v_fy s n) * inject_Z (snd (size n))))
       (if v_fx s n then -1 else 1)%Z (if v_fy s n then -1 else 1)%Z.
Definition out_width (s : sol) : Z := py_round (v_W s).
Definition out_height (s : sol) : Z := py_round (v_H s).

(** placer_pythonic_sp.py:22-39 [check_place_on_grid]. *)
Definition sp_check (t : Tr) (cs : list pog) : bool :=
  forallb (fun c =>
    let o := match pg_dir c with DH => oY t | DV => oX t end in
    let sc := match pg_dir c with DH => sY t | DV => sX t end in
    existsb (fun tm => existsb (fun off => ((o - off) mod pg_pitch c =? 0)%Z && zmem sc (ot_scalings tm)) (ot_offsets tm)) (pg_terms c)) cs.

(** * The solver formulae (constraint.py [translate]) over a box assignment *)

Definition Qab (q : Q) : Q := if Qle_bool 0 q then q else - q.
(** 171-202 [Order.translate] *)
Definition order_cc (abut x : bool) (a b : qbox) : Prop :=
  if abut then ur_of x a == ll_of x b else ur_of x a <= ll_of x b.
Definition order_formula (d : odir) (abut : bool) (a b : qbox) : Prop :=
  match d with
  | OLR => order_cc abut true a b
  | ORL => order_cc abut true b a
  | OBT => order_cc abut false a b
  | OTB => order_cc abut false b a
  | OHoriz => order_cc abut true a b \/ order_cc abut true b a
  | OVert => order_cc abut false a b \/ order_cc abut false b a
  | ONone => order_cc abut true a b \/ order_cc abut true b a \/ order_cc abut false a b \/ order_cc abut false b a
  end.
(** 260-291 [Align.translate] *)
Definition align_formula (l : aline) (a b : qbox) : Prop :=
  let vany := (qux a <= qux b /\ qlx b <= qlx a) \/ (qux b <= qux a /\ qlx a <= qlx b) in
  let hany := (qly b <= qly a /\ quy a <= quy b) \/ (qly a <= qly b /\ quy b <= quy a) in
  match l with
  | HTop => quy a == quy b
  | HBottom => qly a == qly b
  | HCenter => (qly a + quy a) / 2 == (qly b + quy b) / 2
  | HAny => hany
  | VLeft => qlx a == qlx b
  | VRight => qux a == qux b
  | VCenter => (qlx a + qux a) / 2 == (qlx b + qux b) / 2
  | VAny => vany
  | LNone => vany \/ hany
  end.
(** 330-352 [Spread.translate] *)
Definition spread_formula (hor : bool) (dist : Z) (a b : qbox) : Prop :=
  ll_of (negb hor) b < ur_of (negb hor) a /\ ll_of (negb hor) a < ur_of (negb hor) b ->
  inject_Z dist <= Qab (ll_of hor a - ur_of hor b) /\ inject_Z dist <= Qab (ll_of hor b - ur_of hor a).
(** 1001-1035 [SymmetricBlocks.translate] *)
Definition symm_expr (vert : bool) (bx : string -> qbox) (pair : list string) : Q :=
  match pair with
  | a :: b :: _ => ll_of vert (bx a) + ur_of vert (bx a) + (ll_of vert (bx b) + ur_of vert (bx b))
  | [a] => ll_of vert (bx a) + ur_of vert (bx a) + (ll_of vert (bx a) + ur_of vert (bx a))
  | [] => 0
  end.
Definition symm_pair (vert : bool) (bx : string -> qbox) (pair : list string) : Prop :=
  match pair with
  | [a; b] =>
      let o := negb vert in
      let d := Qab (2 * (ll_of o (bx a) + ur_of o (bx a)) - 2 * (ll_of o (bx b) + ur_of o (bx b))) in
      d <= ur_of o (bx a) - ll_of o (bx a) /\ d <= ur_of o (bx b) - ll_of o (bx b)
  | _ => True
  end.
(** 446-458 [Boundary.translate]; the bounding box is the variable box named 'subcircuit'.
    Simplified: absent values are not bounded (the code would raise). [int] truncates. *)
Definition q_int (q : Q) : Z := if Qle_bool 0 q then Qfloor q else Qceiling q.
Definition boundary_formula (mw mh hh hv : option Q) (top : qbox) (boxes : list qbox) : Prop :=
  (forall w, mw = Some w -> qux top - qlx top <= 1000 * w) /\
  (forall h, mh = Some h -> quy top - qly top <= 1000 * h) /\
  forall b, In b boxes ->
    (forall h, hh = Some h -> qlx top + inject_Z (q_int (1000 * h)) <= qlx b /\ qux b <= qux top - inject_Z (q_int (1000 * h))) /\
    (forall h, hv = Some h -> qly top + inject_Z (q_int (1000 * h)) <= qly b /\ quy b <= quy top - inject_Z (q_int (1000 * h))).

(** The formulae of one constraint; soft constraints have none. *)
Definition translate (bx : string -> qbox) (names : list string) (top : qbox) (c : ucon) : Prop :=
  match c with
  | UOrder d abut xs => Forall (fun p => order_formula d abut (bx (fst p)) (bx (snd p))) (pairwise xs)
  | UAlign l xs => Forall (fun p => align_formula l (bx (fst p)) (bx (snd p))) (pairwise xs)
  | USpread hor dist xs => Forall (fun p => spread_formula hor dist (bx (fst p)) (bx (snd p))) (combos xs)
  | UBoundary mw mh hh hv => boundary_formula mw mh hh hv top (map bx names)
  | USymm vert pairs =>
      Forall (symm_pair vert bx) pairs /\
      match pairs with p0 :: tl => Forall (fun p => symm_expr vert bx p0 == symm_expr vert bx p) tl | [] => True end
  | _ => True
  end.
