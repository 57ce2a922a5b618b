(** The formulae posted to the solver by constraints and by a module, over integer boxes
    (schema/constraint.py, schema/hacks.py, schema/subcircuit.py), and the placement check
    (pnr/checker.py). *)
From Coq Require Import String QArith Qround.
From Verif Require Import Base.Prelude Model.Transformation Model.SeqPair Model.ConstraintDB.
Local Open Scope Z_scope.

(** checker.py:196-203: four integer variables per name, i.e. an assignment of boxes. *)
Definition boxes := string -> Rect.
Definition formula := boxes -> Prop.

Definition lo (x : bool) (b : Rect) : Z := if x then llx b else lly b.
Definition hi (x : bool) (b : Rect) : Z := if x then urx b else ury b.

(** Classes with [translate].  Simplified: floats are rationals; [AlignInOrder], [Floorplan] and the
    other user constraints expand to these. *)
Inductive hcon :=
| HOrder (d : odir) (abut : bool) (xs : list string)
| HAlign (l : aline) (xs : list string)
| HSpread (hor : bool) (dist : Z) (xs : list string)
| HAssign (n : string) (b : Rect)
| HAspect (low high : Q)
| HBoundary (mw mh hh hv : Q)
| HSymm (vert : bool) (ps : list (list string))
| HGroup (n : string) (xs : list string).

(** constraint.py:171-202 [Order.translate] *)
Definition zorder_cc (abut x : bool) (a b : Rect) : Prop := if abut then hi x a = lo x b else hi x a <= lo x b.
Definition zorder (d : odir) (abut : bool) (a b : Rect) : Prop :=
  match d with
  | OLR => zorder_cc abut true a b
  | ORL => zorder_cc abut true b a
  | OBT => zorder_cc abut false a b
  | OTB => zorder_cc abut false b a
  | OHoriz => zorder_cc abut true a b \/ zorder_cc abut true b a
  | OVert => zorder_cc abut false a b \/ zorder_cc abut false b a
  | ONone => zorder_cc abut true a b \/ zorder_cc abut true b a \/ zorder_cc abut false a b \/ zorder_cc abut false b a
  end.
(** 260-291 [Align.translate]; [/] on integer variables is the solver's integer division. *)
Definition within (x : bool) (a b : Rect) : Prop := lo x b <= lo x a /\ hi x a <= hi x b.
Definition zalign (l : aline) (a b : Rect) : Prop :=
  match l with
  | HTop => hi false a = hi false b
  | HBottom => lo false a = lo false b
  | HCenter => (lo false a + hi false a) / 2 = (lo false b + hi false b) / 2
  | HAny => within false a b \/ within false b a
  | VLeft => lo true a = lo true b
  | VRight => hi true a = hi true b
  | VCenter => (lo true a + hi true a) / 2 = (lo true b + hi true b) / 2
  | VAny => within true a b \/ within true b a
  | LNone => within true a b \/ within true b a \/ within false a b \/ within false b a
  end.
(** 330-352 [Spread.translate] *)
Definition zspread (hor : bool) (dist : Z) (a b : Rect) : Prop :=
  lo (negb hor) b < hi (negb hor) a /\ lo (negb hor) a < hi (negb hor) b ->
  dist <= Z.abs (lo hor a - hi hor b) /\ dist <= Z.abs (lo hor b - hi hor a).
(** 1001-1035 [SymmetricBlocks.translate] *)
Definition zsum (x : bool) (b : Rect) : Z := lo x b + hi x b.
Definition zsymm_expr (vert : bool) (bx : boxes) (p : list string) : Z :=
  match p with
  | a :: b :: _ => zsum vert (bx a) + zsum vert (bx b)
  | [a] => zsum vert (bx a) + zsum vert (bx a)
  | [] => 0
  end.
Definition zsymm_pair (vert : bool) (bx : boxes) (p : list string) : Prop :=
  match p with
  | [a; b] =>
      let o := negb vert in let d := Z.abs (2 * zsum o (bx a) - 2 * zsum o (bx b)) in
      d <= hi o (bx a) - lo o (bx a) /\ d <= hi o (bx b) - lo o (bx b)
  | _ => True
  end.
Definition top_name : string := "subcircuit".
Definition zsize (x : bool) (b : Rect) : Z := hi x b - lo x b.
(** 409-412 [AspectRatio.translate] *)
Definition zaspect (low high : Q) (b : Rect) : Prop :=
  (low * inject_Z (zsize false b) <= inject_Z (zsize true b))%Q /\ (inject_Z (zsize true b) < high * inject_Z (zsize false b))%Q.
(** 446-458 [Boundary.translate]; [int] truncates. *)
Definition zboundary (mw mh hh hv : Q) (top : Rect) (bs : list Rect) : Prop :=
  (inject_Z (zsize true top) <= 1000 * mw)%Q /\ (inject_Z (zsize false top) <= 1000 * mh)%Q /\
  Forall (fun b => llx top + q_int (1000 * hh) <= llx b /\ urx b <= urx top - q_int (1000 * hh) /\
                   lly top + q_int (1000 * hv) <= lly b /\ ury b <= ury top - q_int (1000 * hv)) bs.
Definition zapart (a b : Rect) : Prop := urx a <= llx b \/ urx b <= llx a \/ ury a <= lly b \/ ury b <= lly a.
Definition zinside (a b : Rect) : Prop := llx b <= llx a /\ lly b <= lly a /\ urx a <= urx b /\ ury a <= ury b.
(** 1450-1468 [GroupBlocks.translate]; [names] are the instances of the subcircuit. *)
Definition zgroup (names xs : list string) (g : Rect) (bx : boxes) : Prop :=
  llx g < urx g /\ lly g < ury g /\
  Forall (fun x => zinside (bx x) g) (filter (fun x => smem x names) xs) /\
  Forall (fun x => zapart (bx x) g) (filter (fun x => negb (smem x xs)) names).

(** The conjunction posted for one constraint (types.py:49-58); [names] are the instances of the
    subcircuit. *)
Definition ztranslate (names : list string) (c : hcon) : formula := fun bx =>
  match c with
  | HOrder d abut xs => Forall (fun p => zorder d abut (bx (fst p)) (bx (snd p))) (pairwise xs)
  | HAlign l xs => Forall (fun p => zalign l (bx (fst p)) (bx (snd p))) (pairwise xs)
  | HSpread hor dist xs => Forall (fun p => zspread hor dist (bx (fst p)) (bx (snd p))) (combos xs)
  | HAssign n b => bx n = b
  | HAspect low high => zaspect low high (bx top_name)
  | HBoundary mw mh hh hv => zboundary mw mh hh hv (bx top_name) (map bx names)
  | HSymm vert ps =>
      Forall (zsymm_pair vert bx) ps /\
      match ps with p0 :: tl => Forall (fun p => zsymm_expr vert bx p0 = zsymm_expr vert bx p) tl | [] => True end
  | HGroup n xs => zgroup names xs (bx n) bx
  end.

(** hacks.py:79-103, subcircuit.py:78-100 [translate] of the module.  [iter_bbox_vars] is a
    generator (checker.py:90-99): iterating over it uses it up, so that [drain] returns the
    elements and what a second loop over the same generator sees. *)
Definition drain {A} (g : list A) : list A * list A := (g, []).
Definition module_base (names : list string) : list formula :=
  let '(first, second) := drain names in
  [fun bx => llx (bx top_name) < urx (bx top_name); fun bx => lly (bx top_name) < ury (bx top_name)] ++
  map (fun n bx => llx (bx n) < urx (bx n) /\ lly (bx n) < ury (bx n)) names ++
  map (fun n bx => zinside (bx n) (bx top_name)) first ++
  map (fun p bx => zapart (bx (fst p)) (bx (snd p))) (combos second).

(** * pnr/checker.py:9-79 [check_placement], one module *)

(** constraint.py:355-380 [AssignBboxVariables]: the fields are integers, so the quotient of the
    coordinate and the scale factor is truncated; a box must be well ordered. *)
Definition scaled (k : Z) (r : Rect) : Rect := mkRect (Z.quot (llx r) k) (Z.quot (lly r) k) (Z.quot (urx r) k) (Z.quot (ury r) k).
Definition proper (r : Rect) : bool := (llx r <? urx r) && (lly r <? ury r).

Section Check.
  Variables (repr : hcon -> string) (unsat : list formula -> bool).
  Variables (names : list string).
  Notation hdb := (db hcon formula).
  Notation happend := (append hcon formula repr (fun c => Some (ztranslate names c)) (module_base names) unsat).
  Definition assign (k : Z) (n : string) (r : Rect) (s : hdb) : hdb * bool :=
    if proper (scaled k r) then happend (HAssign n (scaled k r)) s else (s, false).
  Fixpoint assigns (k : Z) (l : list (string * Rect)) (s : hdb) : hdb * bool :=
    match l with
    | [] => (s, true)
    | (n, r) :: tl => let (s1, ok) := assign k n r s in if ok then assigns k tl s1 else (s1, false)
    end.
  (** [bbox] is the box of the module, [insts] the placed boxes of its instances
      ([Transformation.hitRect(..).canonical()]).  An exception leaves the checkpoint open. *)
  Definition check_module (k : Z) (id : string) (bbox : Rect) (insts : list (string * Rect)) (s : hdb) : hdb * bool :=
    let (s1, ok) := checkpoint hcon formula (fun c => Some (ztranslate names c)) (module_base names) unsat id s in
    if ok then
      let (s2, ok2) := assigns k ((top_name, bbox) :: insts) s1 in
      if ok2 then revert hcon formula None s2 else (s2, false)
    else (s1, false).
End Check.
