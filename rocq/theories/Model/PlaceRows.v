(** Model of placer/ILP_solver.cpp:1733-2771 [FrameSolveILPCore] (PlaceRouteHierFlow): the
    variables, bounds and rows of the integer program that places a sequence pair.

    Simplified: the solver is any function that gives an assignment which meets the rows and
    the bounds with the variables of [intvars] integral (no tolerance, so [roundupint] is the
    identity on them); the objective (lines 1856-1904 and the [objective] of the matched blocks) is left out, since
    no property here is about optimality; coefficients are doubled, for the rows with 0.5; the
    blocks are those of the selected variants; only connections of nets to blocks are kept;
    [halo], box and sizes are integers without overflow; the blocks and pins named exist. *)
From Coq Require Import ZArith QArith.
From Verif Require Import Base.Prelude Model.SeqEnum Model.SymmGroup Model.KeepOrder Model.SeqCheck.
Local Open Scope Z_scope.

(** Lines 1757-1780: four variables for each block, four for each net, those for the offsets of
    blocks on a grid ([VSelX], [VNx] and so on), two for each block to snap, two for the area. *)
Inductive ivar :=
| VX (i : nat) | VY (i : nat) | VH (i : nat) | VV (i : nat)
| VSelX (i j : nat) | VNx (i : nat) | VSelY (i j : nat) | VNy (i : nat)
| VSnapX (i : nat) | VSnapY (i : nat).
Inductive rvar := VNet (i k : nat) | VAreaX | VAreaY.

Inductive sense := SE | SL | SG.
(** A row: twice its coefficients, and its right-hand side. *)
Record row := Row { r_int : list (ivar * Z); r_real : list (rvar * Z); r_sense : sense; r_rhs : Z }.
Definition irow (l : list (ivar * Z)) (s : sense) (rhs : Z) : row := Row (map (fun t => (fst t, 2 * snd t)) l) [] s rhs.

Record pbox := PBox { llx : Z; lly : Z; urx : Z; ury : Z }.
Record iblock := IBlock {
  b_w : Z; b_h : Z;
  b_xflip : Z; b_yflip : Z;
  b_xpitch : Z; b_xoff : list Z;
  b_ypitch : Z; b_yoff : list Z;
  b_pins : list pbox
}.
Record inet := INet { n_float : bool; n_conn : list (nat * nat) }.

(** What is read of the design and the process. *)
Record idesign := IDesign {
  i_blocks : list iblock;
  i_nets : list inet;
  i_syms : list group;
  i_aligns : list align;
  i_orders : list ordering;
  i_abuts : list ordering;
  i_spread : nat -> nat -> bool -> Z;
  i_bias_h : Z; i_bias_v : Z;
  i_xp : Z; i_yp : Z;
  i_halo_h : Z; i_halo_v : Z;
  i_box_w : Z; i_box_h : Z
}.

Definition no_block : iblock := IBlock 0 0 0 0 1 [] 1 [] [].
Definition blk (d : idesign) (i : nat) : iblock := nth i (i_blocks d) no_block.
Definition bw (d : idesign) (i : nat) : Z := b_w (blk d i).
Definition bh (d : idesign) (i : nat) : Z := b_h (blk d i).
Definition ids (d : idesign) : list nat := seq 0 (length (i_blocks d)).

(** Line 489 [roundup], used at lines 1905-1907. *)
Definition round_up (v p : Z) : Z := p * Z.quot (v + p - 1) p.
(** [std::max(bias_Hgraph, getSpread(i, j, true))] and the vertical one. *)
Definition h_gap (d : idesign) (i j : nat) : Z := Z.max (round_up (i_bias_h d) (i_xp d)) (i_spread d i j true).
Definition v_gap (d : idesign) (i j : nat) : Z := Z.max (round_up (i_bias_v d) (i_yp d)) (i_spread d i j false).
(** [find(Abut_Constraints...)]. *)
Definition dir_eqb (x y : dir) : bool := match x, y with DirH, DirH | DirV, DirV => true | _, _ => false end.
Definition abutted (d : idesign) (i j : nat) (x : dir) : bool :=
  existsb (fun o => (o_first o =? i)%nat && (o_second o =? j)%nat && dir_eqb (snd o) x) (i_abuts d).

(** Lines 1912-1941. *)
Definition flip_row (v : ivar) (f : Z) : list row :=
  if f =? 1 then [irow [(v, 1)] SE 0] else if f =? -1 then [irow [(v, 1)] SE 1] else [].
Definition flip_rows (d : idesign) : list row :=
  flat_map (fun i => flip_row (VH i) (b_xflip (blk d i)) ++ flip_row (VV i) (b_yflip (blk d i))) (ids d).

(** Lines 1766-1769: [place_on_grid_var_count == 0]. *)
Definition no_offsets (d : idesign) : bool :=
  forallb (fun b => match b_xoff b, b_yoff b with [], [] => true | _, _ => false end) (i_blocks d).
(** Lines 1943-1961. *)
Definition snapping (d : idesign) (snap : bool) : bool := snap && no_offsets d.
Definition snap_rows (d : idesign) (snap : bool) : list row :=
  if snapping d snap then
    flat_map (fun i => [irow [(VX i, 1); (VSnapX i, - i_xp d)] SE 0; irow [(VY i, 1); (VSnapY i, - i_yp d)] SE 0]) (ids d)
  else [].

(** Lines 1973-2030. *)
Definition grid_row (v f n : ivar) (sel : nat -> ivar) (size pitch : Z) (off : list Z) : list row :=
  match off with
  | [] => []
  | _ => [irow ((v, 1) :: (f, size) :: (n, - pitch) :: map (fun j => (sel j, - nth j off 0)) (seq 0 (length off))) SE 0;
          irow (map (fun j => (sel j, 1)) (seq 0 (length off))) SE 1]
  end.
Definition grid_rows (d : idesign) : list row :=
  flat_map (fun i => let b := blk d i in
              grid_row (VX i) (VH i) (VNx i) (VSelX i) (b_w b) (b_xpitch b) (b_xoff b) ++
              grid_row (VY i) (VV i) (VNy i) (VSelY i) (b_h b) (b_ypitch b) (b_yoff b)) (ids d).

(** Lines 2060-2138. *)
Definition over_row (d : idesign) (pos neg : list nat) (i j : nat) : row :=
  if (at_ pos i <? at_ pos j)%nat then
    if (at_ neg i <? at_ neg j)%nat then
      if abutted d i j DirH then irow [(VX i, 1); (VX j, -1)] SE (- bw d i)
      else irow [(VX i, 1); (VX j, -1)] SL (- bw d i - h_gap d i j)
    else
      if abutted d i j DirV then irow [(VY i, 1); (VY j, -1)] SE (bh d j)
      else irow [(VY i, 1); (VY j, -1)] SG (bh d j + v_gap d i j)
  else
    if (at_ neg i <? at_ neg j)%nat then
      if abutted d j i DirV then irow [(VY i, 1); (VY j, -1)] SE (- bh d i)
      else irow [(VY i, 1); (VY j, -1)] SL (- bh d i - v_gap d i j)
    else
      if abutted d j i DirH then irow [(VX i, 1); (VX j, -1)] SE (bw d j)
      else irow [(VX i, 1); (VX j, -1)] SG (bw d j + h_gap d i j).
(** The nested loops over [i] and [j > i]. *)
Fixpoint twos {A} (l : list A) : list (A * A) :=
  match l with [] => [] | a :: r => map (pair a) r ++ twos r end.
Definition over_rows (d : idesign) (pos neg : list nat) : list row :=
  map (fun p => over_row d pos neg (fst p) (snd p)) (twos (ids d)).

(** Lines 2140-2351; [V], [U] are the coordinate across the axis and along it, [fl], [same] the
    flips of the one and the other, [sz], [tz] the sizes. *)
Definition sym_part (g : group) (V U fl same : nat -> ivar) (sz tz : nat -> Z) : list row :=
  flat_map (fun p => [irow [(fl (fst p), 1); (fl (snd p), 1)] SE 1;
                      irow [(same (fst p), 1); (same (snd p), -1)] SE 0;
                      irow [(U (fst p), 1); (U (snd p), -1)] SE (- Z.quot (tz (fst p)) 2 + Z.quot (tz (snd p)) 2)]) (g_pairs g) ++
  map (fun pq => let '((a, b), (c, e)) := pq in
         Row [(V a, 1); (V b, 1); (V c, -1); (V e, -1)] [] SE
             (- Z.quot (sz a) 4 - Z.quot (sz b) 4 + Z.quot (sz c) 4 + Z.quot (sz e) 4)) (twos (g_pairs g)) ++
  flat_map (fun p => map (fun c => Row [(V (fst p), 1); (V (snd p), 1); (V c, -2)] [] SE
                              (- Z.quot (sz (fst p)) 4 - Z.quot (sz (snd p)) 4 + Z.quot (sz c) 2)) (selfs g)) (g_pairs g) ++
  map (fun ab => irow [(V (fst ab), 1); (V (snd ab), -1)] SE (- Z.quot (sz (fst ab)) 2 + Z.quot (sz (snd ab)) 2)) (twos (selfs g)).
Definition sym_rows (d : idesign) (g : group) : list row :=
  match g_axis g with
  | DirH => sym_part g VY VX VV VH (bh d) (bw d)
  | DirV => sym_part g VX VY VH VV (bw d) (bh d)
  end.

(** Lines 2353-2391. *)
Definition line_bias (u : align) (sz : nat -> Z) (a b : nat) : Z :=
  match al_line u with
  | 1%nat => Z.quot (- sz a) 2 + Z.quot (sz b) 2
  | 2%nat => - sz a + sz b
  | _ => 0
  end.
Definition align_rows (d : idesign) (u : align) : list row :=
  map (fun ab => let '(a, b) := ab in
         if al_hor u then irow [(VY a, 1); (VY b, -1)] SE (line_bias u (bh d) a b)
         else irow [(VX a, 1); (VX b, -1)] SE (line_bias u (bw d) a b)) (combine (al_blocks u) (tl (al_blocks u))).

(** Lines 2393-2430; the vertical case looks for the abutment of the lower with the upper block,
    and takes [bias_Hgraph]. *)
Definition order_row (d : idesign) (o : ordering) : row :=
  match snd o with
  | DirH =>
      let i := o_first o in let j := o_second o in
      if abutted d i j DirH then irow [(VX i, 1); (VX j, -1)] SE (- bw d i)
      else irow [(VX i, 1); (VX j, -1)] SL (- bw d i - h_gap d i j)
  | DirV =>
      let i := o_second o in let j := o_first o in
      if abutted d i j DirV then irow [(VY i, 1); (VY j, -1)] SE (- bh d i)
      else irow [(VY i, 1); (VY j, -1)] SL
             (- bh d i - Z.max (round_up (i_bias_h d) (i_xp d)) (i_spread d i j false))
  end.

(** Lines 2437-2505. *)
Definition pin_rows (d : idesign) (k : nat) (c : nat * nat) : list row :=
  let '(i, pin) := c in
  match nth_error (b_pins (blk d i)) pin with
  | Some p =>
      if (llx p <=? urx p) && (lly p <=? ury p) then
        let dx := bw d i - llx p - urx p in
        let dy := bh d i - lly p - ury p in
        [Row [(VX i, 2); (VH i, 2 * dx)] [(VNet k 0, -2)] SG (- llx p);
         Row [(VY i, 2); (VV i, 2 * dy)] [(VNet k 1, -2)] SG (- lly p);
         Row [(VX i, 2); (VH i, 2 * dx)] [(VNet k 2, -2)] SL (- urx p);
         Row [(VY i, 2); (VV i, 2 * dy)] [(VNet k 3, -2)] SL (- ury p)]
      else []
  | None => []
  end.
Definition net_rows (d : idesign) : list row :=
  flat_map (fun kn => if n_float (snd kn) then [] else flat_map (pin_rows d (fst kn)) (n_conn (snd kn)))
    (combine (seq 0 (length (i_nets d))) (i_nets d)).

(** Lines 2507-2545. *)
Definition area_rows (d : idesign) (flush : bool) : list row :=
  flat_map (fun i => if flush
     then [Row [(VX i, -2)] [(VAreaX, 2)] SG (bw d i); Row [(VY i, -2)] [(VAreaY, 2)] SG (bh d i)]
     else [Row [(VX i, -2)] [(VAreaX, 2)] SL 0; Row [(VY i, -2)] [(VAreaY, 2)] SL 0]) (ids d).

Definition all_rows (d : idesign) (pos neg : list nat) (flush snap : bool) : list row :=
  flip_rows d ++ snap_rows d snap ++ grid_rows d ++ over_rows d pos neg ++ flat_map (sym_rows d) (i_syms d) ++
  flat_map (align_rows d) (i_aligns d) ++ map (order_row d) (i_orders d) ++ net_rows d ++ area_rows d flush.

(** Lines 1782-1854 and 1962-1969: the bounds.  [prev] are the points handed in, [cur] the
    coordinates [Blocks] left by the last call. *)
Record bnd := Bnd { b_lo : option Z; b_hi : option Z }.
Definition sums (d : idesign) (sz : nat -> Z) : Z := fold_left Z.add (map sz (ids d)) 0.
Definition coord_bnd (d : idesign) (flush : bool) (prev : option Z) (halo box size sum : Z) : bnd :=
  if flush then Bnd (Some (match prev with Some v => v | None => halo end)) (Some (box - halo - size))
  else Bnd (Some (-10 * sum)) (Some (- size)).
Definition snap_bnd (p c : Z) : bnd := Bnd (Some (Z.max (c - p * 2) 0)) (Some (c + p * 2)).
Definition unit_bnd (p c : Z) : bnd := Bnd (Some (Z.max (Z.quot c p - 2) 0)) (Some (Z.quot c p + 2)).
Definition int_bnd (d : idesign) (flush snap : bool) (prev : option (nat -> Z * Z)) (cur : nat -> Z * Z) (v : ivar) : bnd :=
  match v with
  | VX i => if snapping d snap then snap_bnd (i_xp d) (fst (cur i))
            else coord_bnd d flush (option_map (fun f => fst (f i)) prev) (i_halo_h d) (i_box_w d) (bw d i) (sums d (bw d))
  | VY i => if snapping d snap then snap_bnd (i_yp d) (snd (cur i))
            else coord_bnd d flush (option_map (fun f => snd (f i)) prev) (i_halo_v d) (i_box_h d) (bh d i) (sums d (bh d))
  | VSnapX i => unit_bnd (i_xp d) (fst (cur i))
  | VSnapY i => unit_bnd (i_yp d) (snd (cur i))
  | VH _ | VV _ | VSelX _ _ | VSelY _ _ => Bnd (Some 0) (Some 1)
  | VNx _ | VNy _ => Bnd (Some 0) None
  end.
Definition real_bnd (flush : bool) : bnd := if flush then Bnd (Some 0) None else Bnd None (Some 0).

(** An assignment that meets a row, the bounds. *)
Record assign := Assign { a_int : ivar -> Z; a_real : rvar -> Q }.
Definition int_sum (a : assign) (l : list (ivar * Z)) : Z := fold_right (fun t s => snd t * a_int a (fst t) + s) 0 l.
Definition real_sum (a : assign) (l : list (rvar * Z)) : Q := fold_right (fun t s => inject_Z (snd t) * a_real a (fst t) + s)%Q 0%Q l.
Definition meets (a : assign) (r : row) : Prop :=
  let s := (inject_Z (int_sum a (r_int r)) + real_sum a (r_real r))%Q in
  let t := inject_Z (2 * r_rhs r) in
  match r_sense r with SE => (s == t)%Q | SL => (s <= t)%Q | SG => (t <= s)%Q end.
Definition between (b : bnd) (x : Q) : Prop :=
  match b_lo b with Some l => (inject_Z l <= x)%Q | None => True end /\
  match b_hi b with Some h => (x <= inject_Z h)%Q | None => True end.
(** The variables that the program has (for a snap, only then). *)
Definition has_var (d : idesign) (snap : bool) (v : ivar) : Prop :=
  match v with
  | VX i | VY i | VH i | VV i => (i < length (i_blocks d))%nat
  | VSelX i j => (i < length (i_blocks d))%nat /\ (j < length (b_xoff (blk d i)))%nat
  | VSelY i j => (i < length (i_blocks d))%nat /\ (j < length (b_yoff (blk d i)))%nat
  | VNx i => (i < length (i_blocks d))%nat /\ b_xoff (blk d i) <> []
  | VNy i => (i < length (i_blocks d))%nat /\ b_yoff (blk d i) <> []
  | VSnapX i | VSnapY i => (i < length (i_blocks d))%nat /\ snapping d snap = true
  end.
Definition has_real (d : idesign) (v : rvar) : Prop :=
  match v with VNet i k => (i < length (i_nets d))%nat /\ (k < 4)%nat | _ => True end.
Definition solution (d : idesign) (pos neg : list nat) (flush snap : bool) (prev : option (nat -> Z * Z)) (cur : nat -> Z * Z)
    (a : assign) : Prop :=
  (forall r, In r (all_rows d pos neg flush snap) -> meets a r) /\
  (forall v, has_var d snap v -> between (int_bnd d flush snap prev cur v) (inject_Z (a_int a v))) /\
  (forall v, has_real d v -> between (real_bnd flush) (a_real a v)).

(** Lines 2750-2755: the coordinates and flips that are read back. *)
Definition out_pt (a : assign) (i : nat) : Z * Z := (a_int a (VX i), a_int a (VY i)).
