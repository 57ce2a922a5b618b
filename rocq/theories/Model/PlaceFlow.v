(** Model of placer/ILP_solver.cpp:2773-3031 [MoveBlocksUsingSlack], [GenerateValidSolutionCore]
    and the geometric part of [GenerateValidSolution], with placer/ILP_solver.h:62-82
    (PlaceRouteHierFlow): how the integer programs of [PlaceRows] are used.

    Simplified: the solver is a function of the mode and the last coordinates; a call that fails
    leaves the coordinates as they are; the solver reads the pitches of the same layers in
    each call; the weights of the cost, the linear constraints and the terminals are left out. *)
From Coq Require Import ZArith QArith.
From Verif Require Import Base.Prelude Model.SeqEnum Model.SymmGroup Model.KeepOrder Model.SeqCheck Model.PlaceRows.
Local Open Scope Z_scope.

(** placer/design.h:212. *)
Inductive style := StyleL | StyleR | StyleC.
(** placer/ILP_solver.h [Block]: corner and flips of each block. *)
Record pstate := PState { st_x : nat -> Z; st_y : nat -> Z; st_h : nat -> Z; st_v : nat -> Z }.
(** The design, its style, [black_box_flow], whether the first variant of the first block has
    offsets, the bounds of the aspect ratio, and the boundaries of the pins of a block. *)
Record fdesign := FDesign {
  f_d : idesign;
  f_style : style;
  f_black : bool;
  f_off0 : bool;
  f_lo : Q; f_hi : Q;
  f_shapes : nat -> nat -> list pbox
}.

Section Solve.
(** The solver, with the mode [flushbl], [snapGridILP], the points [prev] and the coordinates
    left by the last call. *)
Variable solve : bool -> bool -> option (nat -> Z * Z) -> (nat -> Z * Z) -> option assign.

Definition read (a : assign) : pstate :=
  PState (fun i => a_int a (VX i)) (fun i => a_int a (VY i)) (fun i => a_int a (VH i)) (fun i => a_int a (VV i)).
Definition pts (s : pstate) (i : nat) : Z * Z := (st_x s i, st_y s i).
(** ILP_solver.h:69-82 [FrameSolveILP]. *)
Definition frame (s : pstate) (flush snap : bool) (prev : option (nat -> Z * Z)) : option pstate :=
  option_map read (solve flush snap prev (pts s)).

(** Lines 2773-2847.  The call at the end hands [&blockpts] over as [snapGridILP] (the sixth
    parameter), so [prev] is null; the computation of [blockpts] (lines 2780-2844) has no other
    use and is left out. *)
Definition move_slack (d : idesign) (s before : pstate) : option pstate :=
  if forallb (fun i => (0 <=? st_x s i - st_x before i) && (0 <=? st_y s i - st_y before i)) (ids d)
  then frame s true true None else None.

(** ILP_solver.h:60-61; line 2889. *)
Definition round_down (v p : Z) : Z := p * Z.quot v p.
Definition center_line (d : idesign) (s : pstate) (p : nat * nat) : Z :=
  Z.quot ((st_x s (fst p) + Z.quot (bw d (fst p)) 2) + (st_x s (snd p) + Z.quot (bw d (snd p)) 2)) 2.
Definition set_x (s : pstate) (i : nat) (v : Z) : pstate :=
  PState (fun k => if (k =? i)%nat then v else st_x s k) (st_y s) (st_h s) (st_v s).
(** Lines 2891-2902. *)
Definition round_pair (d : idesign) (s : pstate) (p : nat * nat) : pstate :=
  let '(a, b) := p in
  if st_x s b <? st_x s a then
    let s' := set_x s a (round_up (st_x s a) (i_xp d)) in set_x s' b (round_down (st_x s' b) (i_xp d))
  else
    let s' := set_x s a (round_down (st_x s a) (i_xp d)) in set_x s' b (round_up (st_x s' b) (i_xp d)).
(** Lines 2877-2903; any axis. *)
Definition round_group (d : idesign) (s : pstate) (g : group) : pstate :=
  match g_pairs g with
  | [] => s
  | p :: _ => if Z.rem (center_line d s p) (i_xp d) =? 0 then s else fold_left (round_pair d) (g_pairs g) s
  end.
Definition round_all (f : fdesign) (s : pstate) : pstate :=
  if f_black f then s else fold_left (round_group (f_d f)) (i_syms (f_d f)) s.

(** Lines 2859-2874. *)
Definition by_style (f : fdesign) (s : pstate) (snap : bool) : option pstate :=
  match f_style f with
  | StyleL => frame s true snap None
  | StyleR => frame s false snap None
  | StyleC =>
      match frame s true snap None with
      | None => None
      | Some l =>
          match frame l false snap None with
          | None => Some l
          | Some r => match move_slack (f_d f) r l with Some m => Some m | None => Some l end
          end
      end
  end.
(** Lines 2849-2905. *)
Definition gen_core (f : fdesign) (s : pstate) (snap : bool) : option pstate :=
  let d := f_d f in
  match length (i_blocks d) with
  | 0%nat => None
  | n => if ((n =? 1)%nat && negb (f_off0 f))%bool then Some (PState (fun _ => i_halo_h d) (fun _ => i_halo_v d) (fun _ => 0) (fun _ => 0))
         else option_map (round_all f) (by_style f s snap)
  end.

(** Lines 2920-2927. *)
Definition off_grid (d : idesign) (s : pstate) : bool :=
  existsb (fun i => negb (Z.rem (st_x s i) (i_xp d) =? 0) || negb (Z.rem (st_y s i) (i_yp d) =? 0)) (ids d).
Definition wants_snap (f : fdesign) (s : pstate) : bool :=
  no_offsets (f_d f) && (1 <? length (i_blocks (f_d f)))%nat && off_grid (f_d f) s.
(** Lines 2907-2929. *)
Definition place_all (f : fdesign) (s : pstate) : option pstate :=
  match gen_core f s false with
  | None => None
  | Some s1 => if negb (f_black f) && wants_snap f s1 then gen_core f s1 true else Some s1
  end.
End Solve.

(** Lines 2932-2941. *)
Definition int_max : Z := 2147483647.
Definition int_min : Z := -2147483648.
Definition ur_x (d : idesign) (s : pstate) : Z := fold_left (fun m i => Z.max m (st_x s i + bw d i)) (ids d) int_min.
Definition ur_y (d : idesign) (s : pstate) : Z := fold_left (fun m i => Z.max m (st_y s i + bh d i)) (ids d) int_min.

(** Lines 2947-2951: [double(UR.x) / double(UR.y)] between the bounds; 0/0 is not a number and
    passes both comparisons. *)
Definition ratio_ok (lo hi : Q) (x y : Z) : bool :=
  if y =? 0 then (x =? 0)
  else Qle_bool lo (inject_Z x / inject_Z y)%Q && Qle_bool (inject_Z x / inject_Z y)%Q hi.
(** Lines 2952-2955. *)
Definition fits_box (d : idesign) (x y : Z) : bool :=
  negb ((0 <? i_box_w d) && (i_box_w d <? x)) && negb ((0 <? i_box_h d) && (i_box_h d <? y)).

(** Lines 2993-3010. *)
Definition lower (f : bool) (lo hi size x : Z) : Z := (if f then size - hi else lo) + x.
Definition upper (f : bool) (lo hi size x : Z) : Z := (if f then size - lo else hi) + x.
Record ext := Ext { e_x0 : Z; e_x1 : Z; e_y0 : Z; e_y1 : Z }.
Definition grow (d : idesign) (s : pstate) (e : ext) (ib : nat * pbox) : ext :=
  let '(i, b) := ib in
  let h := negb (st_h s i =? 0) in
  let v := negb (st_v s i =? 0) in
  Ext (Z.min (e_x0 e) (lower h (llx b) (urx b) (bw d i) (st_x s i))) (Z.max (e_x1 e) (upper h (llx b) (urx b) (bw d i) (st_x s i)))
      (Z.min (e_y0 e) (lower v (lly b) (ury b) (bh d i) (st_y s i))) (Z.max (e_y1 e) (upper v (lly b) (ury b) (bh d i) (st_y s i))).
Definition shapes_of (f : fdesign) (net : inet) : list (nat * pbox) :=
  flat_map (fun c => map (fun b => (fst c, b)) (f_shapes f (fst c) (snd c))) (n_conn net).
(** Lines 2960-3014, [HPWL_extend] of one net. *)
Definition net_hpwl (f : fdesign) (s : pstate) (net : inet) : Z :=
  let d := f_d f in
  let e := fold_left (grow d s) (shapes_of f net) (Ext (ur_x d s) 0 (ur_y d s) 0) in
  (e_y1 e - e_y0 e) + (e_x1 e - e_x0 e).
Definition all_hpwl (f : fdesign) (s : pstate) : Z :=
  fold_left (fun t net => if n_float net then t else t + net_hpwl f s net) (i_nets (f_d f)) 0.

(** The coordinates, [UR] and the wire length of a call that does not give -1 here. *)
Definition generate (solve : bool -> bool -> option (nat -> Z * Z) -> (nat -> Z * Z) -> option assign) (f : fdesign) (s : pstate)
  : option (pstate * Z * Z * Z) :=
  match place_all solve f s with
  | None => None
  | Some s' =>
      let x := ur_x (f_d f) s' in
      let y := ur_y (f_d f) s' in
      if ratio_ok (f_lo f) (f_hi f) x y && fits_box (f_d f) x y then Some (s', x, y, all_hpwl f s') else None
  end.
