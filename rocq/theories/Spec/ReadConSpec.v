(** When the constraints of the user can be seen in a placement. *)
From Coq Require Import String ZArith QArith.
From Verif Require Import Base.Prelude Model.Transformation Model.SeqPair Model.ConstraintDB Model.Formulas Model.SeqEnum Model.SymmGroup
  Model.KeepOrder Model.SeqCheck Model.PlaceRows Model.ReadCon Spec.SeqEnumSpec Spec.SymmGroupSpec Spec.SeqCheckSpec Spec.PlaceRowsSpec.
Local Open Scope Z_scope.

(** The box of a block, in half nanometres. *)
Definition box_at (P : placement) (i : nat) : Rect := mkRect (px P i) (py P i) (px P i + pw P i) (py P i + ph P i).
(** The boxes of the blocks by name, and that of the module: from the origin to the halo behind
    the last block (ILP_solver.cpp:5545-5547). *)
Definition last_edge (n : nat) (edge : nat -> Z) (halo w : Z) : Prop :=
  (forall i, (i < n)%nat -> edge i + halo <= w) /\ exists i, (i < n)%nat /\ w = edge i + halo.
Definition seen (names : list string) (d : idesign) (P : placement) (raw : boxes) : Prop :=
  (forall i n, nth_error names i = Some n -> raw n = box_at P i) /\
  exists w h, raw top_name = mkRect 0 0 w h /\
    last_edge (length names) (fun i => px P i + pw P i) (i_halo_h d) w /\ last_edge (length names) (fun i => py P i + ph P i) (i_halo_v d) h.
(** What the check of the placement sees: nanometres (render_placement.py:144-165,
    checker.py:34-68). *)
Definition checked (raw : boxes) : boxes := fun n => scaled 2 (raw n).

(** The names in a constraint. *)
Definition names_in (c : ucon) : list string :=
  match c with
  | UHard (HOrder _ _ xs) | UHard (HAlign _ xs) | UHard (HSpread _ _ xs) | UHard (HGroup _ xs) => xs
  | UHard (HSymm _ ps) => concat ps
  | UHard (HAssign n _) => [n]
  | _ => []
  end.
Definition known (names : list string) (cs : list ucon) : Prop := forall c n, In c cs -> In n (names_in c) -> In n names.
(** Those with a direction or a line that the placer knows. *)
Definition supported (c : ucon) : Prop :=
  match c with
  | UHard (HOrder d _ _) => d <> ORL /\ d <> OBT /\ d <> ONone
  | UHard (HAlign l _) => l <> HAny /\ l <> VAny /\ l <> LNone
  | _ => True
  end.

Definition even_box (r : Rect) : Prop := forall x, lo x r mod 2 = 0 /\ hi x r mod 2 = 0.
(** Sizes that need no rounding, as for C92. *)
Definition symmetric_sizes (raw : boxes) (vert : bool) (ps : list (list string)) : Prop :=
  (forall p, In p ps -> length p = 1%nat \/ length p = 2%nat) /\
  (forall a b, In [a; b] ps -> zsize (negb vert) (raw a) = zsize (negb vert) (raw b)) /\
  exists r, (forall a b, In [a; b] ps -> zsize vert (raw a) mod 4 + zsize vert (raw b) mod 4 = 2 * r) /\
            (forall a, In [a] ps -> zsize vert (raw a) mod 2 = r).
(** Two blocks next to each other in an order with abutment. *)
Definition touching (cs : list ucon) (h : bool) (a b : string) : Prop :=
  exists d xs, In (UHard (HOrder d true xs)) cs /\ In (a, b) (pairwise xs) /\
    if h then d = OLR \/ d = OHoriz else d = OTB \/ d = OVert.
(** What else has to hold for a constraint [c] with [later] ones behind it. *)
Definition fine (cs later : list ucon) (raw : boxes) (c : hcon) : Prop :=
  match c with
  | HOrder _ _ _ => True
  | HAlign l xs =>
      match l with
      | HCenter => (forall a, In a xs -> even_box (raw a)) /\ (forall a b, In a xs -> In b xs -> zsize false (raw a) mod 2 = zsize false (raw b) mod 2)
      | VCenter => (forall a, In a xs -> even_box (raw a)) /\ (forall a b, In a xs -> In b xs -> zsize true (raw a) mod 2 = zsize true (raw b) mod 2)
      | _ => True
      end
  | HSpread h dist xs =>
      NoDup xs /\ (forall a b, In a xs -> In b xs -> ~ touching cs h a b) /\
      (forall dist' ys a b, In (UHard (HSpread h dist' ys)) later -> In a xs -> In b xs -> a <> b -> In a ys -> In b ys -> dist <= dist')
  | HSymm vert ps => (forall a, In a (concat ps) -> even_box (raw a)) /\ symmetric_sizes raw vert ps
  | HBoundary mw mh hh hv =>
      (forall a b c d, ~ In (UHard (HBoundary a b c d)) later) /\
      Forall (fun q => exists z, (inject_Z z == 2000 * q)%Q) [mw; mh; hh; hv]
  | HAssign _ _ | HAspect _ _ | HGroup _ _ => False
  end.

(** The conditions that the placer reads from constraints, as a placement keeps them. *)
Definition in_order (P : placement) (x : dir) (a b : nat) : Prop :=
  match x with DirH => px P a + pw P a <= px P b | DirV => py P b + ph P b <= py P a end.

(** Names, blocks and constraints that make sense. *)
Record usable (names : list string) (scale : Z) (d0 : idesign) (cs : list ucon) : Prop := {
  u_names : NoDup names;
  u_length : length names = length (i_blocks d0);
  u_known : known names cs;
  u_size : forall i, (i < length (i_blocks d0))%nat -> 0 < bw d0 i /\ 0 < bh d0 i;
  u_pitch : 0 < i_xp d0 /\ 0 < i_yp d0;
  u_bias : 0 <= i_bias_h d0 /\ 0 <= i_bias_v d0;
  u_halo : 0 <= i_halo_h d0 /\ 0 <= i_halo_v d0;
  u_scale : 0 < scale;
  u_dist : forall h v z, In (UDist h v z) cs -> 0 <= z;
  u_bound : forall mw mh hh hv, In (UHard (HBoundary mw mh hh hv)) cs -> (0 <= hh /\ 0 <= hv)%Q
}.

(** A placement that the checks accept: blocks with their sizes, in the box and apart, and the
    formulae of all constraints. *)
Definition acceptable (names : list string) (d : idesign) (cs : list ucon) (raw : boxes) : Prop :=
  (forall i n, nth_error names i = Some n -> zsize true (raw n) = bw d i /\ zsize false (raw n) = bh d i) /\
  raw top_name = mkRect 0 0 (i_box_w d) (i_box_h d) /\
  (forall n, In n names -> zinside (raw n) (raw top_name)) /\
  (forall n m, In (n, m) (combos names) -> zapart (raw n) (raw m)) /\
  forall c, In (UHard c) cs -> ztranslate names c (checked raw).
