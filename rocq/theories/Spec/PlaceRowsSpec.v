(** What a placement of the blocks of a design has to keep. *)
From Coq Require Import ZArith QArith.
From Verif Require Import Base.Prelude Model.SeqEnum Model.SymmGroup Model.KeepOrder Model.SeqCheck Model.PlaceRows
  Spec.SeqEnumSpec Spec.SymmGroupSpec Spec.SeqCheckSpec.
Local Open Scope Z_scope.

(** A placement with the flips of the blocks (0 or 1). *)
Record flipped := Flipped { fp : placement; fh : nat -> Z; fv : nat -> Z }.
Definition solved (d : idesign) (a : assign) : flipped :=
  Flipped (Placement (fun i => a_int a (VX i)) (fun i => a_int a (VY i)) (bw d) (bh d)) (fun i => a_int a (VH i)) (fun i => a_int a (VV i)).

(** A distance that keeps the spacing: the one of the two blocks, and the general one in whole
    pitches. *)
Definition far_enough (spread bias pitch g : Z) : Prop := spread <= g /\ exists m, bias <= m * pitch <= g.

(** [a] is left of [b]: at the required distance, or touching it if the two abut. *)
Definition apart_h (d : idesign) (P : placement) (a b : nat) : Prop :=
  let g := px P b - (px P a + pw P a) in
  (In (a, b, DirH) (i_abuts d) -> g = 0) /\
  (~ In (a, b, DirH) (i_abuts d) -> far_enough (i_spread d a b true) (i_bias_h d) (i_xp d) g).
(** [a] is above [b]. *)
Definition apart_v (d : idesign) (P : placement) (a b : nat) : Prop :=
  let g := py P a - (py P b + ph P b) in
  (In (a, b, DirV) (i_abuts d) -> g = 0) /\
  (~ In (a, b, DirV) (i_abuts d) -> far_enough (i_spread d a b false) (i_bias_v d) (i_yp d) g).
Definition apart (d : idesign) (pos neg : list nat) (P : placement) : Prop :=
  forall a b, (a < length (i_blocks d))%nat -> (b < length (i_blocks d))%nat ->
    (left_of pos neg a b -> apart_h d P a b) /\ (above pos neg a b -> apart_v d P a b).

Definition overlap (P : placement) (a b : nat) : Prop :=
  px P a < px P b + pw P b /\ px P b < px P a + pw P a /\ py P a < py P b + ph P b /\ py P b < py P a + ph P a.

(** The flips are those allowed, and those of a mirrored pair. *)
Definition flip_ok (want f : Z) : Prop := (f = 0 \/ f = 1) /\ (want = 1 -> f = 0) /\ (want = -1 -> f = 1).
Definition flips_ok (d : idesign) (F : flipped) : Prop :=
  (forall i, (i < length (i_blocks d))%nat -> flip_ok (b_xflip (blk d i)) (fh F i) /\ flip_ok (b_yflip (blk d i)) (fv F i)) /\
  (forall g a b, In g (i_syms d) -> In (a, b) (g_pairs g) ->
     match g_axis g with
     | DirV => fh F a + fh F b = 1 /\ fv F a = fv F b
     | DirH => fv F a + fv F b = 1 /\ fh F a = fh F b
     end).

(** The origin of a block, at the flipped edge, is at one of the offsets of a grid. *)
Definition on_offset (pitch : Z) (off : list Z) (x : Z) : Prop :=
  off = [] \/ exists n o, 0 <= n /\ In o off /\ x = pitch * n + o.
Definition on_offsets (d : idesign) (F : flipped) : Prop :=
  forall i, (i < length (i_blocks d))%nat ->
    on_offset (b_xpitch (blk d i)) (b_xoff (blk d i)) (if fh F i =? 1 then px (fp F) i + pw (fp F) i else px (fp F) i) /\
    on_offset (b_ypitch (blk d i)) (b_yoff (blk d i)) (if fv F i =? 1 then py (fp F) i + ph (fp F) i else py (fp F) i).

(** Inside the box, but for the halo. *)
Definition inside (d : idesign) (P : placement) : Prop :=
  forall i, (i < length (i_blocks d))%nat ->
    i_halo_h d <= px P i /\ px P i + pw P i <= i_box_w d - i_halo_h d /\
    i_halo_v d <= py P i /\ py P i + ph P i <= i_box_h d - i_halo_v d.

Definition ordered (d : idesign) (P : placement) : Prop :=
  forall a b x, In (a, b, x) (i_orders d) ->
    match x with DirH => px P a + pw P a <= px P b | DirV => py P b + ph P b <= py P a end.

(** Everything that a placement has to keep. *)
Definition legal (d : idesign) (pos neg : list nat) (F : flipped) : Prop :=
  inside d (fp F) /\ flips_ok d F /\ on_offsets d F /\ apart d pos neg (fp F) /\
  (forall g, In g (i_syms d) -> mirrored (fp F) g) /\ (forall u, In u (i_aligns d) -> in_line (fp F) u).

(** Sizes that make a symmetric group possible without rounding: across the axis, the rests by
    four of the two blocks of each pair, and those by two of the self-symmetric ones, agree. *)
Definition balanced (sz : nat -> Z) (g : group) : Prop :=
  exists r, (forall a b, In (a, b) (g_pairs g) -> sz a mod 4 + sz b mod 4 = 2 * r) /\
            (forall a, In a (map fst (g_self g)) -> sz a mod 2 = r).
Definition across (d : idesign) (g : group) : nat -> Z := match g_axis g with DirV => bw d | DirH => bh d end.
Definition along (d : idesign) (g : group) : nat -> Z := match g_axis g with DirV => bh d | DirH => bw d end.
Definition twins (d : idesign) (g : group) : Prop := forall a b, In (a, b) (g_pairs g) -> along d g a = along d g b.
(** Blocks that can have their middles on one line. *)
Definition same_rest (d : idesign) (u : align) : Prop :=
  al_line u = 1%nat -> forall a b, In a (al_blocks u) -> In b (al_blocks u) ->
    if al_hor u then bh d a mod 2 = bh d b mod 2 else bw d a mod 2 = bw d b mod 2.

(** The design is made of its own blocks, with sizes and spacings that make sense. *)
Record sane (d : idesign) : Prop := {
  s_size : forall i, (i < length (i_blocks d))%nat -> 0 < bw d i /\ 0 < bh d i;
  s_pitch : 0 < i_xp d /\ 0 < i_yp d;
  s_bias : 0 <= i_bias_h d /\ 0 <= i_bias_v d;
  s_halo : 0 <= i_halo_h d /\ 0 <= i_halo_v d;
  s_spread : forall a b x, i_spread d a b x = i_spread d b a x;
  s_syms : forall g x a, In g (i_syms d) -> In x (elems g) -> In a (elt_blocks x) -> (a < length (i_blocks d))%nat;
  s_aligns : forall u a, In u (i_aligns d) -> In a (al_blocks u) -> (a < length (i_blocks d))%nat;
  s_lines : forall u, In u (i_aligns d) -> (al_line u <= 2)%nat;
  s_orders : forall a b x, In (a, b, x) (i_orders d) -> (a < length (i_blocks d))%nat /\ (b < length (i_blocks d))%nat
}.

(** Where a pin is, along one coordinate. *)
Definition span (lo hi size x f : Z) : Z * Z := if f =? 1 then (x + size - hi, x + size - lo) else (x + lo, x + hi).
Definition within_box (d : idesign) (F : flipped) (a : assign) : Prop :=
  forall k net i pin p, nth_error (i_nets d) k = Some net -> n_float net = false -> In (i, pin) (n_conn net) ->
    (i < length (i_blocks d))%nat -> nth_error (b_pins (blk d i)) pin = Some p -> llx p <= urx p -> lly p <= ury p ->
    let '(x0, x1) := span (llx p) (urx p) (bw d i) (px (fp F) i) (fh F i) in
    let '(y0, y1) := span (lly p) (ury p) (bh d i) (py (fp F) i) (fv F i) in
    (a_real a (VNet k 0) <= inject_Z x0)%Q /\ (a_real a (VNet k 1) <= inject_Z y0)%Q /\
    (inject_Z x1 <= a_real a (VNet k 2))%Q /\ (inject_Z y1 <= a_real a (VNet k 3))%Q.

(** The pins are on their blocks. *)
Definition pins_on (d : idesign) : Prop :=
  forall i p, (i < length (i_blocks d))%nat -> In p (b_pins (blk d i)) -> 0 <= llx p /\ urx p <= bw d i /\ 0 <= lly p /\ ury p <= bh d i.

(** The same design for the tests of C91, with the groups made of the constraints. *)
Definition as_checked (d : idesign) (cp : nat -> option nat) : cdesign :=
  CDesign (length (i_blocks d)) (construct (i_syms d)) (i_syms d) (i_aligns d) (i_abuts d) cp (bw d) (i_xp d).
