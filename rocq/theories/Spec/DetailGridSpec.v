(** What the grid of the detailed router has to be, stated with the lines of the metals and the boxes of the tracks. *)
From Coq Require Import ZArith.
From Verif Require Import Base.Prelude Model.AStar Model.DetailGrid Spec.AStarSpec.
Local Open Scope Z_scope.

(** Positive units, offsets below the unit, no negative coordinates, and directions that alternate. *)
Record proper (a : args) : Prop := {
  pr_unit : forall m, 0 < unit (dr a) m;
  pr_off : forall m, 0 <= off (dr a) m < unit (dr a) m;
  pr_vert : forall m, vert (dr a) (m + 1) = negb (vert (dr a) m);
  pr_chip : 0 <= ax0 a /\ 0 <= ay0 a }.
Definition on_line (d : pdk) (m z : Z) : Prop := exists k, z = off d m + k * unit d m.
(** A line of a metal next to m. *)
Definition crosses (d : pdk) (m z : Z) : Prop :=
  if m =? 0 then on_line d (m + 1) z else if m =? layers d - 1 then on_line d (m - 1) z else on_line d (m - 1) z \/ on_line d (m + 1) z.
Definition crossing (d : pdk) (m x y : Z) : Prop := if vert d m then on_line d m x /\ crosses d m y else on_line d m y /\ crosses d m x.
Definition inside (b : box) (x y : Z) : Prop := bx0 b <= x <= bx1 b /\ by0 b <= y <= by1 b.
Definition aligned (a : args) (m : Z) (p : nat * nat) : Prop :=
  if vert (dr a) m then tx (gr a) (fst p) = tx (gr a) (snd p) else ty (gr a) (fst p) = ty (gr a) (snd p).
(** A node at a place. *)
Definition sits (vs : list vertex) (u : nat) (m x y : Z) : Prop := exists v, nth_error vs u = Some v /\ metal v = m /\ vx v = x /\ vy v = y.
(** Two places of a line with no crossing between them. *)
Definition follows (d : pdk) (m x y x' y' : Z) : Prop :=
  if vert d m then x = x' /\ y < y' /\ forall z, y < z < y' -> ~ crosses d m z else y = y' /\ x < x' /\ forall z, x < z < x' -> ~ crosses d m z.
(** The nodes u and v are joined, in this order. *)
Definition joined (d : pdk) (m : Z) (n n' : vertex) (u v : nat) : Prop :=
  if vert d m then In v (AStar.north n) /\ In u (AStar.south n') else In v (AStar.east n) /\ In u (AStar.west n').

(** A tile of the global path. *)
Definition used (a : args) (l x y : nat) : Prop := exists i, In i (tiles a) /\ tlayer (gr a) i = l /\ txi (gr a) i = x /\ tyi (gr a) i = y.
(** Places name tiles, and indices are within their ranges. *)
Record placed (a : args) : Prop := {
  pl_one : forall i i', In i (tiles a) -> In i' (tiles a) -> tlayer (gr a) i = tlayer (gr a) i' -> txi (gr a) i = txi (gr a) i' -> tyi (gr a) i = tyi (gr a) i' -> i = i';
  pl_in : forall i, In i (tiles a) -> (tlayer (gr a) i < layer_num (gr a) /\ txi (gr a) i <= max_x (gr a) /\ tyi (gr a) i <= max_y (gr a))%nat }.
(** A longest run of tiles in a column or row of a layer with the metal. *)
Definition longest (a : args) (m : Z) (s e : nat) : Prop :=
  let g := gr a in In s (tiles a) /\ In e (tiles a) /\ tlayer g s = tlayer g e /\ In m (metals g (tlayer g s)) /\
  if vert (dr a) m
  then txi g s = txi g e /\ (tyi g s <= tyi g e)%nat /\ (forall y, (tyi g s <= y <= tyi g e)%nat -> used a (tlayer g s) (txi g s) y) /\
       (forall y, S y = tyi g s -> ~ used a (tlayer g s) (txi g s) y) /\ ~ used a (tlayer g s) (txi g s) (S (tyi g e))
  else tyi g s = tyi g e /\ (txi g s <= txi g e)%nat /\ (forall x, (txi g s <= x <= txi g e)%nat -> used a (tlayer g s) x (tyi g s)) /\
       (forall x, S x = txi g s -> ~ used a (tlayer g s) x (tyi g s)) /\ ~ used a (tlayer g s) (S (txi g e)) (tyi g s).
(** The tiles of a column (row) have one place in x (y) and go up with their index. *)
Record regular (a : args) : Prop := {
  rg_col : forall i i', In i (tiles a) -> In i' (tiles a) -> txi (gr a) i = txi (gr a) i' -> tx (gr a) i = tx (gr a) i' /\ tw (gr a) i = tw (gr a) i';
  rg_row : forall i i', In i (tiles a) -> In i' (tiles a) -> tyi (gr a) i = tyi (gr a) i' -> ty (gr a) i = ty (gr a) i' /\ th (gr a) i = th (gr a) i';
  rg_up : forall i i', In i (tiles a) -> In i' (tiles a) -> (tyi (gr a) i <= tyi (gr a) i')%nat ->
    ty (gr a) i - Z.quot (th (gr a) i) 2 <= ty (gr a) i' - Z.quot (th (gr a) i') 2 /\ ty (gr a) i + Z.quot (th (gr a) i) 2 <= ty (gr a) i' + Z.quot (th (gr a) i') 2;
  rg_right : forall i i', In i (tiles a) -> In i' (tiles a) -> (txi (gr a) i <= txi (gr a) i')%nat ->
    tx (gr a) i - Z.quot (tw (gr a) i) 2 <= tx (gr a) i' - Z.quot (tw (gr a) i') 2 /\ tx (gr a) i + Z.quot (tw (gr a) i) 2 <= tx (gr a) i' + Z.quot (tw (gr a) i') 2 }.
(** No two nodes of a metal at one place. *)
Definition single (vs : list vertex) : Prop := forall u v m x y, sits vs u m x y -> sits vs v m x y -> u = v.
(** A point is blocked: no later list opens it. *)
Definition blocked (es : list edit) (m x y : Z) : Prop :=
  exists l1 pl l2, es = l1 ++ Block pl :: l2 /\ In (x, y) (pl m) /\ forall pl', In (Open pl') l2 -> ~ In (x, y) (pl' m).
Definition no_via (es : list edit) (up : bool) (m x y : Z) : Prop := exists pl, In (NoVia pl up) es /\ In (x, y) (pl m).
(** No crossing is in two tracks of its metal. *)
Definition apart (a : args) : Prop := forall m p p' x y, In p (tracks a m) -> In p' (tracks a m) -> crossing (dr a) m x y -> inside (track_box a p) x y -> inside (track_box a p') x y -> p = p'.
(** Only the flags differ. *)
Definition fixed (v w : vertex) : Prop :=
  vx w = vx v /\ vy w = vy v /\ metal w = metal v /\ AStar.north w = AStar.north v /\ AStar.south w = AStar.south v /\ AStar.east w = AStar.east v /\ AStar.west w = AStar.west v /\ AStar.up w = AStar.up v /\ AStar.down w = AStar.down v.
