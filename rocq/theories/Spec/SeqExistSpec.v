(** When a placement is within reach of the placer, which searches among sequence pairs. *)
From Coq Require Import ZArith.
From Verif Require Import Base.Prelude Model.SeqEnum Model.SymmGroup Model.KeepOrder Model.SeqCheck Model.PlaceRows
  Spec.SeqEnumSpec Spec.SymmGroupSpec Spec.SeqCheckSpec Spec.PlaceRowsSpec.
Local Open Scope Z_scope.

(** Any two of the [n] blocks are at the distance [rh] side by side or [rv] one above the other. *)
Definition spaced (n : nat) (rh rv : Z) (P : placement) : Prop :=
  forall a b, (a < n)%nat -> (b < n)%nat -> a <> b ->
    px P a + pw P a + rh <= px P b \/ px P b + pw P b + rh <= px P a \/
    py P a + ph P a + rv <= py P b \/ py P b + ph P b + rv <= py P a.

(** Two ordered blocks face each other: some line across the order goes through both. *)
Definition facing (P : placement) (o : ordering) : Prop :=
  let a := fst (fst o) in let b := snd (fst o) in
  match snd o with
  | DirH => px P a + pw P a <= px P b /\ py P a < py P b + ph P b /\ py P b < py P a + ph P a
  | DirV => py P b + ph P b <= py P a /\ px P a < px P b + pw P b /\ px P b < px P a + pw P a
  end.

(** A placement of the blocks of the design [d], whatever sequence pair it belongs to: spaced, with ordered blocks that
    face each other, and with the constraints of the design. *)
Definition well_placed (d : idesign) (rh rv : Z) (F : flipped) : Prop :=
  let P := fp F in
  (forall i, pw P i = bw d i /\ ph P i = bh d i) /\
  spaced (length (i_blocks d)) rh rv P /\
  (forall o, In o (i_orders d) -> facing P o) /\
  (forall a b, In (a, b, DirH) (i_abuts d) -> px P a + pw P a = px P b) /\
  inside d P /\ flips_ok d F /\ on_offsets d F /\
  (forall g, In g (i_syms d) -> mirrored P g) /\ (forall u, In u (i_aligns d) -> in_line P u).

(** A distance that is enough for all pairs of blocks. *)
Definition enough (d : idesign) (rh rv : Z) : Prop :=
  (forall a b, i_spread d a b true <= rh /\ i_spread d a b false <= rv) /\
  (exists m, i_bias_h d <= m * i_xp d <= rh) /\ (exists m, i_bias_v d <= m * i_yp d <= rv).

(** The other conditions under which C92 is exact. *)
Record exact (d : idesign) : Prop := {
  e_sane : sane d;
  e_pins : pins_on d;
  e_nets : forall net c, In net (i_nets d) -> In c (n_conn net) -> (fst c < length (i_blocks d))%nat;
  e_syms : forall g, In g (i_syms d) -> twins d g /\ balanced (across d g) g;
  e_aligns : forall u, In u (i_aligns d) -> same_rest d u;
  e_abuts : incl (i_abuts d) (i_orders d);
  e_stack : forall x y, In (x, y, DirV) (i_orders d) -> ~ In (x, y, DirV) (i_abuts d);
  e_bias : forall g, (exists m, i_bias_v d <= m * i_yp d <= g) -> exists m, i_bias_h d <= m * i_xp d <= g
}.

(** The same positions and flips. *)
Definition same_place (F G : flipped) : Prop :=
  forall i, px (fp F) i = px (fp G) i /\ py (fp F) i = py (fp G) i /\ fh F i = fh G i /\ fv F i = fv G i.
