(** Electrical connection of wires on three layers. *)
From Coq Require Import Relations.
From Verif Require Import Base.Prelude.
Local Open Scope Z_scope.

(** A wire occupies a track from one crossing track to another.  Wires of layers 1 and 3 are vertical, those of layer 2
    horizontal; a via sits at a column and a row. *)
Inductive metal := L1 | L2 | L3.
Record shape := mkSh { sh_layer : metal; sh_track : Z; sh_lo : Z; sh_hi : Z }.
Record layout := mkLay { shapes : list shape; vias12 : list (Z * Z); vias23 : list (Z * Z) }.
(** Wires on one track that meet. *)
Definition touch (a b : shape) : Prop := sh_layer a = sh_layer b /\ sh_track a = sh_track b /\ exists t, sh_lo a <= t <= sh_hi a /\ sh_lo b <= t <= sh_hi b.
(** A via at column [x], row [y] joins a vertical wire [v] and a horizontal wire [h]. *)
Definition at_via (x y : Z) (v h : shape) : Prop := sh_track v = x /\ sh_lo v <= y <= sh_hi v /\ sh_track h = y /\ sh_lo h <= x <= sh_hi h.
Definition joined (l : layout) (a b : shape) : Prop :=
  (exists x y, In (x, y) (vias12 l) /\ sh_layer a = L1 /\ sh_layer b = L2 /\ at_via x y a b) \/
  (exists x y, In (x, y) (vias23 l) /\ sh_layer a = L3 /\ sh_layer b = L2 /\ at_via x y a b).
Definition adjacent (l : layout) (a b : shape) : Prop := In a (shapes l) /\ In b (shapes l) /\ (touch a b \/ joined l a b \/ joined l b a).
Definition connected (l : layout) : shape -> shape -> Prop := clos_refl_trans shape (adjacent l).
