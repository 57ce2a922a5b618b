(** What it means that a sequence pair has a placement. *)
From Coq Require Import ZArith.
From Verif Require Import Base.Prelude Model.SeqEnum Model.SymmGroup Model.KeepOrder Model.SeqCheck Spec.SeqEnumSpec Spec.SymmGroupSpec.
Local Open Scope Z_scope.

(** A rectangle for each block: lower left corner and size. *)
Record placement := Placement { px : nat -> Z; py : nat -> Z; pw : nat -> Z; ph : nat -> Z }.

(** The rectangles lie as the sequence pair says. *)
Definition realizes (n : nat) (pos neg : list nat) (P : placement) : Prop :=
  forall a b, (a < n)%nat -> (b < n)%nat -> 0 < pw P a /\ 0 < ph P a /\
    (left_of pos neg a b -> px P a + pw P a <= px P b) /\ (above pos neg a b -> py P b + ph P b <= py P a).

(** Twice the center. *)
Definition cx (P : placement) (a : nat) : Z := 2 * px P a + pw P a.
Definition cy (P : placement) (a : nat) : Z := 2 * py P a + ph P a.

(** The pairs are mirrored about one axis, which goes through the self-symmetric blocks. *)
Definition mirrored (P : placement) (g : group) : Prop :=
  exists axis, forall x, In x (elems g) ->
    match g_axis g, x with
    | DirV, EPair (a, b) => py P a = py P b /\ ph P a = ph P b /\ cx P a + cx P b = 2 * axis
    | DirV, ESelf (a, _) => cx P a = axis
    | DirH, EPair (a, b) => px P a = px P b /\ pw P a = pw P b /\ cy P a + cy P b = 2 * axis
    | DirH, ESelf (a, _) => cy P a = axis
    end.

(** Blocks are aligned at an edge or in the middle. *)
Definition on_line (P : placement) (u : align) (a : nat) : Z :=
  match al_hor u, al_line u with
  | true, 0%nat => 2 * py P a | true, 1%nat => cy P a | true, _ => 2 * (py P a + ph P a)
  | false, 0%nat => 2 * px P a | false, 1%nat => cx P a | false, _ => 2 * (px P a + pw P a)
  end.
Definition in_line (P : placement) (u : align) : Prop :=
  forall a b, In a (al_blocks u) -> In b (al_blocks u) -> on_line P u a = on_line P u b.

(** The sequence pair has a placement with the constraints of the design. *)
Definition fits (d : cdesign) (pos neg : list nat) (P : placement) : Prop :=
  realizes (c_blocks d) pos neg P /\
  (forall g, In g (c_groups d) -> mirrored P g) /\ (forall g, In g (c_syms d) -> mirrored P g) /\
  (forall u, In u (c_aligns d) -> in_line P u).

(** The sequences hold each block once, and the constraints speak of blocks. *)
Definition sequences (n : nat) (pos neg : list nat) : Prop :=
  NoDup pos /\ NoDup neg /\ forall a, (a < n)%nat -> In a pos /\ In a neg.
Definition within (d : cdesign) : Prop :=
  (forall g x a, In g (c_groups d) \/ In g (c_syms d) -> In x (elems g) -> In a (elt_blocks x) -> (a < c_blocks d)%nat) /\
  (forall u a, In u (c_aligns d) -> In a (al_blocks u) -> (a < c_blocks d)%nat).

(** Symmetric blocks that are abutted side by side have an even width in grid units. *)
Definition abut_even (d : cdesign) : Prop :=
  forall a b, In (a, b, DirH) (c_abuts d) -> c_cp d a = Some b ->
    exists k, c_width d a + c_width d b = k * (4 * c_grid d).

(** One pair is between the blocks of the other, in the vertical direction. *)
Definition nested (pos neg : list nat) (p q : nat * nat) : Prop :=
  exists a b c d, (p = (a, b) \/ p = (b, a)) /\ (q = (c, d) \/ q = (d, c)) /\
    ((above pos neg a c /\ above pos neg d b) \/ (above pos neg c a /\ above pos neg b d)).
Definition two_of {A} (l : list A) (p q : A) : Prop := exists l1 l2 l3, l = l1 ++ p :: l2 ++ q :: l3.
Definition none_nested (d : cdesign) (pos neg : list nat) : Prop :=
  forall g p q, In g (c_groups d) -> g_axis g = DirH -> two_of (g_pairs g) p q -> ~ nested pos neg p q.
