(** Specification of a periodic grid: which coordinates carry a line. *)
From Verif Require Import Base.Prelude Model.Grid.
Local Open Scope Z_scope.

(** [coord g p w f c]: line number [f] (0..n) of period copy [w] sits at coordinate [c],
    where [p] is the period length. *)
Definition coord (g : Grid) (p w f c : Z) : Prop :=
  0 <= f /\ exists c0 a, nth_error (grid g) (Z.to_nat f) = Some (c0, a) /\ c = c0 + w * p.

(** The grid is periodic with a positive period [p] and all its lines lie within one period. *)
Definition periodic (g : Grid) (p : Z) : Prop :=
  0 < p /\ exists c0 a0 tl, grid g = (c0, a0) :: tl /\
    (exists l aN, grid g = l ++ [(c0 + p, aN)]) /\
    (forall c a, In (c, a) (grid g) -> c0 <= c <= c0 + p).

(** Lines strictly increase with their number. *)
Definition increasing (g : Grid) : Prop :=
  StronglySorted (fun a b => fst a < fst b) (grid g).

(** Coordinate [x] carries some grid line. *)
Definition on_line (g : Grid) (p x : Z) : Prop := exists w f, coord g p w f x.
