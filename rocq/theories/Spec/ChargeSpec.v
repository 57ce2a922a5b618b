(** Splitting the pin currents of a net into currents between pairs of pins. *)
From Coq Require Import String QArith.
From Verif Require Import Base.Prelude.
Local Open Scope Q_scope.

(** The pins of a net with their currents at one time; into the net is positive. *)
Notation reading := (list (string * Q)).

Fixpoint total (l : list Q) : Q := match l with [] => 0 | x :: tl => x + total tl end.

(** Kirchhoff's current law. *)
Definition balanced (r : reading) : Prop := total (map snd r) == 0.

(** [f a b] flows from [a] to [b]: only from pins that supply current to pins that draw it. *)
Definition directed (r : reading) (f : string -> string -> Q) : Prop :=
  forall a b, 0 <= f a b /\ (~ f a b == 0 -> exists x y, In (a, x) r /\ In (b, y) r /\ 0 < x /\ y < 0).

(** Every drawing pin gets its current. *)
Definition drawn (r : reading) (f : string -> string -> Q) : Prop :=
  forall b y, In (b, y) r -> y < 0 -> total (map (fun a => f a b) (map fst r)) == - y.

(** Every supplying pin gives its current away. *)
Definition supplied (r : reading) (f : string -> string -> Q) : Prop :=
  forall a x, In (a, x) r -> 0 <= x -> total (map (f a) (map fst r)) == x.

(** The mean square over time of a piecewise constant current, the current of an interval being the mean of its
    two ends. *)
Inductive mean_square : list Q -> list Q -> Q -> Prop :=
| MS0 t c : mean_square [t] [c] 0
| MSn t t' ts c c' cs s : mean_square (t' :: ts) (c' :: cs) s ->
    mean_square (t :: t' :: ts) (c :: c' :: cs) ((t' - t) * ((c + c') / 2) * ((c + c') / 2) + s).

(** The reading at a time, from the currents of every pin over time. *)
Definition reading_at (i : nat) (pc : list (string * list Q)) : reading := map (fun x => (fst x, nth i (snd x) 0)) pc.
