(** The eight orientations as matrices: quarter turns, and a mirror at the vertical axis after a turn.
    A cell of size w, h is placed with its lower left corner at a given point. *)
From Verif Require Import Base.Prelude.
Local Open Scope Z_scope.

Definition mat : Type := (Z * Z) * (Z * Z).
Definition mmul (a b : mat) : mat :=
  let '((a11, a12), (a21, a22)) := a in let '((b11, b12), (b21, b22)) := b in
  ((a11 * b11 + a12 * b21, a11 * b12 + a12 * b22), (a21 * b11 + a22 * b21, a21 * b12 + a22 * b22)).
Definition mapp (a : mat) (p : Z * Z) : Z * Z :=
  let '((a11, a12), (a21, a22)) := a in (a11 * fst p + a12 * snd p, a21 * fst p + a22 * snd p).
Definition m_one : mat := ((1, 0), (0, 1)).
Definition m_turn : mat := ((0, -1), (1, 0)).   (* counter-clockwise *)
Definition m_flip : mat := ((-1, 0), (0, 1)).
Fixpoint turns (n : nat) : mat := match n with O => m_one | Datatypes.S n => mmul m_turn (turns n) end.

(** The lower left corner of the turned cell, and the placement *)
Definition low_corner (m : mat) (w h : Z) : Z * Z :=
  let cs := map (mapp m) [(0, 0); (w, 0); (0, h); (w, h)] in
  (fold_right Z.min 0 (map fst cs), fold_right Z.min 0 (map snd cs)).
Definition place (m : mat) (w h : Z) (t p : Z * Z) : Z * Z :=
  (fst (mapp m p) - fst (low_corner m w h) + fst t, snd (mapp m p) - snd (low_corner m w h) + snd t).

Definition inside (p : Z * Z) (b : (Z * Z) * (Z * Z)) : Prop :=
  fst (fst b) <= fst p <= fst (snd b) /\ snd (fst b) <= snd p <= snd (snd b).
