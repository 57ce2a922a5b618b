(** Specification of nested canvas transforms, without composing transformations. *)
From Verif Require Import Base.Prelude Model.Transformation Model.Canvas.
Local Open Scope Z_scope.

(** A frame is the list of transformations applied to local coordinates, innermost first. *)
Definition frame := list Tr.

(** Move a rectangle through a frame one transformation at a time. *)
Definition through (f : frame) (r : Rect) : Rect := fold_left (fun r t => hitRect t r) f r.

(** Abstract machine: a stack of frames; adding a rectangle emits its image. *)
Record AState := mkA { frames : list frame; out : list (Z * Rect) }.

Definition astep (s : AState) (o : cop) : option AState :=
  match o, frames s with
  | OPush t, f :: _ => Some (mkA ((t :: f) :: frames s) (out s))
  | OHitTop t, f :: rest => Some (mkA ((t :: f) :: rest) (out s))
  | OPop, _ :: ((_ :: _) as rest) => Some (mkA rest (out s))
  | OAdd tag r, f :: _ => Some (mkA (frames s) (out s ++ [(tag, canonical (through f r))]))
  | _, _ => None
  end.

Fixpoint arun (s : AState) (p : list cop) : option AState :=
  match p with
  | [] => Some s
  | o :: tl => match astep s o with Some s' => arun s' tl | None => None end
  end.

(** Programs in which every pop matches an earlier push of the same program. *)
Inductive neutral : list cop -> Prop :=
| n_nil : neutral []
| n_add tag r p : neutral p -> neutral (OAdd tag r :: p)
| n_hit t p : neutral p -> neutral (OHitTop t :: p)
| n_block t p q : neutral p -> neutral q -> neutral (OPush t :: p ++ OPop :: q).
