(** Rectangles as sets of points. *)
From Coq Require Import ZArith.
From Verif Require Import Base.Prelude Model.HananGeom.
Local Open Scope Z_scope.

Definition sane (r : rect) : Prop := xmin r <= xmax r /\ ymin r <= ymax r.
Definition inside (r : rect) (x y : Z) : Prop := xmin r <= x <= xmax r /\ ymin r <= y <= ymax r.
Definition within (a b : rect) : Prop := forall x y, inside a x y -> inside b x y.
Definition covered (rs : list rect) (x y : Z) : Prop := exists r, In r rs /\ inside r x y.
(** The same for points between the integers: the unit square up and right of x, y. *)
Definition square (r : rect) (x y : Z) : Prop := xmin r <= x < xmax r /\ ymin r <= y < ymax r.
Definition filled (rs : list rect) (x y : Z) : Prop := exists r, In r rs /\ square r x y.
Definition on (l : layers) (k : Z) : list rect := match l k with Some rs => rs | None => [] end.
Definition given (l : list (Z * list rect)) (k : Z) : list rect := flat_map (fun p => if fst p =? k then snd p else []) l.
(** The smallest one of a kind that contains [r]. *)
Definition smallest (P : rect -> Prop) (a : rect) : Prop := P a /\ forall b, P b -> within a b.
