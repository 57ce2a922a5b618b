(** Vocabulary for the statements about the design-rule checker. *)
From Coq Require Import String Ascii.
From Verif Require Import Base.Prelude Model.Transformation Model.RemoveDuplicates Spec.RemoveDuplicatesSpec.
Local Open Scope Z_scope.

(** A wire is exempt when some 'Boundary' rectangle encloses it. *)
Definition exempt (regions : list Rect) (r : Rect) : Prop := exists b, In b regions /\ inside r b.

(** The wires of a track in order, with a positive gap between any two. *)
Definition separated (d : sdir) (l : list Rect) : Prop :=
  StronglySorted (fun a b => end_of d a < start_of d b) l /\ (forall r, In r l -> start_of d r <= end_of d r).

(** The wires of a track in order, overlapping nowhere (they may touch). *)
Definition ordered (d : sdir) (l : list Rect) : Prop :=
  StronglySorted (fun a b => end_of d a <= start_of d b) l /\ (forall r, In r l -> start_of d r <= end_of d r).

(** A sequence of grid positions going up by one. *)
Fixpoint consecutive (l : list Z) : Prop :=
  match l with
  | a :: ((b :: _) as tl) => b = a + 1 /\ consecutive tl
  | _ => True
  end.

(** Layers the checker looks at: names starting with V or M. *)
Definition checked (layer : string) : Prop := exists tl, layer = String "V"%char tl \/ layer = String "M"%char tl.
