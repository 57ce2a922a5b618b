(** The stem of a path and the variants of a block. *)
From Coq Require Import String Ascii.
From Verif Require Import Base.Prelude.
Local Open Scope string_scope.

Definition free (c : ascii) (s : string) : Prop := ~ exists a b, s = a ++ String c b.
(** The name after the last slash, without its last extension. *)
Definition file_stem (s r : string) : Prop :=
  exists dir name, s = dir ++ name /\ (dir = "" \/ exists d, dir = d ++ "/") /\ free "/" name /\
    (free "." name /\ r = name \/ exists ext, name = r ++ "." ++ ext /\ free "." ext).
(** The files that the map gives for a key, in its order. *)
Fixpoint files (ps : list (string * string)) (k : string) : list string :=
  match ps with [] => [] | p :: ps => if string_dec (fst p) k then snd p :: files ps k else files ps k end.
(** x is a part of s. *)
Definition part (x s : string) : Prop := exists a b, s = a ++ x ++ b.
