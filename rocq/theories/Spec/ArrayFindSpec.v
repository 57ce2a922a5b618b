(** Levels of an array search, defined on sets of nodes. *)
From Coq Require Import String.
From Verif Require Import Base.Prelude Model.ArraySearch.

Section Levels.
  (** Nodes never entered, and the first nodes of the rows. *)
  Variables (G : agraph) (avoid group : list string).
  (** [x] is reached from the current level [here] and was not reached before. *)
  Definition fresh_nbr (here seen : string -> Prop) (x : string) : Prop :=
    exists n, here n /\ In x (a_nb G n) /\ a_sd G n x = true /\ ~ In x avoid /\ ~ seen x.
  (** The nodes at distance [k] from [a], and the nodes at distance at most [k] from some node of the group. *)
  Fixpoint levels (k : nat) : (string -> string -> Prop) * (string -> Prop) :=
    match k with
    | O => (fun a x => In a group /\ x = a, fun x => In x group)
    | Datatypes.S k => (fun a x => fresh_nbr (fst (levels k) a) (snd (levels k)) x,
                        fun x => snd (levels k) x \/ exists a, fresh_nbr (fst (levels k) a) (snd (levels k)) x)
    end.
  Definition level (k : nat) (a x : string) : Prop := fst (levels k) a x.
  (** The names that are compared: of the element, or "net". *)
  Definition kind (x : string) : string := match a_el G x with Some m => m | None => "net"%string end.
  (** Two nodes of the group meet in an element. *)
  Definition meet (k : nat) : Prop := exists a b x, a <> b /\ level k a x /\ level k b x /\ a_el G x <> None.
  (** Two nodes of the group go on with different kinds of nodes. *)
  Definition differ (k : nat) : Prop := exists a b la lb, la <> [] /\ lb <> [] /\ (forall x, In x la <-> level k a x) /\ (forall x, In x lb <-> level k b x) /\ ~ Permutation (map kind la) (map kind lb).
End Levels.

(** [x] is in exactly one place of the rows, and not in [sub]. *)
Definition once (rows : list (list string)) (sub : list string) (x : string) : Prop := count_occ string_dec (concat rows) x = 1%nat /\ ~ In x sub.
