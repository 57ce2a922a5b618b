(** align/schema/pdk.py:106-119 and 191-250: the layers of a pdk, their electrical connections and the levels written for the detailed router.
    Simplified: the names f'M{i}' and f'V{i}' are numbers, other names strings; of a metal layer only its direction is kept, of a via its stack. *)
From Coq Require Import String.
From Verif Require Import Base.Prelude.

Inductive lname := NM (i : nat) | NV (i : nat) | NO (s : string).
Definition lname_dec (a b : lname) : {a = b} + {a <> b}.
Proof. decide equality; [apply Nat.eq_dec|apply Nat.eq_dec|apply string_dec]. Defined.
Inductive layer := Metal (vertical : bool) | LVia (ml mh : lname).
(** The dict of layers in its order. *)
Definition layers := list (lname * layer).
Definition get_layer (ls : layers) (n : lname) : option layer :=
  match find (fun p => if lname_dec (fst p) n then true else false) ls with Some p => Some (snd p) | None => None end.
(** Lines 107-113. A via has no direction, so that a via in the stack of another one raises. *)
Definition validate_via (ls : layers) : bool :=
  forallb (fun p => match snd p with
    | LVia ml mh => match get_layer ls ml, get_layer ls mh with Some (Metal a), Some (Metal b) => negb (Bool.eqb a b) | _, _ => false end
    | Metal _ => true end) ls.

(** Lines 209-220, [connected_layers], a dict as a function. *)
Definition conn := lname -> option (list lname).
Definition upd (c : conn) (k : lname) (v : list lname) : conn := fun x => if lname_dec x k then Some v else c x.
Definition push (c : conn) (k x : lname) : conn := upd c k (match c k with Some l => l | None => [] end ++ [x]).
Definition conn_step (c : conn) (p : lname * layer) : conn :=
  match snd p with LVia ml mh => push (push (upd c (fst p) [ml; mh]) ml (fst p)) mh (fst p) | Metal _ => c end.
Definition connected (ls : layers) : conn := fold_left conn_step ls (fun _ => None).

(** Lines 226-238 and 240-248: name, level and connections. [None] = KeyError of [connected_layers], or [direction] of a via. *)
Definition write_one (ls : layers) (n : lname) (level : nat) : option (list (lname * nat * list lname)) :=
  match get_layer ls n with
  | None => Some []
  | Some y => match n, y with NM _, LVia _ _ => None | _, _ => match connected ls n with Some l => Some [(n, level, l)] | None => None end end
  end.
Fixpoint write_all (ls : layers) (ns : list lname) (level : nat) : option (list (lname * nat * list lname)) :=
  match ns with
  | [] => Some []
  | n :: t => match write_one ls n level with
              | Some e => match write_all ls t (level + length e) with Some r => Some (e ++ r) | None => None end
              | None => None end
  end.
(** Lines 222-250. *)
Definition adr_layers (ls : layers) : option (list (lname * nat * list lname)) := write_all ls (flat_map (fun i => [NM i; NV i]) (seq 0 99)) 2.
