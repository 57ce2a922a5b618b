(** What a constraint says once a group of instances is one instance. *)
From Coq Require Import String.
From Verif Require Import Base.Prelude Model.Hier Model.Netlist Model.UpdateConst.

(** The members of a list that are not in the group. *)
Definition others (K l : list string) : list string := filter (fun x => if in_dec string_dec x K then false else true) l.
(** One member of the group becomes the new instance and the others disappear. *)
Definition collapsed (K : list string) (new k : string) (l l' : list string) : Prop :=
  exists p s, l = p ++ k :: s /\ l' = others K p ++ new :: others K s.
(** [x] comes before [y]. *)
Definition before (l : list string) (x y : string) : Prop := exists a b c, l = a ++ x :: b ++ y :: c.
(** Where an instance goes. *)
Definition goes (K : list string) (new x : string) : string := if in_dec string_dec x K then new else x.
(** The net of the child a pin of a grouped element is on. *)
Definition child_net (c : sub) (ci q n : string) : Prop := exists e, In e (sb_elems c) /\ e_name e = ci /\ In (q, n) (e_pins e).
(** Where a pin goes: pins of the group to the pin of the new instance named like the child's net. *)
Inductive pin_goes (c : sub) (new : string) (m : list (string * string)) : cpin -> cpin -> Prop :=
| pin_net n : pin_goes c new m (NetPin n) (NetPin n)
| pin_out i q : ~ In i (map fst m) -> pin_goes c new m (InstPin i q) (InstPin i q)
| pin_in i q ci n : In (i, ci) m -> child_net c ci q n -> pin_goes c new m (InstPin i q) (InstPin new n).
(** Current of an entry at time [k]; the sum over entries. *)
Definition at_time (k : nat) (c : list Z) : Z := nth k c 0%Z.
Definition total (k : nat) (d : flow) : Z := fold_right (fun e s => (at_time k (snd e) + s)%Z) 0%Z d.
(** The net of the child on the pin an entry is about; [None] for entries outside the group. *)
Definition lands (c : sub) (m : list (string * string)) (e : (string * string) * list Z) : option string :=
  match find (fun kv => String.eqb (fst kv) (fst (fst e))) m with
  | Some kv => match find (fun x => String.eqb (e_name x) (snd kv)) (sb_elems c) with
               | Some x => match find (fun pn => String.eqb (fst pn) (snd (fst e))) (e_pins x) with Some pn => Some (snd pn) | None => None end
               | None => None
               end
  | None => None
  end.
Definition inflow (c : sub) (m : list (string * string)) (k : nat) (q : string) (d : flow) : Z :=
  total k (filter (fun e => match lands c m e with Some n => String.eqb n q | None => false end) d).
