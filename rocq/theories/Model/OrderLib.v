(** align/compiler/read_library.py:49-56 and 60-74, [order_lib] and the generators of the primitives.
    Simplified: of an element only its model and the nets of its pins are kept; [1 / len(x.nets)], a float, is compared exactly, so that the larger one has fewer nets. *)
From Coq Require Import String.
From Verif Require Import Base.Prelude.

(** A subcircuit of the library: its name and its elements, as (model, nets of the pins in order). *)
Record Sub := mkSub { s_name : string; s_elements : list (string * list string) }.
(** An entry of the library: a model or a subcircuit. *)
Inductive entry := EModel (name : string) | ESub (s : Sub).

(** schema/subcircuit.py:25-29, [nets]. [list.extend] appends while the generator runs, so that a net is found already if it is on two pins of one element. *)
Definition nets (s : Sub) : list string :=
  fold_left (fun acc x => if in_dec string_dec x acc then acc else acc ++ [x]) (flat_map snd (s_elements s)) [].
(** Line 69: the number of different models. *)
Definition models (s : Sub) : nat := length (nodup string_dec (map fst (s_elements s))).
(** Lines 67-69: the key of [a] is less than the key of [b]. *)
Definition key_lt (a b : Sub) : bool :=
  let ea := length (s_elements a) in let eb := length (s_elements b) in
  let na := length (nets a) in let nb := length (nets b) in
  (ea <? eb) || ((ea =? eb) && ((nb <? na) || ((na =? nb) && (models a <? models b)))).
(** Lines 61-64. *)
Definition subs (lib : list entry) : list Sub := flat_map (fun e => match e with ESub s => [s] | EModel _ => [] end) lib.
(** Lines 66-71: a stable sort, larger keys first ([reverse=True] keeps the order of equal ones). *)
Fixpoint ins_desc (x : Sub) (l : list Sub) : list Sub :=
  match l with [] => [x] | y :: t => if key_lt x y then y :: ins_desc x t else x :: l end.
(** [None] = ZeroDivisionError on line 68. *)
Definition order_lib (lib : list entry) : option (list Sub) :=
  if existsb (fun s => length (nets s) =? 0) (subs lib) then None else Some (fold_right ins_desc [] (subs lib)).

(** Lines 51-56: the name of the generator, from [old]. [has] says whether the pdk has a generator of a name; a constraint is [Some name] if it is a [Generator] with a name. *)
Definition generator (has : string -> bool) (upper : string -> string) (name : string) (consts : list (option string)) (old : option string) : option string :=
  if has name then Some name
  else fold_left (fun g c => match c with Some nm => if string_dec nm "" then g else Some (upper nm) | None => g end) consts old.
