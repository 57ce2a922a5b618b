(** Names of primitives: align/compiler/util.py:154-165 (gen_key) and
    align/compiler/gen_abstract_name.py:84-140 (create_subckt, gen_primitive_def, add_primitve). *)
From Coq Require Import String Ascii.
From Verif Require Import Base.Prelude Base.PyDict Base.PyStr.
Local Open Scope Z_scope.

(** Python compares strings by code point. *)
Fixpoint chars_leb (a b : chars) : bool :=
  match a, b with
  | [], _ => true
  | _ :: _, [] => false
  | x :: a', y :: b' => if (code x <? code y)%N then true else if (code y <? code x)%N then false else chars_leb a' b'
  end.
(** [sorted(l)]. *)
Fixpoint sinsert (x : chars) (l : list chars) : list chars :=
  match l with [] => [x] | y :: tl => if chars_leb x y then x :: l else y :: sinsert x tl end.
Definition ssorted (l : list chars) : list chars := fold_right sinsert [] l.

(** Parameters of a device. *)
Definition pdict := list (chars * chars).
Definition pget (d : pdict) (k : chars) : option chars := dget chars_eqb d k.
Definition opt_chars (o : option chars) : chars := match o with Some v => v | None => [] end.
(** ['_'.join(l)]. *)
Fixpoint join_us (l : list chars) : chars :=
  match l with [] => [] | [x] => x | x :: tl => x ++ "_"%char :: join_us tl end.
(** util.py:162-163. *)
Definition arg_str (d : pdict) : chars := join_us (map (fun k => k ++ ":"%char :: opt_chars (pget d k)) (ssorted (map fst d))).
(** util.py:164; [hash] is the integer of the SHA-256 digest, here any function. *)
Definition gen_key (hash : chars -> Z) (d : pdict) : chars := "_"%char :: print_Z (hash (arg_str d) mod 10 ^ 8).

(** An instance of a circuit; [None] for the parameters of the subcircuit branch is not needed.
    [dv_gen]: the model has a generator (get_generator).  [dv_sub]: the model is a subcircuit, with
    (true) or without (false) a Generator constraint. *)
Record dev := mkDev { dv_name : chars; dv_model : chars; dv_sub : option bool; dv_gen : bool; dv_params : pdict; dv_pins : list chars }.
(** The library of primitives: models and subcircuits copied from the circuit library by name, and
    the subcircuits created for devices. *)
Inductive entry := Copied (n : chars) | Made (n : chars) (pins : list chars) (gen : chars) (dev_name dev_model : chars) (params : pdict).
Definition entry_name (e : entry) : chars := match e with Copied n => n | Made n _ _ _ _ _ => n end.
Definition plib := list entry.
Definition pfind (P : plib) (n : chars) : option entry := find (fun e => chars_eqb (entry_name e) n) P.
(** gen_abstract_name.py:135-146.  Simplified: the models of the elements of a copied subcircuit,
    which are appended before it, are given by [deps]. *)
Definition add_primitive (deps : chars -> list chars) (P : plib) (n : chars) : plib :=
  match pfind P n with
  | Some _ => P
  | None => fold_left (fun Q m => match pfind Q m with Some _ => Q | None => Q ++ [Copied m] end) (deps n) P ++ [Copied n]
  end.
(** gen_abstract_name.py:84-104. *)
Definition create_subckt (P : plib) (d : dev) (n : chars) : plib :=
  match pfind P n with
  | Some _ => P
  | None => P ++ [Made n (dv_pins d) (dv_model d) (dv_name d) (dv_model d) (dv_params d)]
  end.
Section Gen.
  Variables (hash : chars -> Z) (deps : chars -> list chars).
  (** gen_abstract_name.py:106-133: the abstract name and the library; [None] = the assertion. *)
  Definition gen_primitive_def (P : plib) (d : dev) : option (chars * plib) :=
    match dv_sub d with
    | Some g => Some (dv_model d, if g then add_primitive deps P (dv_model d) else P)
    | None =>
        if dv_gen d then
          let n := dv_model d ++ gen_key hash (dv_params d) in
          Some (n, create_subckt (add_primitive deps P (dv_model d)) d n)
        else None
    end.
  (** gen_abstract_name.py:35-52.  Simplified: the elements of all circuits in one list, no
      GroupCaps. *)
  Fixpoint gen_all (P : plib) (l : list dev) : option (list chars * plib) :=
    match l with
    | [] => Some ([], P)
    | d :: tl =>
        match gen_primitive_def P d with
        | None => None
        | Some (n, P1) => match gen_all P1 tl with None => None | Some (ns, P2) => Some (n :: ns, P2) end
        end
    end.
End Gen.
