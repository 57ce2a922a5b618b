(** Pins of symmetric nets (compiler/find_constraint.py:499-598). *)
From Coq Require Import String.
From Verif Require Import Base.Prelude Model.RemoveDuplicates Model.Netlist Model.UpdateConst Model.SymConst.

(** A connection of a net ([_connection], find_constraint.py:513-534): a pin of an instance, or the port that the net is.  With it
    goes the set of leaf pins below it other than "B", written as one string (a list of one pin for a device
    and a set for a subcircuit do not compare equal, but models are compared as well). *)
Inductive conn := CPin (i p : string) | CPort (n : string).
Definition conn_eqb (a b : conn) : bool :=
  match a, b with
  | CPin i p, CPin j q => String.eqb i j && String.eqb p q
  | CPort n, CPort m => String.eqb n m
  | _, _ => false
  end.
(** ["/".join(ele)]. *)
Definition pin_name (c : conn) : string := match c with CPin i p => i ++ "/" ++ p | CPort n => n end%string.
Record pins_state := mkPS { ps_pairs : dict; ps_A : list conn; ps_B : list conn }.
(** [{a, b} in smb]. *)
Definition in_smb (a b : string) (w : list written) : bool :=
  existsb (fun x => match x with WName _ => false | WSet l => forallb (fun y => in_strs y [a; b]) l && in_strs a l && in_strs b l end) w.
(** One iteration of the double loop (find_constraint.py:549-590); [None] is the return at line 571.  The test
    that a pin is not yet in the list (line 575) compares a tuple with strings and always succeeds.  The list
    [skip_blocks] also holds sets, which are never equal to a name. *)
Definition net_step (model : string -> string) (smb : list written) (skip : list string) (user : bool) (s : pins_state) (ab : (conn * string) * (conn * string)) : option pins_state :=
  let '((a, ta), (b, tb)) := ab in
  match a, b with
  | CPin i _, CPin j _ =>
      if in_strs i skip || in_strs j skip then Some s
      else if String.eqb ta tb && String.eqb (model i) (model j) then
        if in_strs j (map snd (ps_pairs s)) then None
        else if negb user && negb (in_smb i j smb) then Some s
        else Some (mkPS (sset (ps_pairs s) i j) (ps_A s ++ [a]) (ps_B s ++ [b]))
      else Some s
  | CPort n, CPort m =>
      if String.eqb ta tb && negb (existsb (conn_eqb a) (ps_A s)) && negb (existsb (conn_eqb b) (ps_B s))
      then Some (mkPS (sset (ps_pairs s) n m) (ps_A s ++ [a]) (ps_B s ++ [b])) else Some s
  | _, _ => Some s
  end.
(** [symmnet_device_pairs]: [None] for the result [[None, None, None]]. *)
Definition sym_pins (model : string -> string) (smb : list written) (skip : list string) (user : bool) (A B : list (conn * string)) : option pins_state :=
  match foldO (net_step model smb skip user) (list_prod A B) (mkPS [] [] []) with
  | Some s => if Nat.ltb 1 (length (ps_pairs s)) then Some s else None
  | None => None
  end.
