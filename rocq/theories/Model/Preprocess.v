(** Removal of dummy devices, and the passes of one circuit in order (compiler/preprocess.py:12-60, 372-406). *)
From Coq Require Import String Ascii.
From Verif Require Import Base.Prelude Base.PyDict Base.PyStr Model.RemoveDuplicates Model.Netlist Model.DefineSD.

(** 375-379 [_find_base_model]: follow the bases to the end.  [None]: a name is not in the library (an AttributeError).
    Simplified: the loop is bounded by the size of the library; without cycles it never runs longer. *)
Fixpoint root_go (fuel : nat) (L : models) (m : string) : option string :=
  match fuel with
  | O => None
  | Datatypes.S fuel => match dget String.eqb L m with
                        | None => None
                        | Some (MDev (Some b)) => root_go fuel L b
                        | Some _ => Some m
                        end
  end.
Definition find_base_model (L : models) (m : string) : option string := root_go (Datatypes.S (length L)) L m.
(** 394-399, [base] being the end of the chain. *)
Definition is_dummy (power gnd : list string) (base : string) (e : elem) : bool :=
  match sget (e_pins e) "D", sget (e_pins e) "G", sget (e_pins e) "S" with
  | Some d, Some g, Some s =>
      (String.eqb "PMOS" base && in_strs g power) || (String.eqb "NMOS" base && in_strs g gnd) ||
      (in_strs base ["NMOS"; "PMOS"]%string && String.eqb d g && String.eqb g s)
  | _, _, _ => false
  end.
(** 391-399: the instances to remove. *)
Fixpoint dummies (L : models) (power gnd : list string) (els : list elem) : option (list elem) :=
  match els with
  | [] => Some []
  | e :: tl => match find_base_model L (e_model e), dummies L power gnd tl with
               | Some b, Some l => Some (if is_dummy power gnd b e then e :: l else l)
               | _, _ => None
               end
  end.
(** 372-406 [remove_dummy_devices].  [None]: an exception. *)
Definition remove_dummy_devices (L : models) (power gnd : list string) (els : list elem) : option (list elem) :=
  match power, gnd with
  | [], [] => Some els
  | _, _ =>
      match dummies L power gnd els with
      | None => None
      | Some rm => if (1 <? length els)%nat && (length els =? length rm)%nat then None
                   else Some (fold_left remove_elem (map e_name rm) els)
      end
  end.

(** The switches of the ConfigureCompiler constraint that concern these passes (23-37). *)
Record switches := mkSw { sw_digital : bool; sw_sd : bool; sw_parallel : bool; sw_series : bool; sw_dummy : bool }.
(** 38-55 for one circuit.  [ord] gives the order in which python iterates over a set of nets.  Simplified: [same_template]
    adds constraints and does not touch the netlist. *)
Definition preprocess (ord : list string -> list string) (sw : switches) (L : models) (pins power gnd : list string) (els : list elem) : option (list elem) :=
  if sw_digital sw then Some els
  else
    match (if sw_sd sw then define_SD L pins power gnd els else Some els) with
    | None => None
    | Some els =>
        let els := if sw_parallel sw then add_parallel_devices (ord (nets els)) els else els in
        match (if sw_series sw then add_series_devices (ord (filter (fun n => negb (in_strs n pins)) (nets els))) els else Some els) with
        | None => None
        | Some els => if sw_dummy sw then remove_dummy_devices L power gnd els else Some els
        end
    end.
