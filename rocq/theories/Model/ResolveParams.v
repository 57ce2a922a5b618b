(** Resolution of parameters, align/compiler/create_database.py:28-39 and 98-233. *)
From Coq Require Import String.
From Verif Require Import Base.Prelude Base.PyDict Model.RemoveDuplicates Model.Canvas Model.Netlist Model.Hier.
Local Open Scope Z_scope.

(** The library and [multi_param_instantiation] (24). *)
Definition state := (lib * list string)%type.
(** 163-170, 185-192: the value of an instance parameter; [cp] are the parameters of the circuit
    (global), [sp] those of the subcircuit. *)
Definition pvalue (cp sp : dict) (v : string) : string :=
  match sget cp v with
  | Some w => w
  | None => match sget sp v with
            | Some u => match sget cp u with Some w => w | None => u end
            | None => v
            end
  end.
Definition pvalues (cp sp : dict) (ps : dict) : dict := map (fun kv => (fst kv, pvalue cp sp (snd kv))) ps.
(** 150-152 and 198-201: the parameters of a subcircuit overwritten with those given. *)
Definition overwrite (sp param : dict) : dict :=
  map (fun kv => (fst kv, match sget param (fst kv) with Some w => w | None => snd kv end)) sp.
(** The definition [s'] in the place of the definition of that name. *)
Definition set_sub (L : lib) (n : string) (s' : sub) : lib :=
  map (fun c => if String.eqb (cell_name c) n then Sub s' else c) L.
(** subcircuit.py:34-42: element [e'] in the place of the element of that name. *)
Definition put_elem (L : lib) (n : string) (e' : elem) : lib :=
  match lfind L n with
  | Some (Sub s) => set_sub L n (mkSub (sb_name s) (sb_pins s) (sb_params s) (update (e_name e') (fun _ => e') (sb_elems s)))
  | _ => L
  end.
(** 196 *)
Definition copy_name (n : string) (k : nat) : string := (n ++ "_" ++ zstr (Z.of_nat k))%string.
Definition strs_eqb (a b : list string) : bool :=
  (length a =? length b)%nat && forallb (fun p => String.eqb (fst p) (snd p)) (combine a b).
(** 203-221.  Simplified: subcircuits have neither constraints nor generators. *)
Definition duplicate (s ck : sub) (new : dict) : bool :=
  strs_eqb (sb_pins s) (sb_pins ck) && dict_eqb new (sb_params ck) &&
  forallb (fun x => match get_element (sb_elems ck) (e_name x) with
                    | Some y => String.eqb (e_model y) (e_model x) && dict_eqb (e_params y) (e_params x) && dict_eqb (e_pins y) (e_pins x)
                    | None => false
                    end) (sb_elems s).
(** 194-231; the recursion on the counter, with fuel.  A model that is not a subcircuit has no
    constraints: an exception ([None]) if these are looked at. *)
Fixpoint pick_name (fuel : nat) (L : lib) (s : sub) (param : dict) (k : nat) : option string :=
  match fuel with
  | O => None
  | Datatypes.S f =>
      match lfind L (copy_name (sb_name s) k) with
      | None => Some (copy_name (sb_name s) k)
      | Some (Sub ck) => if duplicate s ck (overwrite (sb_params s) param) then Some (copy_name (sb_name s) k)
                         else pick_name f L s param (Datatypes.S k)
      | Some (Prim l) => if strs_eqb (sb_pins s) (lf_pins l) && dict_eqb (overwrite (sb_params s) param) (lf_params l) then None
                         else pick_name f L s param (Datatypes.S k)
      end
  end.
(** 160-178, one instance of subcircuit [n], whose parameters are [sp]; [rec] is
    [resolve_parameters]. *)
Definition inter_step (rec : state -> string -> dict -> option (state * string)) (cp : dict) (n : string) (sp : dict) (st : state) (inst : elem) : option state :=
  let (L, M) := st in
  if is_sub L (e_model inst) then
    let ps := pvalues cp sp (e_params inst) in
    match rec (put_elem L n (mkElem (e_name inst) (e_model inst) (e_pins inst) ps), M) (e_model inst) ps with
    | Some (L2, M2, nn) =>
        match mk_inst L2 (e_name inst) nn (e_pins inst) ps with
        | Some e' => Some (put_elem L2 n e', M2)
        | None => None
        end
    | None => None
    end
  else Some st.
(** 98-155; [None] = an exception or no fuel.  Simplified: [ele.copy()] (types.py) is the same
    element; the parameter dictionaries are not shared. *)
Fixpoint resolve (fuel : nat) (cp : dict) (st : state) (name : string) (param : dict) : option (state * string) :=
  match fuel with
  | O => None
  | Datatypes.S f =>
      let (L, M) := st in
      match lfind L name with
      | Some (Sub s) =>
          if in_strs name M then
            if forallb (fun pv => match sget param (fst pv) with Some w => String.eqb (snd pv) w | None => true end) (sb_params s)
            then Some (L, M ++ [name], name)
            else
              match pick_name (Datatypes.S (length L)) L s param 1 with
              | None => None
              | Some nn =>
                  match lfind L nn with
                  | Some _ => Some (L, M, nn)
                  | None =>
                      let sp := overwrite (sb_params s) param in
                      match foldM (inter_step (resolve f cp) cp nn sp) (sb_elems s)
                                  (L ++ [Sub (mkSub nn (sb_pins s) sp (sb_elems s))], M ++ [nn]) with
                      | Some st' => Some (st', nn)
                      | None => None
                      end
                  end
              end
          else
            let sp := overwrite (sb_params s) param in
            match foldM (inter_step (resolve f cp) cp name sp) (sb_elems s)
                        (set_sub L name (mkSub (sb_name s) (sb_pins s) sp (sb_elems s)), M ++ [name]) with
            | Some st' => Some (st', name)
            | None => None
            end
      | _ => None
      end
  end.
(** 180-192 *)
Definition update_leaves (cp : dict) (L : lib) : lib :=
  map (fun c => match c with
                | Prim _ => c
                | Sub s => Sub (mkSub (sb_name s) (sb_pins s) (sb_params s)
                                  (map (fun e => mkElem (e_name e) (e_model e) (e_pins e) (pvalues cp (sb_params s) (e_params e))) (sb_elems s)))
                end) L.
(** 28-39 [read_inputs], up to the ports and constraints. *)
Definition read_params (fuel : nat) (cp : dict) (L : lib) (top : string) : option lib :=
  match lfind L top with
  | Some (Sub t) =>
      match resolve fuel cp (L, []) top (match cp with [] => sb_params t | _ => cp end) with
      | Some (L', _, _) => Some (update_leaves cp L')
      | None => None
      end
  | _ => None
  end.
