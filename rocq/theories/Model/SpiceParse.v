(** The SPICE parser, align/schema/parser.py:63-203, on the statements and annotations of Model/SpiceLex.v.
    Numbers: [num s] is the text of [_cast] (125-137) for a NUMBER, as pydantic turns it into a string, and [None] when
    [float] raises ValueError.  [ord] is the order in which Python goes through a set of positions (119-123).
    Constraints stay texts: their evaluation (176-177) is outside the model. *)
From Coq Require Import String Ascii.
From Verif Require Import Base.Prelude Base.PyDict Base.PyStr Model.RemoveDuplicates Model.Canvas Model.Netlist Model.Hier Model.UpdateConst Model.SpiceLex.

Definition ustr (a : chars) : string := string_of_list_ascii (map up a).
(** What [_cast] gives: a string or a number. *)
Inductive val := VS (s : string) | VN (s : string).
Definition vtext (v : val) : string := match v with VS s | VN s => s end.
(** parser.py:67-73, 86: the library, the elements and parameters of the top circuit, the open subcircuits (innermost
    first), the queued constraints, and the constraints added to subcircuits. *)
Record pstate := mkP { p_lib : lib; p_top : list elem; p_params : dict; p_scope : list string; p_pending : option (list chars); p_cons : list (string * list chars) }.
Definition start (L : lib) : pstate := mkP L [] [] [] None [].
Definition dict_of (l : list (string * string)) : dict := fold_left (fun d kv => sset d (fst kv) (snd kv)) l [].
Definition update_all (d : dict) (l : list (string * string)) : dict := fold_left (fun d kv => sset d (fst kv) (snd kv)) l d.

Section parser.
Variable num : string -> option string.
Variable ord : list nat -> list nat.

Definition cast (tok : ttype * chars) : val :=
  match fst tok with
  | tEXPR => VS (ustr (removelast (tl (snd tok))))
  | tNAME => VS (ustr (snd tok))
  | _ => match num (ustr (snd tok)) with Some s => VN s | None => VS (ustr (snd tok)) end
  end.
(** 116-123. *)
Definition is_eq (tok : ttype * chars) : bool := match fst tok with tEQUALS => true | _ => false end.
Definition is_name (tok : ttype * chars) : bool := match fst tok with tNAME => true | _ => false end.
Definition operand_tok (tok : ttype * chars) : bool := match fst tok with tNAME | tNUMBER | tEXPR | tEQUALS => true | _ => false end.
Definition assignments (cache : list (ttype * chars)) : list nat := filter (fun i => match nth_error cache i with Some t => is_eq t | None => false end) (List.seq 0 (length cache)).
(** [cache[i-1]]: Python's index -1 is the last element. *)
Definition before (cache : list (ttype * chars)) (i : nat) : option (ttype * chars) := match i with O => nth_error cache (length cache - 1) | S j => nth_error cache j end.
Definition near (asg : list nat) (i : nat) : bool := existsb (fun j => (j =? i)%nat || (S j =? i)%nat || (j =? S i)%nat) asg.
Definition decompose (cache : list (ttype * chars)) : option (list val * list (string * val)) :=
  let asg := assignments cache in
  if negb (forallb operand_tok cache) then None
  else if negb (forallb (fun i => match before cache i with Some t => is_name t | None => false end) asg) then None
  else
    let args := map (fun x => cast (snd x)) (filter (fun x => negb (near asg (fst x))) (combine (List.seq 0 (length cache)) cache)) in
    match mapM (fun i => match before cache i, nth_error cache (S i) with Some k, Some v => Some (ustr (snd k), cast v) | _, _ => None end) (ord asg) with
    | None => None
    | Some kw => Some (args, fold_left (fun d kv => dset String.eqb d (fst kv) (snd kv)) kw [])
    end.

(** [args.pop()]. *)
Definition pop (args : list val) : option (val * list val) := match rev args with [] => None | v :: r => Some (v, rev r) end.
(** 140-141. *)
Definition default_model (name : string) : option string :=
  match name with
  | String c _ => if Ascii.eqb c "C" then Some "CAP"%string else if Ascii.eqb c "R" then Some "RES"%string else if Ascii.eqb c "L" then Some "IND"%string else None
  | EmptyString => None
  end.
Definition texts (kw : list (string * val)) : dict := map (fun kv => (fst kv, vtext (snd kv))) kw.
(** 153-156: a model with generic pin names. *)
Definition generic (m : string) (n : nat) (kw : list (string * val)) : leaf :=
  mkLeaf m (map (fun i => ("P" ++ zstr (Z.of_nat i))%string) (List.seq 0 n)) (map (fun kv => (fst kv, "1"%string)) kw) EmptyString.
(** The current scope gets one more element. *)
Definition add_to (n : string) (e : elem) (c : cell) : cell :=
  match c with Sub s => if String.eqb (sb_name s) n then Sub (mkSub (sb_name s) (sb_pins s) (sb_params s) (sb_elems s ++ [e])) else c | Prim _ => c end.
Definition add_elem (st : pstate) (L : lib) (e : elem) : pstate :=
  match p_scope st with
  | [] => mkP L (p_top st ++ [e]) (p_params st) [] (p_pending st) (p_cons st)
  | n :: _ => mkP (map (add_to n e) L) (p_top st) (p_params st) (p_scope st) (p_pending st) (p_cons st)
  end.
(** 139-172. *)
Definition process_instance (st : pstate) (name : string) (args : list val) (kw : list (string * val)) : option pstate :=
  match pop args with
  | None => None
  | Some (v, args') =>
      let '(model, kw') := match default_model name, kw with Some d, [] => (VS d, [("VALUE"%string, v)]) | _, _ => (v, kw) end in
      match model with
      | VN _ => None
      | VS m =>
          let L := match lfind (p_lib st) m with Some _ => Some (p_lib st) | None => match args' with [] => None | _ => Some (p_lib st ++ [Prim (generic m (length args') kw')]) end end in
          match L with
          | None => None
          | Some L =>
              match lfind L m with
              | None => None
              | Some c =>
                  if negb (length args' =? length (cell_pins c))%nat then None
                  else match mk_inst L name m (dict_of (combine (cell_pins c) (map vtext args'))) (texts kw') with
                       | None => None
                       | Some e => Some (add_elem st L e)
                       end
              end
          end
      end
  end.
(** 174-178, 190-192. *)
Definition set_params (st : pstate) (kw : dict) : pstate :=
  match p_scope st with
  | [] => mkP (p_lib st) (p_top st) (update_all (p_params st) kw) [] (p_pending st) (p_cons st)
  | n :: _ => mkP (map (fun c => match c with Sub s => if String.eqb (sb_name s) n then Sub (mkSub (sb_name s) (sb_pins s) (update_all (sb_params s) kw) (sb_elems s)) else c | Prim _ => c end) (p_lib st))
                  (p_top st) (p_params st) (p_scope st) (p_pending st) (p_cons st)
  end.
Definition process_declaration (st : pstate) (decl : string) (args : list val) (kw : list (string * val)) : option pstate :=
  if String.eqb decl ".SUBCKT" then
    match args with
    | VS name :: p0 :: pins =>
        match lfind (p_lib st) name with
        | Some _ => None
        | None => Some (mkP (p_lib st ++ [Sub (mkSub name (map vtext (p0 :: pins)) (texts kw) [])]) (p_top st) (p_params st) (name :: p_scope st) (Some []) (p_cons st))
        end
    | _ => None
    end
  else if String.eqb decl ".ENDS" then
    match p_pending st, p_scope st with
    | Some cs, n :: sc => Some (mkP (p_lib st) (p_top st) (p_params st) sc None (p_cons st ++ [(n, cs)]))
    | _, _ => None
    end
  else if String.eqb decl ".PARAM" then
    match args with [] => Some (set_params st (texts kw)) | _ => None end
  else if String.eqb decl ".MODEL" then
    match args with
    | [VS name; VS base] =>
        match lfind (p_lib st) name, lfind (p_lib st) base with
        | None, Some c => Some (mkP (p_lib st ++ [Prim (mkLeaf name (cell_pins c) (update_all (cell_params c) (texts kw)) (cell_prefix c))]) (p_top st) (p_params st) (p_scope st) (p_pending st) (p_cons st))
        | _, _ => None
        end
    | _ => None
    end
  else Some st.
(** 98-115. *)
Definition do_event (st : pstate) (ev : event) : option pstate :=
  match ev with
  | ENote txt => match p_pending st with Some cs => Some (mkP (p_lib st) (p_top st) (p_params st) (p_scope st) (Some (cs ++ [txt])) (p_cons st)) | None => None end
  | EStmt [] => Some st
  | EStmt (tok :: cache) =>
      match decompose cache with
      | None => None
      | Some (args, kw) =>
          match fst tok with
          | tDECL => process_declaration st (ustr (snd tok)) args kw
          | tNAME => process_instance st (ustr (snd tok)) args kw
          | _ => None
          end
      end
  end.
(** 84-97. *)
Definition parse_events (st : pstate) (evs : list event) : option pstate := foldO do_event evs st.
Definition parse (L : lib) (text : chars) : option pstate := parse_events (start L) (events (tokens text)).
End parser.
