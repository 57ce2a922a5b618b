(** What the statements of a SPICE netlist describe, independently of how they are parsed.
    [num] gives the text of a number after conversion. *)
From Coq Require Import String Ascii.
From Verif Require Import Base.Prelude Base.PyDict Base.PyStr Model.Netlist Model.Hier Model.SpiceLex Spec.SpiceSpec.

Definition upper_text (a : chars) : string := string_of_list_ascii (map upper_char a).

Section spec.
Variable num : string -> option string.

(** A token stands for a string: a name, a converted number, or the text between quotes or braces. *)
Definition says (tok : ttype * chars) (s : string) : Prop :=
  match fst tok with
  | tNAME => upper_text (snd tok) = s
  | tNUMBER => match num (upper_text (snd tok)) with Some t => t = s | None => upper_text (snd tok) = s end
  | tEXPR => exists q b q', snd tok = q :: b ++ [q'] /\ upper_text b = s
  | _ => False
  end.
Definition name_tok (tok : ttype * chars) (s : string) : Prop := fst tok = tNAME /\ upper_text (snd tok) = s.
(** Assignments [k = v]. *)
Inductive assigns : list (ttype * chars) -> list (string * string) -> Prop :=
| as_nil : assigns [] []
| as_cons k e v toks ks vs kvs : name_tok k ks -> fst e = tEQUALS -> says v vs -> assigns toks kvs -> assigns (k :: e :: v :: toks) ((ks, vs) :: kvs).

(** The value of a parameter: as given, or the default of the model. *)
Definition given (kvs : list (string * string)) (p : string * string) : string * string := (fst p, match find (fun kv => String.eqb (fst kv) (fst p)) kvs with Some kv => snd kv | None => snd p end).
Definition passive (name : string) : option string :=
  match name with
  | EmptyString => None
  | String c _ => if Ascii.eqb c "C" then Some "CAP"%string else if Ascii.eqb c "R" then Some "RES"%string else if Ascii.eqb c "L" then Some "IND"%string else None
  end.
(** [name nets model k=v ...].  A name with C, R or L first needs at least one assignment. *)
Definition instance_stmt (L : lib) (toks : list (ttype * chars)) (e : elem) : Prop :=
  exists n nets m kws name ns ms kvs c, toks = n :: nets ++ m :: kws /\ name_tok n name /\ Forall2 says nets ns /\ name_tok m ms /\ assigns kws kvs /\
    find (fun c => String.eqb (cell_name c) ms) L = Some c /\ length ns = length (cell_pins c) /\ NoDup (cell_pins c) /\ NoDup (map fst kvs) /\ incl (map fst kvs) (map fst (cell_params c)) /\
    String.prefix (cell_prefix c) name = true /\ (passive name <> None -> kvs <> []) /\
    e = mkElem name ms (combine (cell_pins c) ns) (map (given kvs) (cell_params c)).
(** [name nets value] for a capacitor, resistor or inductor. *)
Definition passive_stmt (L : lib) (toks : list (ttype * chars)) (e : elem) : Prop :=
  exists n nets v name ns d vs c, toks = n :: nets ++ [v] /\ name_tok n name /\ Forall2 says nets ns /\ says v vs /\ passive name = Some d /\
    find (fun c => String.eqb (cell_name c) d) L = Some c /\ length ns = length (cell_pins c) /\ NoDup (cell_pins c) /\ In "VALUE"%string (map fst (cell_params c)) /\
    String.prefix (cell_prefix c) name = true /\
    e = mkElem name d (combine (cell_pins c) ns) (map (given [("VALUE"%string, vs)]) (cell_params c)).
Definition element_stmt (L : lib) (toks : list (ttype * chars)) (e : elem) : Prop := instance_stmt L toks e \/ passive_stmt L toks e.

(** A parameter is set: its old place, or a new one at the end. *)
Inductive set_in : dict -> string -> string -> dict -> Prop :=
| set_new d k v : ~ In k (map fst d) -> set_in d k v (d ++ [(k, v)])
| set_old d1 d2 k o v : ~ In k (map fst d1) -> set_in (d1 ++ (k, o) :: d2) k v (d1 ++ (k, v) :: d2).
Definition decl_tok (tok : ttype * chars) (s : string) : Prop := fst tok = tDECL /\ upper_text (snd tok) = s.
Definition argument (tok : ttype * chars) : Prop := exists s, says tok s.

(** The statements inside a subcircuit: its parameters, elements and constraints. *)
Inductive body (L : lib) : list event -> dict -> dict -> list elem -> list chars -> Prop :=
| body_nil p : body L [] p p [] []
| body_elem toks e evs p p' els notes : element_stmt L toks e -> body L evs p p' els notes -> body L (EStmt toks :: evs) p p' (e :: els) notes
| body_note txt evs p p' els notes : body L evs p p' els notes -> body L (ENote txt :: evs) p p' els (txt :: notes)
| body_param d kws k v evs p p1 p' els notes : decl_tok d ".PARAM" -> assigns kws [(k, v)] -> set_in p k v p1 -> body L evs p1 p' els notes -> body L (EStmt (d :: kws) :: evs) p p' els notes.
(** At most one assignment, so that the order of the parameters is plain. *)
Definition few (kvs : list (string * string)) : Prop := (length kvs <= 1)%nat.
(** A netlist: subcircuits, models, elements of the top circuit, other declarations.  [doc L evs L' top cs]: it extends
    the library [L] to [L'], has the elements [top] and gives the constraints [cs] to the subcircuits. *)
Inductive doc : lib -> list event -> lib -> list elem -> list (string * list chars) -> Prop :=
| doc_nil L : doc L [] L [] []
| doc_sub L d n pins kws name ps kvs evs p els notes en args rest L' top cs :
    decl_tok d ".SUBCKT" -> name_tok n name -> Forall2 says pins ps -> ps <> [] -> assigns kws kvs -> few kvs -> ~ In name (map cell_name L) ->
    body L evs kvs p els notes -> decl_tok en ".ENDS" -> Forall argument args ->
    doc (L ++ [Sub (mkSub name ps p els)]) rest L' top cs ->
    doc L (EStmt (d :: n :: pins ++ kws) :: evs ++ EStmt (en :: args) :: rest) L' top ((name, notes) :: cs)
| doc_model L d n b kws name base kvs c params rest L' top cs :
    decl_tok d ".MODEL" -> name_tok n name -> name_tok b base -> assigns kws kvs -> few kvs -> ~ In name (map cell_name L) -> find (fun c => String.eqb (cell_name c) base) L = Some c ->
    match kvs with [] => params = cell_params c | (k, v) :: _ => set_in (cell_params c) k v params end ->
    doc (L ++ [Prim (mkLeaf name (cell_pins c) params (cell_prefix c))]) rest L' top cs ->
    doc L (EStmt (d :: n :: b :: kws) :: rest) L' top cs
| doc_top L toks e rest L' top cs : element_stmt L toks e -> doc L rest L' top cs -> doc L (EStmt toks :: rest) L' (e :: top) cs
| doc_other L d args rest L' top cs : fst d = tDECL -> ~ In (upper_text (snd d)) [".SUBCKT"; ".ENDS"; ".PARAM"; ".MODEL"]%string -> Forall argument args -> doc L rest L' top cs ->
    doc L (EStmt (d :: args) :: rest) L' top cs.
End spec.
