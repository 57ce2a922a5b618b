(** Conversion of layouts between JSON, GDSII records and text (gdsconv/json2gds.py, gds2json.py, json2txt.py,
    txt2json.py).
    Simplified: text is ASCII; real numbers are a type [R] with python's [str] and [float] as parameters; a GDSII file is
    the sequence of its records, the library python-gdsii is trusted to store and load each of them unchanged (in
    particular its 8-byte reals, 2- and 4-byte integers and the padding of strings). *)
From Coq Require Import String Ascii.
From Verif Require Import Base.Prelude Base.PyDict Base.PyStr Model.Lef Model.Netlist Model.UpdateConst.
Local Open Scope Z_scope.

(** gdsii.types and gdsii.tags: the tags and the type of their data (the low byte of the tag). *)
Inductive gtype := NODATA | BITARRAY | INT2 | INT4 | REAL8 | ASCII.
Definition tags : list (string * gtype) :=
  [("HEADER", INT2); ("BGNLIB", INT2); ("LIBNAME", ASCII); ("UNITS", REAL8); ("ENDLIB", NODATA); ("BGNSTR", INT2);
   ("STRNAME", ASCII); ("ENDSTR", NODATA); ("BOUNDARY", NODATA); ("PATH", NODATA); ("SREF", NODATA); ("AREF", NODATA);
   ("TEXT", NODATA); ("LAYER", INT2); ("DATATYPE", INT2); ("WIDTH", INT4); ("XY", INT4); ("ENDEL", NODATA);
   ("SNAME", ASCII); ("COLROW", INT2); ("NODE", NODATA); ("TEXTTYPE", INT2); ("PRESENTATION", BITARRAY);
   ("STRING", ASCII); ("STRANS", BITARRAY); ("MAG", REAL8); ("ANGLE", REAL8); ("REFLIBS", ASCII); ("FONTS", ASCII);
   ("PATHTYPE", INT2); ("GENERATIONS", INT2); ("ATTRTABLE", ASCII); ("ELFLAGS", BITARRAY); ("NODETYPE", INT2);
   ("PROPATTR", INT2); ("PROPVALUE", ASCII); ("BOX", NODATA); ("BOXTYPE", INT2); ("PLEX", INT4); ("BGNEXTN", INT4);
   ("ENDEXTN", INT4); ("FORMAT", INT2); ("MASK", ASCII); ("ENDMASKS", NODATA)]%string.
Definition type_of_tag (t : string) : option gtype := dget String.eqb tags t.
Definition is_nodata (t : gtype) : bool := match t with NODATA => true | _ => false end.
(** [tag_name.lower()] and [tag_name[0:3]]. *)
Definition low (c : ascii) : ascii := if ((65 <=? code c) && (code c <=? 90))%N then ascii_of_N (code c + 32) else c.
Definition lower (s : string) : string := string_of_list_ascii (map low (str s)).
Definition starts3 (s p : string) : bool := chars_eqb (firstn 3 (str s)) (str p).
(** txt2json.py:27-29, gds2json.py:28-30 [isElement]. *)
Definition is_element (e : string) : bool :=
  existsb (String.eqb e) ["BOUNDARY"; "PATH"; "SREF"; "AREF"; "TEXT"; "NODE"; "BOX"]%string.

(** [s.strip()]; [s.lstrip()]. *)
Fixpoint ltrim (s : chars) : chars := match s with c :: t => if is_ws c then ltrim t else s | [] => [] end.
Definition trim (s : chars) : chars := rev (ltrim (rev (ltrim s))).
(** [s[1:-1]]. *)
Definition chop (s : chars) : chars := removelast (tl s).
(** [s.split(c)]: never empty. *)
Fixpoint split_on (c : ascii) (s : chars) : list chars :=
  match s with
  | [] => [[]]
  | a :: t => if Ascii.eqb a c then [] :: split_on c t
              else match split_on c t with p :: ps => (a :: p) :: ps | [] => [[a]] end
  end.
(** [', '.join(l)]. *)
Fixpoint join_comma (l : list chars) : chars :=
  match l with [] => [] | [a] => a | a :: t => a ++ str ", " ++ join_comma t end.
Definition mapO {A B} (f : A -> option B) (l : list A) : option (list B) :=
  fold_right (fun a r => match f a, r with Some b, Some bs => Some (b :: bs) | _, _ => None end) (Some []) l.
Definition py_intc (s : chars) : option Z := py_int (string_of_list_ascii (trim s)).

(** JSON values.  Simplified: no null and no booleans; the keys of an object are distinct. *)
Inductive json (R : Type) :=
| JInt (z : Z) | JReal (r : R) | JStr (s : chars) | JArr (l : list (json R)) | JObj (d : list (string * json R)).
Arguments JInt {R}. Arguments JReal {R}. Arguments JStr {R}. Arguments JArr {R}. Arguments JObj {R}.
(** [Record.data]. *)
Inductive gdata (R : Type) := DNone | DAscii (s : chars) | DBits (z : Z) | DReals (l : list R) | DInts (l : list Z).
Arguments DNone {R}. Arguments DAscii {R}. Arguments DBits {R}. Arguments DReals {R}. Arguments DInts {R}.

Section Conv.
  Context {R : Type}.
  (** [str(x)] and [float(s)] for a real number; python's [float] also ignores blanks around it. *)
  Variable rstr : R -> chars.
  Variable rparse : chars -> option R.
  Notation json := (json R). Notation gdata := (gdata R).
  Notation obj := (list (string * json)).
  Notation record := (string * gdata)%type.
  Definition float (s : chars) : option R := rparse (trim s).

  (** [data[k]], [k in data] for a JSON object; anything else raises TypeError. *)
  Definition jget (v : json) (k : string) : option json := match v with JObj d => dget String.eqb d k | _ => None end.
  Definition jlist (v : json) : option (list json) := match v with JArr l => Some l | _ => None end.

  (** [str(v)].  Simplified: [None] for objects, nested lists and strings in lists, which no field of a layout holds. *)
  Definition scalar (v : json) : option chars :=
    match v with JInt z => Some (print_Z z) | JReal r => Some (rstr r) | _ => None end.
  Definition py_str (v : json) : option chars :=
    match v with
    | JStr s => Some s
    | JArr l => option_map (fun ts => str "[" ++ join_comma ts ++ str "]") (mapO scalar l)
    | v => scalar v
    end.
  (** json2gds.py:18-20, json2txt.py:13-19: [str]/[bracket], [unbracket] and [quote]. *)
  Inductive how := Plain | Unbracket | Quote.
  Definition render (h : how) (v : json) : option chars :=
    match h with
    | Plain => py_str v
    | Unbracket => option_map chop (py_str v)
    | Quote => match v with JStr s => Some (str """" ++ s ++ str """") | _ => None end
    end.

  (** json2gds.py:24-42 [store_data]. *)
  Definition store_data (t : string) (rest : option chars) : option record :=
    match type_of_tag t with
    | Some NODATA => Some (t, DNone)
    | Some ASCII => match rest with Some s => Some (t, DAscii (chop s)) | None => None end
    | Some BITARRAY => match rest with Some s => option_map (fun z => (t, DBits z)) (py_intc s) | None => None end
    | Some REAL8 => match rest with Some s => option_map (fun l => (t, DReals l)) (mapO float (split_on ","%char s)) | None => None end
    | Some _ => match rest with Some s => option_map (fun l => (t, DInts l)) (mapO py_intc (split_on ","%char s)) | None => None end
    | None => None
    end.

  (** The lines [if k in elem: store_data (TAG, how (elem[k]))], by type of element: json2gds.py:56-88. *)
  Definition row := (string * string * how)%type.
  Definition gds_rows (t : string) : option (string * list row) :=
    (if String.eqb t "boundary" then Some ("BOUNDARY", [("layer", "LAYER", Plain); ("datatype", "DATATYPE", Plain); ("xy", "XY", Unbracket); ("propattr", "PROPATTR", Plain); ("propvalue", "PROPVALUE", Quote)])
     else if String.eqb t "path" then Some ("PATH", [("layer", "LAYER", Plain); ("datatype", "DATATYPE", Plain); ("pathtype", "PATHTYPE", Plain); ("width", "WIDTH", Plain); ("bgnextn", "BGNEXTN", Plain); ("endextn", "ENDEXTN", Plain); ("xy", "XY", Unbracket)])
     else if String.eqb t "text" then Some ("TEXT", [("layer", "LAYER", Plain); ("texttype", "TEXTTYPE", Plain); ("presentation", "PRESENTATION", Plain); ("strans", "STRANS", Plain); ("mag", "MAG", Plain); ("angle", "ANGLE", Plain); ("xy", "XY", Unbracket); ("string", "STRING", Quote)])
     else if String.eqb t "sref" then Some ("SREF", [("sname", "SNAME", Quote); ("strans", "STRANS", Plain); ("angle", "ANGLE", Plain); ("xy", "XY", Unbracket)])
     else None)%string.
  (** json2txt.py:43-68: no case for a path. *)
  Definition txt_rows (t : string) : option (string * list row) :=
    (if String.eqb t "boundary" then Some ("BOUNDARY", [("layer", "LAYER", Plain); ("datatype", "DATATYPE", Plain); ("xy", "XY", Unbracket); ("propattr", "PROPATTR", Plain); ("propvalue", "PROPVALUE", Quote)])
     else if String.eqb t "text" then Some ("TEXT", [("layer", "LAYER", Plain); ("texttype", "TEXTTYPE", Plain); ("presentation", "PRESENTATION", Plain); ("strans", "STRANS", Plain); ("mag", "MAG", Plain); ("angle", "ANGLE", Plain); ("xy", "XY", Unbracket); ("string", "STRING", Quote)])
     else if String.eqb t "sref" then Some ("SREF", [("sname", "SNAME", Quote); ("strans", "STRANS", Plain); ("angle", "ANGLE", Plain); ("xy", "XY", Unbracket)])
     else None)%string.

  (** The common shape of the two writers: [emit TAG text] stores a record or prints a line. *)
  Section Write.
    Context {O : Type}.
    Variable emit : string -> option chars -> option O.
    Variable rows : string -> option (string * list row).
    Definition put (t : string) (h : how) (v : option json) (out : list O) : option (list O) :=
      match v with
      | Some v => match render h v with
                  | Some s => option_map (fun o => out ++ [o]) (emit t (Some s))
                  | None => None
                  end
      | None => None
      end.
    Definition put0 (t : string) (out : list O) : option (list O) := option_map (fun o => out ++ [o]) (emit t None).
    Definition bind {A B} (x : option A) (f : A -> option B) : option B := match x with Some a => f a | None => None end.
    Definition write_row (e : json) (out : list O) (r : row) : option (list O) :=
      let '(k, t, h) := r in match jget e k with Some v => put t h (Some v) out | None => Some out end.
    Definition write_elem (out : list O) (e : json) : option (list O) :=
      match jget e "type" with
      | Some (JStr t) =>
          bind (match rows (string_of_list_ascii t) with
                | Some (tag, rs) => bind (put0 tag out) (fun out => foldO (write_row e) rs out)
                | None => Some out
                end) (put0 "ENDEL")
      | _ => None
      end.
    Definition write_cell (out : list O) (c : json) : option (list O) :=
      bind (put "BGNSTR" Unbracket (jget c "time") out) (fun out =>
      bind (put "STRNAME" Quote (jget c "strname") out) (fun out =>
      bind (match jget c "elements" with
            | Some es => bind (jlist es) (fun l => foldO write_elem l out)
            | None => Some out
            end) (put0 "ENDSTR"))).
    Definition write_lib (out : list O) (l : json) : option (list O) :=
      bind (put "BGNLIB" Unbracket (jget l "time") out) (fun out =>
      bind (put "LIBNAME" Quote (jget l "libname") out) (fun out =>
      bind (put "UNITS" Unbracket (jget l "units") out) (fun out =>
      bind (bind (jget l "bgnstr") jlist) (fun cs =>
      bind (foldO write_cell cs out) (put0 "ENDLIB"))))).
    Definition write (data : json) : option (list O) :=
      bind (put "HEADER" Plain (jget data "header") []) (fun out =>
      bind (bind (jget data "bgnlib") jlist) (fun ls => foldO write_lib ls out)).
  End Write.

  (** json2gds.py:44-91 [convert_GDSjson_GDS_fps]. *)
  Definition json2gds : json -> option (list record) := write store_data gds_rows.
  (** json2txt.py:24-28 [oprint] (a tag with data is printed as [TAG: data]) and 21-71 [convert_GDSjson_GDStxt]. *)
  Definition print_line (t : string) (s : option chars) : option chars :=
    Some (match s with Some s => str t ++ str ": " ++ s | None => str t end ++ [newline]).
  Definition json2txt (data : json) : option chars := option_map (fun ls => concat ls) (write print_line txt_rows data).

  (** gds2json.py:14-26 [show_data]; 26 (data of an unknown type) is not modelled. *)
  Definition one_or_all {A} (f : A -> json) (l : list A) : option json :=
    match l with [] => None | [a] => Some (f a) | l => Some (JArr (map f l)) end.
  Definition show_data (d : gdata) : option json :=
    match d with
    | DAscii s => Some (JStr s)
    | DBits z => Some (JInt z)
    | DReals l => one_or_all JReal l
    | DInts l => one_or_all JInt l
    | DNone => None
    end.
  (** txt2json.py:11-25 [print_data]. *)
  Definition print_data (t : gtype) (rest : option chars) : option json :=
    match rest with
    | None => None
    | Some s =>
        match t with
        | ASCII => Some (JStr (chop s))
        | BITARRAY => option_map JInt (py_intc s)
        | REAL8 => bind (mapO float (split_on ","%char s)) (one_or_all JReal)
        | INT2 | INT4 => bind (mapO py_intc (split_on ","%char s)) (one_or_all JInt)
        | NODATA => None
        end
    end.

  (** * The readers (gds2json.py:32-69, txt2json.py:31-78).
      [cursors[0..level]] is a chain of open objects and lists, each inside the one before; an open value is kept apart
      from its parent, with the key it has there, and put back when the level goes down.  [Below]: the level is negative,
      after which python indexes [cursors] from the end (not modelled, only the document is kept). *)
  Inductive frame := FObj (d : obj) | FArr (l : list json).
  Inductive state := Live (cur : frame) (up : list (frame * string)) | Below (top : json).
  Definition value (f : frame) : json := match f with FObj d => JObj d | FArr l => JArr l end.
  Definition attach (p : frame) (k : string) (v : json) : frame :=
    match p with FObj d => FObj (dset String.eqb d k v) | FArr l => FArr (l ++ [v]) end.
  (** [cursors] has [lim] places. *)
  Definition open_value (lim : nat) (f : frame) (k : string) (st : frame * list (frame * string)) : option (frame * list (frame * string)) :=
    let '(cur, up) := st in
    if (length up + 1 <? lim)%nat then Some (f, (cur, k) :: up) else None.
  (** gds2json.py:47-57: a record that opens an element, a structure or a library. *)
  Definition begin (lim : nat) (t : string) (data : option json) (st : frame * list (frame * string)) : option (frame * list (frame * string)) :=
    let name := if is_element t then "elements"%string else lower t in
    bind (match fst st with FObj _ => open_value lim (FArr []) name st | FArr _ => Some st end) (fun st =>
    bind (open_value lim (FObj []) EmptyString st) (fun st =>
    let d := if is_element t then [("type"%string, JStr (str (lower t)))] else [] in
    if starts3 t "BGN" then match data with Some v => Some (FObj (dset String.eqb d "time"%string v), snd st) | None => None end
    else Some (FObj d, snd st))).
  (** 61-63: the level goes down by two when the value around the current one is an object. *)
  Definition down (cur : frame) (up : list (frame * string)) : state :=
    match up with
    | [] => Below (value cur)
    | (FArr l, k) :: up => Live (attach (FArr l) k (value cur)) up
    | (FObj d, k) :: up =>
        let o := attach (FObj d) k (value cur) in
        match up with [] => Below (value o) | (p, k) :: up => Live (attach p k (value o)) up end
    end.
  Definition read_record (lim : nat) (st : state) (t : string) (ty : gtype) (data : option json) : option state :=
    match st with
    | Below _ => None
    | Live cur up =>
        bind (if (negb (is_nodata ty) && starts3 t "BGN") || is_element t then begin lim t data (cur, up) else Some (cur, up)) (fun '(cur, up) =>
        if negb (is_nodata ty) && negb (starts3 t "BGN")
        then match cur, data with
             | FObj d, Some v => Some (Live (FObj (dset String.eqb d (if is_element t then "elements"%string else lower t) v)) up)
             | _, _ => None
             end
        else if starts3 t "END" then Some (down cur up) else Some (Live cur up))
    end.
  (** The JSON document that is dumped at the end, whatever the level. *)
  Definition top (st : state) : json :=
    match st with
    | Below v => v
    | Live cur up => value (fold_left (fun f p => attach (fst p) (snd p) (value f)) up cur)
    end.
  (** gds2json.py:32-69 [convert_GDS_GDSjson]: 23 cursors. *)
  Definition gds2json (recs : list record) : option json :=
    option_map top (foldO (fun st r =>
      match type_of_tag (fst r) with Some ty => read_record 23 st (fst r) ty (show_data (snd r)) | None => None end) recs (Live (FObj []) [])).

  (** The lines of a text file (universal newlines). *)
  Fixpoint lines_go (acc s : chars) : list chars :=
    match s with
    | [] => match acc with [] => [] | _ => [rev acc] end
    | c :: t => if Ascii.eqb c newline || Ascii.eqb c (ascii_of_N 13)
                then rev acc :: (match t with
                                 | d :: t' => if Ascii.eqb c (ascii_of_N 13) && Ascii.eqb d newline then lines_go [] t' else lines_go [] t
                                 | [] => lines_go [] t
                                 end)
                else lines_go (c :: acc) t
    end.
  Definition lines (s : chars) : list chars := lines_go [] s.
  (** txt2json.py:33,45: a tag, then maybe a colon, blanks and the rest of the line. *)
  Definition parse_line (l : chars) : option (string * option chars) :=
    let '(t, r) := span (fun c => negb (Ascii.eqb c ":")) (trim l) in
    match t with
    | [] => None
    | _ => Some (string_of_list_ascii t, match r with [] => None | _ :: r => Some (ltrim r) end)
    end.
  (** txt2json.py:31-78 [convert_GDStxt_GDSjson]: 7 cursors. *)
  Definition read_line (st : state) (l : chars) : option state :=
    bind (parse_line l) (fun '(t, rest) =>
    bind (type_of_tag t) (fun ty => read_record 7 st t ty (print_data ty rest))).
  Definition txt2json (s : chars) : option json := option_map top (foldO read_line (lines s) (Live (FObj []) [])).
End Conv.
