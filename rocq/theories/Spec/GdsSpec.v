(** Well formed JSON layouts, for the conversions of gdsconv/. *)
From Coq Require Import String Ascii.
From Verif Require Import Base.Prelude Base.PyStr Model.GdsConv.
Local Open Scope Z_scope.

(** What a field holds: one integer, two or more integers, one real, two or more reals, a string. *)
Inductive kind := KInt | KInts | KReal | KReals | KStr.
Definition schema := list (string * kind).
(** The types of elements and their fields, in the order in which a converted document lists them. *)
Definition boundary : string * schema :=
  ("boundary", [("layer", KInt); ("datatype", KInt); ("xy", KInts); ("propattr", KInt); ("propvalue", KStr)])%string.
Definition path : string * schema :=
  ("path", [("layer", KInt); ("datatype", KInt); ("pathtype", KInt); ("width", KInt); ("endextn", KInt); ("xy", KInts)])%string.
Definition text : string * schema :=
  ("text", [("layer", KInt); ("texttype", KInt); ("presentation", KInt); ("strans", KInt); ("mag", KReal); ("angle", KReal);
            ("xy", KInts); ("string", KStr)])%string.
Definition sref : string * schema :=
  ("sref", [("sname", KStr); ("strans", KInt); ("angle", KReal); ("xy", KInts)])%string.

Section Wf.
  Context {R : Type}.
  Notation json := (json R).
  (** Which strings are allowed, and which elements. *)
  Variable clean : chars -> Prop.
  Variable kinds : list (string * schema).
  Definition of_kind (k : kind) (v : json) : Prop :=
    match k with
    | KInt => exists z, v = JInt z
    | KInts => exists a b l, v = JArr (JInt a :: JInt b :: map JInt l)
    | KReal => exists r, v = JReal r
    | KReals => exists a b l, v = JArr (JReal a :: JReal b :: map JReal l)
    | KStr => exists s, v = JStr s /\ clean s
    end.
  (** Some of the fields, in order. *)
  Inductive fields : schema -> list (string * json) -> Prop :=
  | fields_nil : fields [] []
  | fields_skip f k s fs : fields s fs -> fields ((f, k) :: s) fs
  | fields_take f k s v fs : of_kind k v -> fields s fs -> fields ((f, k) :: s) ((f, v) :: fs).
  Definition wf_elem (e : json) : Prop :=
    exists t s fs, In (t, s) kinds /\ fields s fs /\ e = JObj (("type"%string, JStr (str t)) :: fs).
  Definition wf_cell (c : json) : Prop :=
    exists time name es, of_kind KInts time /\ of_kind KStr name /\ Forall wf_elem es /\
      c = JObj (("time"%string, time) :: ("strname"%string, name) :: match es with [] => [] | _ => [("elements"%string, JArr es)] end).
  Definition wf_lib (l : json) : Prop :=
    exists time name units cells, of_kind KInts time /\ of_kind KStr name /\ of_kind KReals units /\ Forall wf_cell cells /\ cells <> [] /\
      l = JObj [("time"%string, time); ("libname"%string, name); ("units"%string, units); ("bgnstr"%string, JArr cells)].
  Definition wf_doc (d : json) : Prop :=
    exists header libs, Forall wf_lib libs /\ libs <> [] /\ d = JObj [("header"%string, JInt header); ("bgnlib"%string, JArr libs)].
End Wf.
(** A string that stays on one line. *)
Definition one_line (s : chars) : Prop := ~ In (ascii_of_N 10) s /\ ~ In (ascii_of_N 13) s.
(** [str] and [float] of real numbers: what [str] prints is read back, and has no blanks and no commas. *)
Definition reals_ok {R} (rstr : R -> chars) (rparse : chars -> option R) : Prop :=
  forall r, rparse (rstr r) = Some r /\ rstr r <> [] /\ Forall (fun c => c <> ","%char /\ Lef.is_ws c = false) (rstr r).
