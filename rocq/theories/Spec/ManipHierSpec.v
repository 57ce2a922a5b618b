(** Flattened netlists and supplies, independent of the functions that remove power pins. *)
From Coq Require Import String Ascii.
From Verif Require Import Base.Prelude Base.PyDict Base.PyStr Model.Hpwl.

Definition mod_of (S : list modl) (n : string) : option modl := find (fun m => String.eqb (md_name m) n) S.

(** A net of the flat netlist: a global net, or a net local to the instance at [path]. *)
Inductive net := Glob (g : string) | Local (path : list string) (a : string).

(** What name [a] means inside the instance at [path] whose ports are bound by [env]. *)
Definition res (G : list string) (path : list string) (env : list (string * net)) (a : string) : net :=
  match dget String.eqb env a with
  | Some n => n
  | None => if existsb (String.eqb a) G then Glob a else Local path a
  end.

(** All leaf pins: path of the leaf instance, its template, pin, net.  [d] bounds the depth. *)
Fixpoint flat (d : nat) (S : list modl) (G : list string) (X : string) (path : list string) (env : list (string * net))
  : list (list string * string * string * net) :=
  match d with
  | 0 => []
  | Datatypes.S d =>
    match mod_of S X with
    | None => []
    | Some m =>
      flat_map (fun i =>
        match mod_of S (mi_ctn i) with
        | Some _ => flat d S G (mi_ctn i) (path ++ [mi_name i]) (map (fun c => (fst c, res G path env (snd c))) (mi_fa i))
        | None => map (fun c => (path ++ [mi_name i], mi_ctn i, fst c, res G path env (snd c))) (mi_fa i)
        end) (md_insts m)
    end
  end.

Notation sup := (string -> option string).

(** [supplied S top G X P]: some instance of [X] below [top] has its formals tied to globals as [P] says. *)
Inductive supplied (S : list modl) (top : string) (G : list string) : string -> sup -> Prop :=
| sup_top : supplied S top G top (fun a => if existsb (String.eqb a) G then Some a else None)
| sup_child X P m i m' : supplied S top G X P -> mod_of S X = Some m -> In i (md_insts m) -> mod_of S (mi_ctn i) = Some m' ->
    supplied S top G (mi_ctn i) (fun f => match dget String.eqb (mi_fa i) f with Some a => P a | None => None end).

(** One module is never used with two different supplies on the same set of ports. *)
Definition one_supply (S : list modl) top G : Prop :=
  forall X P Q, supplied S top G X P -> supplied S top G X Q ->
    (forall f, P f = None <-> Q f = None) -> forall f, P f = Q f.

(** No port is named like a global unless it is itself tied to that global, when another port of
    the same module is. *)
Definition no_capture (S : list modl) top G : Prop :=
  forall X P m f g, supplied S top G X P -> mod_of S X = Some m -> P f = Some g -> In g (md_params m) -> P g = Some g.

(** [X_PG<i>] *)
Definition pg_form (X : string) (i : nat) : string := (X ++ "_PG" ++ string_of_list_ascii (print_Z (Z.of_nat i)))%string.

Record well_formed (S : list modl) (top : string) (rank : string -> nat) : Prop := {
  wf_names : NoDup (map md_name S);
  wf_top : exists m, mod_of S top = Some m;
  wf_root : forall m i, In m S -> In i (md_insts m) -> mi_ctn i <> top;
  wf_rank : forall m i, In m S -> In i (md_insts m) -> In (mi_ctn i) (map md_name S) -> rank (mi_ctn i) < rank (md_name m);
  wf_formals : forall m i, In m S -> In i (md_insts m) -> NoDup (map fst (mi_fa i));
  wf_ports : forall m i m', In m S -> In i (md_insts m) -> mod_of S (mi_ctn i) = Some m' -> incl (map fst (mi_fa i)) (md_params m');
  wf_free : forall m X k, In m S -> In X (map md_name S) ->
              md_name m <> pg_form X k /\ forall i, In i (md_insts m) -> mi_ctn i <> pg_form X k
}.
