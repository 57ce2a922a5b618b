(** Hierarchical netlists (align/schema/library.py, subcircuit.py, instance.py) and the removal of
    single-instance hierarchies, align/compiler/preprocess.py:60-144. *)
From Coq Require Import String.
From Verif Require Import Base.Prelude Base.PyDict Model.RemoveDuplicates Model.Canvas Model.Netlist.
Local Open Scope Z_scope.

(** subcircuit.py:14-22.  Simplified: no generator and no constraints (the passes below do not
    read them). *)
Record sub := mkSub { sb_name : string; sb_pins : list string; sb_params : dict; sb_elems : list elem }.
(** model.py:9-19, with the base model resolved. *)
Record leaf := mkLeaf { lf_name : string; lf_pins : list string; lf_params : dict; lf_prefix : string }.
Inductive cell := Prim (l : leaf) | Sub (s : sub).
Definition cell_name (c : cell) : string := match c with Prim l => lf_name l | Sub s => sb_name s end.
Definition cell_pins (c : cell) : list string := match c with Prim l => lf_pins l | Sub s => sb_pins s end.
Definition cell_params (c : cell) : dict := match c with Prim l => lf_params l | Sub s => sb_params s end.
(** subcircuit.py:22: the prefix of a subcircuit is empty. *)
Definition cell_prefix (c : cell) : string := match c with Prim l => lf_prefix l | Sub _ => EmptyString end.
(** library.py:8-30.  Simplified: all names are in upper case already. *)
Definition lib := list cell.
Definition lfind (L : lib) (n : string) : option cell := find (fun c => String.eqb (cell_name c) n) L.
Definition get_element (els : list elem) (n : string) : option elem := find (fun e => String.eqb (e_name e) n) els.

(** [set(a) == set(b)] for lists of strings. *)
Definition same_set (a b : list string) : bool := forallb (fun x => in_strs x b) a && forallb (fun x => in_strs x a) b.
(** instance.py:48-88: the validators of [Instance]; [None] = a validation error. *)
Definition mk_inst (L : lib) (name model : string) (pins params : dict) : option elem :=
  match lfind L model with
  | None => None
  | Some c =>
      if negb (String.prefix (cell_prefix c) name) then None
      else if negb (same_set (map fst pins) (cell_pins c)) then None
      else match params with
           | [] => Some (mkElem name model pins (cell_params c))
           | _ => if forallb (fun k => in_strs k (map fst (cell_params c))) (map fst params)
                  then Some (mkElem name model pins (map (fun kv => (fst kv, match sget params (fst kv) with Some v => v | None => snd kv end)) (cell_params c)))
                  else None
           end
  end.

(** * find_dummy_hier (preprocess.py:131-144) *)

Definition is_sub (L : lib) (n : string) : bool := match lfind L n with Some (Sub _) => true | _ => false end.
(** The set of children, as any list that enumerates it without repetition. *)
Definition lists_children (L : lib) (c : sub) (d p : list string) : Prop :=
  NoDup p /\ forall m, In m p <-> (exists e, In e (sb_elems c) /\ e_model e = m /\ is_sub L m = true) /\ ~ In m d.
Definition single (c : sub) : bool := (length (sb_elems c) =? 1)%nat.
(** The difference of sets is formed once, before the loop; the elements are visited in any
    order.  [visit c d d']: the call changes the list [d] to [d']. *)
Inductive visit (L : lib) : sub -> list string -> list string -> Prop :=
| visit_intro c d p d1 : lists_children L c d p -> visits L p d d1 -> visit L c d (if single c then d1 ++ [sb_name c] else d1)
with visits (L : lib) : list string -> list string -> list string -> Prop :=
| visits_nil d : visits L [] d d
| visits_cons m s ms d d1 d2 : lfind L m = Some (Sub s) -> visit L s d d1 -> visits L ms d1 d2 -> visits L (m :: ms) d d2.

(** * remove_dummies (preprocess.py:77-128) *)

(** 98-100: [pins[p] = ele.pins[v]]; [None] = KeyError. *)
Definition through (ypins epins : dict) : option dict :=
  mapM (fun pv => option_map (fun n => (fst pv, n)) (sget epins (snd pv))) ypins.
(** 102-104: the parameters of the inner element, changed in place. *)
Definition override (yparams eparams : dict) : dict :=
  fold_left (fun d kv => if shas d (fst kv) then sset d (fst kv) (snd kv) else d) eparams yparams.
(** 93-117, one instance; the inner element [y] keeps its changed parameters.  Simplified:
    [elements.remove(ele)] removes the element of that name (names are unique). *)
Definition replace_one (L : lib) (y : elem) (st : list elem * dict) (x : string) : option (list elem * dict) :=
  let (els, yp) := st in
  match get_element els x with
  | None => None
  | Some ele =>
      match through (e_pins y) (e_pins ele) with
      | None => None
      | Some pins =>
          let yp' := override yp (e_params ele) in
          match mk_inst L (e_name ele) (e_model y) pins yp' with
          | None => None
          | Some e' => Some (remove_elem (els ++ [e']) (e_name ele), yp')
          end
      end
  end.
(** 85-117, one module of the library. *)
Definition replace_in (L : lib) (dh : string) (y : elem) (yp : dict) (els : list elem) : option (list elem * dict) :=
  foldM (replace_one L y) (map e_name (filter (fun e => String.eqb (e_model e) dh) els)) (els, yp).
Definition replace_cell (L : lib) (dh : string) (y : elem) (st : lib * dict) (c : cell) : option (lib * dict) :=
  let (out, yp) := st in
  match c with
  | Prim _ => Some (out ++ [c], yp)
  | Sub o =>
      if String.eqb (sb_name o) dh then Some (out ++ [c], yp)
      else option_map (fun r => (out ++ [Sub (mkSub (sb_name o) (sb_pins o) (sb_params o) (fst r))], snd r)) (replace_in L dh y yp (sb_elems o))
  end.
Definition drop_cell (L : lib) (n : string) : lib := filter (fun c => negb (String.eqb (cell_name c) n)) L.
(** 78-128, one hierarchy; [None] = an exception.  A hierarchy without elements is used only
    when it is instantiated. *)
Definition remove_dummy (L : lib) (dh : string) : option lib :=
  match lfind L dh with
  | Some (Sub ckt) =>
      match sb_elems ckt with
      | y :: _ => option_map (fun r => drop_cell (fst r) dh) (foldM (replace_cell L dh y) L ([], e_params y))
      | [] => None
      end
  | _ => None
  end.
Fixpoint remove_dummies (L : lib) (dhs : list string) (top : string) : option lib :=
  match dhs with
  | [] => Some L
  | dh :: tl =>
      if String.eqb dh top then Some L
      else match remove_dummy L dh with Some L' => remove_dummies L' tl top | None => None end
  end.
