(** Model of align/pnr/manipulate_hierarchy.py:17-108,131-136 (power pins). *)
From Coq Require Import String Ascii.
From Verif Require Import Base.Prelude Base.PyDict Base.PyStr Model.Transformation Model.RemoveDuplicates Model.Topo Model.Hpwl.
Local Open Scope nat_scope.

(** [verilog_d['modules']] is a list of [modl]; [mi_ctn] is 'abstract_template_name' and [mi_tr] is
    not used here.  Dictionary objects are identified by the module name (49-50: the code asserts that
    names are unique) and, for instances, by their position. *)
Definition find_mod (S : list modl) (n : string) : option modl := find (fun m => String.eqb (md_name m) n) S.
Definition upd_mod (S : list modl) (n : string) (f : modl -> modl) : list modl :=
  map (fun m => if String.eqb (md_name m) n then f m else m) S.
Definition upd_nth {A} (l : list A) (k : nat) (f : A -> A) : list A :=
  map (fun p => if fst p =? k then f (snd p) else snd p) (combine (seq 0 (List.length l)) l).
Definition upd_inst (S : list modl) (n : string) (k : nat) (f : minst -> minst) : list modl :=
  upd_mod S n (fun m => mkMod (md_name m) (md_params m) (upd_nth (md_insts m) k f)).
Definition set_fa (fa : list (string * string)) (i : minst) : minst := mkInst (mi_name i) (mi_ctn i) (mi_tr i) fa.
Definition set_ctn (c : string) (i : minst) : minst := mkInst (mi_name i) c (mi_tr i) (mi_fa i).

(** [pg_connections]: net or formal -> global net. *)
Notation pgmap := (list (string * string)).
Definition drop_params (M : pgmap) (ps : list string) : list string := filter (fun p => negb (dmem String.eqb M p)) ps.

(** manipulate_hierarchy.py:57 [hier_pg_connections]. *)
Definition child_map (M : pgmap) (fa : list (string * string)) : pgmap :=
  fold_left (fun d c => match dget String.eqb M (snd c) with Some g => dset String.eqb d (fst c) g | None => d end) fa [].

(** 96, 103: [subckt + '_PG' + str(i)]. *)
Definition pg_name (sub : string) (i : nat) : string := (sub ++ "_PG" ++ string_of_list_ascii (print_Z (Z.of_nat i)))%string.

Fixpoint strs_eqb (a b : list string) : bool :=
  match a, b with
  | [], [] => true
  | x :: a, y :: b => String.eqb x y && strs_eqb a b
  | _, _ => false
  end.

(** 95-103: the search for a name; [true] = a new module has to be added.  [None] = the loop does
    not end within the fuel, one more than the number of modules. *)
Fixpoint pg_search (fuel : nat) (S : list modl) (sub : string) (ps : list string) (i : nat) : option (string * bool) :=
  match fuel with
  | 0 => None
  | Datatypes.S f =>
    match find_mod S (pg_name sub i) with
    | None => Some (pg_name sub i, true)
    | Some m => if strs_eqb (md_params m) ps then Some (pg_name sub i, false) else pg_search f S sub ps (Datatypes.S i)
    end
  end.

(** 78-108 [modify_pg_conn_subckt]: the new name and the modules. *)
Definition modify_pg (S : list modl) (sub : string) (pp : pgmap) : option (string * list modl) :=
  match find_mod S sub with
  | None => None
  | Some m =>
    let ps := drop_params pp (md_params m) in
    match pg_search (Datatypes.S (List.length S)) S sub ps 0 with
    | None => None
    | Some (n, true) => Some (n, S ++ [mkMod n ps (md_insts m)])
    | Some (n, false) => Some (n, S)
    end
  end.

(** 29-68 [remove_pg_pins].  Simplified: the fallback to the upper-case name (45-46) is left out.
    [None] = failed assertion or recursion deeper than [fuel]. *)
Fixpoint remove_pg (fuel : nat) (S : list modl) (sub : string) (M : pgmap) : option (list modl) :=
  match fuel with
  | 0 => None
  | Datatypes.S fuel' =>
    match find_mod S sub with
    | None => None
    | Some m =>
      let names := map md_name S in
      let S1 := upd_mod S sub (fun m => mkMod (md_name m) (drop_params M (md_params m)) (md_insts m)) in
      foldM (fun S k =>
        match find_mod S sub with
        | None => None
        | Some m =>
          match nth_error (md_insts m) k with
          | None => None
          | Some i =>
            if smem (mi_ctn i) names then
              match child_map M (mi_fa i) with
              | [] => Some S
              | M' =>
                let S2 := upd_inst S sub k (set_fa (filter (fun c => negb (dmem String.eqb M' (fst c))) (mi_fa i))) in
                match modify_pg S2 (mi_ctn i) M' with
                | None => None
                | Some (n, S3) => remove_pg fuel' (upd_inst S3 sub k (set_ctn n)) n M'
                end
              end
            else Some (upd_inst S sub k (set_fa (map (fun c => (fst c, match dget String.eqb M (snd c) with Some g => g | None => snd c end)) (mi_fa i))))
          end
        end) (seq 0 (List.length (md_insts m))) S1
    end
  end.

(** 71-75 [clean_if_extra]. *)
Definition clean (S : list modl) (top : string) : list modl :=
  filter (fun m => smem (md_name m) (flat_map (fun m => map mi_ctn (md_insts m)) S ++ [top])) S.

(** 17-27 [check_modules]. *)
Definition check_modules (S : list modl) : bool :=
  forallb (fun m => forallb (fun i => match find_mod S (mi_ctn i) with
                                      | Some m' => forallb (fun c => smem (fst c) (md_params m')) (mi_fa i)
                                      | None => true
                                      end) (md_insts m)) S.

(** 131-136 [manipulate_hierarchy]; [globals] are the 'actual's of 'global_signals'. *)
Definition manipulate (fuel : nat) (S : list modl) (top : string) (globals : list string) : option (list modl) :=
  if check_modules S then
    match remove_pg fuel S top (fold_left (fun d g => dset String.eqb d g g) globals []) with
    | None => None
    | Some S' => if check_modules (clean S' top) then Some (clean S' top) else None
    end
  else None.

(** manipulate_hierarchy.py:210-221 [connectivity_change_for_partial_routing], one instance:
    [prp] maps entity names to net names, in dictionary order. *)
Definition by_net (prp : list (string * string)) : list (string * list (string * string)) := group_by String.eqb snd prp.
Definition partial_fa (prp fa : list (string * string)) : list (string * string) :=
  flat_map (fun c => map (fun e => (e, snd c))
                         (match dget String.eqb (by_net prp) (fst c) with Some l => map fst l | None => [fst c] end)) fa.
(** 204-221: all instances of all modules; [prims] gives the partially routed pins of a primitive. *)
Definition partial_routing (prims : string -> option (list (string * string))) (S : list modl) : list modl :=
  map (fun m => mkMod (md_name m) (md_params m)
        (map (fun i => match prims (mi_ctn i) with Some prp => set_fa (partial_fa prp (mi_fa i)) i | None => i end) (md_insts m))) S.
