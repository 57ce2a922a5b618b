(** Model of align/pnr/placer_pythonic.py:28-106 ([compute_topoorder], 8-25, is in Model/Topo.v). *)
From Coq Require Import String.
From Verif Require Import Base.Prelude Base.PyDict Model.Transformation Model.RemoveDuplicates Model.Topo Model.Hpwl.
Local Open Scope nat_scope.

(** * Global signals (51-67) *)

(** The attribute 'global_signals' of the modules: module name -> set (a list read only through
    membership); absent keys are absent. *)
Notation gstore := (list (string * list string)).
Definition gs_of (st : gstore) (m : string) : list string :=
  match dget String.eqb st m with Some l => l | None => [] end.
(** 53-56 *)
Definition gs_update (st : gstore) (m : string) (G : list string) : gstore :=
  dupd String.eqb st m (fun o => match o with Some l => (l ++ G)%list | None => G end).
(** 60-65: [signals_to_propagate]. *)
Definition to_propagate (st : gstore) (G : list string) (i : minst) : list string :=
  map fst (filter (fun p : string * string => smem (snd p) G && negb (smem (fst p) (gs_of st (mi_ctn i)))) (mi_fa i)).

(** 51-67 [propagate_down_global_signals].  [mi_ctn] is 'abstract_template_name' here.  [None] =
    KeyError or recursion deeper than [fuel]. *)
Fixpoint propagate (fuel : nat) (mods : list (string * modl)) (st : gstore) (m : string) (G : list string) : option gstore :=
  match fuel with
  | 0 => None
  | Datatypes.S fuel' =>
    match dget String.eqb mods m with
    | None => None
    | Some md =>
      foldM (fun st i =>
               if dmem String.eqb mods (mi_ctn i) then
                 match to_propagate st G i with
                 | [] => Some st
                 | sigs => propagate fuel' mods st (mi_ctn i) sigs
                 end
               else Some st) (md_insts md) (gs_update st m G)
    end
  end.

(** * Trimming (28-48) *)

(** An element of 'leaves' or 'modules': the fields that are read or changed; [pd_rest] stands
    for everything else.  A leaf has no instances. *)
Record pelem (A B : Type) := mkPe {
  pd_conc : string; pd_abs : string; pd_insts : list string (* concrete_template_name *);
  pd_pin_bbox : option B; pd_global : option (list string); pd_rest : A }.
Arguments mkPe {A B}. Arguments pd_conc {A B}. Arguments pd_abs {A B}. Arguments pd_insts {A B}.
Arguments pd_pin_bbox {A B}. Arguments pd_global {A B}. Arguments pd_rest {A B}.
Record pdata (A B : Type) := mkPd { pd_leaves : list (pelem A B); pd_modules : list (pelem A B) }.
Arguments mkPd {A B}. Arguments pd_leaves {A B}. Arguments pd_modules {A B}.

(** 42-46: the changes made to a kept element.  [list(set)] is the identity here. *)
Definition strip {A B} (e : pelem A B) : pelem A B :=
  mkPe (pd_conc e) (pd_abs e) (pd_insts e) None (pd_global e) (pd_rest e).

(** 30: the dictionary (later entries win). *)
Definition trim_graph {A B} (D : pdata A B) : list (string * list string) :=
  fold_left (fun d m => dset String.eqb d (pd_conc m) (pd_insts m)) (pd_modules D) [].
Definition trim_tops {A B} (D : pdata A B) (top : string) : list string :=
  map pd_conc (filter (fun m => String.eqb (pd_abs m) top) (pd_modules D)).

(** 28-48 [trim_placement_data]. *)
Definition trim {A B} (fuel : nat) (D : pdata A B) (top : string) : option (pdata A B) :=
  match concatM (fun c => option_map (fun t => t_mods t ++ t_leaves t) (compute_topoorder fuel (trim_graph D) c)) (trim_tops D top) with
  | None => None
  | Some used =>
    let keep l := map strip (filter (fun e => smem (pd_conc e) used) l) in
    Some (mkPd (keep (pd_leaves D)) (keep (pd_modules D)))
  end.

(** * Pin boxes of leaves (77-89) *)

(** A terminal of a leaf: is it a pin, net name, rectangle. *)
Record lterm := mkLt { lt_pin : bool; lt_net : string; lt_rect : Rect }.
Definition grow (a b : Rect) : Rect :=
  mkRect (Z.min (llx a) (llx b)) (Z.min (lly a) (lly b)) (Z.max (urx a) (urx b)) (Z.max (ury a) (ury b)).
Definition pin_bbox (ts : list lterm) : list (string * Rect) :=
  fold_left (fun d t => if lt_pin t
                        then dupd String.eqb d (lt_net t) (fun o => match o with Some r => grow r (lt_rect t) | None => lt_rect t end)
                        else d) ts [].
