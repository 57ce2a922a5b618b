(** Input of the placer: pnr/build_pnr_model.py:17-124, pnr/main.py:104-179 and 235-244, pnr/placer.py:69-98. *)
From Coq Require Import String Ascii.
From Verif Require Import Base.Prelude Base.PyDict.

(** * The netlist as indices (build_pnr_model.py:17-107) *)

(** An instance of a module: concrete and abstract template, name, formal and actual names. *)
Record vinst := mkVinst { in_tmpl : option string; in_atmpl : option string; in_name : string; in_fa : list (string * string) }.
Record vmod := mkVmod { vm_name : string; vm_params : list string; vm_insts : list vinst }.
(** A block: master, name, pins with the index of their net.  A net: name and its connections (pin index, block index);
    its degree is the length of that list (91-93). *)
Record pblock := mkPblock { pb_master : string; pb_name : string; pb_pins : list (string * nat) }.
Record pnode := mkPnode { pn_name : string; pn_terms : list string; pn_blocks : list pblock; pn_nets : list (string * list (nat * nat)); pn_index : list (string * nat) }.

Fixpoint update_nth {A} (l : list A) (i : nat) (f : A -> A) : list A :=
  match l, i with [], _ => [] | x :: l, 0%nat => f x :: l | x :: l, Datatypes.S i => x :: update_nth l i f end.
(** [Nets] with [Connecteds], and [net_map]. *)
Definition netst : Type := (list (string * list (nat * nat)) * list (string * nat))%type.
(** 59-77 [process_connection]. *)
Definition connect (s : netst) (iter blk : nat) (net : string) : netst * nat :=
  match dget String.eqb (snd s) net with
  | Some i => ((update_nth (fst s) i (fun p => (fst p, snd p ++ [(iter, blk)])), snd s), i)
  | None => ((fst s ++ [(net, [(iter, blk)])], dset String.eqb (snd s) net (length (fst s))), length (fst s))
  end.
(** 80-85 *)
Fixpoint read_pins (s : netst) (iter blk : nat) (fa : list (string * string)) : netst * list (string * nat) :=
  match fa with
  | [] => (s, [])
  | (f, a) :: fa => let (s1, n) := connect s iter blk a in let (s2, ps) := read_pins s1 (Datatypes.S iter) blk fa in (s2, (f, n) :: ps)
  end.
(** 47-52 *)
Definition master (i : vinst) : option string := match in_tmpl i with Some t => Some t | None => in_atmpl i end.
(** 43-89.  [None]: an instance without any template. *)
Fixpoint read_insts (s : netst) (blk : nat) (index : list (string * nat)) (is : list vinst) : option (netst * list pblock * list (string * nat)) :=
  match is with
  | [] => Some (s, [], index)
  | i :: is =>
      match master i with
      | None => None
      | Some m =>
          let (s1, ps) := read_pins s 0 blk (in_fa i) in
          match read_insts s1 (Datatypes.S blk) (dset String.eqb index (in_name i) blk) is with
          | Some (s2, bs, ix) => Some (s2, mkPblock m (in_name i) ps :: bs, ix)
          | None => None
          end
      end
  end.
(** 20-99, one module.  Simplified: the name of the module is the one found (23). *)
Definition read_module (m : vmod) : option pnode :=
  match read_insts ([], []) 0 [] (vm_insts m) with
  | Some (s, bs, ix) => Some (mkPnode (vm_name m) (vm_params m) bs (fst s) ix)
  | None => None
  end.

(** * Leaf cells (main.py:104-158) *)

Definition up_char (c : ascii) : ascii := let n := nat_of_ascii c in if (Nat.leb 97 n && Nat.leb n 122)%bool then ascii_of_nat (n - 32) else c.
Fixpoint up (s : string) : string := match s with EmptyString => EmptyString | String c s => String (up_char c) (up s) end.
(** A constraint written for the placer: a capacitor array (name, unit), a guard ring, or another. *)
Inductive pcon := CC (cap unit_cap : string) | Ring (prim : string) | Other.
(** Modules: name and (instance name, abstract template) pairs.  Constraints: by module name, in a dictionary. *)
Definition pmods : Type := list (string * list (string * string)).
Definition pcons : Type := list (string * list pcon).
Definition in_s (x : string) (l : list string) : bool := existsb (String.eqb x) l.

(** 104-110 [extract_capacitor_constraints]. *)
Definition caps_of (cs : list pcon) : list (string * string) :=
  fold_left (fun d c => match c with CC n u => dset String.eqb d (up n) u | _ => d end) cs [].
Definition cap_constraints (ds : pcons) : list (string * list (string * string)) := map (fun p => (fst p, caps_of (snd p))) ds.
Section Leaves.
  Variables (ms : pmods) (ds : pcons).
  (** 114-122 *)
  Definition non_leaves : list string := map fst ms.
  Definition leaf_calls : list (string * list (string * string)) :=
    fold_left (fun d m => fold_left (fun d i => if in_s (snd i) non_leaves then d else dappend String.eqb d (snd i) (fst m, fst i)) (snd m) d) ms [].
  (** 130-137 *)
  Definition is_cap (parent inst : string) : bool :=
    match dget String.eqb (cap_constraints ds) parent with Some cs => dmem String.eqb cs inst | None => false end.
  Definition capacitors : list (string * list (string * string)) :=
    fold_left (fun d p => fold_left (fun d q => if is_cap (fst q) (snd q) then dappend String.eqb d (fst p) q else d) (snd p) d) leaf_calls [].
  (** 139-158; the set as a list. *)
  Definition leaves : list string :=
    filter (fun l => negb (in_s l (map fst capacitors))) (map fst leaf_calls)
    ++ flat_map (fun p => map snd (snd p)) (cap_constraints ds)
    ++ flat_map (fun p => flat_map (fun c => match c with Ring r => [r] | _ => [] end) (snd p)) ds.
End Leaves.
(** 160-179 [gen_leaf_collateral]: the concrete names with collateral; primitives are (abstract, concrete) pairs.
    Simplified: which files exist is not modelled. *)
Definition collateral (ls : list string) (prims : list (string * string)) : list string :=
  flat_map (fun p => if negb (String.eqb (fst p) "GUARD_RING") && negb (in_s (fst p) ls) then [] else [snd p])%bool prims.
(** 236-244: the lines of the map file. *)
Definition map_file (prims : list (string * string)) : list (string * string) := prims.

(** * The modules below one module (placer.py:69-98) *)
(** [aux] (80-85), without a limit to its depth in python; [None]: not finished at this depth. *)
Definition smods : Type := list (string * list string).
Definition last_def (ms : smods) (nm : string) : option (list string) := dget String.eqb (rev ms) nm.
Fixpoint subset_aux (ms : smods) (fuel : nat) (found : list string) (nm : string) : option (list string) :=
  match fuel with
  | 0%nat => None
  | Datatypes.S fuel =>
      let found := nm :: found in
      match last_def ms nm with
      | None => Some found
      | Some ts => fold_left (fun o t => match o with Some f => subset_aux ms fuel f t | None => None end) ts (Some found)
      end
  end.
Definition subset_mods (ms : smods) (fuel : nat) (nm : string) : option smods :=
  match subset_aux ms fuel [] nm with
  | Some found => Some (filter (fun m => in_s (fst m) found) ms)
  | None => None
  end.
