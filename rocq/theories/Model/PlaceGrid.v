(** Model of align/pnr/grid_constraints.py, of the validator of [PlaceOnGrid]
    (align/schema/constraint.py:1043-1059) and of the flat checker in align/pnr/checker.py:85-128. *)
From Coq Require Import String.
From Verif Require Import Base.Prelude Base.PyDict Model.PySort Model.Transformation Model.RemoveDuplicates Model.Topo Model.Hpwl.
Local Open Scope Z_scope.

Inductive gdir := DH | DV.
Definition gdir_eqb (a b : gdir) : bool := match a, b with DH, DH | DV, DV => true | _, _ => false end.

(** constraint.py:1043-1045 [OffsetsScalings]. *)
Record oterm := mkOt { ot_offsets : list Z; ot_scalings : list Z }.
(** constraint.py:1048-1051 [PlaceOnGrid].  Simplified: the scalings are integers here; the
    schema restricts them to -1 and 1. *)
Record pog := mkPog { pg_dir : gdir; pg_pitch : Z; pg_terms : list oterm }.

(** constraint.py:1053-1059: construction with validation; [None] = ValidationError. *)
Definition mk_pog (d : gdir) (p : Z) (ts : list oterm) : option pog :=
  if forallb (fun t => forallb (fun o => (0 <=? o) && (o <? p)) (ot_offsets t)) ts then Some (mkPog d p ts) else None.

Definition zmem (x : Z) (l : list Z) : bool := existsb (Z.eqb x) l.

(** grid_constraints.py:12-15 [check]. *)
Definition pog_check (r : pog) (x s : Z) : bool :=
  existsb (fun t => zmem (x mod pg_pitch r) (ot_offsets t) && zmem s (ot_scalings t)) (pg_terms r).

Definition zpair_eqb (a b : Z * Z) : bool := (fst a =? fst b) && (snd a =? snd b).
Definition pmem (x : Z * Z) (l : list (Z * Z)) : bool := existsb (zpair_eqb x) l.

(** grid_constraints.py:17-28 [simplify].  Sets are duplicate-free lists. *)
Definition simplify (pairs : list (Z * Z)) : list oterm :=
  let pos := nodup Z.eq_dec (map fst (filter (fun p => snd p =? 1) pairs)) in
  let neg := nodup Z.eq_dec (map fst (filter (fun p => snd p =? -1) pairs)) in
  let both := filter (fun o => zmem o neg) pos in
  let pos' := filter (fun o => negb (zmem o both)) pos in
  let neg' := filter (fun o => negb (zmem o both)) neg in
  (match both with [] => [] | _ => [mkOt (sort_by (fun o => o) both) [1; -1]] end) ++
  (match pos' with [] => [] | _ => [mkOt (sort_by (fun o => o) pos') [1]] end) ++
  (match neg' with [] => [] | _ => [mkOt (sort_by (fun o => o) neg') [-1]] end).

(** grid_constraints.py:31-38 [lcm]; [None] = failed assertion. *)
Definition lcm2 (a b : Z) : Z := (a * b) / Z.gcd a b.
Definition lcm (xs : list Z) : option Z :=
  match xs with [] => None | x :: tl => Some (fold_left lcm2 tl x) end.

(** grid_constraints.py:47 [range(0, n, p)] for a positive step. *)
Definition coarse (n p : Z) : list Z := map (fun k => Z.of_nat k * p) (seq 0 (Z.to_nat ((n + p - 1) / p))).

(** grid_constraints.py:46-50 [gen_pairs]. *)
Definition grid_pairs (n : Z) (r : pog) : list (Z * Z) :=
  flat_map (fun c => flat_map (fun t => flat_map (fun o => map (fun s => (c + o, s)) (ot_scalings t)) (ot_offsets t)) (pg_terms r))
           (coarse n (pg_pitch r)).

(** grid_constraints.py:52 [set.intersection]. *)
Fixpoint inter (ls : list (list (Z * Z))) : list (Z * Z) :=
  match ls with
  | [] => []
  | [l] => l
  | l :: tl => filter (fun p => pmem p (inter tl)) l
  end.

(** grid_constraints.py:40-58 [merge].  [None] = failed assertion or ValidationError.
    Simplified: non-positive pitches (ZeroDivisionError, ValueError or an empty constraint)
    are [None] here. *)
Definition merge (rs : list pog) : option pog :=
  match rs, lcm (map pg_pitch rs) with
  | r0 :: _, Some n =>
    if forallb (fun r => 0 <? pg_pitch r) rs && forallb (fun r => gdir_eqb (pg_dir r0) (pg_dir r)) rs
    then mk_pog (pg_dir r0) n (simplify (inter (map (grid_pairs n) rs)))
    else None
  | _, _ => None
  end.

Fixpoint mapM {A B} (f : A -> option B) (l : list A) : option (list B) :=
  match l with
  | [] => Some []
  | a :: tl => match f a, mapM f tl with Some b, Some bs => Some (b :: bs) | _, _ => None end
  end.

(** grid_constraints.py:60-65 [split_directions_and_merge]. *)
Definition split_merge (rs : list pog) : option (list pog) :=
  mapM (fun b : gdir * list pog => merge (snd b)) (group_by gdir_eqb pg_dir rs).

(** A placed hierarchy: the modules (only names, templates and transformations are read) and the
    PlaceOnGrid constraints of the leaves.  Other kinds of constraints are ignored by the code. *)
Record gpl := mkGpl { gp_mods : list modl; gp_leaves : list (string * list pog) }.
Definition gmods (G : gpl) : list (string * modl) := modules (mkPvd (gp_mods G) [] []).
(** [modules[ctn]['constraints']], mutated by the pass: a state. *)
Definition gstate := string -> list pog.

(** grid_constraints.py:94-108: the constraint of an instance, seen from its parent. *)
Definition lift_pog (t : Tr) (c : pog) : option pog :=
  let '(s, o) := match pg_dir c with DH => (sY t, oY t) | DV => (sX t, oX t) end in
  mk_pog (pg_dir c) (pg_pitch c)
    (flat_map (fun tm => flat_map (fun off => map (fun sc => mkOt [(off - s * o * sc) mod pg_pitch c] [s * sc]) (ot_scalings tm)) (ot_offsets tm)) (pg_terms c)).

(** grid_constraints.py:71-92: the constraints of the template; [None] = failed assertion. *)
Definition inst_pogs (G : gpl) (st : gstate) (ctn : string) : option (list pog) :=
  match dget String.eqb (gp_leaves G) ctn with
  | Some cs => Some cs
  | None => if dmem String.eqb (gmods G) ctn then Some (st ctn) else None
  end.

(** grid_constraints.py:68-112 [gen_constraints_for_module]. *)
Definition gen_for_module (G : gpl) (st : gstate) (m : modl) : option gstate :=
  match concatM (fun i => match inst_pogs G st (mi_ctn i) with Some cs => mapM (lift_pog (mi_tr i)) cs | None => None end) (md_insts m) with
  | None => None
  | Some [] => Some st
  | Some ps => match split_merge ps with
               | None => None
               | Some new => Some (fun c => if String.eqb c (md_name m) then st c ++ new else st c)
               end
  end.

Definition ggraph (G : gpl) : list (string * list string) := mod_graph (mkPvd (gp_mods G) [] []).

(** grid_constraints.py:115-126 [gen_constraints]. *)
Definition gen_constraints (fuel : nat) (G : gpl) (st : gstate) (top : string) : option gstate :=
  match compute_topoorder fuel (ggraph G) top with
  | None => None
  | Some tp =>
    foldM (fun st cn => match dget String.eqb (gmods G) cn with
                        | Some m => gen_for_module G st m
                        | None => if dmem String.eqb (gp_leaves G) cn then Some st else None
                        end) (t_order tp) st
  end.

(** checker.py:85-96 [_transform_leaf] and 99-109 [_flatten_leaves]: concrete name, path, transformation.
    Simplified: the path is a list instead of a string joined by "/". *)
Fixpoint flatten_leaves (fuel : nat) (G : gpl) (cn : string) : option (list (string * hname * Tr)) :=
  match fuel with
  | 0%nat => None
  | Datatypes.S fuel' =>
    match dget String.eqb (gmods G) cn with
    | None => None
    | Some m =>
      concatM (fun i =>
        match dget String.eqb (gp_leaves G) (mi_ctn i) with
        | Some _ => Some [(mi_ctn i, [mi_name i], mult (mi_tr i) tr_default)]
        | None => option_map (map (fun lf : string * hname * Tr =>
                    let '(c, h, t) := lf in (c, mi_name i :: h, mult (mi_tr i) t))) (flatten_leaves fuel' G (mi_ctn i))
        end) (md_insts m)
    end
  end.

(** checker.py:112-128 [_check_place_on_grid]: does no assertion fail? *)
Definition check_leaf (t : Tr) (cs : list pog) : bool :=
  forallb (fun c =>
    let '(o, s) := match pg_dir c with DH => (oY t, sY t) | DV => (oX t, sX t) end in
    existsb (fun tm => existsb (fun off => ((o - off) mod pg_pitch c =? 0) && zmem s (ot_scalings tm)) (ot_offsets tm)) (pg_terms c)) cs.

(** checker.py:131-150 [check_place_on_grid].  Simplified: the constraints come from the leaves
    of the placement instead of from the primitive's json file. *)
Definition check_place_on_grid (fuel : nat) (G : gpl) (top : string) : option bool :=
  option_map (forallb (fun lf : string * hname * Tr =>
      let '(c, _, t) := lf in
      match dget String.eqb (gp_leaves G) c with Some cs => check_leaf t cs | None => true end)) (flatten_leaves fuel G top).
