(** Model of align/pnr/hpwl.py. *)
From Coq Require Import String.
From Verif Require Import Base.Prelude Base.PyDict Model.Transformation Model.RemoveDuplicates Model.Topo.
Local Open Scope Z_scope.

(** hpwl.py:12-26 [Interval]. *)
Record interval := mkIv { iv_m : option Z; iv_M : option Z }.
Definition iv_empty : interval := mkIv None None.
Definition iv_add (i : interval) (v : Z) : interval :=
  mkIv (match iv_m i with None => Some v | Some m => if v <? m then Some v else Some m end)
       (match iv_M i with None => Some v | Some M => if M <? v then Some v else Some M end).
(** Simplified: [m] set with [M] unset (a TypeError in Python) never arises from [add]; 0 here. *)
Definition iv_dist (i : interval) : Z :=
  match iv_m i, iv_M i with Some m, Some M => M - m | _, _ => 0 end.

(** hpwl.py:28-61 [SemiPerimeter]. *)
Record semi := mkSp { sp_x : interval; sp_y : interval }.
Definition sp_empty : semi := mkSp iv_empty iv_empty.
Definition sp_addPoint (s : semi) (p : Z * Z) : semi := mkSp (iv_add (sp_x s) (fst p)) (iv_add (sp_y s) (snd p)).
Definition sp_addRect (s : semi) (r : Rect) : semi :=
  mkSp (iv_add (iv_add (sp_x s) (llx r)) (urx r)) (iv_add (iv_add (sp_y s) (lly r)) (ury r)).
Definition sp_dist (s : semi) : Z := iv_dist (sp_x s) + iv_dist (sp_y s).
(** hpwl.py:52-57 [isEmpty], [toList]: [None] = empty (the assertion fails). *)
Definition sp_rect (s : semi) : option Rect :=
  match iv_m (sp_x s), iv_m (sp_y s), iv_M (sp_x s), iv_M (sp_y s) with
  | Some a, Some b, Some c, Some d => Some (mkRect a b c d)
  | _, _, _, _ => None
  end.
(** hpwl.py:59-61 [update]. *)
Definition sp_update (s other : semi) (t : Tr) : semi :=
  match sp_rect other with
  | None => s
  | Some r => sp_addRect s (canonical (hitRect t r))
  end.

(** The parts of [placement_verilog_d] that are read. *)
Record minst := mkInst { mi_name : string; mi_ctn : string; mi_tr : Tr; mi_fa : list (string * string) }.
Record modl := mkMod { md_name : string; md_params : list string; md_insts : list minst }.
Record leaf := mkLeaf { lf_name : string; lf_terms : list (string * Rect) }.
Record pvd := mkPvd { pv_mods : list modl; pv_leaves : list leaf; pv_globals : list string }.

(** hpwl.py:66, 160: the dictionary by concrete name (later entries win). *)
Definition modules (P : pvd) : list (string * modl) :=
  fold_left (fun d m => dset String.eqb d (md_name m) m) (pv_mods P) [].

(** hierarchical names. *)
Definition hname := list string.
Fixpoint hname_eqb (a b : hname) : bool :=
  match a, b with
  | [], [] => true
  | x :: a, y :: b => String.eqb x y && hname_eqb a b
  | _, _ => false
  end.

(** hpwl.py:82-86 [gen_pair]. *)
Definition gen_pairs (P : pvd) (prefix : hname) (tr : list (string * hname)) (fa : list (string * string)) : list (string * hname) :=
  map (fun p : string * string =>
         let a := snd p in
         (fst p, if smem a (pv_globals P) then [a]
                 else match dget String.eqb tr a with Some h => h | None => prefix ++ [a] end)) fa.
(** [dict(pairs)]. *)
Definition dict_of {V} (l : list (string * V)) : list (string * V) :=
  fold_left (fun d p => dset String.eqb d (fst p) (snd p)) l [].

Fixpoint concatM {A B} (f : A -> option (list B)) (l : list A) : option (list B) :=
  match l with
  | [] => Some []
  | a :: tl => match f a, concatM f tl with Some x, Some y => Some (x ++ y) | _, _ => None end
  end.

(** hpwl.py:69-94 [aux]: the appended (net, pin) pairs in order.  [None] = failed assertion or
    recursion deeper than [fuel]. *)
Fixpoint net_aux (fuel : nat) (P : pvd) (m : modl) (prefix : hname) (tr : list (string * hname)) : option (list (hname * hname)) :=
  match fuel with
  | 0%nat => None
  | Datatypes.S fuel' =>
    if forallb (fun k => smem k (md_params m)) (map fst tr) &&
       (match prefix with [] => true | _ => forallb (fun p => smem p (map fst tr)) (md_params m) end)
    then concatM (fun i =>
           match dget String.eqb (modules P) (mi_ctn i) with
           | Some m' => net_aux fuel' P m' (prefix ++ [mi_name i]) (dict_of (gen_pairs P prefix tr (mi_fa i)))
           | None => Some (map (fun p => (snd p, prefix ++ [mi_name i; fst p])) (gen_pairs P prefix tr (mi_fa i)))
           end) (md_insts m)
    else None
  end.

(** hpwl.py:63-98 [gen_netlist]: net -> pins (appending to the list of each net). *)
Definition gen_netlist (fuel : nat) (P : pvd) (cn : string) : option (list (hname * list hname)) :=
  match dget String.eqb (modules P) cn with
  | None => None
  | Some m =>
    match net_aux fuel P m [] [] with
    | None => None
    | Some l => Some (map (fun g => (fst g, map snd (snd g))) (group_by hname_eqb fst l))
    end
  end.

(** hpwl.py:111-116 and 164-169 [leaf_terminals[(ctn, t)]]. *)
Definition leaf_terminals (P : pvd) (ctn t : string) : list Rect :=
  flat_map (fun lf => if String.eqb (lf_name lf) ctn
                      then map snd (filter (fun tm => String.eqb (fst tm) t) (lf_terms lf)) else []) (pv_leaves P).

Definition pair_eqb (a b : string * string) : bool := String.eqb (fst a) (fst b) && String.eqb (snd a) (snd b).

(** hpwl.py:107: (module, instance name) -> instance. *)
Definition instances (P : pvd) : list ((string * string) * minst) :=
  fold_left (fun d m => fold_left (fun d i => dset pair_eqb d (md_name m, mi_name i) i) (md_insts m) d) (pv_mods P) [].

(** hpwl.py:123-128: follow the instance path; [None] = KeyError. *)
Fixpoint walk (P : pvd) (ctn : string) (t : Tr) (path : hname) : option (string * Tr) :=
  match path with
  | [] => Some (ctn, t)
  | n :: tl => match dget pair_eqb (instances P) (ctn, n) with
               | Some i => walk P (mi_ctn i) (postMult t (mi_tr i)) tl
               | None => None
               end
  end.

(** hpwl.py:123-132: the rectangles of one pin. *)
Definition pin_rects (P : pvd) (cn : string) (hpin : hname) : option (list Rect) :=
  match walk P cn tr_default (removelast hpin) with
  | None => None
  | Some (ctn, t) => Some (map (fun r => canonical (hitRect t r)) (leaf_terminals P ctn (last hpin ""%string)))
  end.

Definition is_global (P : pvd) (h : hname) : bool := match h with [x] => smem x (pv_globals P) | _ => false end.

(** hpwl.py:106-138 [calculate_HPWL_from_placement_verilog_d_top_down]. *)
Definition top_down (P : pvd) (cn : string) (nets : list (hname * list hname)) (skip : bool) : option Z :=
  foldM (fun acc (net : hname * list hname) =>
    if skip && is_global P (fst net) then Some acc
    else match concatM (pin_rects P cn) (snd net) with
         | None => None
         | Some rs => Some (acc + sp_dist (fold_left sp_addRect rs sp_empty))
         end) nets 0.

(** [net_bboxes]: a defaultdict, here a total function.  Simplified: reading creates an empty
    entry in Python; an empty entry behaves like an absent one, also under the membership test of
    line 205, which guards an update that does nothing for an empty entry. *)
Definition boxes := string * string -> semi.
Definition bset (b : boxes) (k : string * string) (s : semi) : boxes := fun k' => if pair_eqb k' k then s else b k'.

(** hpwl.py:192-209: one instance ([for a in global_actuals] in list order: the keys differ). *)
Definition inst_boxes (P : pvd) (cn : string) (b : boxes) (i : minst) : boxes :=
  let b1 := fold_left (fun b (p : string * string) =>
              bset b (cn, snd p) (sp_update (b (cn, snd p)) (b (mi_ctn i, fst p)) (mi_tr i))) (mi_fa i) b in
  fold_left (fun b a => bset b (cn, a) (sp_update (b (cn, a)) (b (mi_ctn i, a)) (mi_tr i))) (nodup string_dec (pv_globals P)) b1.

(** hpwl.py:193-196 and 211-214: the hidden wire length of one module.  Set iteration in list
    order: only the sum is observed. *)
Definition local_hpwl (P : pvd) (m : modl) (b : boxes) (locs : list (string * Z)) : Z :=
  fold_left (fun acc i => match dget String.eqb locs (mi_ctn i) with Some v => acc + v | None => acc end) (md_insts m) 0 +
  fold_left (fun acc a => acc + sp_dist (b (md_name m, a)))
    (filter (fun a => negb (smem a (md_params m) || smem a (pv_globals P)))
            (nodup string_dec (flat_map (fun i => map snd (mi_fa i)) (md_insts m)))) 0.

(** hpwl.py:180-216: the loop body over [order]; [fm] is [found_modules]. *)
Definition bu_step (P : pvd) (fm : list string) (acc : boxes * list (string * Z)) (cn : string) : option (boxes * list (string * Z)) :=
  if smem cn fm then
    match dget String.eqb (modules P) cn with
    | None => None
    | Some m =>
      let b := fold_left (inst_boxes P cn) (md_insts m) (fst acc) in
      Some (b, dset String.eqb (snd acc) cn (local_hpwl P m b (snd acc)))
    end
  else Some acc.

(** hpwl.py:173-178: the initial boxes of leaf pins. *)
Definition leaf_boxes (P : pvd) : boxes := fun k => fold_left sp_addRect (leaf_terminals P (fst k) (snd k)) sp_empty.

(** hpwl.py:171: the module graph. *)
Definition mod_graph (P : pvd) : list (string * list string) :=
  map (fun cm => (fst cm, map mi_ctn (md_insts (snd cm)))) (modules P).

(** hpwl.py:157-231 [calculate_HPWL_from_placement_verilog_d_bottom_up]. *)
Definition bottom_up (fuel : nat) (P : pvd) (cn : string) (skip : bool) : option Z :=
  match compute_topoorder fuel (mod_graph P) cn with
  | None => None
  | Some tp =>
    match foldM (bu_step P (t_mods tp)) (t_order tp) (leaf_boxes P, []) with
    | None => None
    | Some (b, locs) =>
      match dget String.eqb (modules P) cn, dget String.eqb locs cn with
      | Some m, Some v =>
        Some (fold_left (fun acc a => if skip && smem a (pv_globals P) then acc else acc + sp_dist (b (cn, a)))
                (nodup string_dec (md_params m ++ pv_globals P)) v)
      | _, _ => None
      end
    end
  end.
