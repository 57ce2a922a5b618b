(** Model of align/pnr/manipulate_hierarchy.py:138-173 [change_concrete_names_for_routing].
    Strings are lists of ASCII characters.  Not modelled: newlines inside names ([.] and [$] of the
    pattern treat them specially) and non-ASCII digits. *)
From Coq Require Import String Ascii.
From Verif Require Import Base.Prelude Base.PyDict Base.PyStr Model.PySort Model.Lef.
Local Open Scope Z_scope.

(** The fields that are read or written. *)
Record rinst := mkRinst { ri_name : chars; ri_ctn : chars; ri_atn : chars }.
Record rmod := mkRmod { rm_an : chars; rm_cn : chars; rm_insts : list rinst }.
Record rleaf := mkRleaf { rl_cn : chars; rl_an : chars }.
Record rpl := mkRpl { rp_mods : list rmod; rp_leaves : list rleaf }.

(** 141-148: the pattern [^(.+)_(\d+)$]; the digits end the string, so the underscore is the last one. *)
Definition split_cn (cn : chars) : option (chars * chars) :=
  let '(ds, rest) := span is_digit (rev cn) in
  match ds, rest with
  | _ :: _, c :: ((_ :: _) as st) => if Ascii.eqb c "_"%char then Some (rev st, rev ds) else None
  | _, _ => None
  end.

(** f'{an}_{i}' *)
Definition idx_name (an : chars) (i : Z) : chars := an ++ "_"%char :: print_Z i.

(** 143-150 *)
Definition cn_entry (m : rmod) : option (chars * Z) :=
  match split_cn (rm_cn m) with
  | Some (stem, suffix) => if chars_eqb stem (rm_an m) then Some (rm_an m, digits_val suffix) else None
  | None => None
  end.
Fixpoint cn_entries (ms : list rmod) : option (list (chars * Z)) :=
  match ms with
  | [] => Some []
  | m :: tl => match cn_entry m, cn_entries tl with Some e, Some es => Some (e :: es) | _, _ => None end
  end.

(** 152-155 *)
Definition tr_pairs (es : list (chars * Z)) : list (chars * chars) :=
  flat_map (fun g : chars * list (chars * Z) =>
              map (fun p : Z * Z => (idx_name (fst g) (snd p), idx_name (fst g) (fst p)))
                  (enumerate (sort_by (fun z => z) (map snd (snd g)))))
           (group_by chars_eqb fst es).
Definition tr_tbl (es : list (chars * Z)) : list (chars * chars) :=
  fold_left (fun d p => dset chars_eqb d (fst p) (snd p)) (tr_pairs es) [].

Definition cmem (x : chars) (l : list chars) : bool := existsb (chars_eqb x) l.

(** 161-168 *)
Definition ren_inst (tr : list (chars * chars)) (leaf_ctns : list chars) (i : rinst) : option rinst :=
  if cmem (ri_ctn i) leaf_ctns then
    if dmem chars_eqb tr (ri_ctn i) then None else Some (mkRinst (ri_name i) (ri_ctn i) (ri_ctn i))
  else match dget chars_eqb tr (ri_ctn i) with
       | Some c => Some (mkRinst (ri_name i) c (ri_atn i))
       | None => None
       end.
Fixpoint ren_insts tr lc (l : list rinst) : option (list rinst) :=
  match l with
  | [] => Some []
  | i :: tl => match ren_inst tr lc i, ren_insts tr lc tl with Some i, Some tl => Some (i :: tl) | _, _ => None end
  end.
(** 159-168 *)
Definition ren_mod tr lc (m : rmod) : option rmod :=
  match dget chars_eqb tr (rm_cn m), ren_insts tr lc (rm_insts m) with
  | Some c, Some l => Some (mkRmod (rm_an m) c l)
  | _, _ => None
  end.
Fixpoint ren_mods tr lc (l : list rmod) : option (list rmod) :=
  match l with
  | [] => Some []
  | m :: tl => match ren_mod tr lc m, ren_mods tr lc tl with Some m, Some tl => Some (m :: tl) | _, _ => None end
  end.

(** 138-173; [None] = assertion or KeyError. *)
Definition change_names (p : rpl) : option (rpl * list (chars * chars)) :=
  match cn_entries (rp_mods p) with
  | None => None
  | Some es =>
    match ren_mods (tr_tbl es) (map rl_cn (rp_leaves p)) (rp_mods p) with
    | None => None
    | Some ms => Some (mkRpl ms (map (fun l => mkRleaf (rl_cn l) (rl_cn l)) (rp_leaves p)), tr_tbl es)
    end
  end.
