(** The variants of a block: PlaceRouteHierFlow/PnRDB/PnRdatabase.cpp:1757-1847 (stem, MergeLEFMapData),
    align/pnr/build_pnr_model.py:109-124 (_ConstructMap).
    Unsigned ints have 32 bits and sizes 64.  Simplified: of an instance the master, the file, the LEF macro with its size,
    and the pins with their geometry, of any type G; lines of the map file are pairs already. *)
From Coq Require Import String Ascii.
From Verif Require Import Base.Prelude Base.PyDict Model.UpdateConst Model.Canvas.
Local Open Scope list_scope. Local Open Scope Z_scope.

(** * stem (1757-1775) *)
Definition npos : Z := 2 ^ 64 - 1.
Definition u32 (z : Z) : Z := z mod 2 ^ 32.
Definition slen (s : string) : Z := Z.of_nat (String.length s).
(** std::string::find_last_of with one character, from position p *)
Fixpoint last_of_from (c : ascii) (p : Z) (s : string) : Z :=
  match s with
  | EmptyString => npos
  | String d s => let r := last_of_from c (p + 1) s in if r =? npos then (if Ascii.eqb c d then p else npos) else r
  end.
Definition find_last_of (c : ascii) (s : string) : Z := last_of_from c 0 s.
(** std::string::substr: at most n characters; an exception, None, if pos is beyond the end *)
Definition substr (s : string) (pos n : Z) : option string :=
  if slen s <? pos then None else Some (String.substring (Z.to_nat pos) (Z.to_nat (Z.min n (slen s - pos))) s).
Definition stem (s : string) : option string :=
  let slash := u32 (find_last_of "/" s) in
  let start := if negb (slash =? npos) then u32 (slash + 1) else 0 in
  let dot := u32 (find_last_of "." s) in
  let stop := if negb (dot =? npos) then dot else u32 (slen s) in
  substr s start (u32 (stop - start)).

(** * MergeLEFMapData (1777-1847) *)
Section Merge.
  Variable G : Type.
  Record macro := mkMacro { mc_name : string; mc_w : Z; mc_h : Z; mc_pins : list (string * G) }.
  Record minst := mkMinst { mi_master : string; mi_gds : option string; mi_lef : option string; mi_w : Z; mi_h : Z; mi_pins : list (string * option G) }.
  (** A block: its instances, whether the last is a leaf, instNum. *)
  Record mblock := mkMblock { mb_insts : list minst; mb_leaf : bool; mb_num : nat }.
  Variable lefData : list (string * list macro).

  (** build_pnr_model.py:120-124 *)
  Definition construct_map (ps : list (string * string)) : list (string * list string) :=
    fold_left (fun d p => dappend String.eqb d (fst p) (snd p)) ps [].
  (** std::string::find *)
  Fixpoint has_sub (x s : string) : bool :=
    String.prefix x s || match s with EmptyString => false | String _ s => has_sub x s end.
  Definition capish (s : string) : bool := has_sub "Cap" s || has_sub "CAP" s || has_sub "cap" s.
  Fixpoint first_pin (ps : list (string * G)) (x : string) : option G :=
    match ps with [] => None | p :: ps => if String.eqb (fst p) x then Some (snd p) else first_pin ps x end.
  (** 1800-1838; None: no LEF, the assertion at 1841 fails *)
  Definition variant (i : minst) (file : string) : option minst :=
    match stem file with
    | None => None
    | Some k => match dget String.eqb lefData k with
                | Some (l :: _) => Some (mkMinst (mi_master i) (Some file) (Some (mc_name l)) (mc_w l) (mc_h l)
                                     (map (fun p => (fst p, match first_pin (mc_pins l) (fst p) with Some g => Some g | None => snd p end)) (mi_pins i)))
                | _ => None
                end
    end.
  (** The map, which operator[] extends (1795), and the logged errors. *)
  Definition mstate : Type := (list (string * list string) * list string)%type.
  Definition merge_block (st : mstate) (b : mblock) : option (mstate * mblock) :=
    match mb_insts b with
    | [] => None
    | i :: _ =>
        let k := mi_master i in
        let go (st : mstate) (fs : list string) :=
          match mapM (variant i) fs with Some is => Some (st, mkMblock is (mb_leaf b) (List.length fs)) | None => None end in
        match dget String.eqb (fst st) k with
        | Some fs => go st fs
        | None => if capish k || negb (mb_leaf b) then Some (st, b) else go (dset String.eqb (fst st) k [], snd st ++ [k]) []
        end
    end.
  Fixpoint merge_blocks (st : mstate) (bs : list mblock) : option (mstate * list mblock) :=
    match bs with
    | [] => Some (st, [])
    | b :: bs => match merge_block st b with
                 | None => None
                 | Some (st, b) => match merge_blocks st bs with Some (st, bs) => Some (st, b :: bs) | None => None end
                 end
    end.
  (** The nodes of the tree one after the other (1596-1602). *)
  Definition merge_tree (pairs : list (string * string)) (t : list (list mblock)) : option (mstate * list (list mblock)) :=
    fold_left (fun o bs => match o with
                           | None => None
                           | Some (st, t) => match merge_blocks st bs with Some (st, bs) => Some (st, t ++ [bs]) | None => None end
                           end) t (Some ((construct_map pairs, []), [])).
End Merge.
