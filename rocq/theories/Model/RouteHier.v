(** The router's walk over the hierarchy from the top down: one routed copy for each occurrence of a cell.
    align/pnr/router.py:251-332.
    Of a hierNode the fields that the walk reads or writes; of a block its selected instance; the
    routing itself (route_single_variant, CheckinChildnodetoBlock) leaves these as they are. *)
From Coq Require Import String Ascii.
From Verif Require Import Base.Prelude Base.PyDict Base.PyStr Model.PnrGeom.
Local Open Scope list_scope.

(** PnRDB/datatype.h: blockComplex with its instance [selectedInstance]; a child of -1 is None *)
Record tblk := mkTblk { b_child : option nat; b_sel : nat; b_name : chars; b_ort : omark; b_box : bbox }.
(** PnRDB/datatype.h: hierNode; h_as is PnRAS, the placements, each with its width and height *)
Record hnode := mkHnode { h_name : chars; h_top : bool; h_copies : nat; h_parent : list nat; h_blocks : list tblk; h_as : list (Z * Z * list tblk); h_box : bbox; h_ort : omark }.
Definition hdb := list hnode.
(** results_name_map: the path and the index of the new node *)
Definition results := list (chars * (list chars * nat)).

Definition set_blocks (n : hnode) (bs : list tblk) : hnode := mkHnode (h_name n) (h_top n) (h_copies n) (h_parent n) bs (h_as n) (h_box n) (h_ort n).
Definition set_pose (n : hnode) (b : bbox) (o : omark) : hnode := mkHnode (h_name n) (h_top n) (h_copies n) (h_parent n) (h_blocks n) (h_as n) b o.
Definition set_parent (n : hnode) (p : list nat) : hnode := mkHnode (h_name n) (h_top n) (h_copies n) p (h_blocks n) (h_as n) (h_box n) (h_ort n).
Definition bump (n : hnode) : hnode := mkHnode (h_name n) (h_top n) (Datatypes.S (h_copies n)) (h_parent n) (h_blocks n) (h_as n) (h_box n) (h_ort n).
Definition set_child (b : tblk) (c : nat) : tblk := mkTblk (Some c) (b_sel b) (b_name b) (b_ort b) (b_box b).
Definition set_bbox (b : tblk) (x : bbox) : tblk := mkTblk (b_child b) (b_sel b) (b_name b) (b_ort b) x.
Fixpoint hupd (db : hdb) (i : nat) (f : hnode -> hnode) : hdb :=
  match db, i with
  | [], _ => []
  | n :: db', O => f n :: db'
  | n :: db', Datatypes.S i' => n :: hupd db' i' f
  end.

(** PnRdatabase.cpp:96-118, CheckoutHierNode: the placement is written into the node, which is returned as a copy.
    Out of range is undefined in C++; None here. *)
Definition placement (n : hnode) (sel : nat) : option (list tblk) :=
  match h_as n with [] => Some (h_blocks n) | _ => option_map snd (nth_error (h_as n) sel) end.
Definition checkout (db : hdb) (i sel : nat) : option (hdb * hnode) :=
  match nth_error db i with
  | None => None
  | Some n => match placement n sel with
              | None => None
              | Some bs => Some (hupd db i (fun n => set_blocks n bs), set_blocks n bs)
              end
  end.
(** PnRdatabase.cpp:142-172, TransformNode: the blocks' boxes *)
Definition transform_node (d : ttype) (n : hnode) : hnode :=
  let '(w, h) := node_size (h_box n) (h_ort n) in
  set_blocks n (map (fun b => set_bbox b (transform_bbox (b_box b) (fst (h_box n)) w h (h_ort n) d)) (h_blocks n)).
Definition us : ascii := "_"%char.
Definition num (k : nat) : chars := print_Z (Z.of_nat k).
(** router.py:164-170, the name that route_single_variant returns *)
Definition result_name (n : hnode) (lidx : nat) : chars :=
  if h_top n then h_name n ++ us :: num lidx else h_name n ++ us :: num (h_copies n) ++ us :: num lidx.

(** router.py:268-278, the loop over the blocks *)
Fixpoint each {S0} (f : S0 -> tblk -> option (S0 * tblk)) (s : S0) (bs : list tblk) : option (S0 * list tblk) :=
  match bs with
  | [] => Some (s, [])
  | b :: bs' => match f s b with
                | None => None
                | Some (s1, b1) => match each f s1 bs' with None => None | Some (s2, bs2) => Some (s2, b1 :: bs2) end
                end
  end.
(** router.py:300-304, the children's parent *)
Definition adopt (k : nat) (db : hdb) (bs : list tblk) : hdb :=
  fold_left (fun db b => match b_child b with None => db | Some c => hupd db c (fun n => set_parent n [k]) end) bs db.

(** router.py:251-308, route_top_down_aux *)
Fixpoint top_down (fuel : nat) (s : hdb * results) (box : bbox) (ort : omark) (idx lidx sel : nat) (path : list chars) : option ((hdb * results) * nat) :=
  match fuel with
  | O => None
  | Datatypes.S fuel =>
      match checkout (fst s) idx sel with
      | None => None
      | Some (db, n) =>
          let cur := transform_node Forward (set_pose n box ort) in
          match each (fun s b =>
                        match b_child b with
                        | None => Some (s, b)
                        | Some c => match top_down fuel s (b_box b) (rel2abs ort (b_ort b)) c lidx (b_sel b) (path ++ [b_name b]) with
                                    | None => None
                                    | Some (s', k) => Some (s', set_child b k)
                                    end
                        end) (hupd db idx bump, snd s) (h_blocks cur) with
          | None => None
          | Some ((db, res), bs) =>
              let cur := set_blocks cur bs in
              let nm := result_name cur lidx in
              let cur := if h_top cur then cur else transform_node Backward cur in
              let k := List.length db in
              Some ((adopt k (db ++ [cur]) (h_blocks cur), dset chars_eqb res nm (path, k)), k)
          end
      end
  end.
(** router.py:310-332, route_top_down: one walk for each placement to run; the path starts with the top's name and placement *)
Definition start_path (n : hnode) (lidx : nat) : list chars := [h_name n ++ list_ascii_of_string ":placement_" ++ num lidx].
Definition run_one (fuel : nat) (s : hdb * results) (idx lidx : nat) : option ((hdb * results) * nat) :=
  match nth_error (fst s) idx with
  | None => None
  | Some n => match nth_error (h_as n) lidx with
              | None => None
              | Some (w, h, _) => top_down fuel s ((0, 0)%Z, (w, h)) oN idx lidx lidx (start_path n lidx)
              end
  end.
Fixpoint route_top_down (fuel : nat) (s : hdb * results) (idx : nat) (runs : list nat) : option ((hdb * results) * list nat) :=
  match runs with
  | [] => Some (s, [])
  | l :: runs' => match run_one fuel s idx l with
                  | None => None
                  | Some (s1, k) => match route_top_down fuel s1 idx runs' with None => None | Some (s2, ks) => Some (s2, k :: ks) end
                  end
  end.
