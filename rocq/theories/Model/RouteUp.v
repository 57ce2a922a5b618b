(** The router's walk from the bottom up: one routed copy for each selected placement of a cell.
    align/pnr/router.py:174-245, PlaceRouteHierFlow/PnRDB/PnRdatabase.cpp:17-22 and 85-94.
    As in Model/RouteHier.v, of a node the fields that the walk reads or writes. *)
From Coq Require Import String Ascii.
From Verif Require Import Base.Prelude Base.PyDict Base.PyStr Model.PnrGeom Model.RouteHier Model.UpdateConst.
Local Open Scope list_scope.

Definition kid_list (n : hnode) : list nat := flat_map (fun b => match b_child b with Some c => [c] | None => [] end) (h_blocks n).
Definition in_nats (x : nat) (l : list nat) : bool := existsb (Nat.eqb x) l.
(** PnRdatabase.cpp:85-94, TraverseDFS: the nodes that are not white, and Q.  A child out of range is undefined in C++; None here. *)
Fixpoint dfs (fuel : nat) (db : hdb) (st : list nat * list nat) (i : nat) : option (list nat * list nat) :=
  match fuel with
  | O => None
  | Datatypes.S fuel =>
      match nth_error db i with
      | None => None
      | Some n => match foldO (fun st c => if in_nats c (fst st) then Some st else dfs fuel db st c) (kid_list n) (i :: fst st, snd st) with
                  | None => None
                  | Some st => Some (fst st, snd st ++ [i])
                  end
      end
  end.
Definition pair_eqb (a b : nat * nat) : bool := Nat.eqb (fst a) (fst b) && Nat.eqb (snd a) (snd b).
(** router.py:180-190, aux: subblocks_d as the list of its (cell, placement) pairs *)
Definition add_pair (l : list (nat * nat)) (x : nat * nat) : list (nat * nat) := if existsb (pair_eqb x) l then l else l ++ [x].
Fixpoint need (fuel : nat) (s : hdb * list (nat * nat)) (idx sel : nat) : option (hdb * list (nat * nat)) :=
  match fuel with
  | O => None
  | Datatypes.S fuel =>
      match checkout (fst s) idx sel with
      | None => None
      | Some (db, n) => foldO (fun s b => match b_child b with None => Some s | Some c => need fuel s c (b_sel b) end) (h_blocks n) (db, add_pair (snd s) (idx, sel))
      end
  end.
Definition sels (l : list (nat * nat)) (i : nat) : list nat := map snd (filter (fun x => Nat.eqb (fst x) i) l).
(** The width and height that CheckoutHierNode sets; without placements those of the node stay (here: its corner) *)
Definition size_at (n : hnode) (sel : nat) : Z * Z :=
  match h_as n with [] => snd (h_box n) | _ => match nth_error (h_as n) sel with Some (w, h, _) => (w, h) | None => (0, 0)%Z end end.
(** router.py:221-230: the new node of each child; None is a failed assertion *)
Definition relink (tbl : list ((nat * nat) * nat)) (b : tblk) : option tblk :=
  match b_child b with
  | None => Some b
  | Some c => option_map (set_child b) (dget pair_eqb tbl (c, b_sel b))
  end.
(** 241-244: one more parent; the order of list(set(..)) is not specified *)
Definition add_parent (k : nat) (n : hnode) : hnode := if in_nats k (h_parent n) then n else set_parent n (h_parent n ++ [k]).
Definition adopt_all (k : nat) (db : hdb) (bs : list tblk) : hdb :=
  fold_left (fun db b => match b_child b with None => db | Some c => hupd db c (add_parent k) end) bs db.
Definition up_name (n : hnode) (j : nat) : chars := h_name n ++ us :: num j.
Definition upright (n : hnode) : bool := Z.eqb (fst (fst (h_box n))) 0 && Z.eqb (snd (fst (h_box n))) 0 && match h_ort n with oN => true | _ => false end.
Fixpoint relinks (tbl : list ((nat * nat) * nat)) (bs : list tblk) : option (list tblk) :=
  match bs with
  | [] => Some []
  | b :: bs => match relink tbl b, relinks tbl bs with Some b', Some bs' => Some (b' :: bs') | _, _ => None end
  end.
Record upst := mkUp { u_db : hdb; u_res : results; u_tbl : list ((nat * nat) * nat) }.
(** 205-244, one placement of one cell.  Simplified: the lower left corner is the cell's, not the placement's; the assertions
    on it and on the orientation are kept. *)
Definition up_one (s : upst) (x : nat * nat) : option upst :=
  let '(i, j) := x in
  match checkout (u_db s) i j with
  | None => None
  | Some (db, n) =>
      if negb (upright n) then None
      else match relinks (u_tbl s) (h_blocks n) with
           | None => None
           | Some bs =>
               let cur := set_blocks (set_pose (set_parent n []) ((0, 0)%Z, size_at n j) oN) bs in
               let db := hupd db i bump in
               let k := List.length db in
               Some (mkUp (adopt_all k (db ++ [cur]) bs)
                          (dset chars_eqb (u_res s) (up_name n j) (start_path n j, k))
                          (dset pair_eqb (u_tbl s) x k))
           end
  end.
Section Up.
  (** The order in which Python goes through a set of numbers *)
  Variable ord : list nat -> list nat.
  (** 174-246; [topidx] is the database's *)
  Definition route_bottom_up (fuel : nat) (db : hdb) (topidx idx : nat) (runs : list nat) : option (hdb * results) :=
    match foldO (fun s l => need fuel s idx l) runs (db, []) with
    | None => None
    | Some (db, sub) =>
        match dfs fuel db ([], []) topidx with
        | None => None
        | Some (_, q) =>
            if negb (match rev q with t :: _ => Nat.eqb t idx | [] => false end) then None
            else option_map (fun s => (u_db s, u_res s))
                   (foldO (fun s i => foldO (fun s j => up_one s (i, j)) (ord (sels sub i)) s) q (mkUp db [] []))
        end
    end.
End Up.
