(** Model of placer/SeqPair.cpp:683-1279 [KeepOrdering] (PlaceRouteHierFlow): the sequence pair
    after a move is brought in line with the ordering, alignment and symmetry constraints.

    [CATCH_INFINITE_LOOP] is defined (line 1).  Undefined behaviour and failed assertions are
    [None].  Simplified: equal keys keep their order in [std::sort] (line 739). *)
From Verif Require Import Base.Prelude Model.SeqEnum Model.SymmGroup.

(** What is read of the design: ordering constraints, alignments (horizontal or not), the
    symmetry constraints [SPBlocks], abutments, and [counterpart] of the blocks (-1 is [None]). *)
Record odesign := ODesign {
  o_blocks : nat;
  o_orders : list ordering;
  o_aligns : list (bool * list nat);
  o_syms : list group;
  o_abuts : list ordering;
  o_cp : nat -> option nat
}.

(** The random choices: the shuffles of the successors of a block in the two sorts, and the
    number that is drawn for a group and a pair. *)
Record luck := Luck {
  l_pos : nat -> list nat -> list nat;
  l_neg : nat -> list nat -> list nat;
  l_pivot : nat -> nat -> nat
}.

(** [find(..) - begin()]: the length if it is not there. *)
Definition at_ (l : list nat) (v : nat) : nat := match index_of v l with Some i => i | None => length l end.

(** [vector::insert] and [vector::erase]. *)
Definition ins (i x : nat) (l : list nat) : list nat := firstn i l ++ x :: skipn i l.
Definition del (i : nat) (l : list nat) : list nat := firstn i l ++ skipn (S i) l.

Definition push_new (l : list nat) (v : nat) : list nat := if has v l then l else l ++ [v].
Definition o_first (o : ordering) : nat := fst (fst o).
Definition o_second (o : ordering) : nat := snd (fst o).

(** Lines 700-707 and 965-972. *)
Definition order_blocks (os : list ordering) : list nat :=
  fold_left (fun b o => push_new (push_new b (o_first o)) (o_second o)) os [].
(** Lines 973-987. *)
Definition sym_blocks (gs : list group) (b : list nat) : list nat :=
  fold_left (fun b g => fold_left push_new (selfs g)
                          (fold_left (fun b p => push_new (push_new b (fst p)) (snd p)) (g_pairs g) b)) gs b.

(** [adj] and [ind] as the list of the edges in the order in which they are added; an edge is
    added once. *)
Definition edge := (nat * nat)%type.
Definition is_edge (e : list edge) (u v : nat) : bool := existsb (fun x => pair_eqb x (u, v)) e.
Definition link (e : list edge) (u v : nat) : list edge := if is_edge e u v then e else e ++ [(u, v)].

(** Lines 715-722. *)
Definition order_edges (os : list ordering) : list edge := fold_left (fun e o => link e (o_first o) (o_second o)) os [].
(** Lines 994-1009. *)
Definition order_edges_neg (os : list ordering) : list edge :=
  fold_left (fun e o => match snd o with DirH => link e (o_first o) (o_second o) | DirV => link e (o_second o) (o_first o) end) os [].

(** Lines 724-766, a horizontal alignment with a self-symmetric block. *)
Definition center (d : odesign) (bs : list nat) : option nat :=
  fold_left (fun c b => match o_cp d b with Some b' => if b' =? b then Some b else c | None => c end) bs None.
Definition tosort (d : odesign) (bs : list nat) : list nat :=
  filter (fun b => match o_cp d b with Some b' => negb (b' =? b) | None => false end) bs ++
  flat_map (fun b => match o_cp d b with Some b' => if has b' bs then [] else [b'] | None => [] end) bs.
Fixpoint insert_by (key : nat -> nat) (x : nat) (l : list nat) : list nat :=
  match l with [] => [x] | y :: t => if key y <? key x then y :: insert_by key x t else x :: l end.
Definition sort_by (key : nat -> nat) (l : list nat) : list nat := fold_right (insert_by key) [] l.
Definition other (d : odesign) (b : nat) : nat := match o_cp d b with Some c => c | None => b end.
Definition chain (d : odesign) (key : nat -> nat) (bs : list nat) : list nat :=
  match center d bs with
  | None => []
  | Some c =>
      let half := fold_left (fun acc b => if has b acc || has (other d b) acc then acc else acc ++ [b]) (sort_by key (tosort d bs)) [] in
      half ++ [c] ++ rev (map (other d) half)
  end.
Fixpoint chain_edges (e : list edge) (c : list nat) : list edge :=
  match c with
  | u :: ((v :: _) as t) => chain_edges (if is_edge e u v || is_edge e v u then e else e ++ [(u, v)]) t
  | _ => e
  end.
Definition pos_edges (d : odesign) (l : list nat) : list edge :=
  let b := order_blocks (o_orders d) in
  let key v := if has v b then at_ l v else 0 in
  fold_left (fun e (al : bool * list nat) => if fst al then chain_edges e (chain d key (snd al)) else e) (o_aligns d) (order_edges (o_orders d)).

(** Lines 1011-1054: alignments, as the positive sequence [l] has the blocks. *)
Definition align_edge (b l : list nat) (h : bool) (e : list edge) (x y : nat) : list edge :=
  if has x b && has y b then
    let (u, v) := if at_ l y <? at_ l x then (y, x) else (x, y) in
    if at_ l u <? at_ l v then (if h then link e u v else link e v u) else e
  else e.
Fixpoint align_edges (b l : list nat) (h : bool) (e : list edge) (bs : list nat) : list edge :=
  match bs with
  | [] => e
  | x :: t => align_edges b l h (fold_left (fun e y => align_edge b l h e x y) t e) t
  end.

(** Lines 1056-1175: symmetry.  The pairs in the order of [l]; all of them are sorted (lines
    1059-1060 skip nothing). *)
Definition in_order (l : list nat) (p : nat * nat) : nat * nat := if at_ l (snd p) <? at_ l (fst p) then (snd p, fst p) else p.
Definition pair_pair (l : list nat) (e : list edge) (p q : nat * nat) : list edge :=
  let (u, v) := p in
  let (x, y) := in_order l q in
  let i1 := at_ l u in let i2 := at_ l v in let j1 := at_ l x in let j2 := at_ l y in
  if (i1 <? j1) && (i1 <? j2) && (j1 <? i2) && (j2 <? i2) then
    link (link (link (link e u x) u y) x v) y v
  else if (i1 <? j1) && (i1 <? j2) && (i2 <? j1) && (i2 <? j2) then
    link (link (link (link e x u) x v) y u) y v
  else if (j1 <? i1) && (j2 <? i1) && (j1 <? i2) && (j2 <? i2) then
    link (link (link (link e u x) u y) v x) v y
  else e.
(** Two edges are added if neither is there. *)
Definition link2 (e : list edge) (a b : edge) : list edge := if is_edge e (fst a) (snd a) || is_edge e (fst b) (snd b) then e else link (link e (fst a) (snd a)) (fst b) (snd b).
Definition pair_self (l : list nat) (e : list edge) (p : nat * nat) (s : nat) : list edge :=
  let (u, v) := p in
  let i1 := at_ l u in let i2 := at_ l v in let i := at_ l s in
  if (i <? i1) && (i <? i2) && negb (is_edge e u s || is_edge e v s) then link2 e (u, s) (v, s)
  else if (i1 <? i) && (i2 <? i) && negb (is_edge e s u || is_edge e s v) then link2 e (s, u) (s, v)
  else if (i1 <? i) && (i <? i2) && negb (is_edge e u s || is_edge e s v) then link2 e (u, s) (s, v)
  else if (i <? i1) && (i2 <? i) && negb (is_edge e v s || is_edge e s u) then link2 e (v, s) (s, u)
  else e.
Fixpoint pairs_edges (l ss : list nat) (e : list edge) (ps : list (nat * nat)) : list edge :=
  match ps with
  | [] => e
  | p0 :: t =>
      let p := in_order l p0 in
      let e1 := if at_ l (fst p) <? at_ l (snd p) then link e (fst p) (snd p) else e in
      let e2 := fold_left (fun e q => pair_pair l e p q) t e1 in
      pairs_edges l ss (fold_left (fun e s => pair_self l e p s) ss e2) t
  end.
Definition sym_edges (l : list nat) (e : list edge) (g : group) : list edge :=
  match g_axis g with
  | DirV => pairs_edges l (selfs g) e (g_pairs g)
  | DirH => fold_left (fun e p0 => let p := in_order l p0 in if at_ l (fst p) <? at_ l (snd p) then link e (snd p) (fst p) else e) (g_pairs g) e
  end.
Definition neg_blocks (d : odesign) : list nat := sym_blocks (o_syms d) (order_blocks (o_orders d)).
Definition neg_edges (d : odesign) (l : list nat) : list edge :=
  let e1 := fold_left (fun e (al : bool * list nat) => align_edges (neg_blocks d) l (fst al) e (snd al)) (o_aligns d) (order_edges_neg (o_orders d)) in
  fold_left (sym_edges l) (o_syms d) e1.

(** Lines 767-780 and 1177-1190: topological sort.  Every block is queued once, so that the fuel
    is never used up. *)
Definition upd (f : nat -> nat) (k v : nat) : nat -> nat := fun x => if x =? k then v else f x.
Definition release (ip : (nat -> nat) * list nat) (v : nat) : (nat -> nat) * list nat :=
  let i := fst ip v - 1 in (upd (fst ip) v i, if i =? 0 then snd ip ++ [v] else snd ip).
Definition after (e : list edge) (v : nat) : list nat := map snd (filter (fun x => fst x =? v) e).
Definition indeg (e : list edge) (v : nat) : nat := length (filter (fun x => snd x =? v) e).
Fixpoint kahn (fuel : nat) (sh : nat -> list nat -> list nat) (e : list edge) (ind : nat -> nat) (q out : list nat) : list nat :=
  match fuel, q with
  | S f, v :: q' =>
      let (ind', new) := fold_left release (sh v (after e v)) (ind, []) in
      kahn f sh e ind' (q' ++ new) (out ++ [v])
  | _, _ => out
  end.
Definition topo_sort (sh : nat -> list nat -> list nat) (b : list nat) (e : list edge) : list nat :=
  kahn (length b + length e) sh e (indeg e) (filter (fun v => indeg e v =? 0) b) [].

(** Lines 781-784 and 1191-1194: the sorted blocks are written to the old places; [None] is a
    write or read out of range. *)
Definition place (l b out : list nat) : option (list nat) :=
  let old := sorted (map (at_ l) b) in
  if (length old <? length out) || existsb (fun i => length l <=? i) (firstn (length out) old) then None
  else Some (writes l old out).

(** Lines 785-827: pairs that are not ordered are put around a self-symmetric block. *)
Definition around (l : list nat) (pivot first second : nat) : list nat :=
  let ip := at_ l pivot in
  let '(a, b) := if at_ l second <? at_ l first then (second, first) else (first, second) in
  let i1 := at_ l a in let i2 := at_ l b in
  if i2 <? ip then del i1 (del i2 (ins ip a (ins (ip + 1) b l)))
  else if i1 <? ip then del i1 (ins ip a (ins (ip + 1) b (del i2 l)))
  else ins ip a (ins (ip + 1) b (del i1 (del i2 l))).
Definition surround (d : odesign) (w : luck) (l : list nat) : list nat :=
  let b := order_blocks (o_orders d) in
  fold_left (fun l kg =>
    match g_axis (snd kg), selfs (snd kg) with
    | DirV, (s :: _) as ss =>
        fold_left (fun l ip =>
          let p := snd ip in
          if has (fst p) b || has (snd p) b then l
          else around l (nth (l_pivot w (fst kg) (fst ip) mod length ss) ss s) (fst p) (snd p))
          (number (g_pairs (snd kg))) l
    | _, _ => l
    end) (number (o_syms d)) l.

(** Lines 828-904: vertically abutted self-symmetric blocks are put inside the innermost pair
    between them. *)
Definition innermost (d : odesign) (l : list nat) (i1 i2 : nat) : nat * nat :=
  fold_left (fun fb i =>
    let x := nth i l 0 in
    if (x <? o_blocks d) && (fst fb + 1 <? snd fb) then
      match o_cp d x with
      | Some c => if negb (c =? x) && (i <? at_ l c) then (i, at_ l c) else fb
      | None => fb
      end
    else fb) (seq (i1 + 1) (i2 - (i1 + 1))) (i1, i2).
Definition abut (d : odesign) (l : list nat) (o : ordering) : list nat :=
  match snd o with
  | DirH => l
  | DirV =>
      let '(a, b) := if at_ l (o_second o) <? at_ l (o_first o) then (o_second o, o_first o) else (o_first o, o_second o) in
      let i1 := at_ l a in let i2 := at_ l b in
      if i1 <? i2 then
        if match o_cp d a, o_cp d b with Some x, Some y => (x =? a) && (y =? b) | _, _ => false end then
          let '(f, k) := innermost d l i1 i2 in
          if (f <? k) && negb (f =? i1) && negb (k =? i2) then
            if i2 <? f then del i1 (del i2 (ins (f + 1) a (ins k b l)))
            else if i2 <? k then
              if i1 <? f then del i1 (ins (f + 1) a (del i2 (ins k b l)))
              else ins (f + 1) a (del i1 (del i2 (ins k b l)))
            else if i1 <? f then del i1 (ins (f + 1) a (ins k b (del i2 l)))
            else if i1 <? k then ins (f + 1) a (del i1 (ins k b (del i2 l)))
            else ins (f + 1) a (ins k b (del i1 (del i2 l)))
          else l
        else l
      else l
  end.

(** The outcome of a loop: the sequence and whether [KeepOrdering] goes on. *)
Inductive outcome := Done (l : list nat) | Stuck (l : list nat) | Failed | NoFuel.

Definition seen (l : list nat) (vs : list (list nat)) : bool := existsb (fun v => if list_eq_dec Nat.eq_dec v l then true else false) vs.

(** Lines 914-940, one round: [None] if an assertion fails, the changed sequence if a constraint
    is not kept. *)
Fixpoint fix_pos (d : odesign) (l : list nat) (os : list ordering) : option (option (list nat)) :=
  match os with
  | [] => Some None
  | o :: t =>
      let a := o_first o in let b := o_second o in
      let i := at_ l a in let j := at_ l b in
      if (i =? length l) || (j =? length l) then None
      else if j <? i then
        Some (Some (match o_cp d a, o_cp d b with
                    | None, _ => ins j a (del i l)
                    | _, None => del j (ins (i + 1) b l)
                    | _, _ => set_nth j (nth i l 0) (set_nth i (nth j l 0) l)
                    end))
      else fix_pos d l t
  end.
(** Lines 906-950. *)
Fixpoint loop_pos (fuel : nat) (d : odesign) (vs : list (list nat)) (l : list nat) : outcome :=
  match fuel with
  | O => NoFuel
  | S f =>
      match fix_pos d l (o_orders d) with
      | None => Failed
      | Some None => Done l
      | Some (Some l') => if seen l' vs then Stuck l' else loop_pos f d (l' :: vs) l'
      end
  end.

(** Lines 1210-1258. *)
Fixpoint fix_neg (d : odesign) (l : list nat) (os : list ordering) : option (option (list nat)) :=
  match os with
  | [] => Some None
  | o :: t =>
      let a := o_first o in let b := o_second o in
      let i := at_ l a in let j := at_ l b in
      if (i =? length l) || (j =? length l) then None
      else if i <? j then
        match snd o with
        | DirV =>
            Some (Some (match o_cp d a, o_cp d b with
                        | None, _ => del i (ins (j + 1) a l)
                        | Some a', cb =>
                            if a' =? a then del i (ins (j + 1) a l)
                            else match cb with
                                 | None => ins i b (del j l)
                                 | Some _ => set_nth j (nth i l 0) (set_nth i (nth j l 0) l)
                                 end
                        end))
        | DirH => fix_neg d l t
        end
      else
        match snd o with
        | DirH =>
            Some (Some (match o_cp d a, o_cp d b with
                        | None, _ => del j (ins (i + 1) b l)
                        | _, None => ins j a (del i l)
                        | _, _ => set_nth j (nth i l 0) (set_nth i (nth j l 0) l)
                        end))
        | DirV => fix_neg d l t
        end
  end.
(** Lines 1204-1276, with both tests of [visitedNegPair] (1259-1267 and 1269-1274). *)
Fixpoint loop_neg (fuel : nat) (d : odesign) (vs : list (list nat)) (l : list nat) : outcome :=
  match fuel with
  | O => NoFuel
  | S f =>
      match fix_neg d l (o_orders d) with
      | None => Failed
      | Some None => Done l
      | Some (Some l') =>
          if seen l' vs then Stuck l'
          else
            let vs1 := l' :: vs in
            if seen l' vs1 then Stuck l' else loop_neg f d (l' :: vs1) l'
      end
  end.

(** Lines 683-1279: the two sequences and the result; [None] for undefined behaviour, a failed
    assertion or (never) not enough fuel. *)
Definition keep_ordering (fuel : nat) (d : odesign) (w : luck) (pos neg : list nat) : option (list nat * list nat * bool) :=
  let b := order_blocks (o_orders d) in
  match place pos b (topo_sort (l_pos w) b (pos_edges d pos)) with
  | None => None
  | Some p1 =>
      let p2 := fold_left (abut d) (o_abuts d) (surround d w p1) in
      match loop_pos fuel d [pos] p2 with
      | Failed | NoFuel => None
      | Stuck p => Some (p, neg, false)
      | Done p =>
          let nb := neg_blocks d in
          match place neg nb (topo_sort (l_neg w) nb (neg_edges d p)) with
          | None => None
          | Some n1 =>
              match loop_neg fuel d [neg] n1 with
              | Failed | NoFuel => None
              | Stuck n => Some (p, n, false)
              | Done n => Some (p, n, true)
              end
          end
      end
  end.
