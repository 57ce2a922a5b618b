(** Model of the placer's symmetry groups, placer/design.cpp:1306-1334 and 1554-1758
    (PlaceRouteHierFlow), of the first sequence pair, placer/SeqPair.cpp:390-425 and 427-555, and of the
    moves of the annealing, SeqPair.cpp:605-617, 638-669, 1798-2110.

    Simplified throughout: blocks are numbered from 0, numbers from [length (pd_sizes d)] on stand
    for terminals, which have no entry in the sequences; [mixFlag] is false, as the constructors
    leave it; orientations and loggers are left out. *)
From Verif Require Import Base.Prelude Model.SeqEnum.

(** placerDB::SymmBlock, SymmPairBlock (PnRDB/datatype.h): pairs, self-symmetric blocks with
    their mark, direction of the axis. *)
Record group := Group {
  g_pairs : list (nat * nat);
  g_self : list (nat * dir);
  g_axis : dir
}.

Definition dir_eqb (a b : dir) : bool :=
  match a, b with DirH, DirH | DirV, DirV => true | _, _ => false end.
Definition pair_eqb (p q : nat * nat) : bool := (fst p =? fst q) && (snd p =? snd q).
Definition self_eqb (p q : nat * dir) : bool := (fst p =? fst q) && dir_eqb (snd p) (snd q).

Definition number {A} (l : list A) : list (nat * A) := combine (seq 0 (length l)) l.

(** design.cpp:1306-1320 [checkSympairInSymmBlock] and 1322-1334 [checkSelfsymInSymmBlock]:
    (index of the group, index of the new element). *)
Definition matches {A} (eqb : A -> A -> bool) (get : group -> list A) (sbs : list group) (new : list A) : list (nat * nat) :=
  flat_map (fun jg =>
    flat_map (fun p =>
      flat_map (fun iq => if eqb p (snd iq) then [(fst jg, fst iq)] else []) (number new))
      (get (snd jg))) (number sbs).

Fixpoint set_nth {A} (k : nat) (x : A) (l : list A) : list A :=
  match l, k with
  | [], _ => []
  | _ :: t, O => x :: t
  | y :: t, S k' => y :: set_nth k' x t
  end.

(** design.cpp:1623-1644 (and 1661-1676, 1695-1713, 1714-1732): group [j] is moved into [g]. *)
Definition absorb (g : nat) (sbs : list group) (j : nat) : list group :=
  if j =? g then sbs else
  match nth_error sbs g, nth_error sbs j with
  | Some a, Some b => set_nth j (Group [] [] (g_axis b))
                        (set_nth g (Group (g_pairs a ++ g_pairs b) (g_self a ++ g_self b) (g_axis b)) sbs)
  | _, _ => sbs
  end.

(** design.cpp:1649-1657: what was not found. *)
Definition unmatched {A} (ms : list (nat * nat)) (new : list A) : list A :=
  map snd (filter (fun iq => negb (has (fst iq) (map snd ms))) (number new)).

Definition extend (g : nat) (pairs : list (nat * nat)) (selfs : list (nat * dir)) (axis : option dir) (sbs : list group) : list group :=
  match nth_error sbs g with
  | Some a => set_nth g (Group (g_pairs a ++ pairs) (g_self a ++ selfs) (match axis with Some x => x | None => g_axis a end)) sbs
  | None => sbs
  end.

(** design.cpp:1602-1758 [MergeNewBlockstoSymmetryGroup].  The symmetric nets' indices are left
    out. *)
Definition merge (sbs : list group) (c : group) : list group :=
  let mp := matches pair_eqb g_pairs sbs (g_pairs c) in
  let ms := matches self_eqb g_self sbs (g_self c) in
  match mp, ms with
  | [], [] => sbs ++ [c]
  | [], m :: _ =>
      let sbs1 := fold_left (absorb (fst m)) (map fst ms) sbs in
      extend (fst m) (g_pairs c) (unmatched ms (g_self c)) (Some (g_axis c)) sbs1
  | m :: _, [] =>
      let sbs1 := fold_left (absorb (fst m)) (map fst mp) sbs in
      extend (fst m) (unmatched mp (g_pairs c)) (g_self c) None sbs1
  | _, m :: _ =>
      let sbs1 := fold_left (absorb (fst m)) (map fst ms) sbs in
      let sbs2 := fold_left (absorb (fst m)) (map fst mp) sbs1 in
      extend (fst m) (unmatched mp (g_pairs c)) (unmatched ms (g_self c)) (Some (g_axis c)) sbs2
  end.

(** design.cpp:1554-1565: the groups of a design. *)
Definition construct (sps : list group) : list group := fold_left merge sps [].

(** The part of a design that the moves read: the number of variants of each block, the groups,
    and the sets of blocks with the same template. *)
Record pdesign := PDesign {
  pd_sizes : list nat;
  pd_groups : list group;
  pd_same : list (list nat)
}.
Definition blocks_no (d : pdesign) : nat := length (pd_sizes d).

(** design.cpp:1566-1597: what is written to [SBidx] and [counterpart] of the blocks; the last one
    stays. *)
Definition infos (gs : list group) : list (nat * (nat * nat)) :=
  flat_map (fun ig =>
    flat_map (fun p => [(fst p, (fst ig, snd p)); (snd p, (fst ig, fst p))]) (g_pairs (snd ig)) ++
    map (fun x => (fst x, (fst ig, fst x))) (g_self (snd ig))) (number gs).
Definition info (d : pdesign) (b : nat) : option (nat * nat) :=
  option_map snd (find (fun w => fst w =? b) (rev (infos (pd_groups d)))).
Definition counterpart (d : pdesign) (b : nat) : option nat := option_map snd (info d b).

(** design.cpp:1417, 1564: the node of the axis. *)
Definition dnode (d : pdesign) (k : nat) : nat := blocks_no d + 2 + k.

(** SeqPair.cpp:449-541: what a group adds to the two sequences. *)
Definition real (d : pdesign) (l : list nat) : list nat := filter (fun b => b <? blocks_no d) l.
Definition firsts (g : group) : list nat := map fst (g_pairs g).
Definition seconds (g : group) : list nat := map snd (g_pairs g).
Definition selfs (g : group) : list nat := map fst (g_self g).
Definition group_pos (d : pdesign) (kg : nat * group) : list nat :=
  real d (firsts (snd kg)) ++ [dnode d (fst kg)] ++ real d (selfs (snd kg)) ++ real d (rev (seconds (snd kg))).
Definition group_neg (d : pdesign) (kg : nat * group) : list nat :=
  match g_axis (snd kg) with
  | DirV => real d (firsts (snd kg)) ++ real d (rev (selfs (snd kg))) ++ [dnode d (fst kg)] ++ real d (rev (seconds (snd kg)))
  | DirH => real d (seconds (snd kg)) ++ [dnode d (fst kg)] ++ real d (selfs (snd kg)) ++ real d (rev (firsts (snd kg)))
  end.

(** SeqPair.cpp:390-425 [CompactSeq]: later copies are overwritten by -1 ([None]) and dropped. *)
Fixpoint mark (fuel : nat) (l : list (option nat)) : list (option nat) :=
  match fuel, l with
  | S f, x :: t => x :: mark f (map (fun y => match x, y with
                                              | Some a, Some b => if a =? b then None else y
                                              | _, _ => y
                                              end) t)
  | _, _ => l
  end.
Definition compact (l : list nat) : list nat :=
  flat_map (fun x => match x with Some a => [a] | None => [] end) (mark (length l) (map Some l)).

Record sp := SP { p_pos : list nat; p_neg : list nat; p_sel : list nat }.

(** SeqPair.cpp:605-617 [SameSelected]. *)
Definition same_selected (d : pdesign) (sel : list nat) : list nat :=
  fold_left (fun s g => let id := nth (hd 0 g) s 0 in fold_left (fun s i => set_nth i id s) g s) (pd_same d) sel.

(** SeqPair.cpp:427-555, the constructor, when the search is not enumerated and there are no
    ordering or alignment constraints. *)
Definition initial (d : pdesign) : sp :=
  let loose := filter (fun b => match info d b with None => true | Some _ => false end) (seq 0 (blocks_no d)) in
  SP (compact (flat_map (group_pos d) (number (pd_groups d))) ++ loose)
     (compact (flat_map (group_neg d) (number (pd_groups d))) ++ loose)
     (same_selected d (map (fun _ => 0) (pd_sizes d))).

(** * Moves *)

(** SeqPair.cpp:638-647; -1 is [None]. *)
Fixpoint index_of (v : nat) (l : list nat) : option nat :=
  match l with
  | [] => None
  | x :: t => if x =? v then Some 0 else option_map S (index_of v t)
  end.

(** SeqPair.cpp:2085-2110 [MoveAsymmetricBlockUnit] for a chosen new position; [None] if that
    position is not chosen (the loop of 2092-2094) or the block is not in the sequence. *)
Definition move_unit (l : list nat) (anode new : nat) : option (list nat) :=
  match index_of anode l with
  | None => None
  | Some old =>
      if (old =? new) || (length l <=? new) then None
      else Some (map (fun i =>
             if old <? new then
               if i <? old then nth i l 0
               else if i <? new then nth (i + 1) l 0
               else if i =? new then nth old l 0
               else nth i l 0
             else
               if i <? new then nth i l 0
               else if i =? new then nth old l 0
               else if i <=? old then nth (i - 1) l 0
               else nth i l 0) (seq 0 (length l)))
  end.

(** design.cpp:1764-1797 and 1799-1818. *)
Definition group_blocks (d : pdesign) (g : group) : list nat :=
  real d (flat_map (fun p => [fst p; snd p]) (g_pairs g)) ++ real d (selfs g).
Definition group_nodes (d : pdesign) (k : nat) (g : group) : list nat := group_blocks d g ++ [dnode d k].

(** SeqPair.cpp:1967-1977: [a] and [b] exchange their places in the positive sequence, their
    counterparts in the negative one. *)
Definition swap_in (l : list nat) (a b : nat) : option (list nat) :=
  match index_of a l, index_of b l with
  | Some i, Some j => Some (set_nth i b (set_nth j a l))
  | _, _ => None
  end.
Definition swap_pair (d : pdesign) (g : group) (s : sp) (ab : nat * nat) : option sp :=
  let (a, b) := ab in
  match counterpart d a, counterpart d b with
  | Some sa, Some sb =>
      if has a (group_blocks d g) && has b (group_blocks d g) && negb (b =? a) && negb (b =? sa) then
        match swap_in (p_pos s) a b, swap_in (p_neg s) sa sb with
        | Some p, Some q => Some (SP p q (p_sel s))
        | _, _ => None
        end
      else None
  | _, _ => None
  end.

(** SeqPair.cpp:1825-1836 [GetVerticesIndexinSeq]. *)
Definition places (l vs : list nat) : list nat :=
  map fst (filter (fun ix => has (snd ix) vs) (number l)).

(** SeqPair.cpp:1860-1888: merge; equal indices are written twice. *)
Fixpoint merge_places (fuel : nat) (a b : list nat) : list nat :=
  match fuel, a, b with
  | S f, x :: a', y :: b' =>
      if x <? y then x :: merge_places f a' b
      else if y <? x then y :: merge_places f a b'
      else y :: y :: merge_places f a' b'
  | _, _, _ => a ++ b
  end.

(** Writes [vs] to the places [ps] in order. *)
Definition writes (l : list nat) (ps vs : list nat) : list nat :=
  fold_left (fun l pv => set_nth (fst pv) (snd pv) l) (combine ps vs) l.

(** SeqPair.cpp:1838-1933 [SwapTwoListinSeq].  Simplified: [.at] beyond the end of the merged
    places cannot happen, there are at least as many as are read. *)
Definition swap_lists (as_ bs l : list nat) : list nat :=
  let ap := places l as_ in
  let bp := places l bs in
  let at_ := map (fun i => nth i l 0) in
  if length ap =? length bp then
    fold_left (fun l ab => set_nth (snd ab) (nth (fst ab) l 0) (set_nth (fst ab) (nth (snd ab) l 0) l)) (combine ap bp) l
  else if length ap <? length bp then
    let l1 := writes l (firstn (length ap) bp) (at_ ap) in
    let rest := skipn (length ap) bp in
    writes l1 (firstn (length bp) (merge_places (length ap + length rest) ap rest)) (at_ bp)
  else
    let l1 := writes l (firstn (length bp) ap) (at_ bp) in
    let rest := skipn (length bp) ap in
    writes l1 (firstn (length ap) (merge_places (length rest + length bp) rest bp)) (at_ ap).

(** A move with its random choices. *)
Inductive move :=
| Pick (b v : nat)                          (* SeqPair.cpp:651-669 *)
| MovePos (a new : nat)                     (* 2030-2045 *)
| MoveNeg (a new : nat)                     (* 2047-2062 *)
| MoveBoth (a new new' : nat)               (* 2064-2083 *)
| SwapBlocks (k : nat) (ab : nat * nat)     (* 1935-1979 *)
| SwapMany (k : nat) (abs_ : list (nat * nat)) (* 1981-2028, three pairs *)
| SwapGroups (k k' : nat).                  (* 1798-1823 *)

(** A move, [None] if it is not made: it then leaves the sequences unchanged. *)
Definition apply (d : pdesign) (s : sp) (m : move) : option sp :=
  match m with
  | Pick b v =>
      match nth_error (pd_sizes d) b with
      | Some sz => if (1 <? sz) && (v <? sz) then Some (SP (p_pos s) (p_neg s) (set_nth b v (p_sel s))) else None
      | None => None
      end
  | MovePos a new =>
      match info d a with
      | None => if a <? blocks_no d then option_map (fun p => SP p (p_neg s) (p_sel s)) (move_unit (p_pos s) a new) else None
      | Some _ => None
      end
  | MoveNeg a new =>
      match info d a with
      | None => if a <? blocks_no d then option_map (fun q => SP (p_pos s) q (p_sel s)) (move_unit (p_neg s) a new) else None
      | Some _ => None
      end
  | MoveBoth a new new' =>
      match info d a with
      | None =>
          if a <? blocks_no d then
            match move_unit (p_pos s) a new, move_unit (p_neg s) a new' with
            | Some p, Some q => Some (SP p q (p_sel s))
            | _, _ => None
            end
          else None
      | Some _ => None
      end
  | SwapBlocks k ab =>
      match nth_error (pd_groups d) k with
      | Some g => swap_pair d g s ab
      | None => None
      end
  | SwapMany k abs_ =>
      match nth_error (pd_groups d) k with
      | Some g => fold_left (fun s ab => match s with Some s => swap_pair d g s ab | None => None end) abs_ (Some s)
      | None => None
      end
  | SwapGroups k k' =>
      match nth_error (pd_groups d) k, nth_error (pd_groups d) k' with
      | Some a, Some b =>
          if k =? k' then None
          else Some (SP (swap_lists (group_nodes d k a) (group_nodes d k' b) (p_pos s))
                        (swap_lists (group_nodes d k a) (group_nodes d k' b) (p_neg s)) (p_sel s))
      | _, _ => None
      end
  end.

(** SeqPair.cpp:1692-1784 [PerturbationNew], one round without ordering and alignment
    constraints, for the last move that is tried (those before it were not made).  Whether the
    state is accepted (CheckAlign, CheckSymm, the cost) is left out: all states are covered. *)
Definition perturb (d : pdesign) (s : sp) (m : move) : sp :=
  let s' := match apply d s m with Some s' => s' | None => s end in
  SP (p_pos s') (p_neg s') (same_selected d (p_sel s')).
