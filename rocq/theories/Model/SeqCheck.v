(** Model of placer/SeqPair.cpp:1291-1690 [CheckSymm] and [CheckAlign] (PlaceRouteHierFlow):
    the tests by which the placer throws away sequence pairs without a placement.

    Simplified: a map that is read with [operator\[\]] at a missing key gives an empty set; the
    sets are lists of which only the members matter; positions are those of [find], which are
    the ones of the maps [posPosition], [negPosition] since a sequence holds a block once; an
    alignment does not name a block twice and [grid_unit_x] is positive. *)
From Coq Require Import ZArith.
From Verif Require Import Base.Prelude Model.SeqEnum Model.SymmGroup Model.KeepOrder.

(** placer/design.h:160-164 [AlignBlock]. *)
Record align := Align { al_hor : bool; al_line : nat; al_blocks : list nat }.

(** What is read of the design: the number of blocks, the groups [SBlocks], the constraints
    [SPBlocks], alignments, abutments, [counterpart], the widths of the selected variants and
    [grid_unit_x]. *)
Record cdesign := CDesign {
  c_blocks : nat;
  c_groups : list group;
  c_syms : list group;
  c_aligns : list align;
  c_abuts : list ordering;
  c_cp : nat -> option nat;
  c_width : nat -> Z;
  c_grid : Z
}.

(** The nested loops over [i] and [j > i] that stop at the first hit. *)
Fixpoint some_two {A} (f : A -> A -> bool) (l : list A) : bool :=
  match l with [] => false | a :: r => existsb (f a) r || some_two f r end.

(** Lines 1298-1306. *)
Definition abut_bad (d : cdesign) (o : ordering) : bool :=
  match snd o, c_cp d (o_first o) with
  | DirH, Some b => (b =? o_second o) && negb ((c_width d (o_first o) + c_width d (o_second o)) mod (4 * c_grid d) =? 0)%Z
  | _, _ => false
  end.

Section Positions.
Variables pp nn : nat -> nat.

(** [posA < posB && negA < negB] and [posA < posB && negA > negB]. *)
Definition lef (a b : nat) : bool := (pp a <? pp b) && (nn a <? nn b).
Definition abv (a b : nat) : bool := (pp a <? pp b) && (nn b <? nn a).

(** Lines 1316-1324. *)
Definition self_bad (ax : dir) (a b : nat) : bool :=
  match ax with DirV => lef a b || lef b a | DirH => abv a b || abv b a end.
(** Lines 1334-1337 and 1383-1385. *)
Definition pair_bad (ax : dir) (p : nat * nat) : bool :=
  match ax with DirV => abv (fst p) (snd p) || abv (snd p) (fst p) | DirH => lef (fst p) (snd p) || lef (snd p) (fst p) end.
(** Lines 1338-1347 and 1386-1392. *)
Definition pair_self_bad (ax : dir) (p : nat * nat) (c : nat) : bool :=
  let '(a, b) := p in
  match ax with
  | DirV => if pp a <? pp b then lef b c || lef c a else lef a c || lef c b
  | DirH => ((pp a <? pp b) && abv b c) || ((pp b <? pp a) && abv a c)
  end.
(** Lines 1348-1381 and 1393-1413. *)
Definition pair_pair_bad (ax : dir) (p q : nat * nat) : bool :=
  let '(a, b) := p in
  let '(c, d) := q in
  match ax with
  | DirV =>
      (abv a c && abv d a) || (abv c a && abv a d) || (abv b c && abv d b) || (abv c b && abv b d) ||
      (abv a c && abv d b) || (abv c a && abv b d) || (abv a d && abv c b) || (abv d a && abv b c) ||
      (lef a c && lef b d) || (lef c a && lef d b) || (lef a d && lef b c) || (lef d a && lef c b)
  | DirH =>
      (lef a c && lef d a) || (lef c a && lef a d) || (lef b c && lef d b) || (lef c b && lef b d) ||
      (lef a c && lef d b) || (lef c a && lef b d) || (lef a d && lef c b) || (lef d a && lef b c) ||
      (abv c a && abv b d) || (abv a c && abv d b) || (abv d a && abv b c) || (abv a d && abv c b)
  end.
(** Lines 1307-1416. *)
Definition group_bad (g : group) : bool :=
  some_two (self_bad (g_axis g)) (selfs g) ||
  existsb (fun p => pair_bad (g_axis g) p || existsb (pair_self_bad (g_axis g) p) (selfs g)) (g_pairs g) ||
  some_two (pair_pair_bad (g_axis g)) (g_pairs g).
End Positions.

(** Lines 1418-1477: [alignBlocksHor] ([true]) and [alignBlocksVer] ([false]) at a block. *)
Definition dir_is (h : bool) (x : dir) : bool := match x with DirV => h | DirH => negb h end.
Definition edge_align (h : bool) (u : align) : bool := (al_line u =? 0) && Bool.eqb (al_hor u) h.
Definition aligned_with (d : cdesign) (h : bool) (x : nat) : list nat :=
  flat_map (fun g => if dir_is h (g_axis g)
                     then flat_map (fun p => if (x =? fst p) || (x =? snd p) then [fst p; snd p] else []) (g_pairs g)
                     else []) (c_groups d) ++
  flat_map (fun u => if edge_align h u && has x (al_blocks u) then al_blocks u else []) (c_aligns d).
(** [!alignBlocks.empty()]. *)
Definition any_align (d : cdesign) (h : bool) : bool :=
  existsb (fun g => dir_is h (g_axis g) && negb (length (g_pairs g) =? 0)) (c_groups d) ||
  existsb (fun u => edge_align h u && negb (length (al_blocks u) =? 0)) (c_aligns d).

(** Lines 1478-1526: [aboveSet] and [rightSet] at a block, from those before it in the positive
    sequence; [belowSet] and [leftSet], from those behind it. *)
Definition first_sets (d : cdesign) (pos neg : list nat) (h : bool) (x : nat) : list nat * list nat :=
  if has x pos && (x <? c_blocks d) then
    (flat_map (fun b => if (b <? c_blocks d) && Bool.eqb (at_ neg x <? at_ neg b) h
                        then b :: aligned_with d h b else []) (firstn (at_ pos x) pos),
     flat_map (fun b => if (b <? c_blocks d) && Bool.eqb (at_ neg b <? at_ neg x) h
                        then b :: aligned_with d h b else []) (skipn (S (at_ pos x)) pos))
  else ([], []).

Definition meet (a b : list nat) : bool := existsb (fun x => has x b) a.
Definition upd (f : nat -> list nat) (x : nat) (v : list nat) : nat -> list nat := fun y => if y =? x then v else f y.

(** Lines 1535-1551. *)
Fixpoint widen (n : nat) (l : list nat) (ar bl : nat -> list nat) : option ((nat -> list nat) * (nat -> list nat)) :=
  match l with
  | [] => Some (ar, bl)
  | x :: r =>
      if x <? n then
        let ar' := upd ar x (ar x ++ flat_map ar (ar x)) in
        let bl' := upd bl x (bl x ++ flat_map bl (bl x)) in
        if meet (ar' x) (bl' x) then None else widen n r ar' bl'
      else widen n r ar bl
  end.
(** Lines 1553-1596. *)
Definition clash (ar bl : nat -> list nat) (a b : nat) : bool := meet (ar a) (bl b) || meet (bl a) (ar b).
Definition align_clash (d : cdesign) (h : bool) (ar bl : nat -> list nat) (u : align) : bool :=
  (edge_align h u && some_two (clash ar bl) (al_blocks u)) ||
  existsb (fun g => existsb (fun p => dir_is h (g_axis g) && clash ar bl (fst p) (snd p)) (g_pairs g)) (c_groups d).
(** Lines 1528-1598. *)
Definition sets_ok (d : cdesign) (pos neg : list nat) (h : bool) : bool :=
  if any_align d h then
    match widen (c_blocks d) pos (fun x => fst (first_sets d pos neg h x)) (fun x => snd (first_sets d pos neg h x)) with
    | None => false
    | Some (ar, bl) => negb (existsb (align_clash d h ar bl) (c_aligns d))
    end
  else true.

(** Lines 1291-1600. *)
Definition check_symm (d : cdesign) (pos neg : list nat) : bool :=
  negb (existsb (abut_bad d) (c_abuts d)) &&
  negb (existsb (group_bad (at_ pos) (at_ neg)) (c_groups d)) &&
  sets_ok d pos neg true && sets_ok d pos neg false.

(** Lines 1635-1652 and 1664-1681: the two blocks are a symmetric pair, or in one alignment. *)
Definition tied (d : cdesign) (h : bool) (a b : nat) : bool :=
  existsb (fun g => dir_is h (g_axis g) &&
             existsb (fun p => ((a =? fst p) && (b =? snd p)) || ((a =? snd p) && (b =? fst p))) (g_pairs g)) (c_syms d) ||
  existsb (fun u => Bool.eqb (al_hor u) h &&
             some_two (fun x y => ((a =? x) && (b =? y)) || ((a =? y) && (b =? x))) (al_blocks u)) (c_aligns d).
(** Lines 1602-1690. *)
Definition two_bad (d : cdesign) (pos neg : list nat) (h : bool) (x y : nat) : bool :=
  let '(x, y) := if at_ pos y <? at_ pos x then (y, x) else (x, y) in
  let '(i, j) := (at_ pos x, at_ pos y) in
  let '(k, l) := (at_ neg x, at_ neg y) in
  let s1 := firstn i pos in
  let s2 := firstn (j - S i) (skipn (S i) pos) in
  let s3 := skipn (S j) pos in
  if h then
    ((i <? j) && (l <? k)) ||
    existsb (fun a => has a (firstn k neg) &&
               existsb (fun b => has b (skipn (S l) neg) && tied d true a b) (s1 ++ s2)) (s2 ++ s3)
  else
    ((i <? j) && (k <? l)) ||
    existsb (fun a => has a (skipn (S k) neg) &&
               existsb (fun b => has b (firstn l neg) && tied d false a b) (s1 ++ s2)) (s2 ++ s3).
Definition check_align (d : cdesign) (pos neg : list nat) : bool :=
  negb (existsb (fun u => some_two (two_bad d pos neg (al_hor u)) (al_blocks u)) (c_aligns d)).
