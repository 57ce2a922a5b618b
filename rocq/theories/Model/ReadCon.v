(** The way of the placement constraints into the placer: align/pnr/write_constraint.py:44-178
    [map_valid_const], PnRDB/ReadConstraint.cpp:228-307, 320-355, 604-614 and 647-661, and the constructor of
    the design, placer/design.cpp:201-230, 297-305 and 324-378 (PlaceRouteHierFlow).

    Simplified: a constraint is one of those with a formula (Model/Formulas.v) or a distance; the aspect
    ratio is written but not read here, and the other constraints are left out; a name that
    is not the one of a block is left out (the code does so for orders, alignments and spreads
    and for self-symmetric blocks; a pair gets -1); the box and the halo are whole numbers. *)
From Coq Require Import String ZArith QArith Qround.
From Verif Require Import Base.Prelude Model.SeqPair Model.ConstraintDB Model.Formulas Model.SeqEnum Model.SymmGroup Model.KeepOrder
  Model.SeqCheck Model.PlaceRows.
Local Open Scope Z_scope.

(** What the user gives: a constraint with a formula, or [BlockDistance], [HorizontalDistance],
    [VerticalDistance] (constraint.py:1062-1130). *)
Inductive ucon := UHard (c : hcon) | UDist (h v : bool) (dist : Z).

(** What is in the file. *)
Inductive jpair := JPair (a b : string) | JSelf (a : string).
Inductive jcon :=
| JOrder (h abut : bool) (bs : list string)
| JAlign (h : bool) (line : nat) (bs : list string)
| JSymm (h : bool) (ps : list jpair)
| JSpread (h : bool) (dist : Z) (bs : list string)
| JBias (h v : bool) (dist : Z)
| JBound (w h hh hv : Q).

(** write_constraint.py:105-117; the validator leaves pairs of one or two names. *)
Definition wr_pair (p : list string) : list jpair :=
  match p with [a] => [JSelf a] | a :: b :: _ => [JPair a b] | [] => [] end.
(** Lines 77-132; [None] is NotImplementedError. *)
Definition wr (c : ucon) : option (list jcon) :=
  match c with
  | UHard (HOrder d abut xs) =>
      match d with
      | OLR | OHoriz => Some [JOrder true abut xs]
      | OTB | OVert => Some [JOrder false abut xs]
      | _ => None
      end
  | UHard (HAlign l xs) =>
      match l with
      | HBottom => Some [JAlign true 0 xs] | HCenter => Some [JAlign true 1 xs] | HTop => Some [JAlign true 2 xs]
      | VLeft => Some [JAlign false 0 xs] | VCenter => Some [JAlign false 1 xs] | VRight => Some [JAlign false 2 xs]
      | _ => None
      end
  | UHard (HSpread h dist xs) => Some [JSpread h dist xs]
  | UHard (HBoundary mw mh hh hv) => Some [JBound mw mh hh hv]
  | UHard (HSymm vert ps) => Some [JSymm (negb vert) (flat_map wr_pair ps)]
  | UHard _ => Some []
  | UDist h v dist => Some [JBias h v dist]
  end.
Fixpoint write (cs : list ucon) : option (list jcon) :=
  match cs with
  | [] => Some []
  | c :: t => match wr c, write t with Some a, Some b => Some (a ++ b) | _, _ => None end
  end.

(** The part of [hierNode] that is filled. *)
Record node := Node {
  nd_syms : list group;
  nd_orders : list (list nat * dir);
  nd_abuts : list (list nat * dir);
  nd_aligns : list align;
  nd_spreads : list (bool * Z * list nat);
  nd_bias_h : Z; nd_bias_v : Z;
  nd_box_w : Z; nd_box_h : Z;
  nd_halo_h : Z; nd_halo_v : Z
}.

Section Read.
Variables (names : list string) (scale : Z).

(** The loops over [node.Blocks] that stop at the first block with the name. *)
Fixpoint find_from (k : nat) (l : list string) (n : string) : option nat :=
  match l with [] => None | x :: t => if String.eqb x n then Some k else find_from (S k) t n end.
Definition find_block (n : string) : option nat := find_from 0 names n.
Definition blocks_of (xs : list string) : list nat :=
  flat_map (fun n => match find_block n with Some i => [i] | None => [] end) xs.

Definition to_dir (h : bool) : dir := if h then DirH else DirV.
(** ReadConstraint.cpp:252-276. *)
Definition sym_pairs (ps : list jpair) : list (nat * nat) :=
  flat_map (fun p => match p with
    | JPair a b => match find_block a, find_block b with
                   | Some i, Some j => [if (j <? i)%nat then (j, i) else (i, j)]
                   | _, _ => []
                   end
    | JSelf _ => []
    end) ps.
Definition sym_selfs (ps : list jpair) : list nat :=
  flat_map (fun p => match p with JSelf a => blocks_of [a] | JPair _ _ => [] end) ps.

Definition unit_scale : Z := 2000.
Definition whole (q : Q) : Z := Qfloor (q * inject_Z unit_scale).
(** One step of the loop over the constraints. *)
Definition read1 (n : node) (j : jcon) : node :=
  match j with
  | JSymm h ps =>
      let '(Node sy o ab al sp bh bv w t hh hv) := n in
      Node (sy ++ [Group (sym_pairs ps) (map (fun i => (i, to_dir h)) (sym_selfs ps)) (to_dir h)]) o ab al sp bh bv w t hh hv
  | JOrder h abut bs =>
      let '(Node sy o ab al sp bh bv w t hh hv) := n in
      let x := (blocks_of bs, to_dir h) in
      Node sy (o ++ [x]) (if abut then ab ++ [x] else ab) al sp bh bv w t hh hv
  | JAlign h line bs =>
      let '(Node sy o ab al sp bh bv w t hh hv) := n in
      Node sy o ab (al ++ [Align h line (blocks_of bs)]) sp bh bv w t hh hv
  | JSpread h dist bs =>
      let '(Node sy o ab al sp bh bv w t hh hv) := n in
      Node sy o ab al (sp ++ [(h, dist * 2, blocks_of bs)]) bh bv w t hh hv
  | JBias h v dist =>
      let '(Node sy o ab al sp bh bv w t hh hv) := n in
      let b := Z.quot (dist * 2) scale in
      Node sy o ab al sp (if h then b else bh) (if v then b else bv) w t hh hv
  | JBound mw mh hh' hv' =>
      let '(Node sy o ab al sp bh bv w t hh hv) := n in
      Node sy o ab al sp bh bv (whole mw) (whole mh) (whole hh') (whole hv')
  end.
Definition read (n : node) (js : list jcon) : node := fold_left read1 js n.
End Read.

(** * The design *)

(** design.cpp:337-372, two blocks that follow each other; [cp] is [counterpart], [h0] the
    heights of the first variants. *)
Definition is_at (c : option nat) (a : nat) : bool := match c with Some y => (y =? a)%nat | None => false end.
Definition pair_orders (cp : nat -> option nat) (h0 : nat -> Z) (als : list align) (x : dir) (p : nat * nat) : list ordering :=
  let '(a, b) := p in
  (a, b, x) ::
  match x with
  | DirH => []
  | DirV =>
      (match cp a with Some a' => if negb (a' =? a)%nat && negb (is_at (cp b) a) then [(a', b, x)] else [] | None => [] end) ++
      (match cp b with Some b' => if negb (b' =? b)%nat && negb (b' =? a)%nat then [(a, b', x)] else [] | None => [] end) ++
      (match cp a, cp b with
       | Some a', Some b' => if negb (a' =? a)%nat && negb (b' =? b)%nat && negb (b' =? a)%nat then [(a', b', x)] else []
       | _, _ => []
       end) ++
      flat_map (fun u =>
        (if al_hor u && has a (al_blocks u)
         then flat_map (fun c => if negb (c =? a)%nat && (h0 c <=? h0 a) then [(c, b, x)] else []) (al_blocks u) else []) ++
        (if al_hor u && has b (al_blocks u)
         then flat_map (fun c => if negb (c =? b)%nat && (h0 c <=? h0 b) then [(a, c, x)] else []) (al_blocks u) else [])) als
  end.
(** Lines 325-336: the last one stays. *)
Definition spread_of (sps : list (bool * Z * list nat)) (a b : nat) (h : bool) : Z :=
  fold_left (fun v s => let '(h', dist, bs) := s in
    if Bool.eqb h' h && has a bs && has b bs && negb (a =? b)%nat then dist else v) sps 0.

(** [d0] has the blocks of the selected variants, the nets and the pitches, and the values
    without constraints. *)
Definition start (d0 : idesign) : node :=
  Node [] [] [] [] [] (i_bias_h d0) (i_bias_v d0) (i_box_w d0) (i_box_h d0) (i_halo_h d0) (i_halo_v d0).
Definition cp_of (syms : list group) (b : nat) : option nat := counterpart (PDesign [] (construct syms) []) b.
Definition design_of (d0 : idesign) (h0 : nat -> Z) (n : node) : idesign :=
  IDesign (i_blocks d0) (i_nets d0) (nd_syms n) (nd_aligns n)
    (flat_map (fun o => flat_map (pair_orders (cp_of (nd_syms n)) h0 (nd_aligns n) (snd o)) (pairwise (fst o))) (nd_orders n))
    (flat_map (fun o => map (fun p => (p, snd o)) (pairwise (fst o))) (nd_abuts n))
    (spread_of (nd_spreads n)) (nd_bias_h n) (nd_bias_v n) (i_xp d0) (i_yp d0) (nd_halo_h n) (nd_halo_v n) (nd_box_w n) (nd_box_h n).
(** All of it. *)
Definition build (names : list string) (scale : Z) (d0 : idesign) (h0 : nat -> Z) (cs : list ucon) : option idesign :=
  option_map (fun js => design_of d0 h0 (read names scale (start d0) js)) (write cs).
