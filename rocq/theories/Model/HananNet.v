(** The order in which the Hanan router joins the ports of a net: hanan_router/Net.cpp:28-138 (reorderPorts) and 140-175 (clockRouteOrder).
    Distances ([double] in the code) are exact: an integer stands for that many parts of 1 / (1000 * half perimeter of the net).
    [None] is a distance that is less than no other: 1e30 for ports without shapes (1e29 if one of them is virtual), NaN for a net of half perimeter 0.
    The two sorts, which need not be stable in C++, are stable here; the theorems about them hold for any order of ties. *)
From Coq Require Import ZArith.
From Verif Require Import Base.Prelude Model.HananGeom.
Local Open Scope Z_scope.

Record port := Port { p_shapes : list (Z * list rect); p_bbox : rect; p_virtual : bool }.
Definition dmin (a b : option Z) : option Z := match a, b with Some x, Some y => Some (Z.min x y) | Some x, None => Some x | None, b => b end.
Definition flat (s : list (Z * list rect)) : list (Z * rect) := flat_map (fun l => map (fun r => (fst l, r)) (snd l)) s.
Definition halfpm (r : rect) : Z := xmax r - xmin r + (ymax r - ymin r).
(** Net.cpp:53-57. *)
Definition nethpwl (ps : list port) : Z := halfpm (fold_left (fun b p => merge b (p_bbox p)) ps none).
(** Net.cpp:61-90, of two ports, with [h] the half perimeter: 0.03 for each layer, and a tenth if one of the ports is virtual. *)
Definition shape_dist (h : Z) (a b : Z * rect) : Z := 100 * Dist (snd a) (snd b) + 3 * h * Z.abs (fst a - fst b).
Definition port_dist (h : Z) (p q : port) : option Z :=
  let v := p_virtual p || p_virtual q in
  match flat (p_shapes p), flat (p_shapes q) with
  | (_ :: _) as s1, (_ :: _) as s2 =>
      if h =? 0 then None
      else match fold_left (fun d a => fold_left (fun d b => dmin (Some (shape_dist h a b)) d) s2 d) s1 None with Some x => Some (if v then x else 10 * x) | None => None end
  | _, _ => if v then Some (10 ^ 32 * Z.max 1 h) else None
  end.

(** Net.cpp:58-104: the first pair of the smallest distance; [d] is the matrix of distances. *)
Definition less (a b : option Z) : bool := match a, b with Some x, Some y => x <? y | Some _, None => true | None, _ => false end.
Definition same (a b : option Z) : bool := match a, b with Some x, Some y => x =? y | _, _ => false end.
Definition choice : Type := option Z * option (nat * nat).
Definition first_step (d : nat -> nat -> option Z) (i : nat) (acc : choice) (j : nat) : choice :=
  if less (d i j) (fst acc) then (d i j, Some (Nat.min i j, Nat.max i j))
  else if same (fst acc) (d i j) then match snd acc with Some ij => if (i <? fst ij)%nat then (fst acc, Some (Nat.min i j, Nat.max i j)) else acc | None => acc end
  else acc.
Definition first_pair (n : nat) (d : nat -> nat -> option Z) : choice :=
  fold_left (fun acc i => fold_left (first_step d i) (seq (S i) (n - S i)) acc) (seq 0 n) (None, None).
(** Net.cpp:113-131: the nearest pair of a port selected and one not selected. *)
Definition memb (k : nat) (l : list nat) : bool := existsb (Nat.eqb k) l.
Definition next_step (d : nat -> nat -> option Z) (sel : list nat) (i : nat) (acc : choice) (j : nat) : choice :=
  if negb (memb j sel) && less (d i j) (fst acc) then (d i j, Some (i, j)) else acc.
Definition next_pair (n : nat) (d : nat -> nat -> option Z) (sel : list nat) : option (nat * nat) :=
  snd (fold_left (fun acc i => if memb i sel then fold_left (next_step d sel i) (seq 0 n) acc else acc) (seq 0 n) (None, None)).
(** The loop has no end, [None], if there is no pair. *)
Fixpoint prim_loop (k n : nat) (d : nat -> nat -> option Z) (sel : list nat) (es : list (nat * nat)) : option (list (nat * nat)) :=
  match k with
  | O => Some es
  | S k => match next_pair n d sel with Some ij => prim_loop k n d (snd ij :: sel) (es ++ [ij]) | None => None end
  end.
(** Net.cpp:105-131; [None] also for the reading of ports[-1]. *)
Definition prim (n : nat) (d : nat -> nat -> option Z) : option (list (nat * nat)) :=
  match snd (first_pair n d) with Some ij => prim_loop (n - 2) n d [snd ij; fst ij] [ij] | None => None end.
(** Net.cpp:133-134. *)
Fixpoint insert_by {A} (lt : A -> A -> bool) (x : A) (l : list A) : list A :=
  match l with [] => [x] | y :: r => if lt x y then x :: l else y :: insert_by lt x r end.
Definition sort_by {A} (lt : A -> A -> bool) (l : list A) : list A := fold_left (fun s x => insert_by lt x s) l [].
Definition order (n : nat) (d : nat -> nat -> option Z) : option (list (nat * nat)) :=
  match prim n d with Some es => Some (sort_by (fun a b => less (d (fst a) (snd a)) (d (fst b) (snd b))) es) | None => None end.
Definition matrix (ps : list port) (i j : nat) : option Z :=
  match nth_error ps i, nth_error ps j with Some p, Some q => if (i =? j)%nat then Some 0 else if (i <? j)%nat then port_dist (nethpwl ps) p q else port_dist (nethpwl ps) q p | _, _ => None end.
Definition reorderPorts (ps : list port) : option (list (nat * nat)) := match ps with [] => Some [] | _ => order (length ps) (matrix ps) end.

(** clockRouteOrder, Net.cpp:140-175: a pin is its name and its ports, virtual ones first; pins are compared by address, here by position. *)
Definition pin : Type := nat * list port.
Fixpoint find_pin (driver : nat) (k : nat) (ps : list pin) : option (nat * list port) :=
  match ps with [] => None | p :: r => if (fst p =? driver)%nat then Some (k, snd p) else find_pin driver (S k) r end.
Definition others (k : nat) (ps : list pin) : list port := flat_map (fun ip => if (fst ip =? k)%nat then [] else snd (snd ip)) (combine (seq 0 (length ps)) ps).
Definition clockRouteOrder (driver : nat) (vpins pins : list pin) : list (port * port) :=
  match find_pin driver 0 pins with
  | Some (k, p0 :: r) =>
      sort_by (fun a b => Dist (p_bbox (fst b)) (p_bbox (snd b)) <? Dist (p_bbox (fst a)) (p_bbox (snd a)))
        (map (fun q => (p0, q)) (r ++ flat_map snd vpins ++ others k pins))
  | _ => []
  end.
