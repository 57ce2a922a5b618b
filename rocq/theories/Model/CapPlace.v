(** The common-centroid placement of unit capacitors: capplacer.cpp. Numbers of rows and columns are integers held in doubles; distances are compared by
    four times their squares, which is the same order while they are less than 2 ^ 50 (the square root of doubles keeps small integers apart). *)
From Coq Require Import ZArith.
From Verif Require Import Base.Prelude.
Local Open Scope Z_scope.

Definition zrange (n : Z) : list Z := map Z.of_nat (seq 0 (Z.to_nat n)).
(** Caps, capplacer.cpp:261-272 (index_x and index_y only). *)
Definition caps (r s : Z) : list (Z * Z) := flat_map (fun i => map (fun j => (i, j)) (zrange s)) (zrange r).
Definition pos (r s : Z) (c : nat) : Z * Z := nth c (caps r s) (0, 0).
(** capplacer.cpp:274-283, where Cx = (r - 1) / 2 and Cy = (s - 1) / 2. *)
Definition dis (r s : Z) (c : nat) : Z :=
  let '(x, y) := pos r s c in (2 * x - (r - 1)) * (2 * x - (r - 1)) + (2 * y - (s - 1)) * (2 * y - (s - 1)).
(** capplacer.cpp:284-291: sorting by exchange; the inner loop with [index[i]] in the hand. *)
Fixpoint sweep (d : nat -> Z) (x : nat) (l : list nat) : nat * list nat :=
  match l with
  | [] => (x, [])
  | y :: t => if d y <? d x then let '(m, t') := sweep d y t in (m, x :: t') else let '(m, t') := sweep d x t in (m, y :: t')
  end.
Fixpoint exchange (fuel : nat) (d : nat -> Z) (l : list nat) : list nat :=
  match fuel, l with
  | S f, x :: t => let '(m, t') := sweep d x t in m :: exchange f d t'
  | _, _ => l
  end.
(** capplacer.cpp:312. *)
Definition opposite (r s : Z) (a b : nat) : bool :=
  (fst (pos r s a) + fst (pos r s b) =? r - 1) && (snd (pos r s a) + snd (pos r s b) =? s - 1).
(** capplacer.cpp:307-317. [None] as second is -1. *)
Definition pair := (nat * option nat)%type.
Fixpoint mate (r s : Z) (x : nat) (l : list nat) : option pair :=
  match l with
  | [] => None
  | y :: t => if dis r s x =? dis r s y then if opposite r s x y then Some (Nat.min x y, Some (Nat.max x y)) else mate r s x t else None
  end.
Fixpoint mates (r s : Z) (l : list nat) : list pair :=
  match l with [] => [] | x :: t => match mate r s x t with Some p => p :: mates r s t | None => mates r s t end end.
(** capplacer.cpp:297-318; [None]: [index[0]] of an empty vector. *)
Definition pairs_of (r s : Z) (l : list nat) : option (list pair) :=
  match l with
  | [] => None
  | [x] => Some [(x, None)]
  | x :: (y :: _) as t => Some (if dis r s x <? dis r s y then (x, None) :: mates r s t else mates r s l)
  end.
(** capplacer.cpp:320-335. *)
Definition not_on_border (r s : Z) (c : nat) : bool :=
  let '(x, y) := pos r s c in negb (x =? 0) && negb (x =? r - 1) && negb (y =? 0) && negb (y =? s - 1).
Definition inner (r s : Z) (p : pair) : bool :=
  not_on_border r s (fst p) && match snd p with None => true | Some c => not_on_border r s c end.
Definition cap_pair_sequence (r s : Z) (dummy : bool) : option (list pair) :=
  let n := length (caps r s) in
  match pairs_of r s (exchange n (dis r s) (seq 0 n)) with
  | Some l => Some (if dummy then filter (inner r s) l else l)
  | None => None
  end.

(** initial_net_pair_sequence, capplacer.cpp:615-626: the nets with 1, with an odd number of and with other unit capacitors ([%] rounds to 0). *)
Definition size (ki : list Z) (k : nat) : Z := nth k ki 0.
Definition is_unit (ki : list Z) (k : nat) : bool := size ki k =? 1.
Definition is_odd (ki : list Z) (k : nat) : bool := negb (size ki k =? 1) && (Z.rem (size ki k) 2 =? 1).
Definition is_even (ki : list Z) (k : nat) : bool := negb (size ki k =? 1) && negb (Z.rem (size ki k) 2 =? 1).
Definition those (f : list Z -> nat -> bool) (ki : list Z) : list nat := filter (f ki) (seq 0 (length ki)).
(** capplacer.cpp:629-637 genS: once for each two. *)
Definition genS (ki : list Z) (l : list nat) : list pair := flat_map (fun k => repeat (k, Some k) (Z.to_nat (size ki k / 2))) l.
(** capplacer.cpp:643-650, 665-672: from the end, two by two; and what is left. *)
Fixpoint couples (l : list nat) : list pair := match l with a :: b :: t => (a, Some b) :: couples t | _ => [] end.
Fixpoint left_over (l : list nat) : option nat := match l with _ :: _ :: t => left_over t | [a] => Some a | [] => None end.
(** capplacer.cpp:639-696. *)
Definition net_sequence (ki : list Z) : list pair :=
  let odds := rev (those is_odd ki) in let units := rev (those is_unit ki) in
  let S_odd_odd := couples odds in
  let '(S_unit_odd, S_unique, rest) :=
    match left_over odds, units with
    | Some o, u :: us => ([(o, Some u)], [], us)
    | Some o, [] => ([], [(o, None)], [])
    | None, _ => ([], [], units)
    end in
  let S_unit_unit := couples rest in
  let S_unique := S_unique ++ match left_over rest with Some u => [(u, None)] | None => [] end in
  S_unique ++ S_unit_unit ++ S_unit_odd ++ S_odd_odd ++ genS ki (those is_even ki) ++ genS ki (those is_odd ki).
(** capplacer.cpp:711-731: the capacitors given to nets, in order; [None]: beyond the end of [cap_pair_sequence], or capacitor -1. *)
Fixpoint assign (nets caps : list pair) : option (list (nat * nat)) :=
  match nets with
  | [] => Some []
  | (a, None) :: t => match caps with (x, _) :: u => option_map (cons (x, a)) (assign t u) | [] => None end
  | (a, Some b) :: t =>
      match caps with
      | (x, Some y) :: u | (_, None) :: (x, Some y) :: u => option_map (fun l => (x, a) :: (y, b) :: l) (assign t u)
      | _ => None
      end
  end.
(** capplacer.cpp:255-259, 339: the grid gets a border of dummy capacitors. *)
Definition full (dummy : bool) (n : Z) : Z := if dummy then n + 2 else n.
Definition place (ki : list Z) (r s : Z) (dummy : bool) : option (list (nat * nat)) :=
  match cap_pair_sequence (full dummy r) (full dummy s) dummy with Some l => assign (net_sequence ki) l | None => None end.
(** Nets_pos[k].cap_index, and capplacer.cpp:737-742 that of the last net, of dummy capacitors. *)
Definition cap_index (given : list (nat * nat)) (k : nat) : list nat := map fst (filter (fun e => Nat.eqb (snd e) k) given).
Definition dummies (r s : Z) (given : list (nat * nat)) : list nat :=
  filter (fun c => negb (existsb (fun e => Nat.eqb (fst e) c) given)) (seq 0 (length (caps r s))).

(** Common_centroid_capacitor_aspect_ratio, capplacer.cpp:1835-1880: the grids tried. Quotients of doubles are rounded up (exactly, for small integers). *)
Definition ceil_div (a b : Z) : Z := - (- a / b).
Definition temp_r (sum : Z) : Z := Z.sqrt_up sum.
Definition temp_s (sum : Z) : Z := ceil_div sum (temp_r sum).
Definition full_r (sum r : Z) : bool := r * ceil_div sum r =? sum.
Definition full_s (sum s : Z) : bool := ceil_div sum s * s =? sum.
Fixpoint ratios (fuel : nat) (want : bool) (sum num r s : Z) : list (Z * Z) :=
  match fuel with
  | O => []
  | S f =>
      if (0 <? num) && (0 <? r) then
        if Bool.eqb (full_r sum r) want && Bool.eqb (full_s sum s) want
        then (r, ceil_div sum r) :: (ceil_div sum s, s) :: ratios f want sum (num - 2) (r - 1) (s + 1)
        else ratios f want sum num (r - 1) (s + 1)
      else []
  end.
(** [temp_r] goes down by one each time, so [temp_r] rounds are enough. The quotient of 0 by 0 is not a number, but no loop runs then. *)
Definition grids (user : option (Z * Z)) (aspect : bool) (sum num : Z) : list (Z * Z) :=
  let u := match user with Some p => [p] | None => [] end in
  if aspect then
    let fuel := Z.to_nat (temp_r sum) in
    match u ++ ratios fuel false sum num (temp_r sum) (temp_s sum) with
    | [] => ratios fuel true sum num (temp_r sum) (temp_s sum)
    | l => l
    end
  else u.
