(** The lines chosen to route a common-centroid capacitor: Router_Cap and found_neighbor, capplacer.cpp:745-1008, and the tracks of the wires
    on these lines, capplacer.cpp:1127-1200, 1407-1421. Only the vertical lines are modelled: the horizontal ones (818-848, 867-884) are not used.
    Capacitors are numbers, with their places given by [P]; no capacitor is in two nets (C103_counts), so each net has its own marks [access].
    Vectors of 0 and 1 over the lines 0 .. r are functions; line [l] is the channel to the left of column [l]. *)
From Coq Require Import ZArith.
From Verif Require Import Base.Prelude Model.CapPlace.
Local Open Scope Z_scope.

(** capplacer.cpp:999-1001. *)
Definition beside (p q : Z * Z) : bool :=
  let dx := Z.abs (fst q - fst p) in let dy := Z.abs (snd q - snd p) in ((dx =? 0) && (dy =? 1)) || ((dy =? 0) && (dx =? 1)).
(** found_neighbor, capplacer.cpp:994-1008; [seen] are the capacitors with access 1, in the order they got it; [None]: too many calls. *)
Fixpoint found_neighbor (fuel : nat) (P : nat -> Z * Z) (cells : list nat) (seen : list nat) (c : nat) : option (list nat) :=
  match fuel with
  | O => None
  | S f => fold_left (fun o d => match o with
      | None => None
      | Some seen => if existsb (Nat.eqb d) seen then Some seen else if beside (P c) (P d) then found_neighbor f P cells (seen ++ [d]) d else Some seen
      end) cells (Some seen)
  end.
(** capplacer.cpp:750-761 for one net: Set. *)
Fixpoint sets_from (fuel : nat) (P : nat -> Z * Z) (cells todo seen : list nat) : option (list (list nat)) :=
  match todo with
  | [] => Some []
  | c :: t =>
      if existsb (Nat.eqb c) seen then sets_from fuel P cells t seen
      else match found_neighbor fuel P cells (seen ++ [c]) c with
           | None => None
           | Some seen' => option_map (cons (skipn (length seen) seen')) (sets_from fuel P cells t seen')
           end
  end.
Definition Sets (P : nat -> Z * Z) (cells : list nat) : option (list (list nat)) := sets_from (length cells) P cells cells [].

(** capplacer.cpp:788-816: router_line_v (of the columns [xs] of a set) and routable_line_v. *)
Definition router_line (r : Z) (xs : list Z) (l : Z) : bool := existsb (fun x => (l =? x) || (l =? x + 1) || (l =? r - x) || (l =? r - x - 1)) xs.
Definition routable (r : Z) (sets : list (list Z)) (l : Z) : bool := forallb (fun xs => router_line r xs l) sets.
(** capplacer.cpp:852-865: half_router_line_v. *)
Definition half_line (xs : list Z) (l : Z) : bool := existsb (fun x => (l =? x) || (l =? x + 1)) xs.
(** capplacer.cpp:919-927, 946-954: the last of the lines least used; [None] is -1. *)
Definition choose (num : Z -> Z) (ok : Z -> bool) (bound : Z) (ls : list Z) : option Z :=
  snd (fold_left (fun st j => if ok j && (num j <=? fst st) then (num j, Some j) else st) ls (bound, None)).
Definition bump (j : Z) (num : Z -> Z) (l : Z) : Z := if l =? j then num l + 1 else num l.
(** router_cap_10_11 for one net, capplacer.cpp:907-960: line_v and num_router_net_v. [None]: an index of -1 (the assertion of 955, or out of bounds in 928). *)
Definition route_set (r n : Z) (o : option ((Z -> bool) * (Z -> Z))) (xs : list Z) : option ((Z -> bool) * (Z -> Z)) :=
  match o with
  | None => None
  | Some (lv, num) =>
      if existsb (fun l => half_line xs l && lv l) (zrange (r + 1)) then Some (lv, num)
      else match choose num (half_line xs) n (zrange (r + 1)) with
           | None => None
           | Some k => Some (fun l => (l =? k) || lv l, bump k num)
           end
  end.
Definition route_net (r n : Z) (neg : bool) (sets : list (list Z)) (num : Z -> Z) : option ((Z -> bool) * (Z -> Z)) :=
  if existsb (routable r sets) (zrange (r + 1)) then
    match choose num (routable r sets) (if neg then 2 * n else n) (zrange (r / 2 + 1)) with
    | None => None
    | Some j => Some (fun l => (l =? j) || (l =? r - j), bump (r - j) (bump j num))
    end
  else fold_left (route_set r n) sets (Some (fun _ => false, num)).
Fixpoint route_nets (r n : Z) (neg : bool) (nets : list (list (list Z))) (num : Z -> Z) : option (list (Z -> bool) * (Z -> Z)) :=
  match nets with
  | [] => Some ([], num)
  | sets :: t =>
      match route_net r n neg sets num with
      | None => None
      | Some (lv, num') => match route_nets r n neg t num' with None => None | Some (ls, num'') => Some (lv :: ls, num'') end
      end
  end.
(** capplacer.cpp:886-967: the lines of the positive and of the negative nets. *)
Definition Router_Cap (r : Z) (nets : list (list (list Z))) : option (list (Z -> bool) * list (Z -> bool)) :=
  let n := Z.of_nat (length nets) in
  match route_nets r n false nets (fun _ => 0) with
  | None => None
  | Some (ps, num) => match route_nets r n true nets num with None => None | Some (ns, _) => Some (ps, ns) end
  end.
(** capplacer.cpp:698-742: the nets of a placement, the last one of dummies; capplacer.cpp:770-784 takes the same grid as the placement. *)
Fixpoint all_some {A} (l : list (option A)) : option (list A) :=
  match l with [] => Some [] | None :: _ => None | Some a :: t => option_map (cons a) (all_some t) end.
Definition placed_nets (ki : list Z) (R S : Z) (ev : list (nat * nat)) : list (list nat) := map (cap_index ev) (seq 0 (length ki)) ++ [dummies R S ev].
Definition columns (R S : Z) (nets : list (list nat)) : option (list (list (list Z))) :=
  option_map (map (map (map (fun c => fst (pos R S c))))) (all_some (map (Sets (pos R S)) nets)).

(** capplacer.cpp:970-985: num_line, max_num_ and the distance of the columns. *)
Definition num_line (lvs : list (Z -> bool)) (l : Z) : Z := Z.of_nat (length (filter (fun lv => lv l) lvs)).
Definition max_num (r : Z) (lvs : list (Z -> bool)) : Z := fold_left Z.max (map (num_line lvs) (zrange (r + 1))) 0.
Definition span (m mx : Z) : Z := (mx + 1) * m.
(** capplacer.cpp:987-991: the middle of column i; [w] is the width of a unit capacitor. *)
Definition cap_x (w sp i : Z) : Z := Z.quot w 2 + (w + sp) * i.
(** GetPhysicalInfo_merged_net, capplacer.cpp:1140-1154: trails, for positive and then negative nets; a net without capacitors is passed over. *)
Fixpoint trails (nets : list (bool * (Z -> bool))) (t : Z -> Z) : list (Z -> option Z) :=
  match nets with
  | [] => []
  | (used, lv) :: rest =>
      if used then let t' := fun l => if lv l then t l + 1 else t l in (fun l => if lv l then Some (t' l) else None) :: trails rest t'
      else (fun _ => None) :: trails rest t
  end.
(** capplacer.cpp:1189-1195: the wire of line [l] as seen from the capacitors right (lr = 0) and left (lr = 1) of it. *)
Definition wire_from_right (w sp m l t : Z) : Z := cap_x w sp l - Z.quot w 2 - (sp - m * t).
Definition wire_from_left (w sp m l t : Z) : Z := cap_x w sp (l - 1) + Z.quot w 2 + m * t.
