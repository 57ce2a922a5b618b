(** The linear system of the IR-drop simulator: MNASimulation.cpp:47-191 (matrix and right-hand side), 409-441 (nodenum, AddingPower),
    558-612 (FindPowerPoints), 663-690 (the order of the devices), 776-837 (the devices added by Map_new).
    The extraction of the wires and vias and the search for the points nearest to a load are not modelled.
    Numbers are exact ([double] in the code); vectors are functions on Z, without bounds; a resistor of 0 ohms is left out (its conductance is 0 here).
    SuperLU, which solves the system, is not modelled. *)
From Coq Require Import ZArith QArith Qcanon.
From Verif Require Import Base.Prelude Model.CapPlace.
Local Open Scope Z_scope.

(** MDB::device, Mdatatype.h:25-33. *)
Inductive kind := KR | KI | KV.
Record device := Dev { d_kind : kind; d_start : Z; d_end : Z; d_value : Qc }.
Definition is_kind (k : kind) (d : device) : bool := match k, d_kind d with KR, KR | KI, KI | KV, KV => true | _, _ => false end.
Definition positive (q : Qc) : bool := negb (Qle_bool (this q) 0).
Definition is_zero (q : Qc) : bool := Qeq_bool (this q) 0.
(** MNASimulation.cpp:409-419. *)
Definition nodenum (ds : list device) : Z :=
  fold_left (fun n d => let n := if n <? d_start d then d_start d else n in if n <? d_end d then d_end d else n) ds 0.
(** MNASimulation.cpp:53-63. *)
Definition powerdev (ds : list device) : Z := Z.of_nat (length (filter (is_kind KV) ds)).
Definition currentdev (ds : list device) : Z := Z.of_nat (length (filter (is_kind KI) ds)).

Definition set (p : Z) (q : Qc) (t : Z -> Qc) (j : Z) : Qc := if j =? p then q else t j.
(** MNASimulation.cpp:67-92. The loop over [i] does the same again and again. *)
Definition rhs_step (N : Z) (t : Z -> Qc) (d : device) : Z -> Qc :=
  match d_kind d with
  | KI => let t := set (d_start d - 1) (- d_value d)%Qc t in if 0 <=? d_end d - 1 then set (d_end d - 1) (d_value d) t else t
  | KV => if positive (d_value d) then set (N - 1 - d_end d) (d_value d) t else t
  | KR => t
  end.
Definition rhs (N : Z) (ds : list device) : Z -> Qc := fold_left (rhs_step N) ds (fun _ => 0%Qc).
(** MNASimulation.cpp:141-148: 0.5 * powerdev is cut to an [int] together with the rest, which is not negative. *)
Definition vpos (N P : Z) (d : device) : Z := if positive (d_value d) then N - d_end d - 1 else N - d_end d - 1 + P / 2.
(** MNASimulation.cpp:123-150: a column of a node, and its diagonal. *)
Definition node_step (N P i : Z) (ts : (Z -> Qc) * Qc) (d : device) : (Z -> Qc) * Qc :=
  match d_kind d with
  | KR =>
      let g := (1 / d_value d)%Qc in
      let ts := if d_start d =? i + 1 then (set (d_end d - 1) (fst ts (d_end d - 1)%Z - g)%Qc (fst ts), (snd ts + g)%Qc) else ts in
      if d_end d =? i + 1 then (set (d_start d - 1) (fst ts (d_start d - 1)%Z - g)%Qc (fst ts), (snd ts + g)%Qc) else ts
  | KV => if d_start d =? i + 1 then (set (vpos N P d) 1%Qc (fst ts), snd ts) else ts
  | KI => ts
  end.
Definition node_column (N P : Z) (ds : list device) (i : Z) : Z -> Qc :=
  let ts := fold_left (node_step N P i) ds (fun _ => 0%Qc, 0%Qc) in set i (snd ts) (fst ts).
(** MNASimulation.cpp:163-177: a column of a voltage source; [double]s are compared without rounding. *)
Definition source_step (N P i : Z) (t : Z -> Qc) (d : device) : Z -> Qc :=
  match d_kind d with
  | KV =>
      if negb (is_zero (d_value d)) then if - d_end d =? i + 1 - N then set (d_start d - 1) 1%Qc t else t
      else if 2 * - d_end d =? 2 * (i + 1 - N) - P then set (d_start d - 1) 1%Qc t else t
  | _ => t
  end.
Definition column (N P : Z) (ds : list device) (i : Z) : Z -> Qc :=
  if i <? N then node_column N P ds i else fold_left (source_step N P i) ds (fun _ => 0%Qc).
(** MNASimulation.cpp:106-116, 151-161, 178-189: the places for entries, and the entries. *)
Definition places (ds : list device) : Z := 2 * (Z.of_nat (length ds) - currentdev ds) + nodenum ds.
Definition entries_of (n : Z) (t : Z -> Qc) : Z := Z.of_nat (length (filter (fun j => negb (is_zero (t j))) (zrange n))).
Definition entries (ds : list device) : Z :=
  let N := nodenum ds in let P := powerdev ds in fold_right Z.add 0 (map (fun i => entries_of (N + P) (column N P ds i)) (zrange (N + P))).
(** A x: [x] has a value for each column. *)
Definition qsum (l : list Qc) : Qc := fold_right Qcplus 0%Qc l.
Definition times (ds : list device) (x : Z -> Qc) (j : Z) : Qc :=
  let N := nodenum ds in let P := powerdev ds in qsum (map (fun i => (x i * column N P ds i j)%Qc) (zrange (N + P))).
Definition solves (ds : list device) (x : Z -> Qc) : Prop := forall j, 0 <= j < nodenum ds + powerdev ds -> times ds x j = rhs (nodenum ds) ds j.

(** AddingPower, MNASimulation.cpp:421-441: the nodes of the power points, which are found. *)
Definition AddingPower (nodes : list Z) (power : Qc) : list device :=
  map (fun kn => Dev KV (snd kn) (- Z.of_nat (S (fst kn))) power) (combine (seq 0 (length nodes)) nodes).
(** Map_new, MNASimulation.cpp:776-837: for a load at a place, between the nearest points [s] and [e], with [m] the highest index so far, and the two
    resistances. A load at a place of an earlier one is skipped, 793-795. *)
Record load := Load { l_at : Z * Z; l_s : Z; l_e : Z; l_r1 : Qc; l_r2 : Qc; l_i : Qc }.
Definition at_eqb (a b : Z * Z) : bool := (fst a =? fst b) && (snd a =? snd b).
Fixpoint Map_new (seen : list (Z * Z)) (m : Z) (ls : list load) : list device :=
  match ls with
  | [] => []
  | l :: t =>
      if existsb (at_eqb (l_at l)) seen then Map_new seen m t
      else Dev KR (l_s l) (m + 1) (l_r1 l) :: Dev KR (m + 2) (l_e l) (l_r2 l) :: Dev KI (m + 1) (m + 2) (l_i l) ::
           Map_new (l_at l :: seen) (m + 2) t
  end.
(** ExtractPowerGrid, MNASimulation.cpp:663-690: wires and vias, then the sources of Vdd and of ground, then the loads; [m] points. *)
Definition grid_devices (m : Z) (rs : list (Z * Z * Qc)) (vdd : Qc) (vs gs : list Z) (ls : list load) : list device :=
  map (fun r => Dev KR (fst (fst r)) (snd (fst r)) (snd r)) rs ++ AddingPower vs vdd ++ AddingPower gs 0%Qc ++ Map_new [] m ls.

(** FindPowerPoints, MNASimulation.cpp:558-612, with power_number 9: the x and the y of the points of the metal, sorted, and some of them combined. *)
Fixpoint z_ins (z : Z) (l : list Z) : list Z :=
  match l with [] => [z] | y :: r => if z <? y then z :: l else if y <? z then y :: z_ins z r else l end.
Definition z_sort (l : list Z) : list Z := fold_left (fun s z => z_ins z s) l [].
Fixpoint every (fuel : nat) (step : Z) (i : Z) (l : list Z) : list Z :=
  match fuel with
  | O => []
  | S f => if i <? Z.of_nat (length l) then nth (Z.to_nat i) l 0 :: every f step (i + step) l else []
  end.
Definition picked (l : list Z) : list Z :=
  let n := Z.of_nat (length l) in let step := ceil_div n 3 in
  every (length l) (if n <=? 3 then 1 else step) (Z.quot step 2) l.
Definition FindPowerPoints (pts : list (Z * Z)) : list (Z * Z) :=
  flat_map (fun x => map (fun y => (x, y)) (picked (z_sort (map snd pts)))) (picked (z_sort (map fst pts))).
