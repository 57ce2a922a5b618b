(** The path search of the detailed router (PlaceRouteHierFlow/router/A_star.cpp), for a single track (left_up = right_down = 0),
    which is how GcellDetailRouter.cpp:459 and :1380 call FindFeasiblePath_sym for the signal nets.

    Simplifications: a cost (double) is an exact rational, and DBL_MAX/INT_MAX as a cost is [None]; a node is the index in
    vertices_total, and -1 as an index is [None]; an index outside of the grid (undefined behaviour) is a default vertex here and
    excluded by the hypothesis of the theorems; only the index of the via above a metal, which is -1 for the highest metal, is
    a real lookup.  The drc_info is given by functions of the metal. *)
From Coq Require Import ZArith QArith.
From Verif Require Import Base.Prelude.
Local Open Scope Z_scope.

(** RouterDB::vertex, Rdatatype.h:90-114 (position, metal, active flags and neighbours). *)
Record vertex := V { vx : Z; vy : Z; metal : Z; active : bool; via_down : bool; via_up : bool;
  north : list nat; south : list nat; east : list nat; west : list nat; up : option nat; down : option nat }.
Definition nowhere : vertex := V (-1) (-1) (-1) false true true [] [] [] [] None None.
(** drc_info: Metal_info[m].direct = 1, .unit_R, .minL; Via_info[Metal_info[m].upper_via_index].R ([None]: the index is -1,
    datatype.h:719, ReadDesignRuleJson.cpp:254-261); width + dist_ss and width_y + dist_ss_y of Via_info. *)
Record tech := Tech { horizontal : Z -> bool; unit_R : Z -> Q; via_R : Z -> option Q; minL : Z -> Z; via_x : Z -> Z; via_y : Z -> Z }.
(** A line of the path of the symmetric net (RouterDB::Metal). *)
Record line := Line { l_metal : Z; l_x0 : Z; l_y0 : Z; l_x1 : Z; l_y1 : Z }.
Record job := Job { g : list vertex; t : tech; center_x : Z; center_y : Z; source : list nat; dest : list nat; sym_path : list line }.
(** The fields of the vertices which the search writes: Cost, Cost2Source, parent, trace_back_node. *)
Record state := St { cost : nat -> option Q; c2s : nat -> Q; parent : nat -> option nat; tback : nat -> option nat }.

Definition at_ (j : job) (i : nat) : vertex := nth i (g j) nowhere.
Definition mem (i : nat) (l : list nat) : bool := existsb (Nat.eqb i) l.
Definition upd {A} (f : nat -> A) (i : nat) (a : A) : nat -> A := fun k => if (k =? i)%nat then a else f k.
Definition dist (j : job) (a b : nat) : Z := Z.abs (vx (at_ j a) - vx (at_ j b)) + Z.abs (vy (at_ j a) - vy (at_ j b)).

(** std::set with pairCompDBL, Rdatatype.h:521-529. *)
Definition less (a b : Q * nat) : bool := if Qeq_bool (fst a) (fst b) then (snd a <? snd b)%nat else Qle_bool (fst a) (fst b).
Fixpoint insert (p : Q * nat) (l : list (Q * nat)) : list (Q * nat) :=
  match l with [] => [p] | q :: r => if less p q then p :: l else if less q p then q :: insert p r else l end.
Definition erase (p : Q * nat) (l : list (Q * nat)) : list (Q * nat) := filter (fun q => less p q || less q p) l.

(** Manhattan_distan_dest and Manhattan_distan_dest_via, A_star.cpp:119-136. *)
Definition int_max : Z := 2147483647.
Definition to_dest (j : job) (v : nat) : Z := fold_left (fun m d => Z.min m (dist j v d)) (dest j) int_max.
Definition to_dest_via (j : job) (v : nat) : Z := fold_left (fun m d => Z.min m (Z.abs (metal (at_ j v) - metal (at_ j d)))) (dest j) int_max.
Definition off_center (j : job) (v : nat) : Q := inject_Z (Z.abs (vx (at_ j v) - center_x j) + Z.abs (vy (at_ j v) - center_y j)) / inject_Z 10000000000.

(** Find_Symmetry_Cost and Find_Symmetry_cost, A_star.cpp:1382-1430 (layer_cost is 0). *)
Definition line_cost (j : job) (v : nat) (l : line) : Z :=
  let x := vx (at_ j v) in let y := vy (at_ j v) in
  let part a lo hi := if (a <=? hi) && (lo <=? a) then 0 else Z.min (Z.abs (a - lo)) (Z.abs (a - hi)) in
  if horizontal (t j) (l_metal l) then Z.abs (y - l_y0 l) + part x (Z.min (l_x0 l) (l_x1 l)) (Z.max (l_x0 l) (l_x1 l))
  else Z.abs (x - l_x0 l) + part y (Z.min (l_y0 l) (l_y1 l)) (Z.max (l_y0 l) (l_y1 l)).
Definition sym_cost (j : job) (v : nat) : Z :=
  match sym_path j with [] => 0 | ls => fold_left (fun m l => if line_cost j v l <? m then line_cost j v l else m) ls int_max end.

(** initial_source, A_star.cpp:156-168. *)
Definition initial_source (j : job) (s : state) : state * list (Q * nat) :=
  fold_left (fun sl u => (St (upd (cost (fst sl)) u (Some 0%Q)) (upd (c2s (fst sl)) u 0%Q) (parent (fst sl)) (tback (fst sl)),
      insert (0 + inject_Z (to_dest j u) * unit_R (t j) (metal (at_ j u)) + off_center j u, u)%Q (snd sl))) (source j) (s, []).

(** expand_node, expand_node_ud and found_near_node, A_star.cpp:170-263. *)
Definition ud (j : job) (o : option nat) : list nat := match o with Some v => if active (at_ j v) then [v] else [] | None => [] end.
Definition near (j : job) (u : nat) : list nat :=
  let n := at_ j u in let act := filter (fun v => active (at_ j v)) in
  act (north n) ++ act (south n) ++ act (west n) ++ act (east n) ++ (if via_up n then ud j (up n) else []) ++ (if via_down n then ud j (down n) else []).

(** trace_back_node_parent and trace_back_node, A_star.cpp:265-355: back along the parents to the first node on the same metal.
    [None]: the loop does not end. *)
Fixpoint same_layer (f : nat) (j : job) (par : nat -> option nat) (cur dummy : nat) : option nat :=
  match f with
  | O => None
  | Datatypes.S f =>
      match par dummy with
      | None => Some dummy
      | Some l => if (length (g j) <=? l)%nat then Some dummy
                  else if (metal (at_ j l) =? metal (at_ j dummy)) && negb (l =? cur)%nat then same_layer f j par cur l
                  else if negb (metal (at_ j l) =? metal (at_ j dummy)) && negb (l =? cur)%nat then Some dummy
                  else same_layer f j par cur dummy
      end
  end.

(** CheckExendable_With_Certain_Length, ..._Head_Extend and ..._Tail_Extend, A_star.cpp:357-526. *)
Fixpoint reach (f : nat) (j : job) (dir : Z) (from : nat) (need : Z) (dummy : nat) (len : Z) : bool :=
  if need <=? len then true else
  match f with
  | O => false
  | Datatypes.S f =>
      let n := Z.of_nat dummy + dir in let k := Z.to_nat n in
      if (n <? 0) || (Z.of_nat (length (g j)) <=? n) then false
      else if negb (active (at_ j k)) then false
      else if (negb (vx (at_ j k) =? vx (at_ j from)) && negb (vy (at_ j k) =? vy (at_ j from))) || negb (metal (at_ j k) =? metal (at_ j from)) then false
      else reach f j dir from need k (dist j k from)
  end.
Definition dir_first (a b : nat) : Z := if (a <=? b)%nat then -1 else 1.
Definition reaches (j : job) (dir : Z) (from : nat) (need : Z) : bool := reach (Datatypes.S (length (g j))) j dir from need from 0.
Definition half_up (z : Z) : Z := - ((- z) / 2).
Definition half (j : job) (a b : nat) (len : Z) (m : Z) : bool :=
  reaches j (dir_first a b) a (half_up (m - len)) && reaches j (- dir_first a b) b (half_up (m - len)).
Definition head_extend (j : job) (a b : nat) (len m : Z) : bool := reaches j (dir_first a b) a (m - len).
Definition tail_extend (j : job) (a b : nat) (len m : Z) : bool := reaches j (- dir_first a b) b (m - len).
Definition extendable (j : job) (a b : nat) (len m : Z) : bool := half j a b len m || head_extend j a b len m || tail_extend j a b len m.

(** The space of two vias between the run from a to u and the metal of v, A_star.cpp:1085-1101 and 1139-1157. *)
Definition via_space (j : job) (before : option nat) (u v : nat) : Z :=
  match before with
  | Some p => if metal (at_ j p) =? metal (at_ j v)
              then let k := Z.min (metal (at_ j u)) (metal (at_ j v)) in if horizontal (t j) (metal (at_ j u)) then via_x (t j) k else via_y (t j) k
              else 0
  | None => 0 end.
(** Extention_check_prime, A_star.cpp:1076-1115. *)
Definition prime (j : job) (par : nat -> option nat) (src : list nat) (u v : nat) : option bool :=
  match same_layer (Datatypes.S (length (g j))) j par u u with
  | None => None
  | Some a => if mem a src then Some true else
      let len := dist j u a in let m := minL (t j) (metal (at_ j u)) in let sp := via_space j (par a) u v in
      if (len - m <? 0) && (sp <=? len) then Some (extendable j a u len m) else Some (sp <=? len)
  end.
(** Extention_check, A_star.cpp:1117-1173. *)
Definition Extention_check (j : job) (tb : nat -> option nat) (src : list nat) (v : nat) : option bool :=
  match tb v with
  | None => Some true
  | Some u => if (length (g j) <=? u)%nat then None else if metal (at_ j v) =? metal (at_ j u) then Some true else
      match same_layer (Datatypes.S (length (g j))) j tb u u with
      | None => None
      | Some a => if mem a src then Some true else
          let len := dist j u a in let m := minL (t j) (metal (at_ j u)) in let sp := via_space j (tb a) u v in
          if (len - m <? 0) && (sp <=? len) then Some (extendable j a u len m) else Some true
      end
  end.

(** find_next_node, A_star.cpp:972-1006. *)
Definition next_node (j : job) (u : nat) (x y layer dummy_layer : Z) : option nat :=
  let n := at_ j u in
  let k := if horizontal (t j) (metal n) then x else y in
  if negb (k =? 0) then (let z := Z.of_nat u + k in if (z <? 0) || (Z.of_nat (length (g j)) <=? z) then None else Some (Z.to_nat z))
  else let l := if layer =? 0 then dummy_layer else layer in
    match (if 0 <? l then up n else down n) with Some v => if (length (g j) <=? v)%nat then None else Some v | None => None end.
(** One of the two loops of L_shape_Connection_Check, A_star.cpp:862-950; the nodes are in reverse.  It ends since no node is visited twice. *)
Fixpoint l_walk (f : nat) (j : job) (e : nat) (dl : Z) (u : nat) (seen : list nat) : option (list nat) :=
  if (u =? e)%nat then Some (u :: seen) else
  if mem u seen then None else
  match f with
  | O => None
  | Datatypes.S f =>
      match next_node j u (Z.sgn (vx (at_ j e) - vx (at_ j u))) (Z.sgn (vy (at_ j e) - vy (at_ j u))) (Z.sgn (metal (at_ j e) - metal (at_ j u))) dl with
      | None => None
      | Some v => l_walk f j e dl v (u :: seen)
      end
  end.
(** Check_activa_via_active, A_star.cpp:1037-1064. *)
Definition pair_ok (j : job) (p v : nat) : bool :=
  let a := at_ j p in let b := at_ j v in
  (v <? length (g j))%nat && active b &&
  (if metal b <? metal a then via_up b && active a && via_down a else if metal a <? metal b then via_down b && active a && via_up a else true).
Fixpoint pairs_ok (j : job) (l : list nat) : bool := match l with p :: ((v :: _) as r) => pair_ok j p v && pairs_ok j r | _ => true end.
Definition check_active (j : job) (l : list nat) : bool := match l with [] => false | u :: _ => active (at_ j u) && pairs_ok j l end.
(** L_shape_Connection_Check, A_star.cpp:862-970. *)
Definition l_shape (j : job) (u v : nat) : option (list nat) :=
  let w dl := l_walk (Datatypes.S (length (g j))) j v dl u [] in
  match w 1, w (-1) with
  | Some a, Some b => if check_active j (rev b) then Some (rev b) else if check_active j (rev a) then Some (rev a) else None
  | _, _ => None end.
(** parallel_routing for one track, A_star.cpp:801-845: both lists of points have one node and the cost is 0.
    The result: undefined, refused, or the nodes. *)
Definition parallel (j : job) (par : nat -> option nat) (src : list nat) (u v : nat) : option (option (list nat)) :=
  if metal (at_ j u) =? metal (at_ j v) then Some (l_shape j u v)
  else match prime j par src u v with None => None | Some false => Some None | Some true => Some (l_shape j u v) end.

(** The cost of a candidate, A_star.cpp:1322-1343: cost_inc and temp_cost. *)
Definition costs (j : job) (s : state) (u v : nat) : option (Q * Q) :=
  let m := metal (at_ j u) in
  match via_R (t j) (Z.min (metal (at_ j v)) m) with
  | None => None
  | Some r =>
      let inc := (inject_Z (Z.abs (vx (at_ j u) - vx (at_ j v))) * unit_R (t j) m + inject_Z (Z.abs (vy (at_ j u) - vy (at_ j v))) * unit_R (t j) m
                  + (if metal (at_ j v) =? m then 0 else r))%Q in
      Some (inc, (c2s s u + inc + 0 + inject_Z (to_dest j v) * unit_R (t j) m + r * inject_Z (to_dest_via j v) + off_center j v)%Q)
  end.
Definition lower (a : Q) (b : option Q) : bool := match b with None => true | Some b => negb (Qle_bool b a) end.
(** One candidate, A_star.cpp:1320-1366. *)
Definition relax (j : job) (u : nat) (sl : state * list (Q * nat)) (v : nat) : option (state * list (Q * nat)) :=
  let '(s, l) := sl in
  match costs j s u v with
  | None => None
  | Some (inc, c) =>
      if lower c (cost s v) then
        let key := ((c + (2 # 10) * inject_Z (sym_cost j v))%Q, v) in
        Some (St (upd (cost s) v (Some c)) (upd (c2s s) v (c2s s u + inc)%Q) (upd (parent s) v (Some u)) (tback s), insert key (erase key l))
      else Some (s, l)
  end.
Fixpoint relax_all (j : job) (u : nat) (sl : state * list (Q * nat)) (vs : list nat) : option (state * list (Q * nat)) :=
  match vs with [] => Some sl | v :: r => match relax j u sl v with None => None | Some sl => relax_all j u sl r end end.
Fixpoint accepted (j : job) (par : nat -> option nat) (u : nat) (vs : list nat) : option (list nat) :=
  match vs with
  | [] => Some []
  | v :: r => match parallel j par (source j) u v, accepted j par u r with
              | Some (Some _), Some l => Some (v :: l) | Some None, Some l => Some l | _, _ => None end
  end.
(** The body of the loop for a node that is no destination, A_star.cpp:1288-1366; erase_candidate_node, 1236-1246. *)
Definition expand (j : job) (u : nat) (closed : list nat) (s : state) (l : list (Q * nat)) : option (state * list (Q * nat)) :=
  match accepted j (parent s) u (filter (fun v => negb (mem v closed)) (near j u)) with
  | None => None
  | Some vs => relax_all j u (s, l) vs
  end.

(** Trace_Back_Path_parent and Trace_Back_Path_trace_back_node, A_star.cpp:1782-1834, in reverse; [None]: past the first node, or no end. *)
Fixpoint trace (f : nat) (par : nat -> option nat) (src : list nat) (u : nat) : option (list nat) :=
  if mem u src then Some [u] else
  match f with O => None | Datatypes.S f => match par u with None => None | Some p => match trace f par src p with None => None | Some l => Some (u :: l) end end end.
(** compact_path and rm_cycle_path, A_star.cpp:1545-1612. *)
Fixpoint compact (l : list nat) : list nat :=
  match l with a :: ((b :: _) as r) => if (a =? b)%nat then compact r else a :: compact r | _ => l end.
Fixpoint first_at (w : nat) (l : list nat) : nat := match l with [] => O | a :: r => if (a =? w)%nat then O else Datatypes.S (first_at w r) end.
Definition last_at (w : nat) (l : list nat) : nat := (length l - 1 - first_at w (rev l))%nat.
Definition repeated (l : list nat) : list nat := filter (fun w => (1 <? count_occ Nat.eq_dec l w)%nat) l.
Definition flagged (l : list nat) (i : nat) : bool := existsb (fun w => (first_at w l <? i)%nat && (i <=? last_at w l)%nat) (repeated l).
Definition rm_cycle (l : list nat) : list nat := let l := compact l in map snd (filter (fun ia => negb (flagged l (fst ia))) (combine (seq 0 (length l)) l)).
(** lable_father, A_star.cpp:1651-1659. *)
Fixpoint label_from (p : nat) (l : list nat) (tb : nat -> option nat) : nat -> option nat :=
  match l with [] => tb | v :: r => label_from v r (upd tb v (Some p)) end.
Definition label (l : list nat) (tb : nat -> option nat) : nat -> option nat := match l with [] => tb | u :: r => label_from u r (upd tb u None) end.
(** Check_Path_Extension, A_star.cpp:1661-1669. *)
Fixpoint checks (j : job) (tb : nat -> option nat) (l : list nat) : option bool :=
  match l with [] => Some true | v :: r => match Extention_check j tb (source j) v with None => None | Some false => Some false | Some true => checks j tb r end end.
(** The nodes between all pairs of the path; a refused pair has no list of nodes, A_star.cpp:1683-1692. *)
Fixpoint strands (j : job) (par : nat -> option nat) (l : list nat) : option (list nat) :=
  match l with
  | u :: ((v :: _) as r) =>
      if negb (metal (at_ j u) =? metal (at_ j v)) && match prime j par (source j) u v with Some true => false | _ => true end then None else
      match strands j par r with None => None | Some l => Some (match l_shape j u v with Some w => w | None => [] end ++ l) end
  | _ => Some []
  end.
(** Pre_trace_back, A_star.cpp:1671-1707. *)
Definition pre_trace (j : job) (s : state) (u : nat) : option (state * bool) :=
  match trace (length (g j)) (parent s) (source j) u with
  | None => None
  | Some p => if mem u (source j) then Some (s, true) else
      match strands j (parent s) (rev p) with
      | None | Some [] => None
      | Some l => let tb := label (rm_cycle l) (tback s) in
          match checks j tb (rm_cycle l) with None => None | Some b => Some (St (cost s) (c2s s) (parent s) tb, b) end
      end
  end.

Inductive outcome := Found (s : state) (u : nat) | Fails (s : state) | Undefined | Running.
(** The loop of A_star_algorithm_Sym, A_star.cpp:1277-1367. *)
Fixpoint search (f : nat) (j : job) (closed : list nat) (s : state) (l : list (Q * nat)) : outcome :=
  match f with
  | O => Running
  | Datatypes.S f =>
      match l with
      | [] => Fails s
      | (_, u) :: l =>
          if mem u (dest j) then
            match pre_trace j s u with None => Undefined | Some (s, true) => Found s u | Some (s, false) => search f j closed s l end
          else match expand j u (u :: closed) s l with None => Undefined | Some (s, l) => search f j (u :: closed) s l end
      end
  end.

(** extend_manner_direction_check, A_star.cpp:1175-1234: the first and last node of each stretch on one metal, and its label. *)
Fixpoint stretches_from (j : job) (a b : nat) (l : list nat) : list (nat * nat) :=
  match l with [] => [(a, b)] | v :: r => if metal (at_ j v) =? metal (at_ j a) then stretches_from j a v r else (a, b) :: stretches_from j v v r end.
Definition stretches (j : job) (l : list nat) : list (nat * nat) := match l with [] => [] | u :: r => stretches_from j u u r end.
Definition side (d : Z) : Z := if d =? 1 then 2 else 3.
Definition stretch_label (j : job) (a b : nat) : Z :=
  let len := dist j a b in let m := minL (t j) (metal (at_ j a)) in
  if m <=? len then 0 else if half j a b len m then 1 else if head_extend j a b len m then side (dir_first a b) else if tail_extend j a b len m then side (- dir_first a b) else 4.
Definition labels (j : job) (l : list nat) : list Z :=
  let ps := stretches j l in
  map (fun ip => if (fst ip =? 0)%nat || (fst ip =? length ps - 1)%nat then 0 else stretch_label j (fst (snd ip)) (snd (snd ip))) (combine (seq 0 (length ps)) ps).
(** ConvertPathintoPhysical, A_star.cpp:75-115, for one path: the state of the loop is the open line, if any (flag_start_write = 0). *)
Definition open_at (j : job) (o : option (Z * (Z * Z))) (u : nat) : Z * (Z * Z) := match o with Some x => x | None => (metal (at_ j u), (vx (at_ j u), vy (at_ j u))) end.
Fixpoint physical_from (j : job) (o : option (Z * (Z * Z))) (l : list nat) : list line :=
  match l with
  | [] => []
  | u :: r => let '(m, (x, y)) := open_at j o u in
      let ln := Line m x y (vx (at_ j u)) (vy (at_ j u)) in
      match r with
      | [] => [ln]
      | v :: _ => if metal (at_ j u) =? metal (at_ j v) then physical_from j (Some (m, (x, y))) r else ln :: physical_from j None r
      end
  end.
Definition physical (j : job) (l : list nat) : list line := physical_from j None l.
(** CovertToShieldingNet, A_star.cpp:1836-1846, used for the nodes of a path and for its labels alike, 1747-1758. *)
Definition shielding {A} (l : list A) : list A := removelast (tl l).

(** Trace_Back_Paths for one track, A_star.cpp:1709-1780, and refreshGrid, 1848-1853. *)
Inductive result := Path (p : list nat) (ls : list Z) | NoPath | Undef | Loops.
Definition fresh (s : state) : state := St (fun _ => None) (c2s s) (fun _ => None) (tback s).
Definition A_star (f : nat) (j : job) (s : state) : result * state :=
  let '(s1, l) := initial_source j s in
  match search f j (source j) s1 l with
  | Found s2 u => match trace (length (g j)) (tback s2) (source j) u with None => (Undef, s2) | Some p => (Path (rev p) (labels j (rev p)), fresh s2) end
  | Fails s2 => (NoPath, fresh s2)
  | Undefined => (Undef, s1)
  | Running => (Loops, s1)
  end.
