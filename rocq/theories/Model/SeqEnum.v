(** Model of the enumerated search of the placer, PlaceRouteHierFlow/placer/SeqPair.cpp:11-245
    ([OrderedEnumerator], [SeqPairEnumerator]) and of the loop that uses it, Placer.cpp:249-269.

    Simplified throughout: blocks are numbered from 0 (they are indices of [design::Blocks]);
    [size_t] values are integers, reduced modulo 2^64 where the code multiplies them; loggers are
    left out. *)
From Verif Require Import Base.Prelude.
Local Open Scope Z_scope.

(** placerDB::Smark (PnRDB/datatype.h): the direction of an ordering constraint. *)
Inductive dir := DirH | DirV.

(** design::Ordering_Constraints (placer/design.h): pairs of neighbours and a direction. *)
Definition ordering : Type := ((nat * nat) * dir)%type.

Fixpoint has (x : nat) (l : list nat) : bool :=
  match l with [] => false | y :: t => (x =? y)%nat || has x t end.

(** * OrderedEnumerator *)

(** SeqPair.cpp:54-69: the edge that a constraint adds to the graph of the positive ([pos]) or
    the negative sequence. *)
Definition edge_of (pos : bool) (c : ordering) : nat * nat :=
  match snd c, pos with
  | DirV, false => (snd (fst c), fst (fst c))
  | _, _ => fst c
  end.

(** [_adj[v]]: the targets of the edges of [v] in the order in which they were pushed. *)
Definition succs (edges : list (nat * nat)) (v : nat) : list nat :=
  map snd (filter (fun e => (fst e =? v)%nat) edges).

(** SeqPair.cpp:17-19, 25-27: [_indegree] is decremented for every target.  The map is a
    function. *)
Definition lower (indeg : nat -> Z) (targets : list nat) : nat -> Z :=
  fold_left (fun f t => fun x => if (x =? t)%nat then f x - 1 else f x) targets indeg.

(** SeqPair.cpp:50-52, 70: [_indegree] of all vertices after reading the edges. *)
Definition indegrees (edges : list (nat * nat)) : nat -> Z :=
  fold_left (fun f e => fun x => if (x =? snd e)%nat then f x + 1 else f x) edges (fun _ => 0).

(** SeqPair.cpp:11-40 [TopoSortUtil].  [res] is the partial order; [visited] holds exactly its
    elements, so that it is not modelled separately.  The code undoes its changes to [res],
    [visited] and [_indegree] after each successful call, here they are arguments; after a
    failing call nothing is read again.  [fuel] bounds the depth, the number of blocks left. *)
Fixpoint topo (fuel : nat) (sq : list nat) (edges : list (nat * nat)) (maxseq : Z)
    (indeg : nat -> Z) (res : list nat) (out : list (list nat)) {struct fuel} : list (list nat) * bool :=
  if maxseq <? Z.of_nat (length out) then (out, false) else
  match fuel with
  | O => let out' := if (length res =? length sq)%nat then out ++ [res] else out in
         (out', Z.of_nat (length out') <=? maxseq)
  | S fuel' =>
    (fix each (l : list nat) (out : list (list nat)) (flag : bool) {struct l} : list (list nat) * bool :=
       match l with
       | [] =>
           let out' := if negb flag && (length res =? length sq)%nat then out ++ [res] else out in
           (out', Z.of_nat (length out') <=? maxseq)
       | it :: l' =>
           if (indeg it =? 0) && negb (has it res) then
             match topo fuel' sq edges maxseq (lower indeg (succs edges it)) (res ++ [it]) out with
             | (out', false) => (out', false)
             | (out', true) => each l' out' true
             end
           else each l' out flag
       end) sq out false
  end.

(** SeqPair.cpp:42-91, the constructor: the sequences; [_valid] is that there is one.  [sq] is
    sorted (line 45; it is called with the blocks 0, 1, ..); without constraints nothing is
    enumerated and [_valid] is false. *)
Definition ordered (sq : list nat) (cs : list ordering) (maxseq : Z) (pos : bool) : list (list nat) :=
  match cs with
  | [] => []
  | _ => let edges := map (edge_of pos) cs in
         let out := fst (topo (length sq) sq edges maxseq (indegrees edges) [] []) in
         if (0 <? Z.of_nat (length out)) && (Z.of_nat (length out) <=? maxseq) then out else []
  end.

(** * std::next_permutation *)

(** The last element of a list that is larger than [x], replaced by [x]; the list is not
    increasing when this is called. *)
Fixpoint swap_last (x : nat) (l : list nat) : option (nat * list nat) :=
  match l with
  | [] => None
  | y :: t => match swap_last x t with
              | Some (z, t') => Some (z, y :: t')
              | None => if (x <? y)%nat then Some (y, x :: t) else None
              end
  end.

(** The C++ library function on distinct elements: the longest non-increasing tail is found, the
    element before it is exchanged with the last larger element of the tail, the tail is
    reversed; [None] if the whole sequence is non-increasing. *)
Fixpoint next_perm (l : list nat) : option (list nat) :=
  match l with
  | [] => None
  | x :: t => match next_perm t with
              | Some t' => Some (x :: t')
              | None => match swap_last x t with
                        | Some (z, t') => Some (z :: rev t')
                        | None => None
                        end
              end
  end.
(** It wraps round to the sorted sequence after the last one. *)
Definition next_permutation (l : list nat) : list nat :=
  match next_perm l with Some l' => l' | None => rev l end.

(** * SeqPairEnumerator *)

Definition w64 (x : Z) : Z := x mod 2 ^ 64.
(** SeqPair.cpp:1277-1280. *)
Fixpoint factorial (n : nat) : Z :=
  match n with O => 1 | S k => w64 (Z.of_nat n * factorial k) end.

(** The part of [design] that is read: the number of variants of each block, the groups of
    blocks with the same template (sets of block indices, here lists in increasing order), and
    the ordering constraints. *)
Record design := Design {
  d_sizes : list nat;
  d_groups : list (list nat);
  d_orders : list ordering
}.

(** SeqPair.cpp:112-126: [_selindex] (current value and number of values of each counter) and
    [_selmap] (the counter of each block, here its position in [_selindex]).
    Simplified: [Blocks.at] out of range (an exception) gives 0 and the first element of an
    empty set (undefined) is block 0. *)
Definition group_counters (d : design) : list nat :=
  map (fun g => nth (hd 0%nat g) (d_sizes d) 0%nat) (d_groups d).
Definition group_map (d : design) : nat -> option nat :=
  fold_left (fun m kg => fun i => if has i (snd kg) then Some (fst kg) else m i)
            (combine (seq 0 (length (d_groups d))) (d_groups d)) (fun _ => None).
Definition counters_map (d : design) : list nat * list nat :=
  fold_left (fun (st : list nat * list nat) i =>
               let '(limits, owners) := st in
               match group_map d i with
               | Some k => (limits, owners ++ [k])
               | None => (limits ++ [nth i (d_sizes d) 0%nat], owners ++ [length limits])
               end)
            (seq 0 (length (d_sizes d))) (group_counters d, []).
(** The numbers of values of the counters, and the counter of each block. *)
Definition limits (d : design) : list nat := fst (counters_map d).
Definition owners (d : design) : list nat := snd (counters_map d).

(** SeqPair.cpp:112-126 [totSel]. *)
Definition tot_sel (d : design) : Z := fold_left (fun a l => w64 (a * Z.of_nat l)) (limits d) 1.

(** Members of [SeqPairEnumerator] that do not change after construction. *)
Record setup := Setup {
  s_max : Z;                    (* _maxEnum *)
  s_pos : list (list nat);      (* the sequences of _posEnumerator; [] if it is not valid *)
  s_neg : list (list nat);
  s_maxsize : Z;                (* _maxSize *)
  s_limits : list nat;
  s_owners : list nat
}.
(** Members that change.  [e_out] is [_exhausted]. *)
Record enum := Enum {
  e_pos : list nat;
  e_neg : list nat;
  e_sel : list nat;
  e_cnt : list nat;
  e_i : Z;
  e_j : Z;
  e_out : bool
}.

Definition is_ordered (s : setup) : bool :=
  match s_pos s, s_neg s with [], _ | _, [] => false | _, _ => true end.

(** SeqPair.h: [NextPermutation(seq, i)] of [OrderedEnumerator]. *)
Definition pick (seqs : list (list nat)) (i : Z) : list nat :=
  nth (Z.to_nat (i mod Z.of_nat (length seqs))) seqs [].

(** [ceil(sqrt(maxIter))], exact for the values that occur. *)
Definition root_up (m : Z) : Z := Z.sqrt_up m.

(** SeqPair.cpp:93-152, the constructor; [None] if it is not [valid].  [junk] is the value of
    [_maxSize] before line 109 first reads it: the member is not initialised. *)
Definition start (d : design) (maxiter junk : Z) : option (setup * enum) :=
  let blocks := seq 0 (length (d_sizes d)) in
  let n := Z.of_nat (length blocks) in
  let maxenum := factorial (length blocks) in
  let ps := ordered blocks (d_orders d) (root_up maxiter) true in
  let ns := ordered blocks (d_orders d) (root_up maxiter) false in
  let tot := w64 (maxenum * maxenum) in
  let maxsize := fold_left (fun m s => Z.max m (Z.of_nat s)) (d_sizes d) junk in
  let sel := map (fun _ => 0%nat) (d_sizes d) in
  let cnt := map (fun _ => 0%nat) (limits d) in
  if match ps, ns with [], _ | _, [] => true | _, _ => false end then
    if (0 <? maxiter) && (n <=? 16) && (tot <? maxiter) && negb (maxiter <? w64 (tot * tot_sel d)) then
      Some (Setup maxenum ps ns maxsize (limits d) (owners d), Enum blocks blocks sel cnt 0 0 false)
    else None
  else
    let maxenum' := Z.of_nat (length ps) in
    if maxiter <? w64 (maxenum' * tot_sel d) then None
    else Some (Setup maxenum' ps ns maxsize (limits d) (owners d), Enum (pick ps 0) (pick ns 0) sel cnt 0 0 false).

(** SeqPair.cpp:161-175: the counters are a number with mixed radix, the last digit is
    incremented first; the boolean is the carry out of the first digit. *)
Fixpoint bump (limits cnt : list nat) : list nat * bool :=
  match limits, cnt with
  | l :: ls, c :: cs =>
      let (cs', carry) := bump ls cs in
      if carry then (if (l <=? c + 1)%nat then (0%nat :: cs', true) else ((c + 1)%nat :: cs', false))
      else (c :: cs', false)
  | _, _ => ([], true)
  end.

(** SeqPair.cpp:176: the counters are copied to the blocks. *)
Definition view_sel (s : setup) (cnt : list nat) : list nat := map (fun k => nth k cnt 0%nat) (s_owners s).

(** SeqPair.cpp:158-179 [IncrementSelected]. *)
Definition increment (s : setup) (e : enum) : enum * bool :=
  if (s_maxsize s <=? 1) || match s_limits s with [] => true | _ => false end then (e, false)
  else let (cnt, carry) := bump (s_limits s) (e_cnt e) in
       (Enum (e_pos e) (e_neg e) (view_sel s cnt) cnt (e_i e) (e_j e) (e_out e), negb carry).

(** std::sort of block indices. *)
Fixpoint insert (x : nat) (l : list nat) : list nat :=
  match l with [] => [x] | y :: t => if (x <=? y)%nat then x :: l else y :: insert x t end.
Definition sorted (l : list nat) : list nat := fold_right insert [] l.

(** SeqPair.cpp:211-236 [Permute]. *)
Definition permute (s : setup) (e0 : enum) : enum :=
  if e_out e0 then e0 else
  let (e, more) := increment s e0 in
  let e' :=
    if more then e else
    if s_max s - 1 <=? e_j e then
      let i := e_i e + 1 in
      if is_ordered s then Enum (pick (s_pos s) i) (pick (s_neg s) 0) (e_sel e) (e_cnt e) i 0 (e_out e)
      else Enum (next_permutation (e_pos e)) (sorted (e_neg e)) (e_sel e) (e_cnt e) i 0 (e_out e)
    else
      let j := e_j e + 1 in
      if is_ordered s then Enum (e_pos e) (pick (s_neg s) j) (e_sel e) (e_cnt e) (e_i e) j (e_out e)
      else Enum (e_pos e) (next_permutation (e_neg e)) (e_sel e) (e_cnt e) (e_i e) j (e_out e) in
  if s_max s <=? e_i e' then Enum (e_pos e') (e_neg e') (e_sel e') (e_cnt e') (e_i e') (e_j e') true else e'.

(** * The search *)

(** A candidate: SeqPair::posPair, negPair, selected. *)
Definition candidate : Type := (list nat * list nat * list nat)%type.
Definition view (e : enum) : candidate := (e_pos e, e_neg e, e_sel e).

(** Placer.cpp:257 [oData[curr_cost] = ..] on the ordered map. *)
Fixpoint put_cost (c : Z) (x : candidate) (o : list (Z * candidate)) : list (Z * candidate) :=
  match o with
  | [] => [(c, x)]
  | (k, y) :: t => if c <? k then (c, x) :: o
                   else if c =? k then (c, x) :: t
                   else (k, y) :: put_cost c x t
  end.

(** Placer.cpp:249-269.  The cost of a candidate (ILP_solver::GenerateValidSolution, a negative
    value if there is no placement) is a function of it.  Simplified: costs are integers, of
    which only the order is used.  PerturbationNew (SeqPair.cpp:1711-1722, 1783) is one
    [permute] here.  The keys that ReshapeSeqPairMap (Placer.cpp:433-444) keeps are the first
    [size].  [None] is the [assert(0)] of line 268.  The fuel is the number of iterations after
    which line 262 leaves the loop. *)
Fixpoint search (fuel : nat) (cost : candidate -> Z) (size : nat) (s : setup) (e : enum)
    (o : list (Z * candidate)) : option (list (Z * candidate)) :=
  if e_out e then Some o else
  match fuel with
  | O => None
  | S f => let c := cost (view e) in
           let o' := if 0 <=? c then firstn size (put_cost c (view e) o) else o in
           search f cost size s (permute s e) o'
  end.
(** Line 262: at least one iteration is made. *)
Definition enumerated (cost : candidate -> Z) (size : nat) (sa_max_iter : nat) (s : setup) (e : enum) :=
  search (Nat.max 1 sa_max_iter) cost size s e [].

(** The candidates that are evaluated, in order. *)
Fixpoint visits (fuel : nat) (s : setup) (e : enum) : list candidate :=
  if e_out e then [] else
  match fuel with
  | O => []
  | S f => view e :: visits f s (permute s e)
  end.
