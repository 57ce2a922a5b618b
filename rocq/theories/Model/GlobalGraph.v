(** Model of PlaceRouteHierFlow/router/GlobalGraph.cpp: the graph of tiles, the shortest paths and
    the Steiner trees of the global router.
    Simplified: [double] distances and [int] weights are integers without overflow; the capacity
    that is copied into each edge and [Node::active] are never read and are left out.  [None] is
    an exception or undefined behaviour (an index out of range, the first entry of an empty map). *)
From Verif Require Import Base.Prelude.
Local Open Scope Z_scope.

(** Rdatatype.h [tileEdge]: the neighbour (-1 = [None]) and the capacity. *)
Record tedge := TEdge { te_next : option nat; te_cap : Z }.
(** Rdatatype.h [tile]: position, metals and the neighbours north, south, east, west, up, down in this order. *)
Record tile := Tile { t_x : Z; t_y : Z; t_metal : list Z; t_next : list tedge }.
(** GlobalGraph.h:31-40 [Edge] and [Node]. *)
Record edge := Edge { e_dest : nat; e_weight : Z }.
Record node := Node { n_src : nat; n_list : list edge }.
(** GlobalGraph.h:44-45: the graph with the numbers of its source and destination vertex. *)
Record graph := Graph { nodes : list node; g_source : nat; g_dest : nat }.

Definition manhattan (a b : tile) : Z := Z.abs (t_y a - t_y b) + Z.abs (t_x a - t_x b).

(** GlobalGraph.cpp:340-350 and 386-405 [update_node]: one neighbour. *)
Definition to_edge (ts : list tile) (t : tile) (e : tedge) : option (list edge) :=
  match te_next e with
  | None => Some []
  | Some k => if te_cap e <=? 0 then Some [] else
      match nth_error ts k with Some u => Some [Edge k (manhattan t u)] | None => None end
  end.
Fixpoint concat_opt {A B} (f : A -> option (list B)) (l : list A) : option (list B) :=
  match l with
  | [] => Some []
  | a :: l => match f a, concat_opt f l with Some bs, Some cs => Some (bs ++ cs) | _, _ => None end
  end.
(** GlobalGraph.cpp:368-378: the two vertices added at the end. *)
Definition with_ends (ns : list node) : graph :=
  Graph (ns ++ [Node (length ns) []; Node (S (length ns)) []]) (length ns) (S (length ns)).
(** GlobalGraph.cpp:336-379 [CreateAdjacentList]. *)
Definition CreateAdjacentList (ts : list tile) : option graph :=
  match concat_opt (fun it => match concat_opt (to_edge ts (snd it)) (t_next (snd it)) with
                              | Some es => Some [Node (fst it) es] | None => None end) (combine (seq 0 (length ts)) ts) with
  | Some ns => Some (with_ends ns) | None => None
  end.
(** GlobalGraph.cpp:389-395, 414-421: all metals of the tile within the layers of the net. *)
Definition in_layers (l h : Z) (t : tile) : bool := forallb (fun m => negb ((m <? l) || (h <? m))) (t_metal t).
(** GlobalGraph.cpp:381-445 [CreateAdjacentList_New]: vertices that are not within the layers are not added. *)
Definition to_edge_new (ts : list tile) (l h : Z) (t : tile) (e : tedge) : option (list edge) :=
  match te_next e with
  | None => Some []
  | Some k => match nth_error ts k with
              | None => None
              | Some u => if negb (in_layers l h u) then Some [] else to_edge ts t e
              end
  end.
Definition CreateAdjacentList_New (ts : list tile) (l h : Z) : option graph :=
  match concat_opt (fun it => if negb (in_layers l h (snd it)) then Some [] else
                              match concat_opt (to_edge_new ts l h (snd it)) (t_next (snd it)) with
                              | Some es => Some [Node (fst it) es] | None => None end) (combine (seq 0 (length ts)) ts) with
  | Some ns => Some (with_ends ns) | None => None
  end.

(** Change of one entry of a vector. *)
Fixpoint alter {A} (f : A -> A) (i : nat) (l : list A) : option (list A) :=
  match l, i with
  | [], _ => None
  | a :: l, O => Some (f a :: l)
  | a :: l, S i => match alter f i l with Some l' => Some (a :: l') | None => None end
  end.
Definition push (i : nat) (e : edge) (ns : list node) : option (list node) := alter (fun n => Node (n_src n) (n_list n ++ [e])) i ns.
(** [pop_back]; undefined for an empty vector. *)
Definition pop (i : nat) (ns : list node) : option (list node) :=
  match nth_error ns i with
  | Some (Node _ (_ :: _)) => alter (fun n => Node (n_src n) (removelast (n_list n))) i ns
  | _ => None
  end.
Definition clear (i : nat) (ns : list node) : option (list node) := alter (fun n => Node (n_src n) []) i ns.
Fixpoint fold_opt {A S} (f : A -> S -> option S) (l : list A) (s : S) : option S :=
  match l with [] => Some s | a :: l => match f a s with Some s' => fold_opt f l s' | None => None end end.
Definition on_nodes (g : graph) (r : option (list node)) : option graph :=
  match r with Some ns => Some (Graph ns (g_source g) (g_dest g)) | None => None end.
(** GlobalGraph.cpp:447-471 [SetSrcDest]: edges of weight 0 in both directions. *)
Definition link (s t : nat) (ns : list node) : option (list node) :=
  match push s (Edge t 0) ns with Some ns' => push t (Edge s 0) ns' | None => None end.
Definition SetSrcDest (src dst : list nat) (g : graph) : option graph :=
  match fold_opt (link (g_source g)) src (nodes g) with
  | Some ns => on_nodes g (fold_opt (link (g_dest g)) dst ns)
  | None => None
  end.
(** GlobalGraph.cpp:473-490 [RMSrcDest]. *)
Definition RMSrcDest (src dst : list nat) (g : graph) : option graph :=
  match clear (g_source g) (nodes g) with
  | Some n1 => match clear (g_dest g) n1 with
    | Some n2 => match fold_opt pop src n2 with Some n3 => on_nodes g (fold_opt pop dst n3) | None => None end
    | None => None end
  | None => None
  end.

(** The multimap of GlobalGraph.cpp:492-527 as its sequence of entries: insertion behind the entries
    with the same key, removal of the first entry with this key and value (none: a warning only). *)
Fixpoint mm_insert (d : Z) (v : nat) (m : list (Z * nat)) : list (Z * nat) :=
  match m with
  | [] => [(d, v)]
  | (d', v') :: m' => if d <? d' then (d, v) :: m else (d', v') :: mm_insert d v m'
  end.
Fixpoint mm_remove (d : Z) (v : nat) (m : list (Z * nat)) : list (Z * nat) :=
  match m with
  | [] => []
  | (d', v') :: m' => if (d =? d') && Nat.eqb v v' then m' else (d', v') :: mm_remove d v m'
  end.

(** GlobalGraph.cpp:529-553: status 0, 1, 2 and the vectors, as functions that are used below the size of the graph only. *)
Inductive status := Unseen | Fringe | Done.
Record dstate := D { dist : nat -> Z; parent : nat -> option nat; stat : nat -> status; dmap : list (Z * nat) }.
Definition upd {A} (f : nat -> A) (v : nat) (a : A) : nat -> A := fun w => if Nat.eqb w v then a else f w.
(** GlobalGraph.cpp:579-595: one edge of the vertex [u]. *)
Definition relax (size u : nat) (e : edge) (s : dstate) : option dstate :=
  let v := e_dest e in
  if negb (v <? size)%nat then None else
  if Nat.eqb v u then Some s else
  let d := dist s u + e_weight e in
  match stat s v with
  | Unseen => Some (D (upd (dist s) v d) (upd (parent s) v (Some u)) (upd (stat s) v Fringe) (mm_insert d v (dmap s)))
  | Fringe => if d <? dist s v
              then Some (D (upd (dist s) v d) (upd (parent s) v (Some u)) (stat s) (mm_insert d v (mm_remove (dist s v) v (dmap s))))
              else Some s
  | Done => Some s
  end.
(** GlobalGraph.cpp:556-597: the loop; the fuel is [graph.size() - 1] minus [count]. *)
Fixpoint dloop (g : graph) (fuel : nat) (s : dstate) : option dstate :=
  match stat s (g_dest g), fuel with
  | Done, _ | _, O => Some s
  | _, S fuel =>
      match dmap s with
      | [] => None
      | (_, u) :: _ =>
          match nth_error (nodes g) u with
          | None => None
          | Some n =>
              let s1 := D (dist s) (parent s) (upd (stat s) u Done) (mm_remove (dist s u) u (dmap s)) in
              match fold_opt (relax (length (nodes g)) u) (n_list n) s1 with Some s2 => dloop g fuel s2 | None => None end
          end
      end
  end.
(** GlobalGraph.cpp:606-615 [printPath]; the recursion ends at the parent -1. *)
Fixpoint printPath (g : graph) (fuel : nat) (par : nat -> option nat) (j : nat) : option (list nat) :=
  match fuel with
  | O => None
  | S fuel =>
      match (match par j with None => Some [] | Some i => printPath g fuel par i end) with
      | Some p => Some (p ++ if (Nat.eqb j (g_source g) || Nat.eqb j (g_dest g))%bool then [] else [j])
      | None => None
      end
  end.
(** GlobalGraph.cpp:529-604 [dijkstra]; the empty path = no path found. *)
Definition dijkstra (g : graph) : option (list nat) :=
  let n := length (nodes g) in
  let s0 := D (upd (fun _ => 2147483647) (g_source g) 0) (fun _ => None) (upd (fun _ => Unseen) (g_source g) Fringe) [(0, g_source g)] in
  match dloop g (n - 1) s0 with
  | Some s => printPath g (S n) (parent s) (g_dest g)
  | None => None
  end.

(** [std::set<int>] in its order. *)
Fixpoint set_insert (v : nat) (l : list nat) : list nat :=
  match l with
  | [] => [v]
  | w :: l' => if (v <? w)%nat then v :: l else if Nat.eqb v w then l else w :: set_insert v l'
  end.
Definition to_set (l : list nat) : list nat := fold_right set_insert [] l.

(** GlobalGraph.cpp:154-190 [InitialSrcDest]: source set, destination set, accessed pins. *)
Definition InitialSrcDest (pins : list (list nat)) : list nat * list nat * list bool :=
  (to_set (hd [] pins), to_set (concat (tl pins)), match pins with [] => [] | _ :: l => true :: map (fun _ => false) l end).
(** GlobalGraph.cpp:192-243 [ChangeSrcDest]: only the last path stays in the source set. *)
Definition ChangeSrcDest (pins : list (list nat)) (path : list nat) (acc : list bool) : list nat * list nat * list bool :=
  let acc' := map (fun pa => snd pa || existsb (fun v => existsb (Nat.eqb v) (fst pa)) path) (combine pins acc) in
  (to_set (concat (map fst (filter snd (combine pins acc'))) ++ path),
   to_set (concat (map fst (filter (fun pa => negb (snd pa)) (combine pins acc')))), acc').
(** GlobalGraph.cpp:264-276: the loop of [MST]; each round takes a pin, so [fuel] = the number of pins + 1. *)
Fixpoint mst_loop (pins : list (list nat)) (fuel : nat) (g : graph) (src dst : list nat) (acc : list bool) (paths : list (list nat)) : option (graph * list (list nat)) :=
  match dst with
  | [] => Some (g, paths)
  | _ :: _ =>
    match fuel with
    | O => None
    | S fuel =>
      match SetSrcDest src dst g with
      | None => None
      | Some g1 =>
        match dijkstra g1 with
        | None | Some [] => None
        | Some p =>
          match RMSrcDest src dst g1 with
          | None => None
          | Some g2 => let '(src', dst', acc') := ChangeSrcDest pins p acc in mst_loop pins fuel g2 src' dst' acc' (paths ++ [p])
          end
        end
      end
    end
  end.
(** GlobalGraph.cpp:281-295 [Calculate_Weight]: the first edge between two vertices counts. *)
Definition step_weight (ns : list node) (a b : nat) : Z :=
  match nth_error ns a with
  | Some n => match find (fun e => Nat.eqb (e_dest e) b) (n_list n) with Some e => e_weight e | None => 0 end
  | None => 0
  end.
Fixpoint steps (p : list nat) : list (nat * nat) :=
  match p with a :: (b :: _) as q => (a, b) :: steps q | _ => [] end.
Definition Calculate_Weight (g : graph) (paths : list (list nat)) : Z :=
  fold_right Z.add 0 (map (fun ab => step_weight (nodes g) (fst ab) (snd ab)) (flat_map steps paths)).
(** GlobalGraph.cpp:297-316 [Get_MST_Edges]. *)
Definition Get_MST_Edges (paths : list (list nat)) : list (nat * nat) :=
  flat_map (fun p => match p with [a] => [(a, a)] | _ => steps p end) paths.
(** GlobalGraph.cpp:245-279 [MST]: the graph, the wire length and the edges. *)
Definition MST (pins : list (list nat)) (g : graph) : option (graph * Z * list (nat * nat)) :=
  let '(src, dst, acc) := InitialSrcDest pins in
  match dst, src with
  | [], [] => None
  | [], s :: _ => Some (g, Calculate_Weight g [[s]], Get_MST_Edges [[s]])
  | _, _ => match mst_loop pins (S (length pins)) g src dst acc [] with
            | Some (g', paths) => Some (g', Calculate_Weight g' paths, Get_MST_Edges paths)
            | None => None
            end
  end.

(** GlobalGraph.cpp:129-152 [GetWireLength]: the length of the LAST candidate's tree is handed back in [WireLength],
    together with the index of the best candidate. *)
Fixpoint GetWireLength (pins : list (list nat)) (i : nat) (cands : list nat) (g : graph) (wl best : Z) (idx : option nat) : option (graph * Z * option nat) :=
  match cands with
  | [] => Some (g, wl, idx)
  | c :: cands =>
      match MST (pins ++ [[c]]) g with
      | None => None
      | Some (g', wl', _) =>
          if wl' <? best then GetWireLength pins (S i) cands g' wl' wl' (Some i) else GetWireLength pins (S i) cands g' wl' best idx
      end
  end.
(** GlobalGraph.cpp:112-127 [AddStinerNodeToTerminals]. *)
Definition AddStinerNode (pins : list (list nat)) (cands : list nat) (idx : option nat) : list (list nat) * list nat :=
  match idx with
  | None => (pins, cands)
  | Some i => (pins ++ match nth_error cands i with Some c => [[c]] | None => [] end, firstn i cands ++ skipn (S i) cands)
  end.
Definition INT_MAX := 2147483647.
(** GlobalGraph.cpp:81-110 [Iterated_Steiner]; the fuel is [Pin_terminals.size() - 2]. *)
Fixpoint steiner_loop (fuel : nat) (pins : list (list nat)) (cands : list nat) (g : graph) (lastwl wl : Z) : option (graph * list (list nat) * list nat) :=
  match fuel with
  | O => Some (g, pins, cands)
  | S fuel =>
      match GetWireLength pins 0 cands g wl INT_MAX None with
      | None => None
      | Some (g', wl', idx) =>
          if 0 <? lastwl - wl'
          then let '(pins', cands') := AddStinerNode pins cands idx in steiner_loop fuel pins' cands' g' wl' wl'
          else Some (g', pins, cands)
      end
  end.
Definition Iterated_Steiner (pins : list (list nat)) (cands : list nat) (g : graph) : option (graph * list (list nat) * list nat) :=
  steiner_loop (length pins - 2) pins cands g INT_MAX INT_MAX.

(** GlobalGraph.cpp:54-70 [UpdateEdgeWeight]. *)
Definition double_to (b : nat) (n : node) : node :=
  Node (n_src n) (map (fun e => if Nat.eqb (e_dest e) b then Edge (e_dest e) (e_weight e * 2) else e) (n_list n)).
Definition UpdateEdgeWeight (es : list (nat * nat)) (g : graph) : option graph :=
  on_nodes g (fold_opt (fun ab ns => match alter (double_to (snd ab)) (fst ab) ns with
                                     | Some ns' => alter (double_to (fst ab)) (snd ab) ns' | None => None end) es (nodes g)).
(** GlobalGraph.cpp:72-79 [refreshWeight]: all vertices but the last two. *)
Definition fresh_edge (ts : list tile) (a : nat) (e : edge) : option (list edge) :=
  match nth_error ts a, nth_error ts (e_dest e) with Some t, Some u => Some [Edge (e_dest e) (manhattan t u)] | _, _ => None end.
Definition refreshWeight (ts : list tile) (g : graph) : option graph :=
  let k := (length (nodes g) - 2)%nat in
  match concat_opt (fun n => match concat_opt (fresh_edge ts (n_src n)) (n_list n) with Some es => Some [Node (n_src n) es] | None => None end) (firstn k (nodes g)) with
  | Some ns => Some (Graph (ns ++ skipn k (nodes g)) (g_source g) (g_dest g))
  | None => None
  end.
(** GlobalGraph.cpp:17-52 [FindSTs]: the trees are appended to [Path]; the candidates are handed back. *)
Fixpoint find_loop (k : nat) (pins : list (list nat)) (cands : list nat) (g : graph) : option (graph * list nat * list (list (nat * nat))) :=
  match k with
  | O => Some (g, cands, [])
  | S k =>
      match Iterated_Steiner pins cands g with
      | None => None
      | Some (g1, pins', cands') =>
          match MST pins' g1 with
          | None => None
          | Some (g2, _, es) =>
              match UpdateEdgeWeight es g2 with
              | None => None
              | Some g3 => match find_loop k pins cands' g3 with Some (g4, c, trees) => Some (g4, c, es :: trees) | None => None end
              end
          end
      end
  end.
Definition FindSTs (ts : list tile) (k : nat) (pins : list (list nat)) (cands : list nat) (g : graph) : option (graph * list (list (nat * nat))) :=
  if forallb (fun p => match p with [] => true | _ => false end) pins then Some (g, []) else
  match find_loop k pins cands g with
  | Some (g', _, trees) => match refreshWeight ts g' with Some g'' => Some (g'', trees) | None => None end
  | None => None
  end.
