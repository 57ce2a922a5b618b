(** Walks, shortest walks and connected trees, for C97. *)
From Verif Require Import Base.Prelude Model.GlobalGraph.
Local Open Scope Z_scope.

(** There is an edge of weight [w] from [a] to [b]. *)
Definition edge_of (ns : list node) (a b : nat) (w : Z) : Prop := exists n, nth_error ns a = Some n /\ In (Edge b w) (n_list n).
(** [p] are the vertices of a walk from [a] to [b] of total weight [w]. *)
Inductive walk (ns : list node) : nat -> nat -> list nat -> Z -> Prop :=
| w_one a : walk ns a a [a] 0
| w_step a b c p w w' : edge_of ns a b w -> walk ns b c p w' -> walk ns a c (a :: p) (w + w').
(** A shortest walk from one set of vertices to another. *)
Definition shortest (ns : list node) (src dst : list nat) (p : list nat) : Prop :=
  exists a b w, In a src /\ In b dst /\ walk ns a b p w /\
    forall a' b' p' w', In a' src -> In b' dst -> walk ns a' b' p' w' -> w <= w'.
Definition reachable (ns : list node) (src dst : list nat) : Prop :=
  exists a b p w, In a src /\ In b dst /\ walk ns a b p w.

(** A graph of [m] tiles with the two extra vertices, which are not connected. *)
Record proper (m : nat) (g : graph) : Prop := {
  p_source : g_source g = m; p_dest : g_dest g = S m; p_size : length (nodes g) = S (S m);
  p_ends : forall i n, (m <= i)%nat -> nth_error (nodes g) i = Some n -> n_list n = [];
  p_edges : forall a b w, edge_of (nodes g) a b w -> (b < m)%nat /\ 0 <= w }.
(** Two vertices are connected by the edges of a tree, where each pin is connected in itself. *)
Inductive linked (pins : list (list nat)) (es : list (nat * nat)) : nat -> nat -> Prop :=
| l_pin p a b : In p pins -> In a p -> In b p -> linked pins es a b
| l_edge a b : In (a, b) es -> linked pins es a b
| l_sym a b : linked pins es a b -> linked pins es b a
| l_trans a b c : linked pins es a b -> linked pins es b c -> linked pins es a c.
(** A tree (a list of edges) connects all pins and uses edges of the graph only; a pair of equal
    vertices stands for a path without edges. *)
Definition connects (ns : list node) (pins : list (list nat)) (es : list (nat * nat)) : Prop :=
  (forall p q a b, In p pins -> In q pins -> In a p -> In b q -> linked pins es a b) /\
  (forall a b, In (a, b) es -> a = b \/ exists w, edge_of ns a b w).
(** Each two vertices of pins are connected in the graph. *)
Definition routable (ns : list node) (pins : list (list nat)) : Prop :=
  forall a b, In a (concat pins) -> In b (concat pins) -> exists p w, walk ns a b p w.

(** The graph that the tiles describe: vertex [k] is tile [k], its edges lead to the neighbours with
    room, and weigh their distance; tiles that are not [ok] take no part. *)
Definition describes (ts : list tile) (ok : tile -> bool) (m : nat) (g : graph) : Prop :=
  proper m g /\ (forall k n, (k < m)%nat -> nth_error (nodes g) k = Some n -> n_src n = k) /\
  (forall a t, nth_error ts a = Some t -> ok t = true -> (a < m)%nat) /\
  forall a b w, edge_of (nodes g) a b w <->
    exists t u c, nth_error ts a = Some t /\ nth_error ts b = Some u /\ ok t = true /\ ok u = true /\
      In (TEdge (Some b) c) (t_next t) /\ 0 < c /\ w = Z.abs (t_x t - t_x u) + Z.abs (t_y t - t_y u).
