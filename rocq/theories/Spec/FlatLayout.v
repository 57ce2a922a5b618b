(** What the layout of a block with placed sub-blocks is meant to contain: positions, names of nets, and the flat view of a hierarchy of layouts.
    Stated over the netlist and the placement alone, without the code that assembles the layout. *)
From Coq Require Import String Ascii.
From Verif Require Import Base.Prelude Model.Transformation Model.RemoveDuplicates Model.Viewer Spec.Geometry Spec.RemoveDuplicatesSpec.
Local Open Scope Z_scope.

Fixpoint no_slash (s : string) : Prop :=
  match s with EmptyString => True | String c tl => c <> "/"%char /\ no_slash tl end.

(** Blocks have different names; names of blocks and nets contain no slash. *)
Definition well_named (h : hnode) : Prop :=
  NoDup (map k_name (h_blocks h)) /\ (forall b, In b (h_blocks h) -> no_slash (k_name b)) /\
  (forall n, In n (h_nets h) \/ In n (h_power h) -> no_slash (n_name n)).

(** The netlist connects the pin of the block to the net. *)
Definition joins (h : hnode) (b : block) (pin net : string) : Prop :=
  exists n i j ps, (In n (h_nets h) \/ In n (h_power h)) /\ n_name n = net /\ In (CBlock i j) (n_conn n) /\
    nth_error (h_blocks h) j = Some b /\ nth_error (k_pins b) i = Some (pin, ps).

Definition is_power (h : hnode) (nm : string) : Prop := exists n, In n (h_power h) /\ n_name n = nm.

(** The name in [h] of the net [nm] of the layout of [b]: the net connected; else the supply of that name; else a name of its own. *)
Inductive named (h : hnode) (b : block) (nm : string) : string -> Prop :=
| named_net x : joins h b nm x -> named h b nm x
| named_power : (forall x, ~ joins h b nm x) -> is_power h nm -> named h b nm nm
| named_local : (forall x, ~ joins h b nm x) -> ~ is_power h nm -> named h b nm (k_name b ++ "/" ++ nm)%string.

(** [T'] is [T] with the offset, counted in units of the database, in units of the PDK: [sf] of them make two of the database. *)
Definition in_pdk (sf : Z) (T T' : Tr) : Prop :=
  sX T' = sX T /\ sY T' = sY T /\ 2 * oX T' = sf * oX T /\ 2 * oY T' = sf * oY T.
Definition position (sf : Z) (b : block) (T : Tr) : Prop := in_pdk sf (gen_transformation (k_blk b)) T.

(** One terminal [s] of the layout of [b] and its copy [x] in the layout above it. *)
Definition copy (sf : Z) (h : hnode) (b : block) (s x : term) : Prop :=
  t_layer x = t_layer s /\ t_type x = t_type s /\
  (exists T, position sf b T /\ t_rect x = canonical (hitRect T (t_rect s))) /\
  match t_term s with
  | Some (i, p) => t_term x = Some (k_name b ++ "/" ++ i, p)%string /\ t_net x = Some (k_name b ++ "/" ++ i ++ ":" ++ p)%string
  | None => t_term x = None /\ match t_net s with None => t_net x = None | Some nm => exists y, t_net x = Some y /\ named h b nm y end
  end.

(** The shapes that the node itself draws for a net. *)
Inductive draws (h : hnode) : string -> shape -> Prop :=
| draws_pin n i j b p ps s : In n (h_nets h) \/ In n (h_power h) -> In (CBlock i j) (n_conn n) -> nth_error (h_blocks h) j = Some b ->
    nth_error (k_pins b) i = Some (p, ps) -> In s ps -> draws h (n_name n) s
| draws_metal n s : In n (h_nets h) \/ In n (h_power h) -> In s (n_metal n) -> draws h (n_name n) s
| draws_via n u l v s : In n (h_nets h) \/ In n (h_power h) -> In (u, l, v) (n_via n) \/ In (u, l, v) (n_inter n) -> s = u \/ s = l \/ s = v -> draws h (n_name n) s
| draws_grid g s : g = h_gnd h \/ g = h_vdd h -> In s (g_metal g) -> draws h (g_name g) s
| draws_grid_via g u l v s : g = h_gnd h \/ g = h_vdd h -> In (u, l, v) (g_via g) -> s = u \/ s = l \/ s = v -> draws h (g_name g) s.

(** A shape of the database in units of the PDK. *)
Definition shape_in_pdk (sf : Z) (r r' : Rect) : Prop :=
  2 * llx r' = sf * llx r /\ 2 * lly r' = sf * lly r /\ 2 * urx r' = sf * urx r /\ 2 * ury r' = sf * ury r.

(** The flat view of a hierarchy: [node m] is the routed block whose layout file is [m]; other files are primitives. *)
Section Flat.
  Context {P : Type}.
  Variables (file : string -> option (lay P)) (node : string -> option hnode) (sf : Z).

  (** Seen from [h], the net [nm] of the file [m], placed at [T], is called [x]. *)
  Inductive seen : hnode -> Tr -> string -> string -> string -> Prop :=
  | seen_here h b T nm x : In b (h_blocks h) -> position sf b T -> named h b nm x -> seen h T (k_master b) nm x
  | seen_below h b h' T1 T2 m nm y x : In b (h_blocks h) -> node (k_master b) = Some h' -> position sf b T1 ->
      seen h' T2 m nm y -> named h b y x -> seen h (mult T1 T2) m nm x.

  (** The image under [T] of a point with denominator [k]. *)
  Definition move (k : Z) (T : Tr) (p : Z * Z) : Z * Z := (sX T * fst p + k * oX T, sY T * snd p + k * oY T).

  (** Some shape of the hierarchy below [h] covers the point [p/k] on the layer. *)
  Inductive drawn (layer : string) (k : Z) : hnode -> Z * Z -> Prop :=
  | drawn_own h nm s r p : draws h nm s -> sh_layer s = layer -> shape_in_pdk sf (sh_box s) r -> covers k r p -> drawn layer k h p
  | drawn_leaf h b l s T p : In b (h_blocks h) -> node (k_master b) = None -> file (k_master b) = Some l -> In s (ly_terms l) ->
      t_layer s = layer -> position sf b T -> covers k (t_rect s) p -> drawn layer k h (move k T p)
  | drawn_below h b h' T p : In b (h_blocks h) -> node (k_master b) = Some h' -> position sf b T ->
      drawn layer k h' p -> drawn layer k h (move k T p).
End Flat.
