(** Model of align/cell_fabric/pex.py (class ParasiticExtraction).  Simplified: the quotient in
    [math.ceil] and the R/C values are exact rationals instead of floats; the text output
    ([writePex], [getSummaryCaps]) is not modelled. *)
From Coq Require Import String Ascii QArith.
From Verif Require Import Base.Prelude Base.PyDict Base.PyStr Model.Transformation Model.PySort Model.RemoveDuplicates.
Local Open Scope Z_scope.

(** A scan-line rectangle as used here: rect, [slr.root().netName], [slr.terminal]. *)
Record pxr := mkPx { px_rect : Rect; px_net : name; px_term : option (string * string) }.
Definition px_store := list (string * list (Z * list pxr)).

(** The fields of [canvas.pdk[layer]] that are read. *)
Record pxrules := mkPxR { q_stack : option string * option string; q_dir : string; q_unitR : Q; q_unitC : Q; q_R : Q }.
Record pxenv := mkPxE { pe_pdk : list (string * pxrules); pe_layers : list (string * sdir); pe_pitch : Z }.

(** [self._terms]: layer -> scan line -> ports. *)
Definition ports := list (string * list (Z * list Z)).
Definition ports_at (t : ports) (layer : string) (c : Z) : list Z :=
  match dget String.eqb t layer with
  | None => []
  | Some ls => match dget Z.eqb ls c with None => [] | Some l => l end
  end.

(** Lines 59-62: append [v] to [_terms[layer][c]] unless present. *)
Definition add_port (t : ports) (layer : string) (c v : Z) : ports :=
  dupd String.eqb t layer (fun o =>
    dupd Z.eqb (match o with Some ls => ls | None => [] end) c (fun o2 =>
      let l := match o2 with Some l => l | None => [] end in
      if existsb (Z.eqb v) l then l else l ++ [v])).

(** Lines 55-63 [_stamp_port]; [None] = KeyError. *)
Definition stamp_port (env : pxenv) (t : ports) (layer : option string) (x0 x1 : Z) : option ports :=
  match layer with
  | None => Some t
  | Some ly =>
    match dget String.eqb (pe_layers env) ly with
    | None => None
    | Some DH => Some (add_port t ly (x0 * 2) x1)
    | Some _ => Some (add_port t ly (x1 * 2) x0)
    end
  end.

Definition stamp_via (env : pxenv) (layer : string) (c : Z) (t : ports) (r : pxr) : option ports :=
  let x0 := (lly (px_rect r) + ury (px_rect r)) / 2 in
  let x1 := c / 2 in
  match stamp_port env t (Some layer) x0 x1 with
  | None => None
  | Some t1 =>
    match dget String.eqb (pe_pdk env) layer with
    | None => None
    | Some q =>
      match stamp_port env t1 (fst (q_stack q)) x0 x1 with
      | None => None
      | Some t2 => stamp_port env t2 (snd (q_stack q)) x0 x1
      end
    end
  end.

(** Lines 22-25 and 65-73: ports of all via layers; lines 27-30: sorted. *)
Definition compute_ports (env : pxenv) (sto : px_store) : option ports :=
  foldM (fun t (lv : string * list (Z * list pxr)) =>
    match dget String.eqb (pe_layers env) (fst lv) with
    | None => None
    | Some DStar => foldM (fun t (l : Z * list pxr) => foldM (stamp_via env (fst lv) (fst l)) (snd l) t) (snd lv) t
    | Some _ => Some t
    end) sto [].
Definition sort_ports (t : ports) : ports :=
  map (fun lv => (fst lv, map (fun l => (fst l, sort_by (fun z : Z => z) (snd l))) (snd lv))) t.

(** Lines 94-96 [_gen_netcell_node_name]. *)
Definition undash (c : ascii) : ascii := if Ascii.eqb c "-"%char then "_"%char else c.
Definition show_name (n : name) : chars := str (match n with Some s => s | None => "None"%string end).
Definition show_layer (l : option string) : chars := str (match l with Some s => s | None => "None"%string end).
Definition node_name (net : name) (layer : option string) (x y : Z) : chars :=
  map undash (show_name net ++ ["_"%char] ++ show_layer layer ++ ["_"%char] ++ print_Z x ++ ["_"%char] ++ print_Z y).

Definition key := (chars * chars)%type.
Definition key_eqb (a b : key) : bool := chars_eqb (fst a) (fst b) && chars_eqb (snd a) (snd b).

(** [self.netCells[key] = (layer, rect)]. *)
Notation cell := (key * (string * Rect))%type.

(** Lines 80-92 [_create_via_netcells]: the assignment made. *)
Definition via_cell (env : pxenv) (t : ports) (layer : string) (r : pxr) : option cell :=
  let x := (llx (px_rect r) + urx (px_rect r)) / 2 in
  let y := (lly (px_rect r) + ury (px_rect r)) / 2 in
  if existsb (Z.eqb y) (ports_at t layer (x * 2)) then
    match dget String.eqb (pe_pdk env) layer with
    | None => None
    | Some q =>
      match px_term r, fst (q_stack q) with
      | None, lo => Some ((node_name (px_net r) lo x y, node_name (px_net r) (snd (q_stack q)) x y), (layer, px_rect r))
      | Some (inst, pin), None =>
          let slash c := if Ascii.eqb c "/"%char then "_"%char else c in
          Some ((str "net_" ++ map slash (str inst) ++ ["_"%char] ++ str pin,
                 node_name (px_net r) (snd (q_stack q)) x y), (layer, px_rect r))
      | Some _, Some _ => None
      end
    end
  else None.

(** Lines 106-124 [_stamp_netcells]: the intervals [(cellstart, cellend)]. *)
Definition num_cells (pitch s e : Z) : nat := Z.to_nat (- ((- (e - s)) / pitch)).
Definition stamp (pitch s e : Z) : list (Z * Z) :=
  let n := num_cells pitch s e in
  map (fun i => (s + Z.of_nat i * pitch,
                 if (i =? n - 1)%nat then e else s + Z.of_nat i * pitch + pitch)) (seq 0 n).

(** Lines 126-139 [_extract_metal_rectangle]: the loop over the ports, with [prev_port]. *)
Fixpoint port_loop (pitch s e : Z) (prev : option Z) (ps : list Z) : list (Z * Z) :=
  match ps with
  | [] => stamp pitch (match prev with None => s | Some p => p end) e
  | port :: tl =>
    match prev with
    | None => if s <? port then stamp pitch s port ++ port_loop pitch s e (Some port) tl
              else port_loop pitch s e None tl
    | Some p => if e <? port then stamp pitch p e
                else stamp pitch p port ++ port_loop pitch s e (Some port) tl
    end
  end.

(** The dictionary assignment for one interval (lines 113-123). *)
Definition metal_cell (q : pxrules) (layer : string) (d : sdir) (c : Z) (r : pxr) (iv : Z * Z) : cell :=
  let node z := if String.eqb (q_dir q) "v"%string then node_name (px_net r) (Some layer) (c / 2) z
                else node_name (px_net r) (Some layer) z (c / 2) in
  ((node (fst iv), node (snd iv)),
   (layer, match d with
           | DH => mkRect (fst iv) (lly (px_rect r)) (snd iv) (ury (px_rect r))
           | _ => mkRect (llx (px_rect r)) (fst iv) (urx (px_rect r)) (snd iv)
           end)).

(** Lines 98-104: all assignments of a wire layer. *)
Definition metal_cells (env : pxenv) (t : ports) (q : pxrules) (layer : string) (d : sdir) (vv : list (Z * list pxr)) : list cell :=
  flat_map (fun l => flat_map (fun r =>
    map (metal_cell q layer d (fst l) r)
        (port_loop (pe_pitch env) (dlo d (px_rect r)) (dhi d (px_rect r)) None (ports_at t layer (fst l)))) (snd l)) vv.

Definition starts (c : ascii) (s : string) : bool :=
  match s with String c' _ => Ascii.eqb c c' | EmptyString => false end.

Fixpoint mapO {A B} (f : A -> option B) (l : list A) : option (list B) :=
  match l with
  | [] => Some []
  | a :: tl => match f a, mapO f tl with Some b, Some bs => Some (b :: bs) | _, _ => None end
  end.

(** Lines 32-39: the assignments made for one layer. *)
Definition layer_cells (env : pxenv) (t : ports) (lv : string * list (Z * list pxr)) : option (list cell) :=
  let '(layer, vv) := lv in
  if starts "V"%char layer || starts "M"%char layer then
    match dget String.eqb (pe_pdk env) layer with
    | None => Some []
    | Some q =>
      match dget String.eqb (pe_layers env) layer with
      | None => None
      | Some DStar => mapO (via_cell env t layer) (concat (map snd vv))
      | Some d => Some (metal_cells env t q layer d vv)
      end
    end
  else Some [].

Inductive comp := Res (n : nat) (t0 t1 : chars) (v : Q) | Cap (n : nat) (t0 : chars) (v : Q).

(** Lines 41-53, 151-158 and 149: the components of one net cell ([compute_dist] = |p-q|/1000). *)
Definition comp_step (env : pxenv) (acc : list comp * nat * nat) (cl : cell) : option (list comp * nat * nat) :=
  let '(cs, nr, nc) := acc in
  let '((t0, t1), (ly, r)) := cl in
  if starts "M"%char ly then
    match dget String.eqb (pe_pdk env) ly with
    | None => None
    | Some q =>
      let len := if String.eqb (q_dir q) "h"%string then Z.abs (llx r - urx r) else Z.abs (lly r - ury r) in
      let dist := (len # 1000)%Q in
      let C := (q_unitC q * dist)%Q in
      Some (cs ++ [Res nr t0 t1 (q_unitR q * dist)%Q; Cap nc t0 (C / 2)%Q; Cap (Datatypes.S nc) t1 (C / 2)%Q], Datatypes.S nr, (nc + 2)%nat)
    end
  else if starts "V"%char ly then
    match dget String.eqb (pe_pdk env) ly with
    | None => None
    | Some q => Some (cs ++ [Res nr t0 t1 (q_R q)], Datatypes.S nr, nc)
    end
  else None.

Record px_result := mkPxRes { x_cells : list cell; x_comps : list comp }.

(** Lines 14-53 [run]. *)
Definition pex_run (env : pxenv) (sto : px_store) : option px_result :=
  match compute_ports env sto with
  | None => None
  | Some t0 =>
    let t := sort_ports t0 in
    match mapO (layer_cells env t) sto with
    | None => None
    | Some css =>
      let cells := fold_left (fun d cl => dset key_eqb d (fst cl) (snd cl)) (concat css) [] in
      match foldM (comp_step env) cells ([], 0%nat, 0%nat) with
      | None => None
      | Some (cs, _, _) => Some (mkPxRes cells cs)
      end
    end
  end.
