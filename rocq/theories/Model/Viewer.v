(** Model of the assembly and check of the layout of a routed block, align/pnr/checkers.py:14-326, and of the files written from it, align/pnr/main.py:22-78 (error count only). *)
From Coq Require Import String.
From Verif Require Import Base.Prelude Base.PyDict Model.Transformation Model.Grid Model.RemoveDuplicates.
Local Open Scope Z_scope.

(** A rectangle of the database with its layer: the fields [metal] and [placedBox] of a contact. *)
Record shape := mkShape { sh_layer : string; sh_box : Rect }.

(** The selected instance of a block (checkers.py:89-90, 104-105): its name, the name of its layout file, the fields read by [gen_transformation], and its pins with their contacts.
    Simplified: [cblk.instance[cblk.selectedInstance]] is the block itself; the field [master] is only logged. *)
Record block := mkBlock { k_name : string; k_master : string; k_blk : Blk; k_pins : list (string * list shape) }.

(** One connection of a net (checkers.py:87-102): [CBlock iter iter2], [CTerm iter], or another type (the assertions of 102 and 191 fail).
    Simplified: indices are natural numbers. *)
Inductive conn := CBlock (iter iter2 : nat) | CTerm (iter : nat) | COther.

(** A net (checkers.py:86, 157-205): vias are triples upper metal, lower metal, via. The list [interVias] is empty where the attribute is missing (202). *)
Record vnet := mkNet { n_name : string; n_conn : list conn; n_metal : list shape; n_via : list (shape * shape * shape); n_inter : list (shape * shape * shape) }.

(** The power grid of one supply (checkers.py:207-213). *)
Record grid_ := mkPG { g_name : string; g_metal : list shape; g_via : list (shape * shape * shape) }.

(** The fields of the database node that are read. *)
Record hnode := mkNode { h_nets : list vnet; h_power : list vnet; h_blocks : list block; h_terms : list string; h_gnd : grid_; h_vdd : grid_; h_box : Rect }.

(** A layout file: bounding box, terminals, and the parameters of its devices by name. Not modelled: the keys 'pin' (deleted, checkers.py:145-146), 'globalRoutes' and 'globalRouteGrid' (always empty). *)
Record lay (P : Type) := mkLay { ly_bbox : Rect; ly_terms : list term; ly_sub : list (string * P) }.
Arguments mkLay {P}. Arguments ly_bbox {P}. Arguments ly_terms {P}. Arguments ly_sub {P}.

(** The messages appended to [errors]: a rectangle that does not scale (checkers.py:18-22), a value that is odd (57-60), a value off its grid (64-67). *)
Inductive verr := EScale (t : term) | EOdd (layer net : string) (r : Rect) (v : Z) | EOff (layer net : string) (r : Rect) (v : Z).

(** checkers.py:18 and 24: the test and the quotient, on one number. *)
Definition divides (mul div c : Z) : bool := (mul * c) mod div =? 0.
Definition all4 (f : Z -> bool) (r : Rect) : bool := f (llx r) && f (lly r) && f (urx r) && f (ury r).
Definition map4 (f : Z -> Z) (r : Rect) : Rect := mkRect (f (llx r)) (f (lly r)) (f (urx r)) (f (ury r)).
Definition with_rect (t : term) (r : Rect) : term := mkTerm (t_layer t) (t_net t) r (t_type t) (t_term t).

(** checkers.py:14-24 [rational_scaling]; [None] = the assertion on the bounding box (15) fails. *)
Definition rational_scaling (mul div : Z) (bbox : Rect) (ts : list term) : option (Rect * list term * list verr) :=
  if all4 (divides mul div) bbox then
    Some (map4 (fun c => mul * c / div) bbox,
          map (fun t => with_rect t (map4 (fun c => mul * c / div) (t_rect t))) ts,
          map EScale (filter (fun t => negb (all4 (divides mul div) (t_rect t))) ts))
  else None.

(** checkers.py:94, 142, 149: the name of a net of a sub-block seen from above. *)
Definition under (blk nm : string) : string := (blk ++ "/" ++ nm)%string.

Definition set_fa (m : list (string * string)) (k v : string) : list (string * string) := dset String.eqb m k v.

(** checkers.py:87-102, one connection of the net called [nm]; [None] = an assertion or an index fails. *)
Definition fa_conn (h : hnode) (nm : string) (m : list (string * string)) (c : conn) : option (list (string * string)) :=
  match c with
  | CBlock i j =>
    match nth_error (h_blocks h) j with
    | None => None
    | Some b =>
      match nth_error (k_pins b) i with
      | None => None
      | Some p => let f := under (k_name b) (fst p) in
                  match dget String.eqb m f with Some _ => None | None => Some (set_fa m f nm) end
      end
    end
  | CTerm i => match nth_error (h_terms h) i with
               | Some t => if String.eqb nm t then Some m else None
               | None => None
               end
  | COther => None
  end.

Fixpoint foldO {A B} (f : A -> B -> option A) (a : A) (l : list B) : option A :=
  match l with [] => Some a | x :: tl => match f a x with Some a' => foldO f a' tl | None => None end end.

(** checkers.py:85-102 [fa_map]: from "block/pin" to the name of the net. *)
Definition all_nets (h : hnode) : list vnet := (h_nets h ++ h_power h)%list.
Definition fa_map (h : hnode) : option (list (string * string)) :=
  foldO (fun m n => foldO (fa_conn h (n_name n)) m (n_conn n)) [] (all_nets h).

(** checkers.py:32 [global_power_names]. *)
Definition power_names (h : hnode) : list string := map n_name (h_power h).

(** checkers.py:135-150: placing, naming and prefixing one terminal of a sub-block; the terminals have been scaled to the units of the database.
    The assertion of 148 always holds here: 'terminal' is a pair. *)
Definition new_name (fa : list (string * string)) (pw : list string) (b : string) (n : name) : name :=
  match n with
  | None => None
  | Some nm => match dget String.eqb fa (under b nm) with
               | Some x => Some x
               | None => if in_strs nm pw then Some nm else Some (under b nm)
               end
  end.
Definition import (fa : list (string * string)) (pw : list string) (b : block) (t : term) : term :=
  let r := canonical (hitRect (gen_transformation (k_blk b)) (t_rect t)) in
  match t_term t with
  | None => mkTerm (t_layer t) (new_name fa pw (k_name b) (t_net t)) r (t_type t) None
  | Some (i, p) => mkTerm (t_layer t) (Some (under (k_name b) (i ++ ":" ++ p))) r (t_type t) (Some (under (k_name b) i, p))
  end.

Section Viewer.
  Context {P : Type}.
  (** checkers.py:106-127: the layout file of a block, if one is found.
      Simplified: the two directories and the regular expression for the second are one function of the name. *)
  Variable file : string -> option (lay P).
  (** [cnv.generators[..].clg]: the grid of the centre lines of a layer; [None] = KeyError. Simplified: one key per layer (82). *)
  Variable grids : string -> option Grid.
  (** The scale factor of the PDK (checkers.py:39-42). *)
  Variable sf : Z.

  (** checkers.py:104-155, one block: terminals, devices and errors; [None] = the assertion of [rational_scaling] fails. *)
  Definition import_block (fa : list (string * string)) (pw : list string) (b : block) : option (list term * list (string * P) * list verr) :=
    match file (k_master b) with
    | None => Some ([], [], [])
    | Some l =>
      match rational_scaling 2 sf (ly_bbox l) (ly_terms l) with
      | None => None
      | Some (_, ts, es) =>
        Some (filter (fun t => negb (String.eqb (t_layer t) "boundary")) (map (import fa pw b) ts),
              map (fun x => (under (k_name b) (fst x), snd x)) (ly_sub l), es)
      end
    end.

  (** checkers.py:55-67, the check of one coordinate; [None] = the layer has no grid, or [inverseBounds] returns nothing. *)
  Definition check_value (key layer net : string) (r : Rect) (v : Z) : option (list verr) :=
    match grids key with
    | None => None
    | Some g =>
      if v mod 2 =? 0 then
        let w := v * sf / 2 in
        match inverseBounds g w with
        | None => None
        | Some (a, b) => Some (if (fst a =? fst b) && (snd a =? snd b) then [] else [EOff layer net r w])
        end
      else Some [EOdd layer net r v]
    end.

  (** checkers.py:69-83: the coordinate checked for a layer, and the layer whose grid is used. *)
  Definition checked (layer : string) (r : Rect) : list (string * Z) :=
    if String.eqb layer "cellarea" then [("M1"%string, llx r); ("M1"%string, urx r); ("M2"%string, lly r); ("M2"%string, ury r)]
    else if in_strs layer ["M1"; "M3"; "M5"]%string then [(layer, (llx r + urx r) / 2)]
    else if in_strs layer ["M2"; "M4"; "M6"]%string then [(layer, (lly r + ury r) / 2)]
    else [].

  (** checkers.py:50-83 [add_terminal]. *)
  Definition add_terminal (net : string) (acc : list term * list verr) (s : shape) : option (list term * list verr) :=
    match foldO (fun es kv => match check_value (fst kv) (sh_layer s) net (sh_box s) (snd kv) with Some e => Some (es ++ e)%list | None => None end)
                (snd acc) (checked (sh_layer s) (sh_box s)) with
    | None => None
    | Some es => Some ((fst acc ++ [mkTerm (sh_layer s) (Some net) (sh_box s) "drawing" None])%list, es)
    end.

  Definition via_shapes (v : shape * shape * shape) : list shape := let '(u, l, c) := v in [u; l; c].

  (** checkers.py:167-191: the shapes drawn for one connection; [None] = an assertion or an index fails. *)
  Definition conn_shapes (h : hnode) (nm : string) (c : conn) : option (list shape) :=
    match c with
    | CBlock i j =>
      match nth_error (h_blocks h) j with
      | None => None
      | Some b => match nth_error (k_pins b) i with Some p => Some (snd p) | None => None end
      end
    | CTerm i => match nth_error (h_terms h) i with Some t => if String.eqb t nm then Some [] else None | None => None end
    | COther => None
    end.

  (** checkers.py:157-205: the shapes drawn for one net, in order. *)
  Definition net_shapes (h : hnode) (n : vnet) : option (list shape) :=
    match foldO (fun a c => match conn_shapes h (n_name n) c with Some l => Some (a ++ l)%list | None => None end) [] (n_conn n) with
    | None => None
    | Some l => Some (l ++ n_metal n ++ flat_map via_shapes (n_via n) ++ flat_map via_shapes (n_inter n))%list
    end.
  Definition pg_shapes (g : grid_) : list shape := (g_metal g ++ flat_map via_shapes (g_via g))%list.

  (** checkers.py:85-213: terminals in the units of the database, devices, errors. *)
  Definition assemble (h : hnode) : option (list term * list (string * P) * list verr) :=
    match fa_map h with
    | None => None
    | Some fa =>
      let pw := power_names h in
      match foldO (fun a b => match import_block fa pw b with
                              | None => None
                              | Some (ts, ds, es) => let '(ts0, ds0, es0) := a in Some (ts0 ++ ts, ds0 ++ ds, es0 ++ es)%list
                              end) ([], [], []) (h_blocks h) with
      | None => None
      | Some (ts0, ds0, es0) =>
        match foldO (fun a n => match net_shapes h n with None => None | Some l => foldO (add_terminal (n_name n)) a l end) (ts0, es0) (all_nets h) with
        | None => None
        | Some a =>
          match foldO (fun a g => foldO (add_terminal (g_name g)) a (pg_shapes g)) a [h_gnd h; h_vdd h] with
          | None => None
          | Some (ts, es) => Some (ts, ds0, es)
          end
        end
      end
    end.

  (** checkers.py:278-291: scaling back to the units of the PDK. *)
  Definition scaled (h : hnode) : option (Rect * list term * list (string * P) * list verr) :=
    match assemble h with
    | None => None
    | Some (ts, ds, es) =>
      match rational_scaling sf 2 (h_box h) ts with
      | None => None
      | Some (bb, ts', es') => Some (bb, ts', ds, (es ++ es')%list)
      end
    end.

  (** What remains of a run: the layout file written (main.py:40-42), the devices handed to the canvas (checkers.py:295-296), the result of removing duplicates, and [errors]. *)
  Record outcome := mkOut { o_file : lay P; o_devices : list (string * P); o_rd : rd_result; o_errors : list verr }.

  (** checkers.py:293-326: [dnr] are the nets of DoNotRoute constraints, [cf] the layers of the canvas, [post] the postprocessor.
      The dictionary that is returned and written gets no key 'subinsts'.
      Not modelled: design rules and extraction (Model/Drc.v, Model/Pex.v), which change no terminal; lines 215-274, reached only with a file of global routes that no caller passes. *)
  Definition open_ok (h : hnode) (toplevel : bool) (dnr : list string) : list string :=
    if toplevel then dnr else (dnr ++ power_names h)%list.
  Definition viewer (cf : rdcfg) (post : list term -> list term) (toplevel : bool) (dnr : list string) (h : hnode) : option outcome :=
    match scaled h with
    | None => None
    | Some (bb, ts, ds, es) =>
      match remove_duplicates (mkRC (cf_layers cf) (cf_skip cf) (cf_stack cf) (open_ok h toplevel dnr) false) ts with
      | None => None
      | Some r => Some (mkOut (mkLay bb (if toplevel then post (r_terms r) else r_terms r) []) ds r es)
      end
    end.

  (** main.py:44-57: the lines of the file of errors, and the number reported; [drc] and [pp] are the numbers of messages of the design rule check and of the postprocessor. *)
  Definition error_lines (o : outcome) (drc pp : nat) : nat :=
    (List.length (r_shorts (o_rd o)) + List.length (r_opens (o_rd o)) + r_widths (o_rd o) + (drc + List.length (o_errors o)) + pp)%nat.
  Definition error_count (o : outcome) (drc : nat) : nat :=
    (List.length (r_shorts (o_rd o)) + List.length (r_opens (o_rd o)) + (drc + List.length (o_errors o)))%nat.
End Viewer.
