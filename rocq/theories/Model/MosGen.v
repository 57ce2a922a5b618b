(** The transistor generator of pdks/FinFET14nm_Mock_PDK: sizes (gen_param.py), choice of the pattern
    (align/primitive/main.py) and the array with its wiring (mos.py). *)
From Coq Require Import String Ascii.
From Verif Require Import Base.Prelude Base.PyDict Model.Transformation Model.Canvas Model.TransistorArray.
Local Open Scope Z_scope.

(** * Sizes: gen_param.py *)

(** An element of the primitive: NFIN, NF, M and PARALLEL of its parameters, and a number that
    stands for all its other parameters.  Simplified: the values are integers already, and NFIN,
    NF and M are present. *)
Record mosdev := mkMos { md_name : string; md_nfin : Z; md_nf : Z; md_m : Z; md_par : option Z; md_rest : nat }.
(** 207-209: M is multiplied by PARALLEL, in the parameters themselves. *)
Definition m_eff (d : mosdev) : Z := match md_par d with Some k => if 1 <? k then md_m d * k else md_m d | None => md_m d end.
Definition fingers (d : mosdev) : Z := md_nf d * m_eff d.
(** 190-206 and 217: the assertions. *)
Definition dev_ok (unit_size nfin0 : Z) (d : mosdev) : bool :=
  negb (md_nfin d =? 0) && (md_nfin d <=? unit_size) && negb (md_nf d =? 0) && (md_nf d mod 2 =? 0) && negb (md_m d =? 0) && (nfin0 =? md_nfin d).
(** 213-220: [ceil(size / (2*len(mvalues)))].  Simplified: exact division. *)
Definition no_units (ds : list mosdev) : Z := - ((- fold_right Z.add 0 (map fingers ds)) / (2 * Z.of_nat (length ds))).
(** 221-223: the largest divisor that is at most the root. *)
Fixpoint divide_down (m : Z) (y : nat) : option Z :=
  match y with
  | O => None
  | Datatypes.S y' => if m mod Z.of_nat y =? 0 then Some (Z.of_nat y) else divide_down m y'
  end.
Definition total_size (d : mosdev) : Z := md_nfin d * md_nf d * m_eff d.
Definition unequal (ds : list mosdev) : bool := match ds with [a; b] => negb (total_size a =? total_size b) | _ => false end.

(** The Generator constraint of the primitive: nothing, legal sizes, or exact patterns. *)
Definition pattern_t := list (list ascii).
Inductive gencon := GNone | GLegal (l : list (option Z * option Z)) | GExact (ps : list pattern_t).
(** 221-242: (xval, yval).  [None]: an assertion, [sqrt] of a negative number, or a division by zero. *)
Definition base_shape (unit_size : Z) (g : gencon) (ds : list mosdev) : option (Z * Z) :=
  match ds with
  | [] => None
  | d0 :: _ =>
      if negb (forallb (dev_ok unit_size (md_nfin d0)) ds) then None
      else
        let n := no_units ds in
        if n <? 0 then None
        else match divide_down n (Z.to_nat (Z.sqrt n)) with
             | None => None
             | Some y0 =>
                 let '(x, y) := if unequal ds then (n, 1) else (n / y0, y0) in
                 match g with
                 | GExact [] | GExact ([] :: _) => None
                 | GExact ((row :: rows) :: _) =>
                     let w := Z.of_nat (length row) in Some (if (length ds =? 2)%nat then w / 2 else w, Z.of_nat (length (row :: rows)))
                 | _ => Some (x, y)
                 end
             end
  end.
(** 23-37 [construct_sizes_from_exact_patterns]: the sizes; [None] = an empty pattern or a size given twice. *)
Definition upcase (c : ascii) : ascii := let n := nat_of_ascii c in if ((97 <=? n) && (n <=? 122))%nat then ascii_of_nat (n - 32) else c.
Definition letters (p : pattern_t) : list ascii := nodup Ascii.ascii_dec (map upcase (concat p)).
Definition size_of (p : pattern_t) : option (Z * Z) :=
  match p with
  | [] => None
  | row :: _ => Some (if (length (letters p) =? 2)%nat then Z.of_nat (length row) / 2 else Z.of_nat (length row), Z.of_nat (length p))
  end.
Definition pairZ_eqb (a b : Z * Z) : bool := (fst a =? fst b) && (snd a =? snd b).
Fixpoint sizes_of (ps : list pattern_t) : option (list (Z * Z)) :=
  match ps with
  | [] => Some []
  | p :: tl => match size_of p, sizes_of tl with Some k, Some ks => if existsb (pairZ_eqb k) ks then None else Some (k :: ks) | _, _ => None end
  end.
(** 39-48 [check_legal] *)
Definition tag_ok (t : option Z) (v : Z) : bool := match t with None => true | Some w => w =? v end.
Definition check_legal (xy : Z * Z) (l : list (option Z * option Z)) : bool := existsb (fun d => tag_ok (fst d) (fst xy) && tag_ok (snd d) (snd xy)) l.
Section Sizes.
  (** 10-23 [limit_pairs] applied to more than 12 pairs: some of them, by logarithms. *)
  Variable limit : list (Z * Z) -> list (Z * Z).
  (** 60-105 [add_primitive]: the variants, as numbers of columns and rows.  The pairs form a set. *)
  Definition pairs_of (m : Z) : list (Z * Z) := nodup (fun a b => match Z.eq_dec (fst a) (fst b), Z.eq_dec (snd a) (snd b) with
                                                                  | left e1, left e2 => left (eq_trans (surjective_pairing a) (eq_trans (f_equal2 pair e1 e2) (eq_sym (surjective_pairing b))))
                                                                  | right n, _ => right (fun e => n (f_equal fst e)) | _, right n => right (fun e => n (f_equal snd e)) end) (variants m).
  Definition add_primitive (g : gencon) (xy : Z * Z) : option (list (Z * Z)) :=
    let ps := pairs_of (fst xy * snd xy) in
    match g with
    | GNone => Some (if (12 <? length ps)%nat then limit ps else ps)
    | GLegal l => Some (filter (fun p => check_legal p l) ps)
    | GExact pats => option_map (fun ks => filter (fun p => existsb (pairZ_eqb p) ks) ps) (sizes_of pats)
    end.
  (** 112-262 for generator 'MOS': two devices of different size get one row (256-260). *)
  Definition blocks (unit_size : Z) (g : gencon) (ds : list mosdev) : option (list (Z * Z)) :=
    match base_shape unit_size g ds with
    | None => None
    | Some xy => if unequal ds then Some [xy] else add_primitive g xy
    end.
End Sizes.

(** * The pattern: align/primitive/main.py:52-66, mos.py:371-442 *)

Definition zrange (n : Z) : list Z := map Z.of_nat (seq 0 (Z.to_nat n)).
(** main.py:54: [all(ele.parameters == primitive.elements[0].parameters ...)] *)
Definition opt_eqb (a b : option Z) : bool := match a, b with Some x, Some y => x =? y | None, None => true | _, _ => false end.
Definition params_eqb (a b : mosdev) : bool :=
  (md_nfin a =? md_nfin b) && (md_nf a =? md_nf b) && (m_eff a =? m_eff b) && opt_eqb (md_par a) (md_par b) && (md_rest a =? md_rest b)%nat.
Definition same_params (ds : list mosdev) : bool := match ds with [] => true | d :: _ => forallb (fun e => params_eqb e d) ds end.
(** 378: the names in order; all elements are in [connections]. *)
Fixpoint insert_str (s : string) (l : list string) : list string :=
  match l with [] => [s] | t :: tl => if String.eqb s t then l else if String.leb s t then s :: l else t :: insert_str s tl end.
Definition sort_names (ds : list mosdev) : list string := fold_right (fun d l => insert_str (md_name d) l) [] ds.
(** 381-390: the pattern is replaced if the first two devices differ in size; then the columns of the
    middle device are known, otherwise [x_left] and [x_right] are unbound.  With the model name there are
    more than two parameters when there are two devices. *)
Definition middle (ds : list mosdev) (x_cells : Z) : option (Z * Z) :=
  match ds with
  | a :: b :: _ =>
      if total_size a =? total_size b then None
      else let s := if fingers b <? fingers a then fingers b else fingers a in Some (x_cells / 2 - s / 2, x_cells / 2 + s / 2)
  | _ => None
  end.
(** 397-404: letters of an exact pattern. *)
Definition letter_index (c : ascii) : nat := (nat_of_ascii (upcase c) - 65)%nat.
Definition is_letter (c : ascii) : bool := let n := nat_of_ascii (upcase c) in ((65 <=? n) && (n <=? 90))%nat.
Definition exact_at (p : pattern_t) (x y : Z) : option nat :=
  match nth_error p (Z.to_nat y) with
  | None => None
  | Some row => match nth_error row (Z.to_nat x) with Some c => if is_letter c then Some (letter_index c) else None | None => None end
  end.
(** 397-440: the number of the device in cell (x, y). *)
Definition cell_index (exact : option pattern_t) (pattern : Z) (mid : option (Z * Z)) (x_cells x y : Z) : option nat :=
  match exact with
  | Some p => exact_at p x y
  | None =>
      if pattern =? 0 then Some 0%nat
      else if pattern =? 1 then Some (Z.to_nat (((x / 2) mod 2 + x mod 2 + y mod 2) mod 2))
      else if pattern =? 2 then Some (Z.to_nat ((x mod 2 + y mod 2) mod 2))
      else if pattern =? 3 then match mid with Some (l, r) => Some (if (l <=? x) && (x <? r) then 0%nat else 1%nat) | None => None end
      else if pattern =? 4 then Some (if x <? x_cells / 2 then 0%nat else 1%nat)
      else None
  end.
(** 392-440, over all cells; [exact] is the first of the exact patterns (17-24). *)
Definition exact_of (g : gencon) : option pattern_t := match g with GExact (p :: _) => Some p | _ => None end.
Definition draw (g : gencon) (user : option upat) (ds : list mosdev) (xy : Z * Z) : option (list (list string)) :=
  let '(x_cells, p) := choose_pattern (length ds) (same_params ds) user (fst xy) in
  let mid := middle ds x_cells in
  let p := match mid with Some _ => 3 | None => p end in
  mapM (fun y => mapM (fun x => match cell_index (exact_of g) p mid x_cells x y with Some i => nth_error (sort_names ds) i | None => None end) (zrange x_cells)) (zrange (snd xy)).

(** * The array and its wiring: mos.py *)

Inductive mpin := PD | PG | PS | PB.
Definition mpin_eqb (a b : mpin) : bool := match a, b with PD, PD | PG, PG | PS, PS | PB, PB => true | _, _ => false end.
(** 28-41: M2 tracks per cell, dummy gates, shared diffusion, stacked gates, fins of the tap cell, tap cell present. *)
Record mosp := mkMp { mp_h : Z; mp_gd : Z; mp_sd : bool; mp_stack : Z; mp_lfin : Z; mp_body : bool }.
(** A wire: its track and its first and last crossing track.  All wires of M1 and M3 run vertically, those of
    M2 horizontally; tracks of M1 and M3 coincide (both have pitch 80 and offset 0 in layers.json).  A via: column and row. *)
Record mwire := mkMw { mw_track : Z; mw_lo : Z; mw_hi : Z }.
(** The terminal of a unit transistor: cell, device, pin. *)
Record mterm := mkMt { mt_x : Z; mt_y : Z; mt_dev : string; mt_pin : mpin }.
Section Array.
  Variable p : mosp.
  (** 38-39 with [gate = 1]. *)
  Definition gates : Z := 2 * mp_stack p.
  Definition per_cell : Z := gates + (if mp_sd p then 0 else 2 * mp_gd p).
  (** 255 *)
  Definition gate_x (x : Z) : Z := (if mp_sd p then mp_gd p else 0) + x * per_cell + per_cell / 2.
  Definition row_lo (y : Z) : Z := y * mp_h p + 1.
  Definition row_hi (y : Z) : Z := (y + 1) * mp_h p - 5.
  (** 262-276: columns of the diffusion contacts. *)
  Definition center_pin : mpin := if 1 <? mp_stack p then PD else if gates mod 4 =? 0 then PS else PD.
  Definition side_pin : mpin := if gates mod 4 =? 0 then PD else PS.
  Definition diffusion (x : Z) : list (mpin * Z) :=
    (center_pin, gate_x x) ::
    flat_map (fun k => if (1 <? mp_stack p) && negb (k =? gates / 2) then []
                       else let t := if 1 <? mp_stack p then PS else if k mod 2 =? 0 then center_pin else side_pin in [(t, gate_x x - k); (t, gate_x x + k)])
             (map (fun i => i + 1) (zrange (gates / 2))).
  Variables (x_cells y_cells : Z) (dev : Z -> Z -> string).
  (** 257-260 and 178-183 (_addMOS), 353-357 (_addBodyContact): the M1 wires of a cell with the terminals on them.
      Not modelled: the layers below M1. *)
  Definition cell_m1 (x y : Z) : list (mterm * mwire) :=
    (mkMt x y (dev x y) PG, mkMw (gate_x x) (row_hi y + 2) (row_hi y + 4))
    :: map (fun c => (mkMt x y (dev x y) (fst c), mkMw (snd c) (row_lo y) (row_hi y))) (diffusion x)
    ++ (if mp_body p then [(mkMt x y (dev x y) PB, mkMw (gate_x x) (y_cells * mp_h p + mp_lfin p / 4 - 1) (y_cells * mp_h p + mp_lfin p / 4 + 1))] else []).
  Definition m1_wires : list (mterm * mwire) := flat_map (fun y => flat_map (fun x => cell_m1 x y) (zrange x_cells)) (zrange y_cells).
  (** The [_xpins] of row [y]: device, pin and column. *)
  Definition xpins (y : Z) : list (string * mpin * Z) :=
    flat_map (fun x => map (fun c => (mt_dev (fst c), mt_pin (fst c), mw_track (snd c))) (cell_m1 x y)) (zrange x_cells).

  (** The connections of the primitive: net -> (device, pin). *)
  Variable conns : list (string * list (string * mpin)).
  (** The order in which Python goes through a set of pins. *)
  Variable ord : list mpin -> list mpin.
  Definition in_conn (c : list (string * mpin)) (d : string) (q : mpin) : bool := existsb (fun e => String.eqb (fst e) d && mpin_eqb (snd e) q) c.
  Definition mpin_dec (a b : mpin) : {a = b} + {a <> b}. Proof. decide equality. Defined.
  (** 284-290 *)
  Definition contacts (y : Z) (c : list (string * mpin)) : list (mpin * Z) := map (fun e => (snd (fst e), snd e)) (filter (fun e => in_conn c (fst (fst e)) (snd (fst e))) (xpins y)).
  Definition columns (q : mpin) (l : list (mpin * Z)) : list Z := map snd (filter (fun e => mpin_eqb (fst e) q) l).
  (** 372-376: [minvias] is 1 in the call. *)
  Definition minvias : Z := if mp_h p - 1 <? Z.of_nat (length conns) then (mp_h p - 1) / Z.of_nat (length conns) else 1.
  (** 292-301: one pin of a net: its M2 track, if it gets one, and the counters of tracks. *)
  Definition pin_track (y : Z) (q : mpin) (st : Z * Z) : option Z * (Z * Z) :=
    let '(gt, dt) := st in
    match q with
    | PG => (Some (row_hi y + 2 + gt), (gt + 1, dt))
    | PB => (if y =? y_cells - 1 then Some (y_cells * mp_h p + mp_lfin p / 4) else None, st)
    | _ => (Some (y * mp_h p + dt), (gt, dt + 1))
    end.
  (** One M2 wire with its vias: net, track, columns. *)
  Definition strap := (string * Z * list Z)%type.
  Fixpoint pins_straps (y : Z) (net : string) (cs : list (mpin * Z)) (qs : list mpin) (st : Z * Z) : list strap * (Z * Z) :=
    match qs with
    | [] => ([], st)
    | q :: tl => let '(t, st1) := pin_track y q st in
                 let '(l, st2) := pins_straps y net cs tl st1 in
                 (match t with Some t => (net, t, columns q cs) :: l | None => l end, st2)
    end.
  Fixpoint row_straps (y : Z) (cns : list (string * list (string * mpin))) (st : Z * Z) : list strap :=
    match cns with
    | [] => []
    | (net, c) :: tl => let cs := contacts y c in
                        let '(l, st1) := pins_straps y net cs (ord (nodup mpin_dec (map fst cs))) st in l ++ row_straps y tl st1
    end.
  (** 278-303 over all rows; the loop over [minvias] is empty when it is 0. *)
  Definition straps : list strap := if 1 <=? minvias then flat_map (fun y => row_straps y conns (0, 1)) (zrange y_cells) else [].
  (** [self._nets]: net -> M2 track -> columns. *)
  Definition net_table : list (string * list (Z * list Z)) :=
    fold_left (fun d s => let '(net, t, cols) := s in
                          dupd String.eqb d net (fun o => dupd Z.eqb (match o with Some l => l | None => [] end) t (fun _ => cols))) straps [].
  Definition zmin (l : list Z) : Z := match l with [] => 0 | a :: tl => fold_left Z.min tl a end.
  Definition zmax (l : list Z) : Z := match l with [] => 0 | a :: tl => fold_left Z.max tl a end.
  (** 311-323 *)
  Definition center_track : Z := (x_cells * per_cell) / 2.
  Definition terminators (l : list Z) : Z * Z :=
    let a := zmin l in let b := zmax l in
    if (center_track - 1 <=? a) && (b <=? center_track + 1) then (center_track - 1, center_track + 1)
    else if b - a <? 2 then (if center_track <=? a then (a - (2 - (b - a)), b) else (a, b + (2 - (b - a)))) else (a, b).
  (** 324-327 *)
  Definition m3_track (k : Z) : Z := (if mp_sd p then 1 else 0) + (x_cells * per_cell - Z.of_nat (length net_table) * minvias) / 2 + k.
  (** 325-345: what is drawn for one net: M2 wires, M3 wires, vias to M3. *)
  Definition net_m2 (k : Z) (tbl : list (Z * list Z)) : list mwire :=
    match tbl with
    | [(t, cols)] => let '(a, b) := terminators cols in [mkMw t a b]
    | _ => map (fun e => let '(a, b) := terminators (snd e ++ [m3_track k]) in mkMw (fst e) a b) tbl
    end.
  Definition net_m3 (k : Z) (tbl : list (Z * list Z)) : list mwire :=
    match tbl with
    | [_] | [] => []
    | _ => let ts := map fst tbl in
           mkMw (m3_track k) (zmin ts) (zmax ts) :: (if zmax ts - zmin ts <? 2 then [mkMw (m3_track k) (zmin ts) (zmin ts + 2)] else [])
    end.
  Definition net_v2 (k : Z) (tbl : list (Z * list Z)) : list (Z * Z) := match tbl with [_] => [] | _ => map (fun e => (m3_track k, fst e)) tbl end.
  Definition numbered : list (Z * (string * list (Z * list Z))) := combine (map (fun i => i + 1) (zrange (Z.of_nat (length net_table)))) net_table.
  (** All wires of M2 and M3, with their nets. *)
  Definition m2_wires : list (string * mwire) :=
    map (fun s => let '(net, t, cols) := s in (net, mkMw t (zmin cols) (zmax cols))) straps ++ flat_map (fun e => map (pair (fst (snd e))) (net_m2 (fst e) (snd (snd e)))) numbered.
  Definition m3_wires : list (string * mwire) := flat_map (fun e => map (pair (fst (snd e))) (net_m3 (fst e) (snd (snd e)))) numbered.
  (** Vias between M1 and M2 and between M2 and M3: column and M2 track. *)
  Definition v1_vias : list (Z * Z) := flat_map (fun s => let '(_, t, cols) := s in map (fun c => (c, t)) cols) straps.
  Definition v2_vias : list (Z * Z) := flat_map (fun e => net_v2 (fst e) (snd (snd e))) numbered.
End Array.
(** main.py:80-83: [connections]; [None] = a net that is no pin of the primitive. *)
Definition add_conn (d : string) (acc : option (list (string * list (string * mpin)))) (fa : mpin * string) : option (list (string * list (string * mpin))) :=
  match acc with
  | None => None
  | Some c => match dget String.eqb c (snd fa) with Some l => Some (dupd String.eqb c (snd fa) (fun _ => l ++ [(d, fst fa)])) | None => None end
  end.
Definition connections (pins : list string) (els : list (string * list (mpin * string))) : option (list (string * list (string * mpin))) :=
  fold_left (fun acc e => fold_left (add_conn (fst e)) (snd e) acc) els (Some (map (fun n => (n, [])) pins)).
