(** The layers of a PDK (cell_fabric/pdk.py) and the wires and vias built from them (primitive/default/canvas.py,
    primitive/default/via.py, cell_fabric/postprocess.py, cell_fabric/grid.py:106-117). *)
From Coq Require Import String Ascii.
From Verif Require Import Base.Prelude Base.PyDict Base.PyStr Model.Transformation Model.Grid Model.Canvas.
Local Open Scope Z_scope.

(** A number or a list of numbers. *)
Inductive dim := One (z : Z) | Many (l : list Z).
(** [x[0] if isinstance(x, list) else x]; [None] = IndexError. *)
Definition first (d : dim) : option Z := match d with One z => Some z | Many (z :: _) => Some z | Many [] => None end.
(** [v[0]]; [None] = IndexError or TypeError. *)
Definition item0 (d : dim) : option Z := match d with Many (z :: _) => Some z | _ => None end.
(** pdk.py:62-76: the fields of a metal that are read here.  Simplified: directions are in lower case already (106). *)
Record metal := mkMetal { me_dir : direction; me_color : list Z; me_pitch : dim; me_width : dim; me_offset : dim; me_minl : dim; me_maxl : option dim }.
(** pdk.py:110-123. *)
Record viadef := mkViadef { vi_lower : option string; vi_upper : option string; vi_spx : Z; vi_spy : Z; vi_wx : Z; vi_wy : Z; vi_al : Z; vi_ah : Z; vi_pl : Z; vi_ph : Z }.
(** Simplified: only layers called M.. have the fields of metals and only those called V.. the fields of vias. *)
Inductive layer := LMetal (m : metal) | LVia (v : viadef) | LOther.
Notation pdk := (list (string * layer)).

Definition even (z : Z) : bool := z mod 2 =? 0.
(** 86-89: of the even fields only the pitch is looked at. *)
Definition metal_ok (m : metal) : bool := match me_pitch m with One p => even p | Many ps => forallb even ps end.
(** 127-131: params[4:7] are SpaceX, SpaceY and WidthX. *)
Definition known (P : pdk) (m : option string) : bool := match m with Some m => dmem String.eqb P m | None => true end.
Definition via_ok (P : pdk) (v : viadef) : bool := even (vi_spx v) && even (vi_spy v) && even (vi_wx v) && known P (vi_lower v) && known P (vi_upper v).
Definition initial (n : string) : option ascii := match n with String c _ => Some c | EmptyString => None end.
Definition is_upper (c : ascii) : bool := ((65 <=? code c) && (code c <=? 90))%N.
Definition layer_ok (P : pdk) (n : string) (l : layer) : bool :=
  match initial n with
  | None => false
  | Some c => is_upper c && (if Ascii.eqb c "M" then match l with LMetal m => metal_ok m | _ => false end
                             else if Ascii.eqb c "V" then match l with LVia v => via_ok P v | _ => false end
                             else match l with LOther => true | _ => false end)
  end.
(** 36-50 [load], 57-60 [_add].  [None]: an assertion fails. *)
Definition add_layer (P : pdk) (e : string * layer) : option pdk :=
  if dmem String.eqb P (fst e) then None else if layer_ok P (fst e) (snd e) then Some (P ++ [e]) else None.
Definition load (raw : list (string * layer)) : option pdk :=
  fold_left (fun o e => match o with Some P => add_layer P e | None => None end) raw (Some []).

(** grid.py:84-94, 106-117 [ColoredCenterLineGrid] without [repeat].  [None]: an assertion or IndexError. *)
Definition colored (colors : list Z) (pitch width offset : Z) : option Grid :=
  match colors with
  | [] => None
  | c0 :: _ =>
      if (Z.of_nat (length colors) mod 2 =? 0) && even width
      then Some (fold_left (fun g ic => addGridLine g (offset + Z.of_nat (fst ic) * pitch) true (Some (width, Some (snd ic))))
                           (combine (seq 0 (length colors + 1)) (colors ++ [c0])) grid_empty)
      else None
  end.
(** grid.py:97-103 with the assertion of 88. *)
Definition uncolored (pitch width offset : Z) : option Grid :=
  if even width then Some (UncoloredCenterLineGrid pitch width offset 1) else None.

Section Build.
  Variable P : pdk.
  Definition metal_at (n : string) : option metal := match dget String.eqb P n with Some (LMetal m) => Some m | _ => None end.
  Definition via_at (n : string) : option viadef := match dget String.eqb P n with Some (LVia v) => Some v | _ => None end.
  (** canvas.py:31-38. *)
  Definition width_of (n : string) : option Z := match metal_at n with Some m => first (me_width m) | None => None end.
  Definition pitch_of (n : string) : option Z := match metal_at n with Some m => first (me_pitch m) | None => None end.
  Definition offset_of (n : string) : option Z := match metal_at n with Some m => first (me_offset m) | None => None end.
  (** 40-43 [_get_via_ext]. *)
  Definition is_lower (v : viadef) (n : string) : bool := match vi_lower v with Some l => String.eqb l n | None => false end.
  Definition via_ext (n : string) (v : viadef) : option Z :=
    match metal_at n with
    | None => None
    | Some m => Some ((match me_dir m with H => vi_wx v | V => vi_wy v end) / 2 + if is_lower v n then vi_al v else vi_ah v)
    end.
  (** 134-144 [_find_adjoining_layers]: (metal, via) below and above. *)
  Definition adjoin (n : string) (st : option (string * viadef) * option (string * viadef)) (e : string * layer) :
      option (string * viadef) * option (string * viadef) :=
    match snd e with
    | LVia v =>
        if is_lower v n then (fst st, option_map (fun m => (m, v)) (vi_upper v))
        else if match vi_upper v with Some u => String.eqb u n | None => false end then (option_map (fun m => (m, v)) (vi_lower v), snd st)
        else st
    | _ => st
    end.
  Definition adjoining (n : string) : option (string * viadef) * option (string * viadef) := fold_left (adjoin n) P (None, None).
  (** 58-82: the neighbour to which the ends of wires are aligned. *)
  Definition aligned_to (n : string) : option (string * viadef) :=
    match adjoining n with
    | (None, None) => None
    | (Some b, None) => Some b
    | (None, Some a) => Some a
    | (Some b, Some a) => match pitch_of (fst b), pitch_of (fst a) with
                          | Some pb, Some pa => Some (if pb <=? pa then b else a)
                          | _, _ => None
                          end
    end.
  (** [layer.split('_')[0]]. *)
  Fixpoint until_us (s : string) : string :=
    match s with String c t => if Ascii.eqb c "_" then EmptyString else String c (until_us t) | EmptyString => EmptyString end.

  (** What is created: the wires and vias by layer, and the layers with a postprocessor. *)
  Record canvas := mkCanvas { cv_wires : list (string * Wire); cv_vias : list (string * Via); cv_post : list string }.
  Definition register (n : string) (l : list string) : option (list string) := if existsb (String.eqb n) l then None else Some (n :: l).
  (** 84-104. *)
  Definition make_wire (n : string) (m : metal) : option Wire :=
    let base := until_us n in
    match aligned_to base with
    | None => None
    | Some (a, v) =>
        match pitch_of a, via_ext base v, offset_of a, pitch_of base, width_of base, offset_of base with
        | Some sp, Some ss, Some so, Some p, Some w, Some o =>
            match (match me_color m with [] => uncolored p w o | cs => colored cs p w o end) with
            | Some g => Some (mkWire (me_dir m) g (EnclosureGrid sp so ss))
            | None => None
            end
        | _, _, _, _, _, _ => None
        end
    end.
  (** 45-104 [_create_metal].  Simplified: the attribute is named by the layer, not by its name in lower case. *)
  Definition create_metal (C : canvas) (n : string) (m : metal) : option canvas :=
    let reg l := match me_color m with [] => Some l | _ => register n l end in
    match reg (cv_post C) with
    | None => None
    | Some post =>
        match (match me_width m with
               | One _ => Some post
               | Many _ => match item0 (me_pitch m), item0 (me_width m), item0 (me_minl m), (match me_maxl m with Some d => item0 d | None => None end) with
                           | Some _, Some _, Some _, Some _ => reg post
                           | _, _, _, _ => None
                           end
               end) with
        | None => None
        | Some post => match make_wire n m with Some w => Some (mkCanvas ((n, w) :: cv_wires C) (cv_vias C) post) | None => None end
        end
    end.
  Definition wire_at (C : canvas) (n : string) : option Wire := dget String.eqb (cv_wires C) n.
  (** 106-130 [_create_via].  Simplified: without [ViaCut]. *)
  Definition create_via (C : canvas) (n : string) (v : viadef) : option canvas :=
    match vi_lower v, vi_upper v with
    | Some l, Some u =>
        match metal_at l, metal_at u, wire_at C l, wire_at C u, via_ext l v, via_ext u v with
        | Some ml, Some mu, Some wl, Some wu, Some el, Some eu =>
            match me_dir ml, me_dir mu with
            | H, V => Some (mkCanvas (cv_wires C) ((n, mkVia (w_clg wl) (w_clg wu) (vi_wx v) (vi_wy v) el eu) :: cv_vias C) (cv_post C))
            | V, H => Some (mkCanvas (cv_wires C) ((n, mkVia (w_clg wu) (w_clg wl) (vi_wx v) (vi_wy v) eu el) :: cv_vias C) (cv_post C))
            | _, _ => None
            end
        | _, _, _, _, _, _ => None
        end
    | _, _ => Some C
    end.
  (** 23-29 [_create_metal_canvas]. *)
  Definition create (C : canvas) (e : string * layer) : option canvas :=
    match snd e with LMetal m => create_metal C (fst e) m | LVia v => create_via C (fst e) v | LOther => Some C end.
  Definition build : option canvas :=
    fold_left (fun o e => match o with Some C => create C e | None => None end) P (Some (mkCanvas [] [] [])).

  (** pdk.py:166-191 [get_via_table], for one via with both metals: the rectangles of cut, lower and upper metal around the
      origin, in fortieths. *)
  Definition enclose (n : string) (v : viadef) (a p : Z) : option Rect :=
    match metal_at n with
    | Some m => let '(ex, ey) := match me_dir m with H => (40 * a, 40 * p) | V => (40 * p, 40 * a) end in
                let x := 20 * vi_wx v + ex in let y := 20 * vi_wy v + ey in Some (mkRect (- x) (- y) x y)
    | None => None
    end.
  Definition via_table (n : string) : option (Rect * Rect * Rect) :=
    match via_at n with
    | Some v => match vi_lower v, vi_upper v with
                | Some l, Some u =>
                    match enclose l v (vi_al v) (vi_pl v), enclose u v (vi_ah v) (vi_ph v) with
                    | Some rl, Some ru => Some (mkRect (- (20 * vi_wx v)) (- (20 * vi_wy v)) (20 * vi_wx v) (20 * vi_wy v), rl, ru)
                    | _, _ => None
                    end
                | _, _ => None
                end
    | None => None
    end.
End Build.

(** * Postprocessing of terminals *)
(** A terminal: layer, rectangle, colour; the other fields are one payload. *)
Record term (A : Type) := mkTerm { t_layer : string; t_rect : Rect; t_color : option Z; t_rest : A }.
Arguments mkTerm {A}. Arguments t_layer {A}. Arguments t_rect {A}. Arguments t_color {A}. Arguments t_rest {A}.
Section Post.
  Context {A : Type}.
  (** via.py:6-20 [ViaArrayGenerator]. *)
  Record cuts := mkCuts { cu_wx : Z; cu_wy : Z; cu_sx : Z; cu_sy : Z; cu_nx : Z; cu_ny : Z }.
  Definition start_at (lo hi w s n : Z) : Z := (lo + hi) / 2 - (w * n + s * (n - 1)) / 2.
  Definition range (n : Z) : list Z := map Z.of_nat (seq 0 (Z.to_nat n)).
  Definition via_array (c : cuts) (t : term A) : list (term A) :=
    let r := t_rect t in
    let x := start_at (llx r) (urx r) (cu_wx c) (cu_sx c) (cu_nx c) in
    let y := start_at (lly r) (ury r) (cu_wy c) (cu_sy c) (cu_ny c) in
    flat_map (fun i => map (fun j =>
      let x0 := x + i * (cu_wx c + cu_sx c) in let y0 := y + j * (cu_wy c + cu_sy c) in
      mkTerm (t_layer t) (mkRect x0 y0 (x0 + cu_wx c) (y0 + cu_wy c)) (t_color t) (t_rest t)) (range (cu_ny c))) (range (cu_nx c)).
  (** via.py:22-46 [ColorClosure]; the second result counts the errors.  [None]: division by zero, or no colours. *)
  Definition color_closure (d : direction) (pitch : Z) (colors : list Z) (t : term A) : option (list (term A) * bool) :=
    let r := t_rect t in
    let c2 := match d with H => lly r + ury r | V => llx r + urx r end in
    if 2 * pitch =? 0 then None
    else if c2 mod (2 * pitch) =? 0
    then match nth_error colors (Z.to_nat ((c2 / (2 * pitch)) mod Z.of_nat (length colors))) with
         | Some k => Some ([t; mkTerm (t_layer t) r (Some k) (t_rest t)], false)
         | None => None
         end
    else Some ([t], true).
  (** postprocess.py:21-46 [run]; a processor gives the new terminals and whether it found an error. *)
  Variable procs : list (string * (term A -> option (list (term A) * bool))).
  Fixpoint run (ts : list (term A)) : option (list (term A) * nat) :=
    match ts with
    | [] => Some ([], O)
    | t :: tl =>
        match (match dget String.eqb procs (t_layer t) with Some f => f t | None => Some ([t], false) end), run tl with
        | Some (ts, e), Some (l, k) => Some (ts ++ l, ((if e then 1 else 0) + k)%nat)
        | _, _ => None
        end
    end.
End Post.
