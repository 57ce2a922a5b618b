(** Vocabulary for the statements about parasitic extraction. *)
From Coq Require Import String Ascii QArith.
From Verif Require Import Base.Prelude Base.PyStr Model.Transformation Model.RemoveDuplicates Model.Pex
  Spec.RemoveDuplicatesSpec Spec.DrcSpec.
Local Open Scope Z_scope.

(** [l] cuts the interval [s, e] into consecutive non-empty pieces no longer than [pitch]. *)
Fixpoint tiles (pitch s e : Z) (l : list (Z * Z)) : Prop :=
  match l with
  | [] => s = e
  | (a, b) :: tl => a = s /\ a < b <= a + pitch /\ tiles pitch b e tl
  end.

(** A wire: layer, run direction, doubled centre line, rectangle. *)
Record wire := mkWire { w_layer : string; w_dir : sdir; w_track : Z; w_px : pxr }.

(** The wires of the store on metal layers known to the process description. *)
Definition is_wire (env : pxenv) (sto : px_store) (w : wire) : Prop :=
  exists vv rs q, In (w_layer w, vv) sto /\ In (w_track w, rs) vv /\ In (w_px w) rs /\
    In (w_layer w, w_dir w) (pe_layers env) /\ w_dir w <> DStar /\ In (w_layer w, q) (pe_pdk env) /\
    exists tl, w_layer w = String "M"%char tl.

(** A via of some via layer touches the wiring layer [layer] at position [p] of track [c]
    (coordinates of the via centre rounded down). *)
Definition port_on (env : pxenv) (sto : px_store) (layer : string) (c p : Z) : Prop :=
  exists vl vv q cv rs r, In (vl, vv) sto /\ In (vl, DStar) (pe_layers env) /\ In (vl, q) (pe_pdk env) /\
    (vl = layer \/ fst (q_stack q) = Some layer \/ snd (q_stack q) = Some layer) /\
    In (cv, rs) vv /\ In r rs /\
    let x := cv / 2 in let y := (lly (px_rect r) + ury (px_rect r)) / 2 in
    ((In (layer, DH) (pe_layers env) /\ c = 2 * y /\ p = x) \/
     (exists d, In (layer, d) (pe_layers env) /\ d <> DH /\ c = 2 * x /\ p = y)).

(** A non-empty layer name without '_' and '-'. *)
Definition plain_name (s : string) : Prop := s <> ""%string /\ forall c, In c (str s) -> c <> "_"%char /\ c <> "-"%char.

(** The layouts the extraction is proved for. *)
Record pex_input (env : pxenv) (sto : px_store) : Prop := {
  pi_pitch : 0 < pe_pitch env;
  pi_pdk : NoDup (map fst (pe_pdk env));
  pi_dirs : NoDup (map fst (pe_layers env));
  pi_layers : NoDup (map fst sto);
  pi_lines : forall layer vv, In (layer, vv) sto -> NoDup (map fst vv);
  (* wire layers *)
  pi_metal : forall layer vv q d, In (layer, vv) sto -> In (layer, q) (pe_pdk env) -> In (layer, d) (pe_layers env) -> d <> DStar -> checked layer ->
     (exists tl, layer = String "M"%char tl) /\ plain_name layer /\ q_dir q = match d with DH => "h"%string | _ => "v"%string end /\
     forall c rs, In (c, rs) vv -> Z.even c = true /\ separated d (map px_rect rs);
  (* via layers: names, two different metals, and terminal pins not ending in a digit *)
  pi_via : forall layer vv q, In (layer, vv) sto -> In (layer, q) (pe_pdk env) -> In (layer, DStar) (pe_layers env) -> checked layer ->
     (forall tl, layer <> String "M"%char tl) /\
     fst (q_stack q) <> snd (q_stack q) /\
     (forall l, fst (q_stack q) = Some l \/ snd (q_stack q) = Some l -> plain_name l /\ l <> "None"%string) /\
     forall c rs r inst pin, In (c, rs) vv -> In r rs -> px_term r = Some (inst, pin) ->
       exists l z, str pin = l ++ [z] /\ is_digit z = false }.

(** The condition on ports: a wire with a port beyond its start has one inside. *)
Definition ports_ok (env : pxenv) (sto : px_store) : Prop :=
  forall w, is_wire env sto w ->
    let s := start_of (w_dir w) (px_rect (w_px w)) in let e := end_of (w_dir w) (px_rect (w_px w)) in
    (forall p, port_on env sto (w_layer w) (w_track w) p -> p <= s) \/
    (exists p, port_on env sto (w_layer w) (w_track w) p /\ s < p <= e).

(** All wires of the store, in order. *)
Definition metal_name (s : string) : bool := match s with String c _ => Ascii.eqb "M"%char c | EmptyString => false end.
Definition wires_of (env : pxenv) (sto : px_store) : list wire :=
  flat_map (fun lv => flat_map (fun ld =>
      if String.eqb (fst ld) (fst lv) then
        if metal_name (fst lv) && match snd ld with DStar => false | _ => true end
        then flat_map (fun l => map (mkWire (fst lv) (snd ld) (fst l)) (snd l)) (snd lv) else []
      else []) (pe_layers env)) sto.

Definition wire_len (w : wire) : Z := end_of (w_dir w) (px_rect (w_px w)) - start_of (w_dir w) (px_rect (w_px w)).

Fixpoint sumQ (l : list Q) : Q := match l with [] => 0%Q | x :: tl => (x + sumQ tl)%Q end.
Definition resistors (cs : list comp) : list Q := flat_map (fun c => match c with Res _ _ _ v => [v] | _ => [] end) cs.
Definition capacitors (cs : list comp) : list Q := flat_map (fun c => match c with Cap _ _ v => [v] | _ => [] end) cs.

(** A per-unit-length value of a wire: [f] of its layer times its length in microns
    (nothing for layers the process description does not know). *)
Definition per_length (env : pxenv) (f : pxrules -> Q) (w : wire) : Q :=
  match find (fun lq => String.eqb (fst lq) (w_layer w)) (pe_pdk env) with
  | Some (_, q) => (f q * (wire_len w # 1000))%Q
  | None => 0%Q
  end.

(** The resistance of a via cell. *)
Definition via_R (env : pxenv) (cl : cell) : Q :=
  match fst (snd cl) with
  | String "V"%char _ =>
    match find (fun lq => String.eqb (fst lq) (fst (snd cl))) (pe_pdk env) with Some (_, q) => q_R q | None => 0%Q end
  | _ => 0%Q
  end.
