(** Vocabulary for the statements about removeDuplicates, over plain terminals only. *)
From Coq Require Import String Ascii.
From Verif Require Import Base.Prelude Model.Transformation Model.RemoveDuplicates.
Local Open Scope Z_scope.

(** The rational point (px/k, py/k) lies in the closed rectangle [r]. *)
Definition covers (k : Z) (r : Rect) (p : Z * Z) : Prop :=
  k * llx r <= fst p <= k * urx r /\ k * lly r <= snd p <= k * ury r.

(** [t] is drawn on the track of [layer] (wires run along x for [DH], along y otherwise) whose
    doubled centre line is [c]. *)
Definition on_track (layer : string) (d : sdir) (c : Z) (t : term) : Prop :=
  t_layer t = layer /\
  match d with DH => lly (t_rect t) + ury (t_rect t) | _ => llx (t_rect t) + urx (t_rect t) end = c.

(** Some terminal of [ts] on that track covers the point. *)
Definition metal_at (ts : list term) (layer : string) (d : sdir) (c : Z) (k : Z) (p : Z * Z) : Prop :=
  exists t, In t ts /\ on_track layer d c t /\ covers k (t_rect t) p.

(** Two closed rectangles overlap or touch. *)
Definition meet (a b : Rect) : Prop :=
  llx a <= urx b /\ llx b <= urx a /\ lly a <= ury b /\ lly b <= ury a.

Definition inside (a b : Rect) : Prop :=
  llx b <= llx a /\ lly b <= lly a /\ urx a <= urx b /\ ury a <= ury b.

(** A net name that is not an 'instance:pin' terminal marker. *)
Fixpoint no_colon (s : string) : Prop :=
  match s with EmptyString => True | String c tl => c <> ":"%char /\ no_colon tl end.

(** A plain wire: no terminal marker and not a blockage. *)
Definition plain (t : term) : Prop :=
  (forall n, t_net t = Some n -> no_colon n) /\ t_type t <> "blockage"%string.

(** The same extent across the track. *)
Definition equal_width (d : sdir) (a b : Rect) : Prop :=
  match d with DH => lly a = lly b /\ ury a = ury b | _ => llx a = llx b /\ urx a = urx b end.

(** Layers of the configuration handled by scan lines. *)
Definition wire_layer (cf : rdcfg) (layer : string) (d : sdir) : Prop :=
  In (layer, d) (cf_layers cf) /\ ~ In layer (cf_skip cf).

(** [self.layers] is a dictionary: no key twice. *)
Definition cfg_ok (cf : rdcfg) : Prop := NoDup (map fst (cf_layers cf)).

(** Start and end along the track. *)
Definition start_of (d : sdir) (r : Rect) : Z := match d with DH => llx r | _ => lly r end.
Definition end_of (d : sdir) (r : Rect) : Z := match d with DH => urx r | _ => ury r end.
