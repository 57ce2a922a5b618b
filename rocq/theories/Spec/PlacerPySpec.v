(** Which signals of which modules are connected to a global, and which rectangle is the smallest
    box around a set of rectangles. *)
From Coq Require Import String.
From Verif Require Import Base.Prelude Model.Transformation Model.Hpwl Model.PlacerPy Spec.TopoSpec.
Local Open Scope Z_scope.

(** [s] of module [m] is wired to one of the signals [G] of [top]: either it is one of them, or it
    is a formal of an instance of [m] whose actual is. *)
Inductive sees (mods : list (string * modl)) (top : string) (G : list string) : string -> string -> Prop :=
| sees_top s : In s G -> sees mods top G top s
| sees_inst m md i f s : sees mods top G m s -> In (m, md) mods -> In i (md_insts md) ->
    In (f, s) (mi_fa i) -> In (mi_ctn i) (map fst mods) -> sees mods top G (mi_ctn i) f.

(** [b] is the least rectangle containing all of [rs]. *)
Definition inside (a b : Rect) : Prop := llx b <= llx a /\ lly b <= lly a /\ urx a <= urx b /\ ury a <= ury b.
Definition least_box (rs : list Rect) (b : Rect) : Prop :=
  (forall r, In r rs -> inside r b) /\ forall b', (forall r, In r rs -> inside r b') -> inside b b'.

(** All formals of all instances (to bound the recursion depth). *)
Definition all_formals (mods : list (string * modl)) : list (string * string) :=
  flat_map (fun mm => flat_map (fun i => map (fun p => (mi_ctn i, fst p)) (mi_fa i)) (md_insts (snd mm))) mods.

(** The hierarchy of the placed modules, and the names used by the variants of [top]. *)
Definition hier {A B} (D : pdata A B) : list (string * list string) := map (fun m => (pd_conc m, pd_insts m)) (pd_modules D).
Definition used_by {A B} (D : pdata A B) (top n : string) : Prop :=
  exists t, In t (pd_modules D) /\ pd_abs t = top /\ reach (hier D) (pd_conc t) n.

(** Two elements agree except for the scratch attribute 'pin_bbox'. *)
Definition same_but_pins {A B} (e e' : pelem A B) : Prop :=
  pd_conc e' = pd_conc e /\ pd_abs e' = pd_abs e /\ pd_insts e' = pd_insts e /\ pd_global e' = pd_global e /\ pd_rest e' = pd_rest e.

(** The rectangles of the pins of a net. *)
Definition pins_on (ts : list lterm) (n : string) : list Rect :=
  map lt_rect (filter (fun t => lt_pin t && String.eqb (lt_net t) n) ts).
