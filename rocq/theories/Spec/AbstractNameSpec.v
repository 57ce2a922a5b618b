(** What the naming of primitives should achieve. *)
From Coq Require Import Ascii.
From Verif Require Import Base.Prelude Base.PyStr Model.AbstractName.

(** Same parameters, in any order. *)
Definition same_params (d1 d2 : pdict) : Prop := forall k v, In (k, v) d1 <-> In (k, v) d2.
(** The devices are interchangeable. *)
Definition same_device (d1 d2 : dev) : Prop := dv_model d1 = dv_model d2 /\ same_params (dv_params d1) (dv_params d2).
(** The library holds, under the name, a primitive for the device. *)
Definition serves (P : plib) (n : chars) (d : dev) : Prop :=
  exists pins x params, pfind P n = Some (Made n pins (dv_model d) x (dv_model d) params) /\ same_params params (dv_params d).
(** Parameter names without '_' and ':', values without ':'. *)
Definition plain (d : pdict) : Prop := forall k v, In (k, v) d -> ~ In "_"%char k /\ ~ In ":"%char k /\ ~ In ":"%char v.
