(** What a LEF file written for a layout must contain, stated on the layout itself. *)
From Coq Require Import String Ascii.
From Verif Require Import Base.Prelude Model.Transformation Model.Lef.
Local Open Scope Z_scope.

(** LEF identifiers accepted by the tokenizer. *)
Definition ident (l : chars) : Prop :=
  match l with [] => False | c :: tl => name_start c = true /\ forallb name_char tl = true end.

(** An exact integer as a parsed number. *)
Definition int_dec (z : Z) : dec := mkDec z 0.
Definition dec_rect (r : Rect) : dec * dec * dec * dec :=
  (int_dec (llx r), int_dec (lly r), int_dec (urx r), int_dec (ury r)).

(** Terminal [t] must be visible as a shape of pin [nm]. *)
Definition is_pin_shape (c : lefcfg) (nm : chars) (t : Term) : bool :=
  t_pin t && match t_net t with Some n => chars_eqb (pin_name c n) nm | None => false end
  && negb (routing_mode c && mem (t_layer t) (exclude_layers c)).

(** Shapes of pin [nm], in layout order. *)
Definition pin_shapes (c : lefcfg) (ts : list Term) (nm : chars) : list port :=
  map (fun t => (t_layer t, dec_rect (t_rect t))) (filter (is_pin_shape c nm) ts).

(** Obstructions of an ordinary block: every non-pin terminal on a layer that is exported. *)
Definition obstructions (c : lefcfg) (ts : list Term) : list port :=
  map (fun t => (t_layer t, dec_rect (t_rect t)))
      (filter (fun t => negb (t_pin t) && negb (mem (t_layer t) (exclude_layers c))) ts).

(** [nm] names some pin terminal. *)
Definition names_pin (c : lefcfg) (ts : list Term) (nm : chars) : Prop :=
  exists t n, In t ts /\ t_pin t = true /\ t_net t = Some n /\ pin_name c n = nm.

(** Strict lexicographic order on character codes. *)
Inductive chars_lt : chars -> chars -> Prop :=
| lt_nil c l : chars_lt [] (c :: l)
| lt_head c d l m : (code c < code d)%N -> chars_lt (c :: l) (d :: m)
| lt_tail c l m : chars_lt l m -> chars_lt (c :: l) (c :: m).
