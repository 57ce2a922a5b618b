(** What renaming for routing should do, independent of the code. *)
From Coq Require Import String Ascii.
From Verif Require Import Base.Prelude Base.PyStr Model.RouteNames.
Local Open Scope Z_scope.

(** concrete name = abstract name, underscore, decimal number *)
Definition variant (an : chars) (k : Z) : chars := an ++ str "_" ++ print_Z k.

Definition variants_of (an : chars) (ms : list rmod) : nat :=
  List.length (filter (fun m => if list_eq_dec ascii_dec (rm_an m) an then true else false) ms).

(** All modules carry numbered names. *)
Definition numbered (p : rpl) : Prop :=
  forall m, In m (rp_mods p) -> rm_an m <> [] /\ exists k, 0 <= k /\ rm_cn m = variant (rm_an m) k.

(** Every instance refers either to a leaf or to a module, not both. *)
Definition referenced (p : rpl) : Prop :=
  forall m i, In m (rp_mods p) -> In i (rm_insts m) ->
    (In (ri_ctn i) (map rl_cn (rp_leaves p)) <-> ~ In (ri_ctn i) (map rm_cn (rp_mods p))).

(** Old and new versions, position by position. *)
Definition paired (p p' : rpl) (m m' : rmod) : Prop := In (m, m') (combine (rp_mods p) (rp_mods p')).

Record renumbered (p p' : rpl) : Prop := {
  rn_length : List.length (rp_mods p') = List.length (rp_mods p);
  rn_an : forall m m', paired p p' m m' -> rm_an m' = rm_an m;
  rn_distinct : NoDup (map rm_cn (rp_mods p'));
  rn_range : forall m, In m (rp_mods p') -> exists k, 0 <= k < Z.of_nat (variants_of (rm_an m) (rp_mods p')) /\ rm_cn m = variant (rm_an m) k;
  rn_onto : forall an k, 0 <= k < Z.of_nat (variants_of an (rp_mods p')) -> exists m, In m (rp_mods p') /\ rm_an m = an /\ rm_cn m = variant an k;
  rn_order : forall m1 m1' m2 m2' i1 i2 k1 k2, paired p p' m1 m1' -> paired p p' m2 m2' -> rm_an m1 = rm_an m2 ->
    rm_cn m1 = variant (rm_an m1) i1 -> rm_cn m2 = variant (rm_an m2) i2 -> rm_cn m1' = variant (rm_an m1) k1 -> rm_cn m2' = variant (rm_an m2) k2 ->
    0 <= i1 -> 0 <= i2 -> 0 <= k1 -> 0 <= k2 -> i1 < i2 -> k1 < k2
}.

(** Instances: names are kept; leaf references stay; module references follow the module. *)
Record refs_follow (p p' : rpl) : Prop := {
  rf_leaves : map rl_cn (rp_leaves p') = map rl_cn (rp_leaves p) /\ forall l, In l (rp_leaves p') -> rl_an l = rl_cn l;
  rf_insts : forall m m', paired p p' m m' ->
    Forall2 (fun i i' => ri_name i' = ri_name i /\
      ((In (ri_ctn i) (map rl_cn (rp_leaves p)) /\ ri_ctn i' = ri_ctn i /\ ri_atn i' = ri_ctn i) \/
       (~ In (ri_ctn i) (map rl_cn (rp_leaves p)) /\ ri_atn i' = ri_atn i /\
        exists t t', paired p p' t t' /\ ri_ctn i = rm_cn t /\ ri_ctn i' = rm_cn t'))) (rm_insts m) (rm_insts m')
}.
