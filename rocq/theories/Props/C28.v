(** C28: global signals reach exactly the modules that see them. *)
From Coq Require Import String.
From Verif Require Import Base.Prelude Base.PyDict Model.Transformation Model.Hpwl Model.PlacerPy Spec.PlacerPySpec Proofs.PlacerPyP.
Local Open Scope nat_scope.

(** Started without 'global_signals' attributes, on any hierarchy (cyclic ones included), the
    recursion ends and leaves in every module exactly the signals wired to a top-level global.  Its
    depth is at most one more than the number of formals of all instances. *)
Theorem C28_exact mods top G fuel : NoDup (map fst mods) -> In top (map fst mods) -> List.length (all_formals mods) < fuel ->
  exists st, propagate fuel mods [] top G = Some st /\ forall m s, In s (gs_of st m) <-> sees mods top G m s.
Proof. intros Hnd Ht Hf. exact (propagate_exact mods Hnd top G fuel Ht Hf). Qed.

(** Consequently the result does not depend on the order of modules, instances or formals. *)
Corollary C28_order_independent mods mods' top G fuel st st' :
  NoDup (map fst mods) -> NoDup (map fst mods') -> In top (map fst mods) -> In top (map fst mods') ->
  (forall m s, sees mods top G m s <-> sees mods' top G m s) ->
  List.length (all_formals mods) < fuel -> List.length (all_formals mods') < fuel ->
  propagate fuel mods [] top G = Some st -> propagate fuel mods' [] top G = Some st' ->
  forall m s, In s (gs_of st m) <-> In s (gs_of st' m).
Proof.
  intros H1 H2 H3 H4 Heq H5 H6 E E' m s.
  destruct (C28_exact mods top G fuel H1 H3 H5) as (s1 & E1 & K1). destruct (C28_exact mods' top G fuel H2 H4 H6) as (s2 & E2 & K2).
  assert (s1 = st) by congruence. assert (s2 = st') by congruence. subst. rewrite K1, K2. apply Heq.
Qed.

(** A later call with further signals keeps the earlier ones and is exact for the union, because
    the state left by a call is closed. *)
Theorem C28_again mods top G1 G2 fuel st1 : NoDup (map fst mods) -> In top (map fst mods) -> List.length (all_formals mods) < fuel ->
  propagate fuel mods [] top G1 = Some st1 ->
  exists st2, propagate fuel mods st1 top G2 = Some st2 /\ forall m s, In s (gs_of st2 m) <-> sees mods top (G1 ++ G2)%list m s.
Proof. intros Hnd Ht Hf E. exact (propagate_again mods Hnd top G1 G2 fuel st1 Ht Hf E). Qed.

(** If attributes left by something else are not closed, signals are lost: a formal already
    recorded in the sub-module is not propagated further. *)
Theorem C28_stale_refuted : exists mods top G st0 st fuel m s, NoDup (map fst mods) /\ List.length (all_formals mods) < fuel /\
  propagate fuel mods st0 top G = Some st /\ sees mods top G m s /\ ~ In s (gs_of st m).
Proof.
  exists [("top", mkMod "top" [] [mkInst "i" "a" tr_default [("p", "vdd")]]);
          ("a", mkMod "a" [] [mkInst "j" "b" tr_default [("q", "p")]]); ("b", mkMod "b" [] [])]%string,
         "top"%string, ["vdd"]%string, [("a", ["p"])]%string. eexists. exists 3, "b"%string, "q"%string.
  split; [repeat constructor; simpl; intuition discriminate|]. split; [simpl; lia|]. split; [vm_compute; reflexivity|]. split.
  - refine (sees_inst _ _ _ "a"%string (mkMod "a" [] [mkInst "j" "b" tr_default [("q", "p")]])%string (mkInst "j" "b" tr_default [("q", "p")])%string _ "p"%string _ _ _ _ _); try (simpl; tauto).
    refine (sees_inst _ _ _ "top"%string (mkMod "top" [] [mkInst "i" "a" tr_default [("p", "vdd")]])%string (mkInst "i" "a" tr_default [("p", "vdd")])%string _ "vdd"%string _ _ _ _ _); try (simpl; tauto).
    apply sees_top. simpl. tauto.
  - vm_compute. tauto.
Qed.

(** Two levels with renaming; an unconnected formal is not reached. *)
Example C28_nonvacuous : let mods := [("top", mkMod "top" [] [mkInst "i" "a" tr_default [("p", "vdd"); ("n", "net")]; mkInst "k" "leaf" tr_default [("x", "vdd")]]);
          ("a", mkMod "a" ["p"; "n"] [mkInst "j" "b" tr_default [("q", "p"); ("r", "n")]]); ("b", mkMod "b" ["q"; "r"] [])]%string in
  NoDup (map fst mods) /\ In "top"%string (map fst mods) /\ List.length (all_formals mods) < 6 /\
  propagate 6 mods [] "top" ["vdd"]%string = Some [("top", ["vdd"]); ("a", ["p"]); ("b", ["q"])]%string.
Proof. cbv zeta. split; [repeat constructor; simpl; intuition discriminate|]. split; [simpl; auto|]. split; [simpl; lia|reflexivity]. Qed.

Print Assumptions C28_exact.
Print Assumptions C28_order_independent.
Print Assumptions C28_again.
Print Assumptions C28_stale_refuted.
