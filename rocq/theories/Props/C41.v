(** C41: renaming of concrete modules for routing. *)
From Coq Require Import String Ascii.
From Verif Require Import Base.Prelude Base.PyDict Base.PyStr Model.RouteNames Spec.RouteNamesSpec Proofs.RouteNamesP.
Local Open Scope Z_scope.

(** The renaming is injective, numbers the variants of every abstract module 0, 1, ... and keeps
    their order. *)
Theorem C41_renumbered p p' tr :
  change_names p = Some (p', tr) -> NoDup (map rm_cn (rp_mods p)) -> renumbered p p'.
Proof. apply change_ok. Qed.
Print Assumptions C41_renumbered.

(** Every instance follows the module it referred to. *)
Theorem C41_references p p' tr : change_names p = Some (p', tr) -> refs_follow p p'.
Proof. apply change_refs. Qed.
Print Assumptions C41_references.

(** It succeeds exactly on designs whose module names are numbered without leading zeros and whose
    instances refer to a leaf or to a module. *)
Theorem C41_succeeds p : change_names p <> None <-> numbered p /\ referenced p.
Proof. apply change_success. Qed.
Print Assumptions C41_succeeds.

Definition rm (an cn : string) (l : list (string * string)) : rmod :=
  mkRmod (str an) (str cn) (map (fun q => mkRinst (str (fst q)) (str (snd q)) (str "t")) l).

Definition ex_p : rpl := (mkRpl
  [rm "amp" "amp_12" [("m", "nmos_X1")]; rm "top" "top_3" [("a", "amp_12"); ("b", "amp_7"); ("c", "amp_12")]; rm "amp" "amp_7" []]
  [mkRleaf (str "nmos_X1") (str "nmos")])%string.

Example C41_nonvacuous :
  NoDup (map rm_cn (rp_mods ex_p)) /\
  match change_names ex_p with
  | Some (p', _) => map rm_cn (rp_mods p') = [str "amp_1"; str "top_0"; str "amp_0"] /\
      map (fun m => map ri_ctn (rm_insts m)) (rp_mods p') = [[str "nmos_X1"]; [str "amp_1"; str "amp_0"; str "amp_1"]; []]
  | None => False
  end.
Proof. split; [repeat constructor; simpl; intuition discriminate|vm_compute; now split]. Qed.

(** Finding: a renamed module can take the name of a leaf, and the references become ambiguous. *)
Theorem C41_leaf_clash_refuted : exists p p' tr,
  change_names p = Some (p', tr) /\ NoDup (map rm_cn (rp_mods p) ++ map rl_cn (rp_leaves p)) /\
  ~ NoDup (map rm_cn (rp_mods p') ++ map rl_cn (rp_leaves p')).
Proof.
  exists (mkRpl [rm "cap" "cap_1" []; rm "top" "top_0" [("a", "cap_0"); ("b", "cap_1")]] [mkRleaf (str "cap_0") (str "c")])%string.
  eexists _, _. split; [vm_compute; reflexivity|]. split.
  - repeat constructor; vm_compute; intuition discriminate.
  - intros H. vm_compute in H. apply NoDup_cons_iff in H as (H & _). apply H. right. now left.
Qed.
Print Assumptions C41_leaf_clash_refuted.

(** Such clashes are the only ones: leaves whose names are not variants of a module stay distinct. *)
Theorem C41_no_leaf_clash p p' tr :
  change_names p = Some (p', tr) -> NoDup (map rm_cn (rp_mods p)) ->
  (forall l m k, In l (rp_leaves p) -> In m (rp_mods p) -> 0 <= k -> rl_cn l <> variant (rm_an m) k) ->
  forall l m, In l (rp_leaves p') -> In m (rp_mods p') -> rl_cn l <> rm_cn m.
Proof.
  intros H Hnd Hl l m' Hin Hm'. pose proof (change_ok p p' tr H Hnd) as R. pose proof (change_refs p p' tr H) as F.
  destruct (rn_range _ _ R m' Hm') as (k & Hk & ->).
  assert (exists m, In (m, m') (combine (rp_mods p) (rp_mods p'))) as (m & Hp).
  { pose proof (rn_length _ _ R) as HL. clear -Hm' HL. revert Hm' HL. generalize (rp_mods p). induction (rp_mods p') as [|x l IH]; intros [|y q]; simpl; try easy.
    intros [->|Hi] HL; [exists y; now left|]. destruct (IH q Hi) as (m & Hm); [congruence|]. exists m. now right. }
  rewrite (rn_an _ _ R m m' Hp). apply (in_map rl_cn) in Hin. rewrite (proj1 (rf_leaves _ _ F)) in Hin.
  apply in_map_iff in Hin as (l0 & <- & Hl0). apply Hl; [exact Hl0| |lia]. now apply in_combine_l in Hp.
Qed.
Print Assumptions C41_no_leaf_clash.

(** Finding: with two modules of the same concrete name the numbering starts at 1 and the names collide. *)
Theorem C41_duplicate_refuted : exists p p' tr,
  change_names p = Some (p', tr) /\ map rm_cn (rp_mods p') = [str "a_1"; str "a_1"].
Proof. exists (mkRpl [rm "a" "a_0" []; rm "a" "a_0" []] [])%string. eexists _, _. split; vm_compute; reflexivity. Qed.
Print Assumptions C41_duplicate_refuted.
