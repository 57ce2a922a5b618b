(** C18: the top-down and the bottom-up wire length agree. *)
From Coq Require Import String ZifyBool.
From Verif Require Import Base.Prelude Base.PyDict Model.Transformation Model.Topo Model.Hpwl Spec.Geometry Spec.TopoSpec Spec.HpwlSpec Proofs.SemiP Proofs.HpwlP.
Local Open Scope Z_scope.

(** For every well-formed placed hierarchy without name clashes and with enough recursion depth,
    both computations succeed and return the same number. *)
Theorem C18_agree P top skip : hier_ok P -> no_clash P -> In top (map md_name (pv_mods P)) ->
  exists n0, forall n, (n0 <= n)%nat -> exists nets v,
    gen_netlist n P top = Some nets /\ top_down P top nets skip = Some v /\ bottom_up n P top skip = Some v.
Proof.
  intros HO NC Ht. apply in_map_iff in Ht as (m & <- & Hm). destruct (ho_acyclic P HO) as (rank & HR).
  exists (Datatypes.S (Nat.max (rank (md_name m)) (List.length (pv_mods P)))). intros n Hn.
  destruct (top_down_sum P HO rank HR m n skip Hm) as (nets & E1 & K1 & N1 & A1 & B1 & T1); [lia|].
  destruct (bottom_up_sum P HO rank HR NC m n skip Hm) as (K2 & N2 & A2 & B2 & T2); [lia|].
  exists nets, (zsum (len P rank m) K1). split; [exact E1|]. split; [exact T1|]. rewrite T2. f_equal.
  apply zsum_cover; [assumption..|]. intros k Hk. split; intros Hin; [apply B1|apply B2]; auto.
Qed.

(** Two levels, a mirrored instance, a hidden net, a parameter and a global. *)
Definition c18_P : pvd := (mkPvd
  [mkMod "top" ["o"]
     [mkInst "u0" "sub" (mkTr 0 0 1 1) [("x", "o"); ("y", "n")]; mkInst "u1" "sub" (mkTr 100 0 (-1) 1) [("x", "n"); ("y", "o")]];
   mkMod "sub" ["x"; "y"]
     [mkInst "a" "cell" (mkTr 0 0 1 1) [("p", "x"); ("q", "h"); ("vdd", "vdd")];
      mkInst "b" "cell" (mkTr 20 30 1 (-1)) [("p", "h"); ("q", "y"); ("vdd", "vdd")]]]
  [mkLeaf "cell" [("p", mkRect 0 0 2 2); ("q", mkRect 8 4 10 6); ("vdd", mkRect 0 8 10 10)]]
  ["vdd"])%string.

Example C18_nonvacuous : hier_ok c18_P /\ no_clash c18_P /\ In "top"%string (map md_name (pv_mods c18_P)) /\
  (exists nets, gen_netlist 5 c18_P "top" = Some nets /\ top_down c18_P "top" nets false = Some 390 /\ top_down c18_P "top" nets true = Some 276) /\
  bottom_up 5 c18_P "top" false = Some 390 /\ bottom_up 5 c18_P "top" true = Some 276.
Proof.
  assert (HM : forall m, In m (pv_mods c18_P) -> m = nth 0 (pv_mods c18_P) (mkMod "" [] []) \/ m = nth 1 (pv_mods c18_P) (mkMod "" [] [])).
  { intros m [<-|[<-|[]]]; auto. }
  split; [|split; [|split; [left; reflexivity|]]].
  - split.
    + repeat constructor; simpl; intuition discriminate.
    + intros m Hm. destruct (HM m Hm) as [->| ->]; repeat constructor; simpl; intuition discriminate.
    + intros m i Hm Hi. destruct (HM m Hm) as [->| ->]; simpl in Hi; destruct Hi as [<-|[<-|[]]]; repeat constructor; simpl; intuition discriminate.
    + intros lf m [<-|[]] Hm. destruct (HM m Hm) as [->| ->]; discriminate.
    + intros m i m' Hm Hi Hm' E p. destruct (HM m Hm) as [->| ->]; simpl in Hi; destruct Hi as [<-|[<-|[]]]; destruct (HM m' Hm') as [->| ->]; try discriminate; simpl; tauto.
    + intros m i Hm Hi. destruct (HM m Hm) as [->| ->]; simpl in Hi; destruct Hi as [<-|[<-|[]]]; unfold unit_tr; simpl; auto.
    + exists (fun s => if String.eqb s "top" then 2%nat else if String.eqb s "sub" then 1%nat else 0%nat).
      intros m i Hm Hi. destruct (HM m Hm) as [->| ->]; simpl in Hi; destruct Hi as [<-|[<-|[]]]; vm_compute; lia.
  - split.
    + intros m i f a Hm Hi Hf [<-|[]]. destruct (HM m Hm) as [->| ->]; simpl in Hi; destruct Hi as [<-|[<-|[]]]; simpl in Hf; intuition congruence.
    + intros m i lf t r Hm Hi [<-|[]] E Ht [<-|[]]. destruct (HM m Hm) as [->| ->]; simpl in Hi; destruct Hi as [<-|[<-|[]]]; simpl in *; try discriminate; tauto.
  - split; [|split; vm_compute; reflexivity]. eexists. split; [vm_compute; reflexivity|]. split; vm_compute; reflexivity.
Qed.

(** Without [no_clash] the two differ: a formal named like a global but tied to another net. *)
Theorem C18_clash_refuted : exists P, hier_ok P /\ ~ no_clash P /\
  exists nets v1 v2, gen_netlist 5 P "top" = Some nets /\ top_down P "top" nets false = Some v1 /\ bottom_up 5 P "top" false = Some v2 /\ v1 <> v2.
Proof.
  exists (mkPvd [mkMod "top" [] [mkInst "u" "cell" (mkTr 0 0 1 1) [("vdd", "n"); ("p", "n")]]]
                [mkLeaf "cell" [("p", mkRect 0 0 2 2); ("vdd", mkRect 0 8 10 10)]] ["vdd"])%string.
  split; [|split].
  - split; simpl.
    + repeat constructor. tauto.
    + intros m [<-|[]]. repeat constructor. simpl. tauto.
    + intros m i [<-|[]] [<-|[]]. simpl. repeat constructor; simpl; intuition discriminate.
    + intros lf m [<-|[]] [<-|[]]. discriminate.
    + intros m i m' [<-|[]] [<-|[]] [<-|[]]. discriminate.
    + intros m i [<-|[]] [<-|[]]. unfold unit_tr. simpl. auto.
    + exists (fun s => if String.eqb s "top" then 1%nat else 0%nat). intros m i [<-|[]] [<-|[]]. vm_compute. lia.
  - intros [H _]. specialize (H _ _ "vdd" "n" (or_introl eq_refl) (or_introl eq_refl) (or_introl eq_refl) (or_introl eq_refl))%string. discriminate.
  - eexists _, _, _. split; [vm_compute; reflexivity|]. split; [vm_compute; reflexivity|]. split; [vm_compute; reflexivity|]. discriminate.
Qed.

Print Assumptions C18_agree.
Print Assumptions C18_clash_refuted.
