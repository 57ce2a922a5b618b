(** C30: removing power pins preserves connectivity. *)
From Coq Require Import String Ascii.
From Verif Require Import Base.Prelude Base.PyDict Base.PyStr Model.Transformation Model.Topo Model.Hpwl
  Model.ManipHier Spec.ManipHierSpec Proofs.ManipHierP.

(** For every acyclic design in which no module is used with two different supplies on the same
    ports and no port captures a global's name, the pass succeeds and the flat netlist is the same,
    pin for pin and in the same order. *)
Theorem C30_connectivity S top G rank fuel :
  well_formed S top rank -> one_supply S top G -> no_capture S top G -> rank top < fuel ->
  exists S', manipulate fuel S top G = Some S' /\ forall d, flat d S' G top [] [] = flat d S G top [] [].
Proof. intros. now apply (manipulate_ok S top G rank). Qed.
Print Assumptions C30_connectivity.

Definition inst (n c : string) (fa : list (string * string)) := mkInst n c (mkTr 0 0 1 1) fa.

(** An inverter, used twice in a buffer, used twice at the top. *)
Definition ex_inv := (mkMod "inv" ["a"; "y"; "vp"; "vn"]
  [inst "mp" "pmos" [("G", "a"); ("D", "y"); ("S", "vp")]; inst "mn" "nmos" [("G", "a"); ("D", "y"); ("S", "vn")]])%string.
Definition ex_buf := (mkMod "buf" ["i"; "o"; "vp"; "vn"]
  [inst "u1" "inv" [("a", "i"); ("y", "n"); ("vp", "vp"); ("vn", "vn")];
   inst "u2" "inv" [("a", "n"); ("y", "o"); ("vp", "vp"); ("vn", "vn")]])%string.
Definition ex_top := (mkMod "top" ["p"; "q"; "VDD"; "VSS"]
  [inst "b1" "buf" [("i", "p"); ("o", "m"); ("vp", "VDD"); ("vn", "VSS")];
   inst "b2" "buf" [("i", "m"); ("o", "q"); ("vp", "VDD"); ("vn", "VSS")]])%string.
Definition ex_S := [ex_inv; ex_buf; ex_top].
Definition ex_G := ["VDD"; "VSS"]%string.
Definition ex_rank (n : string) : nat := (if String.eqb n "top" then 2 else if String.eqb n "buf" then 1 else 0)%string.

Ltac fin := simpl in *; repeat (match goal with
  | H : _ \/ _ |- _ => destruct H
  | H : False |- _ => destruct H
  end; subst; simpl in *).

Lemma ex_sup X P : supplied ex_S "top" ex_G X P ->
  (X = "top"%string /\ forall f, P f = if existsb (String.eqb f) ex_G then Some f else None) \/
  ((X = "buf" \/ X = "inv")%string /\ forall f, P f = (if String.eqb f "vp" then Some "VDD" else if String.eqb f "vn" then Some "VSS" else None)%string).
Proof.
  induction 1 as [|X P m i m' H IH Hm Hi Hm']; [left; now split|right].
  destruct IH as [(-> & IH)|([->| ->] & IH)]; vm_compute in Hm; injection Hm as <-; simpl in Hi; fin; try discriminate;
    (split; [auto|]); intros f; simpl;
    repeat (match goal with |- context [String.eqb f ?x] => destruct (String.eqb_spec f x) end; subst; simpl; try rewrite IH; try reflexivity; try discriminate).
Qed.

(** ([inv] is left over: one clean-up pass looks at modules that it removes itself.) *)
Example C30_nonvacuous :
  well_formed ex_S "top" ex_rank /\ one_supply ex_S "top" ex_G /\ no_capture ex_S "top" ex_G /\
  List.length (flat 5 ex_S ex_G "top" [] []) = 24 /\
  match manipulate 3 ex_S "top" ex_G with
  | Some S' => map md_name S' = ["inv"; "top"; "buf_PG0"; "inv_PG0"]%string /\
                map md_params S' = [["a"; "y"; "vp"; "vn"]; ["p"; "q"]; ["i"; "o"]; ["a"; "y"]]%string
  | None => False
  end.
Proof.
  split; [|split; [|split; [|split; [reflexivity|vm_compute; now split]]]].
  - split.
    + repeat constructor; simpl; intuition discriminate.
    + eexists. reflexivity.
    + intros m i Hm Hi. simpl in Hm. fin; discriminate.
    + intros m i Hm Hi. simpl in Hm. fin; intros Hn; vm_compute in Hn; fin; try discriminate; vm_compute; lia.
    + intros m i Hm Hi. simpl in Hm. fin; repeat constructor; simpl; intuition discriminate.
    + intros m i m' Hm Hi Hm'. simpl in Hm. fin; vm_compute in Hm'; try discriminate; injection Hm' as <-; intros x Hx; simpl in *; tauto.
    + intros m X k Hm HX. simpl in Hm, HX. fin; (split; [discriminate|]); intros i Hi; fin; discriminate.
  - intros X P Q HP HQ _ f. apply ex_sup in HP, HQ. destruct HP as [(-> & HP)|(HX & HP)], HQ as [(HX' & HQ)|(HX' & HQ)]; rewrite HP, HQ; try reflexivity; subst;
    exfalso; intuition discriminate.
  - intros X P m f g HP Hm Hf Hg. apply ex_sup in HP. destruct HP as [(-> & HP)|(HX & HP)]; rewrite HP in *.
    + destruct (existsb _ ex_G) eqn:E in Hf; [|discriminate]. injection Hf as <-. now rewrite E.
    + exfalso. assert (g = "VDD" \/ g = "VSS")%string by (destruct (String.eqb f "vp"); [left; congruence|destruct (String.eqb f "vn"); [right; congruence|discriminate]]).
      destruct HX as [->| ->]; vm_compute in Hm; injection Hm as <-; simpl in Hg; fin; intuition discriminate.
Qed.

(** Finding: two instances of one module on different supplies share one copy, because copies are
    told apart by their remaining ports only; the second instance is moved to the first one's supply. *)
Theorem C30_two_supplies_refuted : exists S top G S',
  manipulate 3 S top G = Some S' /\
  In (["b"; "mp"], "pmos", "S", Glob "VDDH")%string (flat 3 S G top [] []) /\
  In (["b"; "mp"], "pmos", "S", Glob "VDD")%string (flat 3 S' G top [] []) /\
  ~ In (["b"; "mp"], "pmos", "S", Glob "VDDH")%string (flat 3 S' G top [] []).
Proof.
  exists (ex_inv :: [mkMod "top" ["p"]
    [inst "a" "inv" [("a", "p"); ("y", "m"); ("vp", "VDD"); ("vn", "VSS")];
     inst "b" "inv" [("a", "m"); ("y", "q"); ("vp", "VDDH"); ("vn", "VSS")]]])%string, "top"%string, (["VDD"; "VDDH"; "VSS"])%string.
  eexists. split; [vm_compute; reflexivity|]. vm_compute. split; [tauto|]. split; [tauto|]. intuition discriminate.
Qed.
Print Assumptions C30_two_supplies_refuted.

(** Finding: a port named like a global but tied to a signal captures the supply of another port. *)
Theorem C30_capture_refuted : exists S top G S',
  manipulate 3 S top G = Some S' /\
  flat 3 S G top [] [] = [(["a"; "m"], "pmos", "S", Glob "VDD"); (["a"; "m"], "pmos", "G", Local [] "sig")]%string /\
  flat 3 S' G top [] [] = [(["a"; "m"], "pmos", "S", Local [] "sig"); (["a"; "m"], "pmos", "G", Local [] "sig")]%string.
Proof.
  exists [mkMod "cell" ["vp"; "VDD"] [inst "m" "pmos" [("S", "vp"); ("G", "VDD")]];
          mkMod "top" [] [inst "a" "cell" [("vp", "VDD"); ("VDD", "sig")]]]%string, "top"%string, ["VDD"]%string.
  eexists. split; [vm_compute; reflexivity|]. now vm_compute.
Qed.
Print Assumptions C30_capture_refuted.

(** Finding: a cell whose supply ports are crossed and which is used twice has its leaf pins
    swapped a second time when the copy is reused. *)
Theorem C30_crossed_refuted : exists S top G S',
  manipulate 3 S top G = Some S' /\
  In (["a"; "m"], "pmos", "S", Glob "VSS")%string (flat 3 S G top [] []) /\
  ~ In (["a"; "m"], "pmos", "S", Glob "VSS")%string (flat 3 S' G top [] []).
Proof.
  exists [mkMod "cell" ["VDD"; "VSS"] [inst "m" "pmos" [("S", "VDD"); ("B", "VSS")]];
          mkMod "top" [] [inst "a" "cell" [("VDD", "VSS"); ("VSS", "VDD")]; inst "b" "cell" [("VDD", "VSS"); ("VSS", "VDD")]]]%string,
         "top"%string, ["VDD"; "VSS"]%string.
  eexists. split; [vm_compute; reflexivity|]. vm_compute. split; [tauto|]. intuition discriminate.
Qed.
Print Assumptions C30_crossed_refuted.

(** Finding: a module that already has the name of a copy and the same ports is used in its place. *)
Theorem C30_name_clash_refuted : exists S top G S',
  manipulate 3 S top G = Some S' /\
  flat 3 S G top [] [] = [(["a"; "m"], "pmos", "S", Glob "VDD"); (["b"; "r"], "res", "P", Local [] "x")]%string /\
  flat 3 S' G top [] [] = [(["a"; "r"], "res", "P", Local ["a"] "x"); (["b"; "r"], "res", "P", Local [] "x")]%string.
Proof.
  exists [mkMod "cell" ["x"; "vp"] [inst "m" "pmos" [("S", "vp")]]; mkMod "cell_PG0" ["x"] [inst "r" "res" [("P", "x")]];
          mkMod "top" [] [inst "a" "cell" [("vp", "VDD")]; inst "b" "cell_PG0" [("x", "x")]]]%string, "top"%string, ["VDD"]%string.
  eexists. split; [vm_compute; reflexivity|]. now vm_compute.
Qed.
Print Assumptions C30_name_clash_refuted.
