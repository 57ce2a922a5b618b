(** C35: removing single-instance hierarchies (align/compiler/preprocess.py:60-144). *)
From Coq Require Import String.
From Verif Require Import Base.Prelude Base.PyDict Model.RemoveDuplicates Model.Canvas Model.Netlist Model.Hier Spec.HierSpec Proofs.HierP Proofs.FindDummyP.

(** The traversal ends whatever the order, and only the order of the children may vary. *)
Theorem C35_ends L c d p : acyclic L -> In (Sub c) L -> lists_children L c d p -> exists d1, visits L p d d1.
Proof. intros A Hc. exact (visit_total_any L A c Hc d p). Qed.

(** Exactly the single-instance hierarchies of the design are listed. *)
Theorem C35_listed L top l : NoDup (map cell_name L) -> lfind L (sb_name top) = Some (Sub top) -> visit L top [] l ->
  forall n, In n l <-> exists s, sb_name s = n /\ reaches L top s /\ length (sb_elems s) = 1%nat.
Proof.
  intros N Ht V n. split.
  - intros Hn. destruct (proj1 (visit_sound_all L) _ _ _ V) as (new & E & H). simpl in E. subst l. exact (H n Hn).
  - intros (s & <- & Hr & H1). refine (proj2 (proj1 (visit_complete_all L N) _ _ _ V Ht _) s Hr H1). intros [|? ?] m l2 ? ? E; discriminate.
Qed.
(** A hierarchy is listed after those below it. *)
Theorem C35_order L top l : NoDup (map cell_name L) -> lfind L (sb_name top) = Some (Sub top) -> visit L top [] l ->
  forall l1 s l2 t, l = l1 ++ sb_name s :: l2 -> lfind L (sb_name s) = Some (Sub s) -> below L s t -> length (sb_elems t) = 1%nat -> In (sb_name t) l1.
Proof.
  intros N Ht V l1 s l2 t E Hs Hb H1. refine (proj1 (proj1 (visit_complete_all L N) _ _ _ V Ht _) l1 (sb_name s) l2 s t E Hs Hb H1). intros [|? ?] m l3 ? ? E'; discriminate.
Qed.
(** No hierarchy is listed twice when no subcircuit instantiates both a single-instance
    hierarchy and something above it. *)
Theorem C35_once L top l : acyclic L -> apart L -> lfind L (sb_name top) = Some (Sub top) -> visit L top [] l -> NoDup l.
Proof. intros A P Ht V. exact (proj1 (visit_nodup_all L A P) _ _ _ V Ht (NoDup_nil _) (or_introl (fun H => H))). Qed.

(** Removal completes and leaves the flat netlist of every remaining subcircuit as it was. *)
Theorem C35_removed L dhs top : well_formed L -> params_nodup L -> acyclic L -> NoDup dhs -> (forall n, In n dhs -> n <> top -> transparent L n) ->
  exists L', remove_dummies L dhs top = Some L' /\ (~ In top dhs -> forall n, In n dhs -> lfind L' n = None) /\
    forall n c, n = top \/ ~ In n dhs -> lfind L n = Some (Sub c) -> exists c', lfind L' n = Some (Sub c') /\ sb_pins c' = sb_pins c /\ sb_params c' = sb_params c /\ same_flat L c L' c'.
Proof. intros W P A N T. destruct (loop_ok dhs L top W P A N T) as (L' & H & K1 & K2 & _). exists L'. auto. Qed.

(** The two together, for every order of traversal. *)
Theorem C35_completes L top l : well_formed L -> params_nodup L -> acyclic L -> apart L -> lfind L (sb_name top) = Some (Sub top) ->
  (forall s, below L top s -> length (sb_elems s) = 1%nat -> transparent L (sb_name s)) ->
  visit L top [] l ->
  exists L' top', remove_dummies L l (sb_name top) = Some L' /\ lfind L' (sb_name top) = Some (Sub top') /\ sb_pins top' = sb_pins top /\ same_flat L top L' top'.
Proof.
  intros W P A Q Ht T V. destruct (loop_ok l L (sb_name top) W P A (C35_once L top l A Q Ht V)) as (L' & H & _ & K & _).
  - intros n Hn Hne. apply (C35_listed L top l (proj1 W) Ht V) in Hn as (s & <- & [->|Hb] & H1); [congruence|exact (T s Hb H1)].
  - destruct (K (sb_name top) top (or_introl eq_refl) Ht) as (t' & K1 & K2 & _ & K3). exists L', t'. auto.
Qed.

(** When the top instantiates a single-instance hierarchy and also something above it, some
    order of traversal lists the hierarchy twice, and removal then fails. *)
Theorem C35_twice_refuted L top s1 s2 : well_formed L -> acyclic L -> lfind L (sb_name top) = Some (Sub top) ->
  instantiates L top (sb_name s1) -> instantiates L top (sb_name s2) -> lfind L (sb_name s1) = Some (Sub s1) -> lfind L (sb_name s2) = Some (Sub s2) -> length (sb_elems s2) = 1%nat -> below L s1 s2 ->
  exists l, visit L top [] l /\ ~ NoDup l /\ remove_dummies L l (sb_name top) = None.
Proof.
  intros W A Ht (e1 & He1 & E1) (e2 & He2 & E2) F1 F2 H1 Hb. pose proof (proj1 (lfind_in _ _ _ Ht)) as HtL. pose proof (proj1 (lfind_in _ _ _ F1)) as HL1. pose proof (proj1 (lfind_in _ _ _ F2)) as HL2.
  assert (Hrank := A). destruct Hrank as (rank & Hrank).
  assert (Hne : sb_name s1 <> sb_name s2) by (intros E; pose proof (rank_below L rank s1 s2 Hrank HL1 Hb); rewrite E in *; lia).
  assert (C1 : In (sb_name s1) (children L top [])) by (apply (proj2 (children_ok L top [])); split; [exists e1; split; [assumption|split; [assumption|apply is_sub_iff; eauto]]|intros []]).
  assert (C2 : In (sb_name s2) (children L top [])) by (apply (proj2 (children_ok L top [])); split; [exists e2; split; [assumption|split; [assumption|apply is_sub_iff; eauto]]|intros []]).
  apply in_split in C1 as (a & b & EC). assert (C3 : In (sb_name s2) (a ++ b)) by (rewrite EC in C2; apply in_app_iff in C2 as [C2|[C2|C2]]; [apply in_app_iff; now left|contradiction|apply in_app_iff; now right]).
  apply in_split in C3 as (a' & b' & EC'). set (p := sb_name s1 :: sb_name s2 :: a' ++ b').
  assert (PP : Permutation (children L top []) p) by (rewrite EC; unfold p; rewrite <- Permutation_middle, EC', <- Permutation_middle; reflexivity).
  assert (Hp : lists_children L top [] p) by exact (lists_children_perm _ _ _ _ _ (children_ok L top []) PP).
  destruct (visit_exists L s1 [] A HL1) as (d1 & V1). destruct (visit_total_any L A s2 HL2 d1 _ (children_ok L s2 d1)) as (d2 & V2).
  assert (V2' : visit L s2 d1 (d2 ++ [sb_name s2])). { pose proof (visit_intro L s2 d1 _ d2 (children_ok L s2 d1) V2) as K. rewrite (proj2 (single_iff s2) H1) in K. exact K. }
  assert (Hrest : forall m, In m (a' ++ b') -> exists s, lfind L m = Some (Sub s) /\ forall d, exists d', visit L s d d').
  { intros m Hm. assert (Hm' : In m p) by (right; right; exact Hm). apply (proj2 Hp) in Hm' as ((e & _ & _ & Hs) & _). apply is_sub_iff in Hs as (s & Hs). exists s. split; [assumption|]. intros d. exact (visit_exists L s d A (proj1 (lfind_in _ _ _ Hs))). }
  destruct (visits_total L (a' ++ b') Hrest (d2 ++ [sb_name s2])) as (d3 & V3).
  assert (VV : visits L p [] d3) by exact (visits_cons L _ s1 _ [] d1 d3 F1 V1 (visits_cons L _ s2 _ d1 _ d3 F2 V2' V3)).
  assert (D : ~ NoDup d3).
  { assert (I1 : In (sb_name s2) d1) by (refine (proj2 (proj1 (visit_complete_all L (proj1 W)) _ _ _ V1 F1 _) s2 (or_intror Hb) H1); intros [|? ?] m l2 ? ? E; discriminate).
    destruct (proj2 (visit_sound_all L) _ _ _ V2) as (n2 & -> & _). destruct (proj2 (visit_sound_all L) _ _ _ V3) as (n3 & -> & _). intros N. apply in_split in I1 as (u & v & ->).
    rewrite <- !app_assoc in N. cbn [app] in N. apply NoDup_remove_2 in N. apply N. rewrite !in_app_iff. right. right. right. now left. }
  assert (T : ~ In (sb_name top) d3).
  { intros H. destruct (proj2 (visit_sound_all L) _ _ _ VV) as (n & E & Hn). simpl in E. subst n. destruct (Hn _ H) as (m & s & t & Hm & Hs & En & Hr & _). apply (proj2 Hp) in Hm as ((e & He & Em & _) & _).
    assert (Hbt : below L top t) by (apply (below_step L top s t m); [exists e; auto|assumption|assumption]). pose proof (rank_below L rank top t Hrank HtL Hbt). rewrite En in *. lia. }
  eexists. split; [exact (visit_intro L top [] p d3 Hp VV)|]. destruct (single top).
  - split; [|exact (remove_twice d3 L [sb_name top] (sb_name top) T D)]. intros N. apply D. clear - N. induction d3 as [|x d IH]; [constructor|]. inversion N as [|? ? N1 N2]; subst. constructor; [|apply IH; assumption]. intros H. apply N1. apply in_app_iff. now left.
  - split; [assumption|]. rewrite <- (app_nil_r d3). exact (remove_twice d3 L [] (sb_name top) T D).
Qed.

Print Assumptions C35_ends.
Print Assumptions C35_listed.
Print Assumptions C35_order.
Print Assumptions C35_once.
Print Assumptions C35_removed.
Print Assumptions C35_completes.
Print Assumptions C35_twice_refuted.

(** * Concrete libraries *)

Local Open Scope string_scope.
Definition nmos := (mkLeaf "NMOS" ["D"; "G"; "S"] [("W", "0")] "")%string.
Definition cap := (mkLeaf "CAP" ["PLUS"; "MINUS"] [("VALUE", "0")] "C")%string.
Definition buf := mkSub "BUF" ["A"; "Y"; "Z"] [("W", "1")] [mkElem "M1" "NMOS" [("D", "Y"); ("G", "A"); ("S", "Z")] [("W", "4")]].
Definition mid := mkSub "MID" ["P"; "Q"; "R"] [("W", "1")] [mkElem "X1" "BUF" [("A", "P"); ("Y", "Q"); ("Z", "R")] [("W", "4")]].
Definition tp := mkSub "TOP" ["IN"; "OUT"] [] [mkElem "X1" "MID" [("P", "IN"); ("Q", "N1"); ("R", "OUT")] [("W", "4")]; mkElem "X2" "MID" [("P", "N1"); ("Q", "OUT"); ("R", "OUT")] [("W", "4")]; mkElem "M3" "NMOS" [("D", "N1"); ("G", "IN"); ("S", "OUT")] [("W", "7")]].
Definition lib1 : lib := [Prim nmos; Prim cap; Sub buf; Sub mid; Sub tp].
(** The top instantiates MID and BUF. *)
Definition tp2 := mkSub "TOP" ["IN"; "OUT"] [] [mkElem "X1" "MID" [("P", "IN"); ("Q", "N1"); ("R", "OUT")] [("W", "4")]; mkElem "X2" "BUF" [("A", "N1"); ("Y", "OUT"); ("Z", "OUT")] [("W", "4")]].
Definition lib2 : lib := [Prim nmos; Sub buf; Sub mid; Sub tp2].

Ltac in_lib H := simpl in H; repeat (destruct H as [H|H]; [first [discriminate H | injection H as <-; idtac]|]); try contradiction.

Definition rk (n : string) : nat := if String.eqb n "TOP" then 3 else if String.eqb n "MID" then 2 else 1.
Example C35_nonvacuous :
  well_formed lib1 /\ params_nodup lib1 /\ acyclic lib1 /\ apart lib1 /\ lfind lib1 (sb_name tp) = Some (Sub tp) /\
  (forall s, below lib1 tp s -> length (sb_elems s) = 1%nat -> transparent lib1 (sb_name s)) /\
  visit lib1 tp [] ["BUF"; "MID"] /\
  remove_dummies lib1 ["BUF"; "MID"] "TOP" = Some [Prim nmos; Prim cap; Sub (mkSub "TOP" ["IN"; "OUT"] []
    [mkElem "M3" "NMOS" [("D", "N1"); ("G", "IN"); ("S", "OUT")] [("W", "7")];
     mkElem "X1" "NMOS" [("D", "N1"); ("G", "IN"); ("S", "OUT")] [("W", "4")];
     mkElem "X2" "NMOS" [("D", "OUT"); ("G", "N1"); ("S", "OUT")] [("W", "4")]])].
Proof.
  assert (ND : NoDup (map cell_name lib1)) by (simpl; repeat constructor; simpl; intuition discriminate).
  assert (B : forall c s, In (Sub c) lib1 -> below lib1 c s -> (c = mid /\ s = buf) \/ (c = tp /\ (s = mid \/ s = buf))).
  { intros c s Hc Hb. induction Hb as [c s m (e & He & Em) Hf|c s t m (e & He & Em) Hf Hb IH].
    - in_lib Hc; simpl in He; repeat (destruct He as [He|He]; [subst e; simpl in Em; subst m; simpl in Hf; try discriminate; injection Hf as <-; auto|]); contradiction.
    - specialize (IH (proj1 (lfind_in _ _ _ Hf))). in_lib Hc; simpl in He; repeat (destruct He as [He|He]; [subst e; simpl in Em; subst m; simpl in Hf; try discriminate; injection Hf as <-; intuition (try discriminate; subst; auto)|]); contradiction. }
  split; [|split; [|split; [|split; [|split; [|split; [|split]]]]]].
  - split; [assumption|]. intros c Hc. in_lib Hc; (split; [simpl; repeat constructor; simpl; intuition discriminate|]; intros e He; simpl in He; repeat (destruct He as [He|He]; [subst e; split; [simpl; repeat constructor; simpl; intuition discriminate|]; eexists; split; [reflexivity|]; split; [intros p; simpl; tauto|reflexivity]|]); contradiction).
  - intros c Hc. simpl in Hc. repeat (destruct Hc as [<-|Hc]; [simpl; repeat constructor; simpl; intuition discriminate|]). contradiction.
  - exists rk. intros c s m Hc (e & He & Em) Hf. in_lib Hc; simpl in He; repeat (destruct He as [He|He]; [subst e; simpl in Em; subst m; simpl in Hf; try discriminate; injection Hf as <-; vm_compute; lia|]); contradiction.
  - intros c s1 s2 Hc (e1 & He1 & E1) (e2 & He2 & E2) F1 F2 H1 Hb. destruct (B s1 s2 (proj1 (lfind_in _ _ _ F1)) Hb) as [(-> & ->)|(-> & _)].
    + in_lib Hc; simpl in He1, He2; repeat (destruct He2 as [He2|He2]; [subst e2; simpl in E2; try discriminate|]); try contradiction; repeat (destruct He1 as [He1|He1]; [subst e1; simpl in E1; try discriminate|]); contradiction.
    + in_lib Hc; simpl in He1; repeat (destruct He1 as [He1|He1]; [subst e1; simpl in E1; try discriminate|]); contradiction.
  - reflexivity.
  - intros s Hb _. assert (Htp : In (Sub tp) lib1) by (simpl; auto 6).
    assert (I : forall n z, inside lib1 n z -> n = "BUF" /\ z = mkElem "M1" "NMOS" [("D", "Y"); ("G", "A"); ("S", "Z")] [("W", "4")] \/ n = "MID" /\ (z = mkElem "M1" "NMOS" [("D", "Y"); ("G", "A"); ("S", "Z")] [("W", "4")] \/ z = mkElem "X1" "BUF" [("A", "P"); ("Y", "Q"); ("Z", "R")] [("W", "4")])).
    { intros n z Hi. induction Hi as [n c y Hf H1|n c y z Hf H1 Hi IH]; pose proof (lfind_in _ _ _ Hf) as (Hc & En); simpl in En; in_lib Hc; try discriminate; simpl in H1; injection H1 as <-; simpl in En; subst n; simpl in *; intuition (try discriminate; subst; auto). }
    destruct (B tp s Htp Hb) as [(H & _)|(_ & [->| ->])]; [discriminate| |]; (split; [do 2 eexists; split; [reflexivity|]; split; [reflexivity|]; simpl; intuition congruence|]);
      intros o e z Ho He Em Hz; apply I in Hz as [(Hz & ->)|(Hz & Hz')]; try discriminate; in_lib Ho; simpl in He; repeat (destruct He as [He|He]; [subst e; simpl in Em; try discriminate|]); try contradiction; try (destruct Hz' as [-> | ->]);
      (split; [intros k v [Hk|[]] _; injection Hk as <- <-; reflexivity|intros m Hm; simpl in Hm; injection Hm as <-; reflexivity]).
  - apply (visit_intro lib1 tp [] ["MID"] ["BUF"; "MID"]).
    + exact (children_ok lib1 tp []).
    + apply (visits_cons lib1 "MID" mid [] [] ["BUF"; "MID"]); [reflexivity| |constructor]. apply (visit_intro lib1 mid [] ["BUF"] ["BUF"]); [exact (children_ok lib1 mid [])|].
      apply (visits_cons lib1 "BUF" buf [] [] ["BUF"]); [reflexivity| |constructor]. apply (visit_intro lib1 buf [] [] []); [exact (children_ok lib1 buf [])|constructor].
  - reflexivity.
Qed.
(** [lib2] meets the hypotheses of [C35_twice_refuted]: one order lists BUF twice. *)
Example C35_twice_nonvacuous : visit lib2 tp2 [] ["BUF"; "MID"; "BUF"] /\ remove_dummies lib2 ["BUF"; "MID"; "BUF"] "TOP" = None /\ visit lib2 tp2 [] ["BUF"; "MID"] /\ remove_dummies lib2 ["BUF"; "MID"] "TOP" <> None.
Proof.
  assert (V : forall d, visit lib2 buf d (d ++ ["BUF"])) by (intros d; apply (visit_intro lib2 buf d [] d); [exact (children_ok lib2 buf d)|constructor]).
  split; [|split; [reflexivity|split; [|discriminate]]].
  - apply (visit_intro lib2 tp2 [] ["MID"; "BUF"] ["BUF"; "MID"; "BUF"]); [exact (children_ok lib2 tp2 [])|]. apply (visits_cons lib2 "MID" mid ["BUF"] [] ["BUF"; "MID"]); [reflexivity| |].
    + apply (visit_intro lib2 mid [] ["BUF"] ["BUF"]); [exact (children_ok lib2 mid [])|]. apply (visits_cons lib2 "BUF" buf [] [] ["BUF"]); [reflexivity|exact (V [])|constructor].
    + apply (visits_cons lib2 "BUF" buf [] _ ["BUF"; "MID"; "BUF"]); [reflexivity|exact (V ["BUF"; "MID"])|constructor].
  - apply (visit_intro lib2 tp2 [] ["BUF"; "MID"] ["BUF"; "MID"]); [apply (lists_children_perm lib2 tp2 [] ["MID"; "BUF"]); [exact (children_ok lib2 tp2 [])|apply perm_swap]|]. apply (visits_cons lib2 "BUF" buf ["MID"] [] ["BUF"]); [reflexivity|exact (V [])|].
    apply (visits_cons lib2 "MID" mid [] _ ["BUF"; "MID"]); [reflexivity| |constructor]. apply (visit_intro lib2 mid ["BUF"] [] ["BUF"]); [exact (children_ok lib2 mid ["BUF"])|constructor].
Qed.

(** The hypothesis [transparent] is needed: a net of the inner element that is no port (KeyError),
    a capacitor behind an instance named X1 (validation error), a parameter that the inner
    element computes from the hierarchy's parameter of the same name (another width). *)
Theorem C35_fails_refuted :
  (exists L dh top, well_formed L /\ acyclic L /\ lfind L dh <> None /\ (exists c y, lfind L dh = Some (Sub c) /\ sb_elems c = [y] /\ (forall o e, In (Sub o) L -> In e (sb_elems o) -> e_model e = dh -> agree e y /\ may_name L e y)) /\ remove_dummies L [dh] top = None) /\
  (exists L dh top, well_formed L /\ acyclic L /\ (exists c y, lfind L dh = Some (Sub c) /\ sb_elems c = [y] /\ (forall p v, In (p, v) (e_pins y) -> In v (sb_pins c)) /\ (forall o e, In (Sub o) L -> In e (sb_elems o) -> e_model e = dh -> agree e y)) /\ remove_dummies L [dh] top = None).
Proof.
  split.
  - exists [Prim nmos; Sub (mkSub "HB" ["A"; "Y"] [] [mkElem "M1" "NMOS" [("D", "Y"); ("G", "A"); ("S", "FLOAT")] [("W", "4")]]); Sub (mkSub "TOP" ["I"; "O"] [] [mkElem "X1" "HB" [("A", "I"); ("Y", "O")] []; mkElem "X2" "HB" [("A", "I"); ("Y", "O")] []])], "HB", "TOP".
    split; [|split; [|split; [discriminate|split; [|reflexivity]]]].
    + split; [simpl; repeat constructor; simpl; intuition discriminate|]. intros c Hc. in_lib Hc; (split; [simpl; repeat constructor; simpl; intuition discriminate|]; intros e He; simpl in He; repeat (destruct He as [He|He]; [subst e; split; [simpl; repeat constructor; simpl; intuition discriminate|]; eexists; split; [reflexivity|]; split; [intros p; simpl; tauto|reflexivity]|]); contradiction).
    + exists rk. intros c s m Hc (e & He & Em) Hf. in_lib Hc; simpl in He; repeat (destruct He as [He|He]; [subst e; simpl in Em; subst m; simpl in Hf; try discriminate; injection Hf as <-; vm_compute; lia|]); contradiction.
    + do 2 eexists. split; [reflexivity|]. split; [reflexivity|]. intros o e Ho He Em. in_lib Ho; simpl in He; repeat (destruct He as [He|He]; [subst e; simpl in Em; try discriminate|]); try contradiction; (split; [intros k v []|intros m Hm; simpl in Hm; injection Hm as <-; reflexivity]).
  - exists [Prim cap; Sub (mkSub "HC" ["A"; "Y"] [] [mkElem "C1" "CAP" [("PLUS", "Y"); ("MINUS", "A")] [("VALUE", "4")]]); Sub (mkSub "TOP" ["I"; "O"] [] [mkElem "X1" "HC" [("A", "I"); ("Y", "O")] []; mkElem "X2" "HC" [("A", "I"); ("Y", "O")] []])], "HC", "TOP".
    split; [|split; [|split; [|reflexivity]]].
    + split; [simpl; repeat constructor; simpl; intuition discriminate|]. intros c Hc. in_lib Hc; (split; [simpl; repeat constructor; simpl; intuition discriminate|]; intros e He; simpl in He; repeat (destruct He as [He|He]; [subst e; split; [simpl; repeat constructor; simpl; intuition discriminate|]; eexists; split; [reflexivity|]; split; [intros p; simpl; tauto|reflexivity]|]); contradiction).
    + exists rk. intros c s m Hc (e & He & Em) Hf. in_lib Hc; simpl in He; repeat (destruct He as [He|He]; [subst e; simpl in Em; subst m; simpl in Hf; try discriminate; injection Hf as <-; vm_compute; lia|]); contradiction.
    + do 2 eexists. split; [reflexivity|]. split; [reflexivity|]. split; [simpl; intuition congruence|]. intros o e Ho He Em. in_lib Ho; simpl in He; repeat (destruct He as [He|He]; [subst e; simpl in Em; try discriminate|]); try contradiction; intros k v [].
Qed.
Theorem C35_width_refuted : exists L dh top t t', well_formed L /\ acyclic L /\ lfind L top = Some (Sub t) /\ (exists L', remove_dummies L [dh] top = Some L' /\ lfind L' top = Some (Sub t') /\ ~ same_flat L t L' t').
Proof.
  set (h := mkSub "HB" ["A"; "Y"; "Z"] [("W", "1")] [mkElem "M1" "NMOS" [("D", "Y"); ("G", "A"); ("S", "Z")] [("W", "8")]]).
  set (t := mkSub "TOP" ["I"; "O"] [] [mkElem "X1" "HB" [("A", "I"); ("Y", "O"); ("Z", "O")] [("W", "4")]; mkElem "X2" "HB" [("A", "O"); ("Y", "O"); ("Z", "I")] [("W", "4")]]).
  exists [Prim nmos; Sub h; Sub t], "HB", "TOP", t. eexists. split; [|split; [|split; [reflexivity|]]].
  { split; [simpl; repeat constructor; simpl; intuition discriminate|]. intros c Hc. in_lib Hc; (split; [simpl; repeat constructor; simpl; intuition discriminate|]; intros e He; simpl in He; repeat (destruct He as [He|He]; [subst e; split; [simpl; repeat constructor; simpl; intuition discriminate|]; eexists; split; [reflexivity|]; split; [intros p; simpl; tauto|reflexivity]|]); contradiction). }
  { exists rk. intros c s m Hc (e & He & Em) Hf. in_lib Hc; simpl in He; repeat (destruct He as [He|He]; [subst e; simpl in Em; subst m; simpl in Hf; try discriminate; injection Hf as <-; vm_compute; lia|]); contradiction. }
  eexists. split; [vm_compute; reflexivity|]. split; [vm_compute; reflexivity|]. intros (f & F & _).
  assert (D : device_of [Prim nmos; Sub h; Sub t] t (mkDev ["X1"; "M1"] "NMOS" [("D", Port "O"); ("G", Port "I"); ("S", Port "O")] [("W", "8")])).
  { refine (dev_sub [Prim nmos; Sub h; Sub t] t (mkElem "X1" "HB" [("A", "I"); ("Y", "O"); ("Z", "O")] [("W", "4")]) h (mkDev ["M1"] "NMOS" [("D", Port "Y"); ("G", Port "A"); ("S", Port "Z")] [("W", "8")]) _ (or_introl eq_refl) eq_refl _ _).
    - exact (dev_leaf [Prim nmos; Sub h; Sub t] h (mkElem "M1" "NMOS" [("D", "Y"); ("G", "A"); ("S", "Z")] [("W", "8")]) nmos (or_introl eq_refl) eq_refl).
    - repeat constructor. }
  apply F in D.
  assert (K : forall L c d, device_of L c d -> exists e, In e (sb_elems c) /\ (dv_params d = e_params e \/ exists s, lfind L (e_model e) = Some (Sub s))) by (intros L c d [c0 e l He Hl|c0 e s d0 ps He Hs _ _]; exists e; [auto|eauto]).
  destruct (K _ _ _ D) as (e & He & [E|(s & E)]); simpl in He; destruct He as [He|[He|[]]]; subst e; discriminate E.
Qed.
Print Assumptions C35_fails_refuted.
Print Assumptions C35_width_refuted.
