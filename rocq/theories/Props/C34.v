(** C34: resolution of parameters (create_database.py:28-39, 98-231). *)
From Coq Require Import String Ascii.
From Verif Require Import Base.Prelude Base.PyDict Base.PyStr Model.RemoveDuplicates Model.Canvas Model.Netlist Model.Hier Model.ResolveParams Spec.HierSpec Spec.ParamSpec
  Proofs.HierP Proofs.FindDummyP Proofs.ResolveParamsP.

(** When every subcircuit that passes its parameters on to subcircuits is used with one set of
    values only, resolution succeeds and every device of the flattened design has the parameter
    values obtained along its own path, its model, and its nets. *)
Theorem C34_values L cp t : well_formed L -> params_distinct L -> acyclic L -> (forall n, derived L n -> lfind L n = None) -> literal_globals L cp ->
  lfind L (sb_name t) = Some (Sub t) -> (forall c E1 E2, passes_on L c -> used L cp t c E1 -> used L cp t c E2 -> E1 = E2) ->
  exists fuel0, forall fuel, (fuel0 <= fuel)%nat ->
  exists L' t', read_params fuel cp L (sb_name t) = Some L' /\ lfind L' (sb_name t) = Some (Sub t') /\ forall d, device_of L' t' d <-> valued L cp t (bound t cp) d.
Proof.
  intros W P (rank & R) D G Ht U. exists (Datatypes.S (rank (sb_name t))). intros fuel Hf. exact (read_ok L cp t rank W P R D G U Ht fuel Hf).
Qed.
(** In particular when no subcircuit passes parameters on, however often each is instantiated. *)
Theorem C34_two_levels L cp t : well_formed L -> params_distinct L -> acyclic L -> (forall n, derived L n -> lfind L n = None) -> literal_globals L cp ->
  lfind L (sb_name t) = Some (Sub t) -> (forall c, In (Sub c) L -> ~ passes_on L c) ->
  exists fuel0, forall fuel, (fuel0 <= fuel)%nat ->
  exists L' t', read_params fuel cp L (sb_name t) = Some L' /\ lfind L' (sb_name t) = Some (Sub t') /\ forall d, device_of L' t' d <-> valued L cp t (bound t cp) d.
Proof.
  intros W P A D G Ht N. apply C34_values; auto. intros c E1 E2 Hp Hu _. exfalso. apply (N c); [|assumption].
  clear - Hu Ht. destruct Hu as [|c E e s Hu He Hs]; [exact (proj1 (lfind_in _ _ _ Ht))|exact (proj1 (lfind_in _ _ _ Hs))].
Qed.

(** Names of copies end with a digit. *)
Definition ends_digit (n : string) : bool := match rev (list_ascii_of_string n) with c :: _ => is_digit c | [] => false end.
Lemma derived_digit L n : derived L n -> ends_digit n = true.
Proof.
  intros H. assert (exists m k, n = numbered m k) as (m & k & ->) by (destruct H; eauto). unfold ends_digit, numbered. rewrite !str_app. unfold zstr. rewrite list_ascii_of_string_of_list_ascii.
  destruct (print_Z_form (Z.of_nat k)) as (neg & ds & -> & Hne & Hd). rewrite !rev_app_distr, <- !app_assoc. destruct (rev ds) as [|c r] eqn:E; [apply (f_equal (@rev ascii)) in E; rewrite rev_involutive in E; contradiction|].
  simpl. rewrite forallb_forall in Hd. apply Hd. apply in_rev. rewrite E. now left.
Qed.
Lemma no_derived L : forallb (fun c => negb (ends_digit (cell_name c))) L = true -> forall n, derived L n -> lfind L n = None.
Proof.
  intros H n Hn. destruct (lfind L n) as [c|] eqn:E; [|reflexivity]. apply lfind_in in E as (Hc & <-). rewrite forallb_forall in H. specialize (H c Hc). rewrite (derived_digit _ _ Hn) in H. discriminate.
Qed.

Local Open Scope string_scope.
Local Open Scope list_scope.
Definition nmos : cell := Prim (mkLeaf "NMOS" ["D"; "G"; "S"; "B"] [("NFIN", "1"); ("NF", "1")] "M")%string.
Definition mos_pins : dict := [("D", "D"); ("G", "G"); ("S", "S"); ("B", "B")]%string.
(** The circuit of tests/compiler/test_database.py:34-49, with a global parameter. *)
Definition param_mos : sub := mkSub "PARAM_MOS" ["D"; "G"; "S"; "B"] [("TF", "12"); ("N", "2")] [mkElem "MN1" "NMOS" mos_pins [("NFIN", "TF"); ("NF", "N")]]%string.
Definition ckt : sub := mkSub "CKT" ["D"; "G"; "S"; "B"] []
  [mkElem "XI1" "PARAM_MOS" mos_pins [("TF", "16"); ("N", "2")]; mkElem "XI2" "PARAM_MOS" mos_pins [("TF", "24"); ("N", "2")];
   mkElem "XI3" "PARAM_MOS" mos_pins [("TF", "24"); ("N", "2")]; mkElem "XI4" "PARAM_MOS" mos_pins [("TF", "BIG"); ("N", "2")]]%string.
Definition Lex : lib := [nmos; Sub param_mos; Sub ckt].
Definition cpex : dict := [("BIG", "64")]%string.
Ltac nodup_str := repeat (apply NoDup_cons; [simpl; intuition discriminate|]); apply NoDup_nil.
Lemma Lex_wf : well_formed Lex /\ params_distinct Lex /\ acyclic Lex.
Proof.
  split; [split; [cbn; nodup_str|]|split].
  - intros c [H|[H|[H|[]]]]; inversion H; subst; (split; [cbn; nodup_str|]); intros e He; cbn in He; repeat destruct He as [<-|He]; try destruct He; (split; [cbn; nodup_str|]); eexists; (split; [reflexivity|]); (split; [intros p; simpl; tauto|reflexivity]).
  - intros c [<-|[<-|[<-|[]]]]; cbn; nodup_str.
  - exists (fun n => if String.eqb n "CKT" then 1 else 0)%nat. intros c s m [H|[H|[H|[]]]] (e & He & <-) Hf; inversion H; subst; cbn in He; repeat destruct He as [<-|He]; try destruct He; vm_compute in Hf; inversion Hf; subst; vm_compute; lia.
Qed.
Example C34_nonvacuous :
  (well_formed Lex /\ params_distinct Lex /\ acyclic Lex /\ (forall n, derived Lex n -> lfind Lex n = None) /\ literal_globals Lex cpex /\ lfind Lex (sb_name ckt) = Some (Sub ckt) /\ forall c, In (Sub c) Lex -> ~ passes_on Lex c) /\
  exists L', read_params 2 cpex Lex "CKT" = Some L' /\ map cell_name L' = ["NMOS"; "PARAM_MOS"; "CKT"; "PARAM_MOS_1"; "PARAM_MOS_2"]%string /\
    map (fun n => match lfind L' n with Some (Sub s) => map e_params (sb_elems s) | _ => [] end) ["PARAM_MOS"; "PARAM_MOS_1"; "PARAM_MOS_2"]%string =
      [[[("NFIN", "16"); ("NF", "2")]]; [[("NFIN", "24"); ("NF", "2")]]; [[("NFIN", "64"); ("NF", "2")]]]%string.
Proof.
  split; [|eexists; split; [vm_compute; reflexivity|split; reflexivity]].
  destruct Lex_wf as (W & P & A). repeat (split; [assumption|]). split; [apply no_derived; reflexivity|]. split; [|split; [reflexivity|]].
  - intros k v [H|[]]. injection H as <- <-. split; [simpl; intuition discriminate|]. intros c [H|[H|[H|[]]]]; inversion H; subst; simpl; intuition discriminate.
  - intros c [H|[H|[H|[]]]] (e & s & k & v & He & Hs & Hk & Hv); inversion H; subst; [|destruct Hv]. destruct He as [<-|[]]. vm_compute in Hs. discriminate.
Qed.

(** Finding: with one level more, the second use of a subcircuit with other values keeps the
    values of the first use inside: W of both devices is "1". *)
Definition Cb : sub := mkSub "CB" ["D"; "G"; "S"; "B"] [("Q", "5")] [mkElem "MN1" "NMOS" mos_pins [("NFIN", "Q"); ("NF", "1")]]%string.
Definition Ca : sub := mkSub "CA" ["D"; "G"; "S"; "B"] [("P", "7")] [mkElem "XB" "CB" mos_pins [("Q", "P")]]%string.
Definition Ct : sub := mkSub "CT" ["D"; "G"; "S"; "B"] [] [mkElem "XI1" "CA" mos_pins [("P", "1")]; mkElem "XI2" "CA" mos_pins [("P", "2")]]%string.
Definition Ldeep : lib := [nmos; Sub Cb; Sub Ca; Sub Ct].
Lemma dev_sub' L c e s d pins d' : In e (sb_elems c) -> lfind L (e_model e) = Some (Sub s) -> device_of L s d ->
  Forall2 (fun a b => fst a = fst b /\ outside c e (snd a) = Some (snd b)) (dv_pins d) pins -> d' = mkDev (e_name e :: dv_path d) (dv_model d) pins (dv_params d) -> device_of L c d'.
Proof. intros H1 H2 H3 H4 ->. exact (dev_sub L c e s d pins H1 H2 H3 H4). Qed.
Lemma val_sub' L cp c E e s d pins d' : In e (sb_elems c) -> lfind L (e_model e) = Some (Sub s) -> valued L cp s (bound s (meanings cp E (e_params e))) d ->
  Forall2 (fun a b => fst a = fst b /\ outside c e (snd a) = Some (snd b)) (dv_pins d) pins -> d' = mkDev (e_name e :: dv_path d) (dv_model d) pins (dv_params d) -> valued L cp c E d'.
Proof. intros H1 H2 H3 H4 ->. exact (val_sub L cp c E e s d pins H1 H2 H3 H4). Qed.
Definition ports4 : list (string * net) := [("D", Port "D"); ("G", Port "G"); ("S", Port "S"); ("B", Port "B")].
Theorem C34_deep_refuted :
  exists L cp t fuel L' t' d, well_formed L /\ params_distinct L /\ acyclic L /\ (forall n, derived L n -> lfind L n = None) /\ literal_globals L cp /\ lfind L (sb_name t) = Some (Sub t) /\
    read_params fuel cp L (sb_name t) = Some L' /\ lfind L' (sb_name t) = Some (Sub t') /\
    device_of L' t' d /\ dv_path d = ["XI2"; "XB"; "MN1"]%string /\ dv_params d = [("NFIN", "1"); ("NF", "1")]%string /\
    valued L cp t (bound t cp) (mkDev (dv_path d) (dv_model d) (dv_pins d) [("NFIN", "2"); ("NF", "1")]%string) /\ ~ valued L cp t (bound t cp) d.
Proof.
  exists Ldeep, [], Ct, 3%nat. eexists. eexists. exists (mkDev ["XI2"; "XB"; "MN1"] "NMOS" [("D", Port "D"); ("G", Port "G"); ("S", Port "S"); ("B", Port "B")] [("NFIN", "1"); ("NF", "1")])%string.
  split; [split; [cbn; nodup_str|]|split; [|split]].
  - intros c [H|[H|[H|[H|[]]]]]; inversion H; subst; (split; [cbn; nodup_str|]); intros e He; cbn in He; repeat destruct He as [<-|He]; try destruct He; (split; [cbn; nodup_str|]); eexists; (split; [reflexivity|]); (split; [intros p; simpl; tauto|reflexivity]).
  - intros c [<-|[<-|[<-|[<-|[]]]]]; cbn; nodup_str.
  - exists (fun n => if String.eqb n "CT" then 2 else if String.eqb n "CA" then 1 else 0)%nat. intros c s m [H|[H|[H|[H|[]]]]] (e & He & <-) Hf; inversion H; subst; cbn in He; repeat destruct He as [<-|He]; try destruct He; vm_compute in Hf; inversion Hf; subst; vm_compute; lia.
  - split; [apply no_derived; reflexivity|]. split; [intros ? ? []|]. split; [reflexivity|]. split; [vm_compute; reflexivity|]. split; [vm_compute; reflexivity|]. split; [|split; [reflexivity|split; [reflexivity|split]]].
    + apply (dev_sub' _ _ (mkElem "XI2" "CA_1" mos_pins [("P", "2")]) (mkSub "CA_1" ["D"; "G"; "S"; "B"] [("P", "2")] [mkElem "XB" "CB" mos_pins [("Q", "1")]])
        (mkDev ["XB"; "MN1"] "NMOS" ports4 [("NFIN", "1"); ("NF", "1")]) ports4); [right; left; reflexivity|vm_compute; reflexivity| |repeat constructor|reflexivity].
      apply (dev_sub' _ _ (mkElem "XB" "CB" mos_pins [("Q", "1")]) (mkSub "CB" ["D"; "G"; "S"; "B"] [("Q", "1")] [mkElem "MN1" "NMOS" mos_pins [("NFIN", "1"); ("NF", "1")]])
        (mkDev ["MN1"] "NMOS" ports4 [("NFIN", "1"); ("NF", "1")]) ports4); [left; reflexivity|vm_compute; reflexivity| |repeat constructor|reflexivity].
      refine (dev_leaf _ _ (mkElem "MN1" "NMOS" mos_pins [("NFIN", "1"); ("NF", "1")]) _ _ _); [left; reflexivity|vm_compute; reflexivity].
    + apply (val_sub' _ _ _ _ (mkElem "XI2" "CA" mos_pins [("P", "2")]) Ca (mkDev ["XB"; "MN1"] "NMOS" ports4 [("NFIN", "2"); ("NF", "1")]) ports4); [right; left; reflexivity|reflexivity| |repeat constructor|reflexivity].
      apply (val_sub' _ _ _ _ (mkElem "XB" "CB" mos_pins [("Q", "P")]) Cb (mkDev ["MN1"] "NMOS" ports4 [("NFIN", "2"); ("NF", "1")]) ports4); [left; reflexivity|reflexivity| |repeat constructor|reflexivity].
      refine (val_leaf Ldeep [] Cb [("Q", "2")] (mkElem "MN1" "NMOS" mos_pins [("NFIN", "Q"); ("NF", "1")]) _ _ _); [left; reflexivity|reflexivity].
    + assert (K1 : forall c E d, valued Ldeep [] c E d -> c = Cb -> E = [("Q", "2")]%string -> dv_params d = [("NFIN", "2"); ("NF", "1")]%string).
      { intros c E d [c1 E1 e l He Hl|c1 E1 e s d1 pins He Hl Hd HF] -> ->; destruct He as [<-|[]]; [reflexivity|vm_compute in Hl; discriminate]. }
      assert (K2 : forall c E d, valued Ldeep [] c E d -> c = Ca -> E = [("P", "2")]%string -> dv_params d = [("NFIN", "2"); ("NF", "1")]%string).
      { intros c E d [c1 E1 e l He Hl|c1 E1 e s d1 pins He Hl Hd HF] -> ->; destruct He as [<-|[]]; [vm_compute in Hl; discriminate|]. assert (s = Cb) by (vm_compute in Hl; injection Hl as <-; reflexivity). subst s. exact (K1 _ _ _ Hd eq_refl eq_refl). }
      assert (K3 : forall c E d, valued Ldeep [] c E d -> c = Ct -> E = [] -> hd EmptyString (dv_path d) = "XI2"%string -> dv_params d = [("NFIN", "2"); ("NF", "1")]%string).
      { intros c E d [c1 E1 e l He Hl|c1 E1 e s d1 pins He Hl Hd HF] -> -> Hp; destruct He as [<-|[<-|[]]]; try (vm_compute in Hl; discriminate); try discriminate Hp. assert (s = Ca) by (vm_compute in Hl; injection Hl as <-; reflexivity). subst s. exact (K2 _ _ _ Hd eq_refl eq_refl). }
      intros H. pose proof (K3 _ _ _ H eq_refl eq_refl eq_refl) as E. discriminate E.
Qed.
Print Assumptions C34_values.
Print Assumptions C34_two_levels.
Print Assumptions C34_deep_refuted.
