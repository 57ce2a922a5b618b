(** C66: what a SPICE netlist describes is what the parser builds. *)
From Coq Require Import String Ascii.
From Verif Require Import Base.Prelude Base.PyDict Base.PyStr Model.RemoveDuplicates Model.Canvas Model.Netlist Model.Hier Model.UpdateConst Model.SpiceLex Model.SpiceParse Spec.SpiceSpec Spec.SpiceDocSpec
  Proofs.NetlistP Proofs.SpiceLexP Proofs.SpiceLinesP Proofs.SpiceParseP Props.C65.
Local Open Scope string_scope. Local Open Scope list_scope.

(** The statements of a netlist give the library, the top elements and the constraints that they describe, in whatever order Python goes through a set. *)
Theorem C66_doc : forall num ord L evs L' top cs, (forall l, Permutation (ord l) l) -> doc num L evs L' top cs -> parse_events num ord (start L) evs = Some (mkP L' top [] [] None cs).
Proof. intros num ord L evs L' top cs Ho H. exact (doc_parse num ord Ho _ _ _ _ _ H [] [] []). Qed.
Print Assumptions C66_doc.

(** The same from the characters of the file. *)
Theorem C66_text : forall num ord L n0 first ls n1 L' top cs, (forall l, Permutation (ord l) l) -> line_ok first -> Forall (fun x => line_ok (snd x)) ls ->
  doc num L (meaning (first :: map snd ls)) L' top cs -> parse num ord L (file_chars n0 first ls n1) = Some (mkP L' top [] [] None cs).
Proof. intros num ord L n0 first ls n1 L' top cs Ho H1 H2 H. unfold parse. destruct (C65_meaning n0 first ls n1 H1 H2) as [-> _]. now apply C66_doc. Qed.
Print Assumptions C66_text.

(** An accepted instance statement, of any shape, adds exactly one element: it has the name of the statement, it is added at the end of the current circuit, its pins are those of its model.
    Apart from that, at most one model is added to the library, and only if the element's model was unknown. *)
Theorem C66_one_each : forall num ord st tok cache st', fst tok = tNAME -> do_event num ord st (EStmt (tok :: cache)) = Some st' ->
  exists e extra c, e_name e = upper_text (snd tok) /\ find (fun c => String.eqb (cell_name c) (e_model e)) (p_lib st ++ extra) = Some c /\
    incl (map fst (e_pins e)) (cell_pins c) /\ incl (cell_pins c) (map fst (e_pins e)) /\ map fst (e_params e) = map fst (cell_params c) /\
    (extra = [] \/ exists l, extra = [Prim l] /\ lf_name l = e_model e /\ find (fun c => String.eqb (cell_name c) (e_model e)) (p_lib st) = None) /\
    p_params st' = p_params st /\ p_scope st' = p_scope st /\ p_pending st' = p_pending st /\ p_cons st' = p_cons st /\
    match p_scope st with
    | [] => p_lib st' = p_lib st ++ extra /\ p_top st' = p_top st ++ [e]
    | n :: _ => p_top st' = p_top st /\
        Forall2 (fun c c' => match c with Sub s => if String.eqb (sb_name s) n then c' = Sub (mkSub (sb_name s) (sb_pins s) (sb_params s) (sb_elems s ++ [e])) else c' = c | Prim _ => c' = c end) (p_lib st ++ extra) (p_lib st')
    end.
Proof.
  intros num ord st tok cache st' Ht H. cbn [do_event] in H. destruct (decompose num ord cache) as [[args kw]|]; [|discriminate]. rewrite Ht, ustr_upper in H.
  unfold process_instance in H. destruct (pop args) as [[v args']|]; [|discriminate].
  destruct (match default_model (upper_text (snd tok)), kw with Some d, [] => (VS d, [("VALUE", v)]) | _, _ => (v, kw) end) as [model kw']. destruct model as [m|]; [|discriminate].
  cbv zeta in H.
  assert (G : exists extra, match lfind (p_lib st) m with Some _ => Some (p_lib st) | None => match args' with [] => None | _ => Some (p_lib st ++ [Prim (generic m (length args') kw')]) end end = None \/
    match lfind (p_lib st) m with Some _ => Some (p_lib st) | None => match args' with [] => None | _ => Some (p_lib st ++ [Prim (generic m (length args') kw')]) end end = Some (p_lib st ++ extra) /\
    (extra = [] \/ exists l, extra = [Prim l] /\ lf_name l = m /\ lfind (p_lib st) m = None)).
  { destruct (lfind (p_lib st) m); [exists []; right; rewrite app_nil_r; auto|]. destruct args'; [exists []; now left|]. exists [Prim (generic m (length (v0 :: args')) kw')]. right. split; [easy|]. right.
    eexists. split; [reflexivity|]. easy. }
  destruct G as (extra & [E|[E Hx]]); rewrite E in H; [discriminate|]. destruct (lfind (p_lib st ++ extra) m) as [c|] eqn:Ec; [|discriminate].
  destruct (negb _); [discriminate|]. destruct (mk_inst _ _ _ _ _) as [e|] eqn:Ee; [|discriminate]. injection H as <-.
  unfold mk_inst in Ee. rewrite Ec in Ee. destruct (negb (String.prefix _ _)); [discriminate|]. destruct (same_set _ _) eqn:Es; [|discriminate]. cbn [negb] in Ee.
  unfold same_set in Es. apply andb_true_iff in Es. destruct Es as [Es1 Es2].
  assert (IN : forall a b, forallb (fun x => in_strs x b) a = true -> incl a b).
  { intros a b Hab x Hx'. rewrite forallb_forall in Hab. apply Hab in Hx'. unfold in_strs in Hx'. apply existsb_exists in Hx'. destruct Hx' as (y & Hy & Q). apply String.eqb_eq in Q. now subst. }
  assert (F : e_name e = upper_text (snd tok) /\ e_model e = m /\ e_pins e = dict_of (combine (cell_pins c) (map vtext args')) /\ map fst (e_params e) = map fst (cell_params c)).
  { assert (Q : forall e0, Some e0 = Some e -> e = e0) by congruence. revert Ee. generalize (texts kw'). intros [|x t] Ee; [rewrite (Q _ Ee); easy|]. destruct (forallb _ (map fst (x :: t))); [|discriminate]. rewrite (Q _ Ee).
    cbn [e_name e_model e_pins e_params]. repeat split. rewrite map_map. apply map_ext. reflexivity. }
  destruct F as (F1 & F2 & F3 & F4). exists e, extra, c. rewrite F2, F3. unfold lfind in *. repeat (split; [now auto|]).
  unfold add_elem. destruct (p_scope st) as [|n sc]; cbn [p_lib p_top p_params p_scope p_pending p_cons]; repeat (split; [reflexivity|]).
  - reflexivity.
  - generalize (p_lib st ++ extra). intros L. induction L as [|a L IH]; cbn [map]; constructor; [|exact IH]. destruct a as [l|s]; [reflexivity|]. cbn [add_to]. now destruct (String.eqb (sb_name s) n).
Qed.
Print Assumptions C66_one_each.

(** A subcircuit header with any number of assignments to distinct names: the parameters are the given ones, in some order. *)
Theorem C66_header : forall num ord st d n pins kws name ps kvs, (forall l, Permutation (ord l) l) ->
  decl_tok d ".SUBCKT" -> name_tok n name -> Forall2 (says num) pins ps -> ps <> [] -> assigns num kws kvs -> NoDup (map fst kvs) -> ~ In name (map cell_name (p_lib st)) ->
  exists params, Permutation params kvs /\
    do_event num ord st (EStmt (d :: n :: pins ++ kws)) = Some (mkP (p_lib st ++ [Sub (mkSub name ps params [])]) (p_top st) (p_params st) (name :: p_scope st) (Some []) (p_cons st)).
Proof.
  intros num ord st d n pins kws name ps kvs Ho [Hd1 Hd2] Hname Hpins Hne Hk Hn Hfresh. destruct (says_all num _ _ Hpins) as [Ens Ans]. destruct (name_cast num _ _ Hname) as (En1 & En2 & En3 & _).
  cbn [do_event]. destruct (decompose_stmt num ord Ho (n :: pins) kws kvs) as (kw & E & P); [constructor; auto|exact Hk|exact Hn|]. exists (texts kw). split; [exact P|].
  cbn [app] in E. rewrite E, Hd1, ustr_upper, Hd2. cbn [process_declaration String.eqb Ascii.eqb Bool.eqb map]. rewrite En1.
  destruct pins as [|x pins]; [exfalso; apply Hne; now inversion Hpins|]. cbn [map]. rewrite (lfind_none num _ _ Hfresh). now rewrite <- Ens.
Qed.
Print Assumptions C66_header.

(** A [.param] outside all subcircuits, with any number of assignments to distinct names: these get the given values, whatever they were before, and nothing else changes. *)
Theorem C66_top_param : forall num ord st d kws kvs, (forall l, Permutation (ord l) l) -> p_scope st = [] -> decl_tok d ".PARAM" -> assigns num kws kvs -> NoDup (map fst kvs) ->
  exists params, do_event num ord st (EStmt (d :: kws)) = Some (mkP (p_lib st) (p_top st) params [] (p_pending st) (p_cons st)) /\
    (forall k v, In (k, v) kvs -> sget params k = Some v) /\ (forall k, ~ In k (map fst kvs) -> sget params k = sget (p_params st) k).
Proof.
  intros num ord st d kws kvs Ho Hsc [Hd1 Hd2] Hk Hn. destruct (decompose_stmt num ord Ho [] kws kvs) as (kw & E & P); [constructor|exact Hk|exact Hn|].
  exists (update_all (p_params st) (texts kw)). split.
  - cbn [do_event]. cbn [app] in E. rewrite E, Hd1, ustr_upper, Hd2. cbn [process_declaration String.eqb Ascii.eqb Bool.eqb map]. unfold set_params. now rewrite Hsc.
  - assert (N : NoDup (map fst (texts kw))) by (apply (Permutation_NoDup (l := map fst kvs)); [apply Permutation_map; now symmetry|exact Hn]).
    assert (G : forall l d0, NoDup (map fst l) -> (forall k v, In (k, v) l -> sget (update_all d0 l) k = Some v) /\ (forall k, ~ In k (map fst l) -> sget (update_all d0 l) k = sget d0 k)).
    { induction l as [|[a b] l IH]; intros d0 Hl; [split; [intros ? ? []|reflexivity]|]. inversion Hl as [|? ? Ha Hl']; subst. unfold update_all in *. cbn [fold_left fst snd map In] in *. destruct (IH (sset d0 a b) Hl') as [I1 I2]. split.
      - intros k v [[= -> ->]|H]; [rewrite (I2 _ Ha); apply sget_sset_same|now apply I1].
      - intros k Hk'. rewrite I2 by tauto. apply sget_sset_other. intros ->. tauto. }
    destruct (G (texts kw) (p_params st) N) as [G1 G2]. split; [intros k v H; apply G1; now apply (Permutation_in _ (Permutation_sym P))|].
    intros k H. apply G2. intros H'. apply H. now apply (Permutation_in _ (Permutation_map fst P)).
Qed.
Print Assumptions C66_top_param.

(** An instance whose name has C, R or L first, of a model in the library and without assignments, becomes a capacitor, resistor or inductor whose value is the name of that model. *)
Theorem C66_default_model_refuted : forall num ord st n nets m name ns ms d mine c, (forall l, Permutation (ord l) l) ->
  name_tok n name -> Forall2 (says num) nets ns -> name_tok m ms -> lfind (p_lib st) ms = Some mine -> length ns = length (cell_pins mine) ->
  passive name = Some d -> lfind (p_lib st) d = Some c -> length ns = length (cell_pins c) -> NoDup (cell_pins c) -> In "VALUE" (map fst (cell_params c)) -> String.prefix (cell_prefix c) name = true ->
  do_event num ord st (EStmt (n :: nets ++ [m])) =
  Some (add_elem st (p_lib st) (mkElem name d (combine (cell_pins c) ns) (map (fun p => (fst p, if String.eqb "VALUE" (fst p) then ms else snd p)) (cell_params c)))).
Proof.
  intros num ord st n nets m name ns ms d mine c Ho Hn Hnets Hm _ _ Hp Hc Hl Hnd Hin Hpre. apply (element_step num ord Ho (p_lib st)); [auto|]. right.
  exists n, nets, m, name, ns, d, ms, c. split; [reflexivity|]. split; [exact Hn|]. split; [exact Hnets|]. split; [destruct Hm as [Hm1 Hm2]; unfold says; now rewrite Hm1|].
  split; [exact Hp|]. split; [exact Hc|]. repeat (split; [assumption|]). f_equal. apply map_ext. intros [k w]. unfold given. cbn [find fst snd]. now destruct (String.eqb "VALUE" k).
Qed.
Print Assumptions C66_default_model_refuted.

(** A subcircuit without [.ends]: at the end of the file the parser reports nothing, and its constraints are dropped. *)
Theorem C66_no_ends_refuted : forall num ord L d n pins kws name ps kvs evs p els notes, (forall l, Permutation (ord l) l) ->
  decl_tok d ".SUBCKT" -> name_tok n name -> Forall2 (says num) pins ps -> ps <> [] -> assigns num kws kvs -> few kvs -> ~ In name (map cell_name L) -> body num L evs kvs p els notes ->
  parse_events num ord (start L) (EStmt (d :: n :: pins ++ kws) :: evs) = Some (mkP (L ++ [Sub (mkSub name ps p els)]) [] [] [name] (Some notes) []).
Proof.
  intros num ord L d n pins kws name ps kvs evs p els notes Ho Hd Hname Hpins Hne Hk Hf Hfresh Hb.
  destruct (C66_header num ord (start L) d n pins kws name ps kvs Ho Hd Hname Hpins Hne Hk (few_nodup num _ Hf) Hfresh) as (params & P & E).
  assert (params = kvs). { unfold few in Hf. destruct kvs as [|x [|y kvs]]; [now apply Permutation_nil; symmetry|symmetry in P; now apply Permutation_length_1_inv in P|cbn in Hf; lia]. }
  subst params. unfold parse_events. cbn [foldO]. rewrite E. exact (body_parse num ord Ho _ _ _ _ _ _ Hb name ps [] [] [] [] [] Hfresh).
Qed.
Print Assumptions C66_no_ends_refuted.

(** A second subcircuit inside the first: the first loses the constraints that stand before the second, and the parser fails at the second [.ends]. *)
Theorem C66_nested_refuted : forall num ord L d n pins kws name ps kvs evs p els notes d2 n2 pins2 kws2 name2 ps2 kvs2 evs2 p2 els2 notes2 en args en2 args2, (forall l, Permutation (ord l) l) ->
  decl_tok d ".SUBCKT" -> name_tok n name -> Forall2 (says num) pins ps -> ps <> [] -> assigns num kws kvs -> few kvs -> ~ In name (map cell_name L) -> body num L evs kvs p els notes ->
  decl_tok d2 ".SUBCKT" -> name_tok n2 name2 -> Forall2 (says num) pins2 ps2 -> ps2 <> [] -> assigns num kws2 kvs2 -> few kvs2 -> ~ In name2 (map cell_name (L ++ [Sub (mkSub name ps p els)])) ->
  body num (L ++ [Sub (mkSub name ps p els)]) evs2 kvs2 p2 els2 notes2 -> decl_tok en ".ENDS" -> Forall (argument num) args -> decl_tok en2 ".ENDS" -> Forall (argument num) args2 ->
  let file := EStmt (d :: n :: pins ++ kws) :: evs ++ EStmt (d2 :: n2 :: pins2 ++ kws2) :: evs2 ++ [EStmt (en :: args)] in
  parse_events num ord (start L) file = Some (mkP ((L ++ [Sub (mkSub name ps p els)]) ++ [Sub (mkSub name2 ps2 p2 els2)]) [] [] [name] None [(name2, notes2)]) /\
  parse_events num ord (start L) (file ++ [EStmt (en2 :: args2)]) = None.
Proof.
  intros num ord L d n pins kws name ps kvs evs p els notes d2 n2 pins2 kws2 name2 ps2 kvs2 evs2 p2 els2 notes2 en args en2 args2 Ho Hd Hname Hpins Hne Hk Hf Hfresh Hb
    Hd2 Hname2 Hpins2 Hne2 Hk2 Hf2 Hfresh2 Hb2 [He1 He2] Hargs [Hf1 Hf2'] Hargs2 file.
  pose proof (C66_no_ends_refuted num ord L d n pins kws name ps kvs evs p els notes Ho Hd Hname Hpins Hne Hk Hf Hfresh Hb) as E1.
  destruct (C66_header num ord (mkP (L ++ [Sub (mkSub name ps p els)]) [] [] [name] (Some notes) []) d2 n2 pins2 kws2 name2 ps2 kvs2 Ho Hd2 Hname2 Hpins2 Hne2 Hk2 (few_nodup num _ Hf2) Hfresh2) as (params & P & E).
  assert (params = kvs2). { unfold few in Hf2. destruct kvs2 as [|x [|y kvs2]]; [now apply Permutation_nil; symmetry|symmetry in P; now apply Permutation_length_1_inv in P|cbn in Hf2; lia]. }
  subst params. cbn [p_lib p_top p_params p_scope p_pending p_cons] in E.
  assert (E3 : parse_events num ord (mkP ((L ++ [Sub (mkSub name ps p els)]) ++ [Sub (mkSub name2 ps2 kvs2 [])]) [] [] [name2; name] (Some []) []) evs2 =
               Some (mkP ((L ++ [Sub (mkSub name ps p els)]) ++ [Sub (mkSub name2 ps2 p2 els2)]) [] [] [name2; name] (Some notes2) []))
    by exact (body_parse_scope num ord Ho _ _ _ _ _ _ Hb2 name2 ps2 [] [] [] [] [] [name] Hfresh2).
  assert (S1 : parse_events num ord (start L) file = Some (mkP ((L ++ [Sub (mkSub name ps p els)]) ++ [Sub (mkSub name2 ps2 p2 els2)]) [] [] [name] None [(name2, notes2)])).
  { unfold parse_events in *. unfold file. change (EStmt (d :: n :: pins ++ kws) :: evs ++ EStmt (d2 :: n2 :: pins2 ++ kws2) :: evs2 ++ [EStmt (en :: args)])
      with ((EStmt (d :: n :: pins ++ kws) :: evs) ++ EStmt (d2 :: n2 :: pins2 ++ kws2) :: evs2 ++ [EStmt (en :: args)]).
    rewrite (foldO_app _ _ _ _ _ E1). cbn [foldO]. rewrite E. rewrite (foldO_app _ _ _ _ _ E3). cbn [foldO do_event]. rewrite (decompose_args num ord Ho _ Hargs), He1, ustr_upper, He2. reflexivity. }
  split; [exact S1|]. unfold parse_events in *. rewrite (foldO_app _ _ _ _ _ S1). cbn [foldO do_event]. rewrite (decompose_args num ord Ho _ Hargs2), Hf1, ustr_upper, Hf2'. reflexivity.
Qed.
Print Assumptions C66_nested_refuted.

(** Two elements of one circuit may have the same name: the parser accepts every such statement. *)
Theorem C66_same_name_refuted : forall num ord L t1 t2 e1 e2, (forall l, Permutation (ord l) l) -> element_stmt num L t1 e1 -> element_stmt num L t2 e2 -> e_name e1 = e_name e2 ->
  parse_events num ord (start L) [EStmt t1; EStmt t2] = Some (mkP L [e1; e2] [] [] None []).
Proof. intros num ord L t1 t2 e1 e2 Ho H1 H2 _. apply C66_doc; [easy|]. apply doc_top; [easy|]. apply doc_top; [easy|]. apply doc_nil. Qed.
Print Assumptions C66_same_name_refuted.

(** Nets written as different numerals of the same number become one net. *)
Theorem C66_merged_nets_refuted : forall num ord st n a b m name v ms c p1 p2, (forall l, Permutation (ord l) l) ->
  a <> b -> num (upper_text a) = Some v -> num (upper_text b) = Some v -> name_tok n name -> name_tok m ms -> passive name = None ->
  lfind (p_lib st) ms = Some c -> cell_pins c = [p1; p2] -> p1 <> p2 -> String.prefix (cell_prefix c) name = true ->
  do_event num ord st (EStmt [n; (tNUMBER, a); (tNUMBER, b); m]) = Some (add_elem st (p_lib st) (mkElem name ms [(p1, v); (p2, v)] (cell_params c))).
Proof.
  intros num ord st n a b m name v ms c p1 p2 Ho _ Ha Hb Hn Hm Hp Hc Hpins Hne Hpre. apply (element_step num ord Ho (p_lib st)); [auto|]. left.
  exists n, [(tNUMBER, a); (tNUMBER, b)], m, [], name, [v; v], ms, [], c. rewrite Hpins. repeat (split; [easy|]).
  split. { constructor; [unfold says; cbn [fst snd]; now rewrite Ha|]. constructor; [unfold says; cbn [fst snd]; now rewrite Hb|constructor]. }
  split; [exact Hm|]. split; [constructor|]. split; [exact Hc|]. split; [easy|]. split. { constructor; [intros [E|[]]; now apply Hne|constructor; [easy|constructor]]. }
  split; [constructor|]. split; [now intros x|]. split; [exact Hpre|]. split; [now rewrite Hp|]. f_equal. rewrite <- (map_id (cell_params c)) at 1. apply map_ext. now intros [k w].
Qed.
Print Assumptions C66_merged_nets_refuted.

(** * Examples *)
Definition demo_num (s : string) : option string := if String.eqb s "180N" then Some "1.8e-07" else if String.eqb s "1" then Some "1" else if String.eqb s "1.0" then Some "1" else None.
Definition demo_lib : lib :=
  [Prim (mkLeaf "NMOS" ["D"; "G"; "S"; "B"] [("W", "0"); ("L", "0"); ("NFIN", "1")] ""); Prim (mkLeaf "CAP" ["PLUS"; "MINUS"] [("VALUE", "0")] "C"); Prim (mkLeaf "MYCAP" ["A"; "B"] [("AREA", "4")] "")].
Lemma demo_doc : doc demo_num demo_lib (meaning (CommentLine (str " inverter") :: map snd demo))
  (demo_lib ++ [Sub (mkSub "INV" ["A"; "Y"; "VDD"] [("W", "1.8e-07")] [mkElem "M1" "NMOS" [("D", "Y"); ("G", "A"); ("S", "VSS"); ("B", "VSS")] [("W", "2 * W"); ("L", "0"); ("NFIN", "1")]])])
  [] [("INV", [str "OrderBlocks(['m1', 'm2'])"])].
Proof.
  assert (E : meaning (CommentLine (str " inverter") :: map snd demo) =
    EStmt ((tDECL, str ".subckt") :: (tNAME, str "inv") :: [(tNAME, str "a"); (tNAME, str "y"); (tNAME, str "vdd")] ++ [(tNAME, str "w"); (tEQUALS, str "="); (tNUMBER, str "180n")]) ::
    [ENote (str "OrderBlocks(['m1', 'm2'])");
     EStmt ((tNAME, str "m1") :: [(tNAME, str "y"); (tNAME, str "a"); (tNAME, str "vss"); (tNAME, str "vss")] ++ (tNAME, str "nmos") :: [(tNAME, str "w"); (tEQUALS, str "="); (tEXPR, str "{2 * w}")])] ++
    EStmt ((tDECL, str ".ends") :: []) :: []) by reflexivity.
  rewrite E. eapply (doc_sub _ _ _ _ _ _ _ _ [("W", "1.8e-07")] _ [("W", "1.8e-07")]).
  - easy.
  - easy.
  - repeat (apply Forall2_cons; [easy|]). apply Forall2_nil.
  - discriminate.
  - apply as_cons; [easy|easy|easy|apply as_nil].
  - unfold few. cbn. lia.
  - intros H. cbn in H. repeat (destruct H as [H|H]; [discriminate|]). exact H.
  - apply body_note. apply body_elem; [|apply body_nil]. left. exists (tNAME, str "m1"), [(tNAME, str "y"); (tNAME, str "a"); (tNAME, str "vss"); (tNAME, str "vss")], (tNAME, str "nmos"),
      [(tNAME, str "w"); (tEQUALS, str "="); (tEXPR, str "{2 * w}")], "M1", ["Y"; "A"; "VSS"; "VSS"], "NMOS", [("W", "2 * W")], (Prim (mkLeaf "NMOS" ["D"; "G"; "S"; "B"] [("W", "0"); ("L", "0"); ("NFIN", "1")] "")).
    split; [reflexivity|]. split; [easy|]. split; [repeat (apply Forall2_cons; [easy|]); apply Forall2_nil|]. split; [easy|].
    split; [apply as_cons; [easy|easy| |apply as_nil]; exists "{"%char, (str "2 * w"), "}"%char; easy|].
    split; [reflexivity|]. split; [reflexivity|].
    split; [cbn; repeat (constructor; [intros H; cbn in H; repeat (destruct H as [H|H]; [discriminate|]); exact H|]); constructor|].
    split; [repeat constructor; easy|]. split; [intros x [<-|[]]; cbn; tauto|]. split; [reflexivity|]. split; [now intros H|]. reflexivity.
  - easy.
  - constructor.
  - apply doc_nil.
Qed.
Example C66_nonvacuous : forall ord, (forall l, Permutation (ord l) l) ->
  parse demo_num ord demo_lib (file_chars 0 (CommentLine (str " inverter")) demo 1) =
  Some (mkP (demo_lib ++ [Sub (mkSub "INV" ["A"; "Y"; "VDD"] [("W", "1.8e-07")] [mkElem "M1" "NMOS" [("D", "Y"); ("G", "A"); ("S", "VSS"); ("B", "VSS")] [("W", "2 * W"); ("L", "0"); ("NFIN", "1")]])])
            [] [] [] None [("INV", [str "OrderBlocks(['m1', 'm2'])"])]).
Proof. intros ord Ho. destruct demo_ok as [H1 H2]. apply C66_text; [exact Ho|exact H1|exact H2|exact demo_doc]. Qed.
(** [c1 x y mycap] is a capacitor of value MYCAP; [xa 1 1.0 mycap] is short-circuited; two elements share a name; an instance of an unknown model. *)
Example C66_findings_nonvacuous : forall text,
  text = str "c1 x y mycap
xa 1 1.0 mycap
xa x y other k=1
" ->
  parse demo_num (fun l => rev l) demo_lib text =
  Some (mkP (demo_lib ++ [Prim (mkLeaf "OTHER" ["P0"; "P1"] [("K", "1")] "")])
            [mkElem "C1" "CAP" [("PLUS", "X"); ("MINUS", "Y")] [("VALUE", "MYCAP")]; mkElem "XA" "MYCAP" [("A", "1"); ("B", "1")] [("AREA", "4")]; mkElem "XA" "OTHER" [("P0", "X"); ("P1", "Y")] [("K", "1")]]
            [] [] None []).
Proof. intros text ->. vm_compute. reflexivity. Qed.
(** [.subckt a x], a constraint, [.subckt b y], [.ends]: no error, and the constraint of A is gone. *)
Example C66_nested_nonvacuous :
  parse demo_num (fun l => l) demo_lib (str ".subckt a x
*@: First()
.subckt b y
*@: Second()
.ends
") = Some (mkP (demo_lib ++ [Sub (mkSub "A" ["X"] [] []); Sub (mkSub "B" ["Y"] [] [])]) [] [] ["A"] None [("B", [str "Second()"])]).
Proof. vm_compute. reflexivity. Qed.
