(** C58: replacing occurrences of a template by instances (schema/graph.py:160-252). *)
From Coq Require Import String.
From Verif Require Import Base.Prelude Base.PyDict Model.RemoveDuplicates Model.Canvas Model.Netlist Model.Hier Model.NewHier Model.GroupBlock Model.ReplaceMatch Spec.HierSpec Spec.CircuitSpec Spec.MatchSpec Proofs.NetlistP Proofs.HierP Proofs.FindDummyP Proofs.NewHierP Proofs.FoldP Proofs.ResolveParamsP Proofs.CircuitP Proofs.GroupBlockP Proofs.ReplaceMatchP.

(** A template: names of elements, pins and parameters are unique. *)
Record good_template (T : sub) : Prop := {
  gt_names : NoDup (map e_name (sb_elems T));
  gt_pins : forall t, In t (sb_elems T) -> NoDup (map fst (e_pins t));
  gt_params : NoDup (map fst (sb_params T));
  gt_apart : apart_names T
}.
(** No net inside the match is a port of the subcircuit. *)
Definition ports_kept (p T : sub) (m : matching) : Prop := forall x y, In (x, y) m -> ~ In y (sb_pins T) -> ~ In x (sb_pins p).
(** Name of the new instance. *)
Definition match_name (p T : sub) (m : matching) : string := ("X_" ++ String.concat "_" (map e_name (leaving (sb_elems p) T m)))%string.
(** Names do not clash: a subcircuit with the name of the copy is the copy, it is not the parent, and
    no element that stays and no net has the name of the new instance. *)
Definition no_clash (gname : sub -> string) (L : lib) (pn : string) (T : sub) (m : matching) : Prop := forall p, lfind L pn = Some (Sub p) ->
  (forall cs, mapM (copy_node L (sb_elems p) T) m = Some cs -> let n := gname (mkSub (sb_name T) (sb_pins T) (sb_params T) (concat cs)) in
     (forall d, lfind L n = Some d -> d = Sub (mkSub n (sb_pins T) (sb_params T) (concat cs))) /\ n <> pn) /\
  (forall e, In e (sb_elems p) -> e_name e <> match_name p T m /\ ~ on e (match_name p T m)) /\ ~ In (match_name p T m) (sb_pins p).

Definition kept (L L' : lib) : Prop :=
  (forall n c, lfind L n = Some (Sub c) -> exists c', lfind L' n = Some (Sub c') /\ sb_pins c' = sb_pins c /\ same_circuit L c L' c') /\
  (forall n l, lfind L n = Some (Prim l) -> lfind L' n = Some (Prim l)).
Lemma kept_refl L : kept L L.
Proof. split; [|auto]. intros n c H. exists c. split; [assumption|]. split; [reflexivity|]. apply same_circuit_refl. Qed.
Lemma kept_trans L1 L2 L3 : kept L1 L2 -> kept L2 L3 -> kept L1 L3.
Proof.
  intros (A1 & A2) (B1 & B2). split; [|auto]. intros n c Hn. destruct (A1 n c Hn) as (c1 & K1 & K2 & K3). destruct (B1 n c1 K1) as (c2 & K4 & K5 & K6). exists c2. split; [assumption|]. split; [congruence|]. exact (same_circuit_trans _ _ _ _ _ _ K3 K6).
Qed.

Lemma replace_full gname skip L pn p T m L' r : well_formed L -> params_nodup L -> good_template T -> lfind L pn = Some (Sub p) -> apart_names p -> occurrence p T m -> ports_kept p T m -> no_clash gname L pn T m ->
  replace_match gname skip pn T L m = Some (L', r) ->
  well_formed L' /\ (acyclic L -> acyclic L') /\ kept L L' /\ params_nodup L' /\
  ((r = None /\ L' = L) \/ exists cn rest child x p', r = Some cn /\ lfind L' cn = Some (Sub child) /\ sb_pins child = sb_pins T /\ (forall d, In d (sb_elems child) <-> exists e, In e (leaving (sb_elems p) T m) /\ d = rmv T m e) /\
       lfind L' pn = Some (Sub p') /\ sb_pins p' = sb_pins p /\ sb_elems p' = rest ++ [x] /\ e_name x = match_name p T m /\ e_model x = cn /\ e_pins x = pin2net T m /\ (forall e, In e rest <-> In e (sb_elems p) /\ ~ In e (leaving (sb_elems p) T m))).
Proof.
  intros W Pn [G1 G2 G3 G4] Hp Ha Oc Hk Hc H. destruct (Hc p Hp) as (C1 & C2 & C3).
  assert (Fr : forall e, In e (sb_elems p) -> ~ In e (leaving (sb_elems p) T m) -> e_name e <> ("X_" ++ String.concat "_" (map e_name (leaving (sb_elems p) T m)))%string) by (intros e He _; exact (proj1 (C2 e He))).
  assert (Hh : forall els c, let n := gname (mkSub (sb_name T) (sb_pins T) (sb_params T) els) in (mapM (copy_node L (sb_elems p) T) m = Some c -> els = concat c -> (forall d, lfind L n = Some d -> d = Sub (mkSub n (sb_pins T) (sb_params T) els)) /\ n <> pn)) by (intros els c n E ->; exact (C1 c E)).
  destruct (replace_ok gname L pn skip p T m W Hp Pn Oc G1 G2 G3 G4 Hk Hh Fr L' r H) as [(-> & ->)|(cn & -> & A1 & A2 & A3 & A4 & (rest & child & x & p' & F1 & F2 & F3 & F4 & F5 & F6 & F7 & F8 & F9) & A6)].
  - split; [assumption|]. split; [auto|]. split; [apply kept_refl|]. split; [assumption|]. now left.
  - split; [assumption|]. split; [assumption|]. split; [|split; [assumption|]].
    + split; [|assumption]. intros n c Hn. destruct (lfind_in _ _ _ Hn) as (Hi & En). cbn [cell_name] in En. subst n. exact (A3 c Hi).
    + right. exists cn, rest, child, x, p'. repeat (split; [assumption || reflexivity|]). split; [|auto].
      unfold replace_match in H. rewrite Hp in H. destruct (negb _); [discriminate|]. destruct (_ || _); [discriminate|]. destruct (create_copy _ _ _ _ _) as [(L1, ch)|]; [|discriminate]. destruct (remove_all _ _) as [rs|]; [|discriminate]. destruct (negb _); [discriminate|]. destruct (mk_inst L1 _ _ _ _) as [y|] eqn:My; [|discriminate]. injection H as E1 E2.
      destruct (mk_inst_inv _ _ _ _ _ _ My) as (_ & _ & Y1 & _). unfold match_name. rewrite <- Y1. rewrite <- E1 in F4. assert (Rp : sb_name p = pn) by exact (proj2 (lfind_in _ _ _ Hp)).
      assert (Z : forall M n q z, lfind (replace_sub M q) n = Some (Sub z) -> sb_name q = n -> z = q).
      { clear. intros M n q z. unfold lfind, replace_sub. induction M as [|c M IH]; intros H E; [discriminate|]. cbn [map find] in H. destruct c as [l|o].
        - cbn [cell_name] in H. destruct (String.eqb (lf_name l) n); [discriminate|]. exact (IH H E).
        - destruct (String.eqb_spec (sb_name o) (sb_name q)) as [Eo|Eo].
          + cbn [cell_name] in H. destruct (String.eqb_spec (sb_name q) n); [congruence|contradiction].
          + cbn [cell_name] in H. destruct (String.eqb_spec (sb_name o) n); [congruence|]. exact (IH H E). }
      apply Z in F4; [|exact Rp]. rewrite F4 in F6. cbn [sb_elems] in F6. apply app_inj_tail in F6 as (_ & ->). reflexivity.
Qed.

(** One replacement: every subcircuit keeps its ports and its flat netlist; the library stays well
    formed and free of recursion. *)
Theorem C58_flat gname skip L pn p T m L' r : well_formed L -> params_nodup L -> good_template T -> lfind L pn = Some (Sub p) -> apart_names p -> occurrence p T m -> ports_kept p T m -> no_clash gname L pn T m ->
  replace_match gname skip pn T L m = Some (L', r) -> well_formed L' /\ (acyclic L -> acyclic L') /\ kept L L'.
Proof. intros. destruct (replace_full gname skip L pn p T m L' r) as (A & B & C & _); auto. Qed.
Print Assumptions C58_flat.

(** The copy has the pins and connections of the template with the models and parameters of the
    elements replaced, and the new instance connects each pin to the net it stands for. *)
Theorem C58_copy gname skip L pn p T m L' cn : well_formed L -> params_nodup L -> good_template T -> lfind L pn = Some (Sub p) -> apart_names p -> occurrence p T m -> ports_kept p T m -> no_clash gname L pn T m ->
  replace_match gname skip pn T L m = Some (L', Some cn) -> exists child p' x, lfind L' cn = Some (Sub child) /\ lfind L' pn = Some (Sub p') /\
  sb_pins child = sb_pins T /\ (forall t, In t (sb_elems T) -> exists e, In e (sb_elems p) /\ In (e_name e, e_name t) m /\ In (mkElem (e_name t) (e_model e) (e_pins t) (e_params e)) (sb_elems child)) /\
  (forall d, In d (sb_elems child) -> In (e_name d) (map e_name (sb_elems T))) /\
  (forall e, In e (sb_elems p') <-> e = x \/ (In e (sb_elems p) /\ ~ exists t, In t (sb_elems T) /\ In (e_name e, e_name t) m)) /\
  e_model x = cn /\ (forall q n, In (q, n) (e_pins x) <-> In (n, q) m /\ In q (sb_pins T)).
Proof.
  intros W Pn G Hp Ha Oc Hk Hc H. destruct (replace_full gname skip L pn p T m L' (Some cn) W Pn G Hp Ha Oc Hk Hc H) as (_ & _ & _ & _ & [(E & _)|(cn' & rest & child & x & p' & E & F1 & F2 & F3 & F4 & F5 & F6 & F7 & F8 & F9 & F10)]); [discriminate|]. injection E as <-. destruct G as [G1 G2 G3 G4].
  exists child, p', x. split; [assumption|]. split; [assumption|]. split; [assumption|].
  assert (GI := grp_iff L pn p T m W Hp Oc G4). split; [|split; [|split; [|split]]].
  - intros t Ht. destruct (oc_all _ _ _ Oc t Ht) as (y & Hy). destruct (oc_elem _ _ _ Oc _ _ Hy Ht) as (e & He & En & _). exists e. split; [assumption|]. subst y. split; [assumption|]. apply F3. exists e. split; [apply GI; eauto|]. symmetry. exact (rmv_eq p T m Oc G1 e t Ht Hy).
  - intros d Hd. apply F3 in Hd as (e & He & ->). destruct (grp_elem L pn p T m W Hp Oc G1 G2 G4 e He) as (t & Ht & _ & -> & _). cbn [e_name]. now apply in_map.
  - intros e. rewrite F6, in_app_iff, F10, GI. simpl. split.
    + intros [(H1 & H2)|[<-|[]]]; [right; split; [assumption|]; intros (t & Ht); apply H2; split; [assumption|]; eauto|now left].
    + intros [->|(H1 & H2)]; [right; now left|left; split; [assumption|]; intros (_ & t & Ht); apply H2; eauto].
  - assumption.
  - intros q n. rewrite F9. exact (p2n_in p T m Oc q n).
Qed.
Print Assumptions C58_copy.

(** Matches found in one subcircuit, replaced in turn; each state has no clash of names. *)
Inductive replaced (gname : sub -> string) (skip : list string) (pn : string) (T : sub) : lib -> list matching -> lib -> Prop :=
| replaced_nil L : replaced gname skip pn T L [] L
| replaced_cons L m ms L1 r L2 : no_clash gname L pn T m -> replace_match gname skip pn T L m = Some (L1, r) -> replaced gname skip pn T L1 ms L2 -> replaced gname skip pn T L (m :: ms) L2.
(** No element is in two matches (find_subgraph_matches, graph.py:108). *)
Definition share_no_element (p : sub) (m1 m2 : matching) : Prop := forall e, In e (sb_elems p) -> In (e_name e) (map fst m1) -> ~ In (e_name e) (map fst m2).

(** A matched net is on a matched element. *)
Lemma matched_net L pn p T m n y : well_formed L -> lfind L pn = Some (Sub p) -> good_template T -> occurrence p T m -> In (n, y) m -> ~ In y (map e_name (sb_elems T)) -> exists e, In e (sb_elems p) /\ on e n.
Proof.
  intros W Hp G Oc Hm Hy. destruct (oc_touch _ _ _ Oc _ _ Hm Hy) as (t & Ht & q & Hq). destruct (oc_all _ _ _ Oc t Ht) as (z & Hz). destruct (oc_elem _ _ _ Oc _ _ Hz Ht) as (e & He & _ & Hk & Hn). exists e. split; [assumption|].
  assert (Kq : In q (map fst (e_pins e))) by (apply Hk, in_map_iff; exists (q, y); auto). apply in_map_iff in Kq as ((q', n') & E & Hq'). cbn in E. subst q'. destruct (Hn q n' Hq') as (y' & Hm' & Hq2).
  pose proof (in_sget _ _ _ (gt_pins _ G t Ht) Hq) as A. pose proof (in_sget _ _ _ (gt_pins _ G t Ht) Hq2) as B. assert (y' = y) by congruence. subst y'. rewrite (m_inj p T m Oc n n' y Hm Hm'). exists q. assumption.
Qed.
(** The other matches are still occurrences after a replacement. *)
Lemma still_occurs gname skip L pn p T m L' r p' m2 : well_formed L -> params_nodup L -> good_template T -> lfind L pn = Some (Sub p) -> apart_names p -> occurrence p T m -> ports_kept p T m -> no_clash gname L pn T m ->
  replace_match gname skip pn T L m = Some (L', r) -> lfind L' pn = Some (Sub p') ->
  apart_names p' /\ sb_pins p' = sb_pins p /\ (occurrence p T m2 -> share_no_element p m m2 -> occurrence p' T m2) /\ (forall e, In e (sb_elems p') -> In e (sb_elems p) \/ e_name e = match_name p T m).
Proof.
  intros W Pn G Hp Ha Oc Hk Hc H Hp'. destruct (replace_full gname skip L pn p T m L' r W Pn G Hp Ha Oc Hk Hc H) as (_ & _ & _ & _ & [(-> & ->)|(cn & rest & child & x & p1 & -> & F1 & F2 & F3 & F4 & F5 & F6 & F7 & F8 & F9 & F10)]).
  - assert (p' = p) by congruence. subst p'. split; [assumption|]. split; [reflexivity|]. split; [auto|]. auto.
  - assert (p1 = p') by congruence. subst p1. destruct (Hc p Hp) as (_ & C2 & C3). destruct Ha as (Ha1 & Ha2).
    assert (El : forall e, In e (sb_elems p') -> (In e (sb_elems p) /\ ~ In e (leaving (sb_elems p) T m)) \/ e = x) by (intros e He; rewrite F6 in He; apply in_app_iff in He as [He|[<-|[]]]; [left; now apply F10|now right]).
    assert (Xn : forall n, on x n -> ~ In n (map e_name (sb_elems p)) /\ exists e, In e (sb_elems p) /\ on e n).
    { intros n (q & Hq). rewrite F9 in Hq. apply (p2n_in p T m Oc) in Hq as (Hq & Hi). assert (Nq : ~ In q (map e_name (sb_elems T))) by (intros E; apply in_map_iff in E as (t & <- & Ht); exact (proj2 (gt_apart _ G) t Ht Hi)).
      split; [exact (oc_net _ _ _ Oc _ _ Hq Nq)|]. exact (matched_net L pn p T m n q W Hp G Oc Hq Nq). }
    split; [|split; [assumption|split]].
    + split.
      * intros e1 e2 H1 H2 Ho. destruct (El e1 H1) as [(P1 & _)| ->].
        -- destruct (El e2 H2) as [(P2 & _)| ->]; [exact (Ha1 e1 e2 P1 P2 Ho)|]. rewrite F7 in Ho. exact (proj2 (C2 e1 P1) Ho).
        -- destruct (Xn _ Ho) as (N1 & e & He & Hoe). destruct (El e2 H2) as [(P2 & _)| ->]; [apply N1; now apply in_map|]. rewrite F7 in Hoe. exact (proj2 (C2 e He) Hoe).
      * intros e He. rewrite F5. destruct (El e He) as [(P1 & _)| ->]; [exact (Ha2 e P1)|]. rewrite F7. assumption.
    + intros O2 Sh. constructor; [apply O2|apply O2|apply O2| | |apply O2].
      * intros y t Hy Ht. destruct (oc_elem _ _ _ O2 _ _ Hy Ht) as (e & He & En & K). exists e. split; [|auto]. rewrite F6. apply in_app_iff. left. apply F10. split; [assumption|]. intros Hg. apply (grp_iff L pn p T m W Hp Oc (gt_apart _ G)) in Hg as (_ & t' & _ & Hm). apply (Sh e He); apply in_map_iff; [exists (e_name e, e_name t'); auto|exists (y, e_name t); split; [symmetry; assumption|assumption]].
      * intros y z Hy Hz Hi. apply in_map_iff in Hi as (e & En & He). destruct (El e He) as [(P1 & _)| ->]; [apply (oc_net _ _ _ O2 _ _ Hy Hz); subst y; now apply in_map|]. destruct (matched_net L pn p T m2 y z W Hp G O2 Hy Hz) as (e2 & He2 & Ho2). rewrite <- En, F7 in Ho2. exact (proj2 (C2 e2 He2) Ho2).
    + intros e He. destruct (El e He) as [(P1 & _)| ->]; [now left|right; assumption].
Qed.

(** All matches found in a subcircuit can be replaced one after the other. *)
Theorem C58_sequence gname skip pn T L ms L' : replaced gname skip pn T L ms L' -> forall p, well_formed L -> params_nodup L -> good_template T -> lfind L pn = Some (Sub p) -> apart_names p ->
  Forall (fun m => occurrence p T m /\ ports_kept p T m) ms -> ForallOrdPairs (share_no_element p) ms ->
  well_formed L' /\ (acyclic L -> acyclic L') /\ kept L L'.
Proof.
  induction 1 as [L|L m ms L1 r L2 Hc H1 _ IH]; intros p W Pn G Hp Ha Hm Hs.
  - split; [assumption|]. split; [auto|]. apply kept_refl.
  - inversion Hm as [|? ? (Oc & Hk) Hms]; subst. inversion Hs as [|? ? Sh Hss]; subst. destruct (replace_full gname skip L pn p T m L1 r W Pn G Hp Ha Oc Hk Hc H1) as (A1 & A2 & A3 & A4 & _).
    destruct (proj1 A3 pn p Hp) as (p1 & Hp1 & _). destruct (still_occurs gname skip L pn p T m L1 r p1 m W Pn G Hp Ha Oc Hk Hc H1 Hp1) as (B1 & B2 & _ & B4).
    destruct (IH p1 A1 A4 G Hp1 B1) as (D1 & D2 & D3).
    + rewrite Forall_forall in Hms, Sh |- *. intros m2 Hm2. destruct (Hms m2 Hm2) as (O2 & K2). split; [|unfold ports_kept; rewrite B2; exact K2]. destruct (still_occurs gname skip L pn p T m L1 r p1 m2 W Pn G Hp Ha Oc Hk Hc H1 Hp1) as (_ & _ & B3 & _). exact (B3 O2 (Sh m2 Hm2)).
    + destruct (Hc p Hp) as (_ & C2 & _). rewrite Forall_forall in Hms. revert Hss Hms. clear - B4 C2 W Hp G. induction 1 as [|a l Hal Hl IHl]; intros Hms; constructor; [|apply IHl; intros m2 Hm2; apply Hms; now right].
      rewrite Forall_forall in Hal |- *. intros b Hb e He Ka Kb. destruct (B4 e He) as [He'|En]; [exact (Hal b Hb e He' Ka Kb)|]. destruct (Hms a (or_introl eq_refl)) as (Oa & _). apply in_map_iff in Ka as ((y, z) & Ey & Hy). cbn in Ey. subst y.
      destruct (in_dec string_dec z (map e_name (sb_elems T))) as [Hz|Hz].
      * apply in_map_iff in Hz as (t & <- & Ht). destruct (oc_elem _ _ _ Oa _ _ Hy Ht) as (e2 & He2 & E2 & _). apply (proj1 (C2 e2 He2)). congruence.
      * destruct (matched_net L pn p T a _ _ W Hp G Oa Hy Hz) as (e2 & He2 & Ho2). rewrite En in Ho2. exact (proj2 (C2 e2 He2) Ho2).
    + split; [assumption|]. split; [auto|]. exact (kept_trans _ _ _ A3 D3).
Qed.
Print Assumptions C58_sequence.

(** The matches passed over are those with an inner net that is used by another element, and those
    with an inner node to be skipped. *)
Definition inner_net_used (p T : sub) (m : matching) : Prop := exists n y e, In (n, y) m /\ ~ In y (sb_pins T) /\ In e (sb_elems p) /\ on e n /\ ~ In (e_name e) (map fst m).
Lemma closed_iff L pn p T m : well_formed L -> lfind L pn = Some (Sub p) -> good_template T -> apart_names p -> occurrence p T m -> closed_match (sb_elems p) T m = true <-> ~ inner_net_used p T m.
Proof.
  intros W Hp G Ha Oc. unfold closed_match. rewrite forallb_forall. split.
  - intros H (n & y & e & Hm & Hy & He & Ho & Hn). specialize (H n ltac:(apply cand_in; eauto)). rewrite forallb_forall in H. apply Hn. apply shas_in. apply H. apply neighbors_in. right. eauto.
  - intros H x Hx. apply forallb_forall. intros z Hz. apply shas_in. apply cand_in in Hx as (y & Hm & Hy). apply neighbors_in in Hz as [(e & He & E & q & Hq)|(e & He & E & Ho)].
    + destruct (in_dec string_dec y (map e_name (sb_elems T))) as [Hi|Hi]; [|exfalso; apply (oc_net _ _ _ Oc _ _ Hm Hi); rewrite <- E; now apply in_map].
      assert (Hg : In e (leaving (sb_elems p) T m)) by (apply (grp_iff L pn p T m W Hp Oc (gt_apart _ G)); split; [assumption|]; apply in_map_iff in Hi as (t & <- & Ht); exists t; split; [assumption|]; now rewrite E).
      destruct (grp_elem L pn p T m W Hp Oc (gt_names _ G) (gt_pins _ G) (gt_apart _ G) e Hg) as (t & _ & _ & _ & K & _). apply in_map_iff. exists (z, rrho m z). split; [reflexivity|]. exact (proj1 (K q z Hq)).
    + subst z. destruct (in_dec string_dec (e_name e) (map fst m)) as [Hi|Hi]; [assumption|]. exfalso. apply H. exists x, y, e. auto.
Qed.
Theorem C58_passed gname skip L pn p T m : well_formed L -> lfind L pn = Some (Sub p) -> good_template T -> apart_names p -> occurrence p T m ->
  replace_match gname skip pn T L m = Some (L, None) <-> (inner_net_used p T m \/ ((1 < length (candidates T m))%nat /\ exists x y, In (x, y) m /\ ~ In y (sb_pins T) /\ In x skip)).
Proof.
  intros W Hp G Ha Oc. pose proof (closed_iff L pn p T m W Hp G Ha Oc) as Cl.
  assert (Sk : skipped skip (candidates T m) = true <-> (1 < length (candidates T m))%nat /\ exists x y, In (x, y) m /\ ~ In y (sb_pins T) /\ In x skip).
  { unfold skipped. rewrite andb_true_iff, existsb_exists, Nat.ltb_lt. split.
    - intros ((x & Hx & Hs) & Hl). split; [assumption|]. apply cand_in in Hx as (y & Hy). apply in_strs_iff in Hs. exists x, y. tauto.
    - intros (Hl & x & y & H1 & H2 & H3). split; [|assumption]. exists x. split; [apply cand_in; eauto|now apply in_strs_iff]. }
  unfold replace_match. rewrite Hp. assert (Nd : forallb (fun xy => is_node (sb_elems p) (fst xy)) m = true).
  { apply forallb_forall. intros (x, y) Hm. unfold is_node. cbn [fst]. apply existsb_exists. destruct (in_dec string_dec y (map e_name (sb_elems T))) as [Hi|Hi].
    - apply in_map_iff in Hi as (t & <- & Ht). destruct (oc_elem _ _ _ Oc _ _ Hm Ht) as (e & He & En & _). exists e. split; [assumption|]. apply orb_true_iff. left. now apply String.eqb_eq.
    - destruct (matched_net L pn p T m x y W Hp G Oc Hm Hi) as (e & He & q & Hq). exists e. split; [assumption|]. apply orb_true_iff. right. apply in_strs_iff, in_map_iff. exists (q, x). auto. }
  rewrite Nd. cbn [negb]. destruct (closed_match (sb_elems p) T m) eqn:Ec; cbn [negb orb].
  - assert (Nu : ~ inner_net_used p T m) by tauto. destruct (skipped skip (candidates T m)) eqn:Es; [split; [intros _; right; tauto|reflexivity]|]. split.
    + intros H. exfalso. destruct (create_copy _ _ _ _ _) as [(L1, ch)|]; [|discriminate]. destruct (remove_all _ _); [|discriminate]. destruct (negb _); [discriminate|]. destruct (mk_inst _ _ _ _ _); discriminate.
    + intros [H|H]; [contradiction|]. apply Sk in H. discriminate.
  - split; [|reflexivity]. intros _. left. destruct (existsb (fun xy => negb (in_strs (snd xy) (sb_pins T)) && existsb (fun e => in_strs (fst xy) (map snd (e_pins e)) && negb (in_strs (e_name e) (map fst m))) (sb_elems p)) m) eqn:Ex.
    + apply existsb_exists in Ex as ((n, y) & Hm & Hx). cbn [fst snd] in Hx. apply andb_true_iff in Hx as (Hy & Hx). apply existsb_exists in Hx as (e & He & Hx). apply andb_true_iff in Hx as (Ho & Hn). exists n, y, e. split; [assumption|]. split; [intros Hi; apply in_strs_iff in Hi; rewrite Hi in Hy; discriminate|]. split; [assumption|]. split; [apply in_strs_iff, in_map_iff in Ho as ((q, n') & E & Hq); cbn in E; subst n'; exists q; assumption|]. intros Hi. apply in_strs_iff in Hi. rewrite Hi in Hn. discriminate.
    + exfalso. assert (Q : false = true); [|discriminate]. apply Cl. intros (n & y & e & Hm & Hy & He & Ho & Hn). enough (X : existsb (fun xy => negb (in_strs (snd xy) (sb_pins T)) && existsb (fun e => in_strs (fst xy) (map snd (e_pins e)) && negb (in_strs (e_name e) (map fst m))) (sb_elems p)) m = true) by congruence.
      apply existsb_exists. exists (n, y). split; [assumption|]. cbn [fst snd]. apply andb_true_iff. split; [apply negb_true_iff; destruct (in_strs y (sb_pins T)) eqn:E; [apply in_strs_iff in E; contradiction|reflexivity]|]. apply existsb_exists. exists e. split; [assumption|]. apply andb_true_iff. split; [destruct Ho as (q & Hq); apply in_strs_iff, in_map_iff; exists (q, n); auto|]. apply negb_true_iff. destruct (in_strs (e_name e) (map fst m)) eqn:E; [apply in_strs_iff in E; contradiction|reflexivity].
Qed.
Print Assumptions C58_passed.

(** The replacement succeeds when the template's pins are all matched, the elements of the template
    may bear their names with the actual models, and no inner net is used elsewhere. *)
Theorem C58_completes gname skip L pn p T m : well_formed L -> params_nodup L -> good_template T -> lfind L pn = Some (Sub p) -> apart_names p -> occurrence p T m -> no_clash gname L pn T m ->
  ~ inner_net_used p T m -> (forall x y, In (x, y) m -> ~ In y (sb_pins T) -> ~ In x skip) -> sb_pins T <> [] -> (forall q, In q (sb_pins T) -> In q (map snd m)) ->
  (forall e t c, In e (sb_elems p) -> In t (sb_elems T) -> In (e_name e, e_name t) m -> lfind L (e_model e) = Some c -> String.prefix (cell_prefix c) (e_name t) = true) ->
  exists L' cn, replace_match gname skip pn T L m = Some (L', Some cn).
Proof.
  intros W Pn G Hp Ha Oc Hc Hu Hs Hpins Hq Hpre. destruct (Hc p Hp) as (C1 & _ & _).
  assert (Hm : exists cs, mapM (copy_node L (sb_elems p) T) m = Some cs).
  { assert (X : forall l, (forall a, In a l -> In a m) -> exists cs, mapM (copy_node L (sb_elems p) T) l = Some cs); [|apply X; auto]. induction l as [|(x, y) l IH]; intros Hl; [exists []; reflexivity|]. destruct (IH (fun a Ha0 => Hl a (or_intror Ha0))) as (cs & Ecs). cbn [mapM]. rewrite Ecs.
    assert (Z : exists z, copy_node L (sb_elems p) T (x, y) = Some z); [|destruct Z as (z & ->); eauto]. unfold copy_node. cbn [fst snd]. destruct (get_element (sb_elems T) y) as [t|] eqn:Gt; [|eauto]. apply get_element_in in Gt as (Ht & <-). pose proof (Hl _ (or_introl eq_refl)) as Hxy.
    destruct (oc_elem _ _ _ Oc _ _ Hxy Ht) as (e & He & <- & Hk & _). assert (N : NoDup (map e_name (sb_elems p))) by exact (proj1 (proj2 W p (proj1 (lfind_in _ _ _ Hp)))). rewrite (get_element_of _ _ N He).
    destruct (proj2 (proj2 W p (proj1 (lfind_in _ _ _ Hp))) e He) as (_ & c & Hc2 & Hpq & Hr). rewrite mk_inst_ok with (c := c); [cbn; eauto|assumption|exact (Hpre e t c He Ht Hxy Hc2)| |assumption|].
    - intros q. rewrite <- Hpq. symmetry. apply Hk.
    - rewrite Hr. apply Pn. exact (proj1 (lfind_in _ _ _ Hc2)). }
  destruct Hm as (cs & Ecs). destruct (C1 cs Ecs) as (Hh & Hne).
  destruct (replace_match gname skip pn T L m) as [(L', [cn|])|] eqn:E; [eauto| |].
  - exfalso. unfold replace_match in E. rewrite Hp in E. destruct (negb (forallb _ _)); [discriminate|]. rewrite (proj2 (closed_iff L pn p T m W Hp G Ha Oc) Hu) in E. assert (Sk : skipped skip (candidates T m) = false).
    { unfold skipped. destruct (existsb _ _) eqn:Ex; [|reflexivity]. exfalso. apply existsb_exists in Ex as (x & Hx & Hi). apply cand_in in Hx as (y & H1 & H2). apply in_strs_iff in Hi. exact (Hs x y H1 H2 Hi). }
    rewrite Sk in E. cbn [negb orb] in E. destruct (create_copy _ _ _ _ _) as [(L1, ch)|]; [|discriminate]. destruct (remove_all _ _); [|discriminate]. destruct (negb _); [discriminate|]. destruct (mk_inst _ _ _ _ _); discriminate.
  - exfalso. unfold replace_match in E. rewrite Hp in E. assert (Nd : forallb (fun xy => is_node (sb_elems p) (fst xy)) m = true).
    { apply forallb_forall. intros (x, y) Hm. unfold is_node. cbn [fst]. apply existsb_exists. destruct (in_dec string_dec y (map e_name (sb_elems T))) as [Hi|Hi].
      - apply in_map_iff in Hi as (t & <- & Ht). destruct (oc_elem _ _ _ Oc _ _ Hm Ht) as (e & He & En & _). exists e. split; [assumption|]. apply orb_true_iff. left. now apply String.eqb_eq.
      - destruct (matched_net L pn p T m x y W Hp G Oc Hm Hi) as (e & He & q & Hq2). exists e. split; [assumption|]. apply orb_true_iff. right. apply in_strs_iff, in_map_iff. exists (q, x). auto. }
    rewrite Nd in E. cbn [negb] in E. destruct (_ || _); [discriminate|]. unfold create_copy in E. destruct (sb_pins T) as [|q0 qs] eqn:Ep; [contradiction|]. rewrite <- Ep in *. rewrite Ecs in E. destruct (rremaining L pn p T m W Hp Oc (gt_apart _ G)) as (rest & R & _). rewrite R in E.
    assert (Aq : forallb (fun q => shas (pin2net T m) q) (sb_pins T) = true).
    { apply forallb_forall. intros q Hi. apply shas_in. specialize (Hq q Hi). apply in_map_iff in Hq as ((n, q') & En & Hn). cbn in En. subst q'. apply in_map_iff. exists (q, n). split; [reflexivity|]. apply (p2n_in p T m Oc). auto. }
    rewrite Aq in E. cbn [negb] in E. cbn [sb_name] in E. set (cn := gname _) in *. set (child := mkSub cn _ _ _) in *.
    assert (F : lfind (match lfind L cn with Some _ => L | None => L ++ [Sub child] end) cn = Some (Sub child)).
    { destruct (lfind L cn) as [d|] eqn:Fd; [rewrite Fd; now rewrite (Hh d eq_refl)|]. rewrite find_app_one, Fd. cbn [child sb_name]. now rewrite String.eqb_refl. }
    unfold mk_inst in E. rewrite F in E. cbn [cell_prefix cell_pins child sb_pins] in E. change (String.prefix "" _) with true in E. cbn [negb] in E.
    assert (Ss : same_set (map fst (pin2net T m)) (sb_pins T) = true).
    { apply same_set_iff. intros q. rewrite forallb_forall in Aq. split; [|intros Hi; apply shas_in; auto]. intros Hi. apply in_map_iff in Hi as ((q', n) & En & Hi). cbn in En. subst q'. apply (p2n_in p T m Oc) in Hi. tauto. }
    rewrite Ss in E. discriminate.
Qed.
Print Assumptions C58_completes.

(** Two transistors in series, in a parent that may have the middle net as a port. *)
Local Open Scope string_scope.
Local Open Scope list_scope.
Definition ser58 : sub := mkSub "SER" ["A"; "B"; "C"] [] [mkElem "M0" "NMOS" [("D", "A"); ("G", "C"); ("S", "X")] [("W", "1")]; mkElem "M1" "NMOS" [("D", "X"); ("G", "C"); ("S", "B")] [("W", "1")]].
Definition top58 (mid : string) : sub := mkSub "TOP" ["IN"; "OUT"; mid] [] [mkElem "MA" "NMOS" [("D", "IN"); ("G", "GG"); ("S", "N1")] [("W", "1")];
  mkElem "MB" "NMOS" [("D", "N1"); ("G", "GG"); ("S", "OUT")] [("W", "2")]; mkElem "MC" "NMOS" [("D", "GG"); ("G", "GG"); ("S", "OUT")] [("W", "3")]].
Definition lib58 (mid : string) : lib := [Prim (mkLeaf "NMOS" ["D"; "G"; "S"] [("W", "1")] "M"); Sub (top58 mid)].
Definition m58 : matching := [("MA", "M0"); ("MB", "M1"); ("IN", "A"); ("N1", "X"); ("OUT", "B"); ("GG", "C")].
Definition nm58 (s : sub) : string := "SER_7".
Definition copy58 : sub := mkSub "SER_7" ["A"; "B"; "C"] [] [mkElem "M0" "NMOS" [("D", "A"); ("G", "C"); ("S", "X")] [("W", "1")]; mkElem "M1" "NMOS" [("D", "X"); ("G", "C"); ("S", "B")] [("W", "2")]].
Definition after58 (mid : string) : sub := mkSub "TOP" ["IN"; "OUT"; mid] [] [mkElem "MC" "NMOS" [("D", "GG"); ("G", "GG"); ("S", "OUT")] [("W", "3")]; mkElem "X_MA_MB" "SER_7" [("A", "IN"); ("B", "OUT"); ("C", "GG")] []].
Definition out58 (mid : string) : lib := [Prim (mkLeaf "NMOS" ["D"; "G"; "S"] [("W", "1")] "M"); Sub (after58 mid); Sub copy58].

Ltac all58 H := simpl in H; repeat (destruct H as [H|H]; [|]); try contradiction.
Lemma wf58 mid : well_formed (lib58 mid).
Proof.
  split; [simpl; repeat constructor; simpl; intuition discriminate|]. intros c [H|[H|[]]]; [discriminate|]. injection H as <-. split; [simpl; repeat constructor; simpl; intuition discriminate|]. intros e He. simpl in He. repeat (destruct He as [He|He]; [subst e; split; [simpl; repeat constructor; simpl; intuition discriminate|]; eexists; split; [reflexivity|]; split; [intros q; simpl; tauto|reflexivity]|]). contradiction.
Qed.
Lemma good58 : good_template ser58.
Proof.
  constructor.
  - simpl; repeat constructor; simpl; intuition discriminate.
  - intros t Ht. simpl in Ht. destruct Ht as [<-|[<-|[]]]; simpl; repeat constructor; simpl; intuition discriminate.
  - constructor.
  - split; [intros e1 e2 H1 H2 (q & Ho); simpl in H1, H2; destruct H1 as [<-|[<-|[]]], H2 as [<-|[<-|[]]]; simpl in Ho; intuition discriminate|]. intros e He. simpl in He. destruct He as [<-|[<-|[]]]; simpl; intuition discriminate.
Qed.
Lemma occ58 mid : occurrence (top58 mid) ser58 m58.
Proof.
  constructor.
  - simpl; repeat constructor; simpl; intuition discriminate.
  - simpl; repeat constructor; simpl; intuition discriminate.
  - intros t Ht. simpl in Ht. destruct Ht as [<-|[<-|[]]]; eexists; simpl; eauto.
  - intros x t Hm Ht. simpl in Ht. destruct Ht as [<-|[<-|[]]]; simpl in Hm; repeat (destruct Hm as [E|Hm]; [try discriminate E; injection E as <-|]); try contradiction; eexists.
    + split; [left; reflexivity|]. split; [reflexivity|]. split; [intros q; simpl; tauto|]. intros q n H. simpl in H. repeat (destruct H as [E|H]; [injection E as <- <-; eexists; split; simpl; eauto 10|]). contradiction.
    + split; [right; left; reflexivity|]. split; [reflexivity|]. split; [intros q; simpl; tauto|]. intros q n H. simpl in H. repeat (destruct H as [E|H]; [injection E as <- <-; eexists; split; simpl; eauto 10|]). contradiction.
  - intros x y Hm Hy. simpl in Hm. repeat (destruct Hm as [E|Hm]; [injection E as <- <-; simpl in *; intuition discriminate|]). contradiction.
  - intros x y Hm Hy. simpl in Hm. repeat (destruct Hm as [E|Hm]; [injection E as <- <-; solve [exfalso; apply Hy; simpl; tauto|exists (nth 0 (sb_elems ser58) (mkElem "" "" [] [])); split; [left; reflexivity|]; unfold on; simpl; eauto 10|exists (nth 1 (sb_elems ser58) (mkElem "" "" [] [])); split; [right; left; reflexivity|]; unfold on; simpl; eauto 10]|]). contradiction.
Qed.
Lemma run58 mid : replace_match nm58 [] "TOP" ser58 (lib58 mid) m58 = Some (out58 mid, Some "SER_7").
Proof. reflexivity. Qed.

Lemma apart58 mid : mid <> "MA" -> mid <> "MB" -> mid <> "MC" -> apart_names (top58 mid).
Proof.
  intros H1 H2 H3. split.
  - intros e1 e2 K1 K2 (q & Ho). simpl in K1, K2. repeat (destruct K1 as [<-|K1]; [repeat (destruct K2 as [<-|K2]; [simpl in Ho; intuition discriminate|]); contradiction|]). contradiction.
  - intros e He. simpl in He. repeat (destruct He as [<-|He]; [simpl; intuition (try discriminate)|]). contradiction.
Qed.
Lemma clash58 mid : mid <> "X_MA_MB" -> no_clash nm58 (lib58 mid) "TOP" ser58 m58.
Proof.
  intros Hm p H. injection H as <-. split; [intros cs Hcs; split; [intros d Hd; discriminate|discriminate]|]. split.
  - intros e He. change (match_name (top58 mid) ser58 m58) with "X_MA_MB". simpl in He. repeat (destruct He as [<-|He]; [split; [discriminate|intros (q & Hq); simpl in Hq; intuition discriminate]|]). contradiction.
  - change (match_name (top58 mid) ser58 m58) with "X_MA_MB". simpl. intuition (try discriminate).
Qed.
Lemma params58 mid : params_nodup (lib58 mid).
Proof. intros c H. simpl in H. repeat (destruct H as [<-|H]; [simpl; repeat constructor; simpl; intuition discriminate|]). contradiction. Qed.

Example C58_nonvacuous : exists p, well_formed (lib58 "GG") /\ params_nodup (lib58 "GG") /\ good_template ser58 /\ lfind (lib58 "GG") "TOP" = Some (Sub p) /\ apart_names p /\ occurrence p ser58 m58 /\
  ports_kept p ser58 m58 /\ no_clash nm58 (lib58 "GG") "TOP" ser58 m58 /\ replace_match nm58 [] "TOP" ser58 (lib58 "GG") m58 = Some (out58 "GG", Some "SER_7") /\
  ~ inner_net_used p ser58 m58 /\ replaced nm58 [] "TOP" ser58 (lib58 "GG") [m58] (out58 "GG").
Proof.
  exists (top58 "GG"). split; [apply wf58|]. split; [apply params58|]. split; [apply good58|]. split; [reflexivity|]. split; [now apply apart58|]. split; [apply occ58|].
  split; [intros x y H Hy; simpl in H; repeat (destruct H as [E|H]; [injection E as <- <-; simpl in *; intuition discriminate|]); contradiction|]. split; [now apply clash58|]. split; [reflexivity|]. split.
  - apply (closed_iff (lib58 "GG") "TOP"); [apply wf58|reflexivity|apply good58|now apply apart58|apply occ58|reflexivity].
  - econstructor; [now apply clash58|reflexivity|constructor].
Qed.

(** Finding: only elements are looked at to tell whether an inner net is used elsewhere.  When the net
    between the two transistors is a port of the subcircuit the match is replaced and the port is
    left unconnected. *)
Theorem C58_port_refuted : exists gname L pn p T m L' cn p', well_formed L /\ params_nodup L /\ good_template T /\ lfind L pn = Some (Sub p) /\ apart_names p /\ occurrence p T m /\ no_clash gname L pn T m /\
  replace_match gname [] pn T L m = Some (L', Some cn) /\ lfind L' pn = Some (Sub p') /\ ~ same_circuit L p L' p'.
Proof.
  exists nm58, (lib58 "N1"), "TOP", (top58 "N1"), ser58, m58, (out58 "N1"), "SER_7", (after58 "N1"). split; [apply wf58|]. split; [apply params58|]. split; [apply good58|]. split; [reflexivity|]. split; [now apply apart58|]. split; [apply occ58|]. split; [now apply clash58|]. split; [reflexivity|]. split; [reflexivity|].
  intros (f & g & G1 & _ & G3 & _). destruct (G3 _ (dev_leaf (lib58 "N1") (top58 "N1") (mkElem "MA" "NMOS" [("D", "IN"); ("G", "GG"); ("S", "N1")] [("W", "1")]) (mkLeaf "NMOS" ["D"; "G"; "S"] [("W", "1")] "M") (or_introl eq_refl) eq_refl)) as (d' & Hd & _ & _ & Lp & _).
  assert (Hi : In ("S", Port "N1") (dv_pins d')) by (apply (Permutation_in _ Lp); right; right; left; exact (f_equal (pair "S") (G1 "N1"))). clear Lp. revert Hi. generalize "S". intros q Hi.
  inversion Hd as [c e l He Hl E1 E2|c e s d pins He Hs Hd2 HF E1 E2]; subst; simpl in He; destruct He as [<-|[<-|[]]]; simpl in *; try discriminate.
  - intuition discriminate.
  - injection Hs as <-. destruct (Forall2_in_r _ _ _ _ HF Hi) as ((q2, n2) & Hn & _ & Ho). cbn [fst snd] in *. destruct n2 as [n2|path n2]; [|discriminate]. cbn in Ho.
    inversion Hd2 as [c e l He Hl E1 E2|c e s d2 pins2 He Hs Hd3 HF3 E1 E2]; subst; simpl in He; destruct He as [<-|[<-|[]]]; simpl in *; try discriminate; repeat (destruct Hn as [Hn|Hn]; [try discriminate; injection Hn as <- <-; discriminate|]); contradiction.
Qed.

(** Finding: the test for the name of the new instance compares a string with elements
    (graph.py:192), so a clash is not noticed and two elements get the same name. *)
Definition topc58 : sub := mkSub "TOP" ["IN"; "OUT"] [] [mkElem "MA" "NMOS" [("D", "IN"); ("G", "GG"); ("S", "N1")] [("W", "1")];
  mkElem "MB" "NMOS" [("D", "N1"); ("G", "GG"); ("S", "OUT")] [("W", "2")]; mkElem "X_MA_MB" "BLK" [("P", "GG"); ("Q", "OUT")] []].
Definition libc58 : lib := [Prim (mkLeaf "NMOS" ["D"; "G"; "S"] [("W", "1")] "M"); Prim (mkLeaf "BLK" ["P"; "Q"] [] ""); Sub topc58].
Theorem C58_clash_refuted : exists L' p', well_formed libc58 /\ params_nodup libc58 /\ good_template ser58 /\ lfind libc58 "TOP" = Some (Sub topc58) /\ apart_names topc58 /\ occurrence topc58 ser58 m58 /\ ports_kept topc58 ser58 m58 /\
  lfind libc58 "SER_7" = None /\ replace_match nm58 [] "TOP" ser58 libc58 m58 = Some (L', Some "SER_7") /\ lfind L' "TOP" = Some (Sub p') /\ map e_name (sb_elems p') = ["X_MA_MB"; "X_MA_MB"] /\ ~ well_formed L'.
Proof.
  do 2 eexists. split.
  { split; [simpl; repeat constructor; simpl; intuition discriminate|]. intros c [H|[H|[H|[]]]]; [discriminate|discriminate|]. injection H as <-. split; [simpl; repeat constructor; simpl; intuition discriminate|]. intros e He. simpl in He. repeat (destruct He as [He|He]; [subst e; split; [simpl; repeat constructor; simpl; intuition discriminate|]; eexists; split; [reflexivity|]; split; [intros q; simpl; tauto|reflexivity]|]). contradiction. }
  split; [intros c H; simpl in H; repeat (destruct H as [<-|H]; [simpl; repeat constructor; simpl; intuition discriminate|]); contradiction|]. split; [apply good58|]. split; [reflexivity|]. split.
  { split.
    - intros e1 e2 K1 K2 (q & Ho). simpl in K1, K2. repeat (destruct K1 as [<-|K1]; [repeat (destruct K2 as [<-|K2]; [simpl in Ho; intuition discriminate|]); contradiction|]). contradiction.
    - intros e He. simpl in He. repeat (destruct He as [<-|He]; [simpl; intuition discriminate|]). contradiction. }
  split.
  { destruct (occ58 "GG") as [A B C D E F]. constructor; [assumption|assumption|assumption| | |assumption].
    - intros x t Hm Ht. destruct (D x t Hm Ht) as (e & He & En & K). exists e. split; [|auto]. simpl in He. destruct He as [<-|[<-|[<-|[]]]]; [now left|right; now left|]. exfalso. simpl in En. subst x. simpl in Hm. intuition discriminate.
    - intros x y Hm Hy. simpl in Hm. repeat (destruct Hm as [E0|Hm]; [injection E0 as <- <-; simpl in *; intuition discriminate|]). contradiction. }
  split; [intros x y H Hy; simpl in H; repeat (destruct H as [E|H]; [injection E as <- <-; simpl in *; intuition discriminate|]); contradiction|]. split; [reflexivity|]. split; [vm_compute; reflexivity|]. split; [vm_compute; reflexivity|]. split; [reflexivity|].
  intros (_ & W). match type of W with forall c, In (Sub c) ?l -> _ => assert (Hi : exists c, In (Sub c) l /\ map e_name (sb_elems c) = ["X_MA_MB"; "X_MA_MB"]) by (eexists; split; [right; right; left; reflexivity|reflexivity]) end.
  destruct Hi as (c & Hi & En). destruct (W c Hi) as (N & _). rewrite En in N. inversion N as [|? ? N1 _]. apply N1. now left.
Qed.
Print Assumptions C58_port_refuted.
Print Assumptions C58_clash_refuted.
