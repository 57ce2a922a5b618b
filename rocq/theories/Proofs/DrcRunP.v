From Coq Require Import String Ascii ZifyBool.
From Verif Require Import Base.Prelude Base.PyDict Model.Transformation Model.PySort Model.Grid Model.RemoveDuplicates
  Model.Drc Spec.RemoveDuplicatesSpec Spec.DrcSpec Proofs.PySortP Proofs.DrcP.
Local Open Scope Z_scope.

Definition err_layer (e : drc_err) : string :=
  match e with
  | EVSpace l _ _ | EHSpace l _ _ | EVAdjacent l _ | EHAdjacent l _ | EEnclosure l _ _ _
  | EAttacker l _ _ | EMinLength l _ | EMinSpace l _ _ => l
  end.

Lemma min_length_layer rg layer m d sl e : In e (check_min_length rg layer m d sl) -> err_layer e = layer.
Proof. intros H. apply min_length_in in H. destruct H as (r & -> & _). reflexivity. Qed.
Lemma min_spacing_layer rg layer m d sl e : In e (check_min_spacing rg layer m d sl) -> err_layer e = layer.
Proof. intros H. apply min_spacing_in in H. destruct H as (a & b & -> & _). reflexivity. Qed.

Lemma attack_in layer p vv e :
  In e (check_attack layer p vv) <->
  exists dist c0 l0 c1 l1 a b, e = EAttacker layer a b /\ p_attack p = Some dist /\
    In (c0, l0) vv /\ (c1 = c0 - 2 * p_pitch p \/ c1 = c0 + 2 * p_pitch p) /\ dget Z.eqb vv c1 = Some l1 /\
    In a l0 /\ In b l1 /\ 0 < alo (p_vertical p) b - ahi (p_vertical p) a <= dist.
Proof.
  unfold check_attack. destruct (p_attack p) as [dist|] eqn:Ed.
  - rewrite in_flat_map. split.
    + intros ((c0, l0) & H0 & H). apply in_flat_map in H. destruct H as (c1 & Hc1 & H). cbn [fst snd] in *.
      destruct (dget Z.eqb vv c1) as [l1|] eqn:E1; [|destruct H].
      apply in_flat_map in H. destruct H as (a & Ha & H). apply in_flat_map in H. destruct H as (b & Hb & H).
      match type of H with In _ (if ?c then _ else _) => destruct c eqn:E; [|destruct H] end.
      destruct H as [<-|[]]. exists dist, c0, l0, c1, l1, a, b. repeat split; auto; try lia.
      destruct Hc1 as [<-|[<-|[]]]; auto.
    + intros (dist' & c0 & l0 & c1 & l1 & a & b & -> & E & H0 & Hc1 & E1 & Ha & Hb & Hg). injection E as <-.
      exists (c0, l0). split; [exact H0|]. apply in_flat_map. exists c1. cbn [fst snd]. split.
      * destruct Hc1 as [->| ->]; simpl; auto.
      * rewrite E1. apply in_flat_map. exists a. split; [exact Ha|]. apply in_flat_map. exists b. split; [exact Hb|].
        match goal with |- In _ (if ?c then _ else _) => replace c with true by lia end. now left.
  - split; [intros []|]. intros (dist & c0 & l0 & c1 & l1 & a & b & _ & E & _). discriminate.
Qed.

Lemma metal_in env layer p d vv e :
  In e (check_metal env layer p d vv) <->
  exists c sl, In (c, sl) vv /\ (In e (check_min_length (en_regions env) layer (p_minl p) d sl) \/
                                 In e (check_min_spacing (en_regions env) layer (p_ete p) d sl)).
Proof.
  unfold check_metal. rewrite in_flat_map. split.
  - intros ((c, sl) & H & He). apply in_app_iff in He. eauto.
  - intros (c & sl & H & He). exists (c, sl). rewrite in_app_iff. auto.
Qed.

Lemma adj_y_in layer max g vv es :
  check_adj_y layer max g vv = Some es ->
  forall e, In e es <-> exists c sl qs r, e = EVAdjacent layer r /\ In (c, sl) vv /\
    Forall2 (fun r q => grid_q g ((lly r + ury r) / 2) = Some (fst q) /\ snd q = r) sl qs /\
    In r (count_loop max None qs).
Proof.
  intros H e. apply flat_mapM_in in H. destruct H as [H Hn]. rewrite H.
  assert (X : forall sl qs, mapM (fun r => option_map (fun q => (q, r)) (grid_q g ((lly r + ury r) / 2))) sl = Some qs ->
              Forall2 (fun r q => grid_q g ((lly r + ury r) / 2) = Some (fst q) /\ snd q = r) sl qs).
  { intros sl qs E. apply mapM_map in E. revert E. generalize sl qs. clear.
    induction 1 as [|a b sl qs E _ IH]; constructor; auto.
    destruct (grid_q g ((lly a + ury a) / 2)); [|discriminate]. injection E as <-. auto. }
  split.
  - intros ((c, sl) & r & Ha & E & Hb). cbn [snd] in E.
    destruct (mapM _ sl) as [qs|] eqn:Eq; [|discriminate]. injection E as <-.
    apply in_map_iff in Hb. destruct Hb as (x & <- & Hx). exists c, sl, qs, x. repeat split; auto.
  - intros (c & sl & qs & r & -> & Ha & Hq & Hr).
    assert (E : mapM (fun r => option_map (fun q => (q, r)) (grid_q g ((lly r + ury r) / 2))) sl = Some qs).
    { clear -Hq. induction Hq as [|a (q, b) sl qs [E1 E2] _ IH]; [reflexivity|]. cbn [fst snd] in *. subst b.
      simpl. rewrite E1, IH. reflexivity. }
    exists (c, sl), (map (EVAdjacent layer) (count_loop max None qs)). cbn [snd]. rewrite E.
    repeat split; auto. now apply in_map.
Qed.

Lemma adj_x_in layer max g vv es :
  check_adj_x layer max g vv = Some es ->
  forall e, In e es <-> exists c sl qs r, (exists r', e = EHAdjacent layer r' /\ r' = last (concat (map snd vv)) (mkRect 0 0 0 0)) /\
    In (c, sl) (rows vv) /\
    Forall2 (fun r q => grid_q g ((llx r + urx r) / 2) = Some (fst q) /\ snd q = r) sl qs /\
    In r (count_loop max None qs).
Proof.
  intros H e. apply flat_mapM_in in H. destruct H as [H Hn]. rewrite H.
  split.
  - intros ((c, sl) & r & Ha & E & Hb). cbn [snd] in E.
    destruct (mapM _ sl) as [qs|] eqn:Eq; [|discriminate]. injection E as <-.
    apply in_map_iff in Hb. destruct Hb as (x & <- & Hx). exists c, sl, qs, x.
    split; [eauto|]. repeat split; auto.
    apply mapM_map in Eq. revert Eq. generalize sl qs. clear.
    induction 1 as [|a b sl qs E _ IH]; constructor; auto.
    destruct (grid_q g ((llx a + urx a) / 2)); [|discriminate]. injection E as <-. auto.
  - intros (c & sl & qs & r & (r' & -> & ->) & Ha & Hq & Hr).
    assert (E : mapM (fun r => option_map (fun q => (q, r)) (grid_q g ((llx r + urx r) / 2))) sl = Some qs).
    { clear -Hq. induction Hq as [|a (q, b) sl qs [E1 E2] _ IH]; [reflexivity|]. cbn [fst snd] in *. subst b.
      simpl. rewrite E1, IH. reflexivity. }
    exists (c, sl). eexists. cbn [snd]. rewrite E. split; [exact Ha|]. split; [reflexivity|].
    apply in_map_iff. exists r. auto.
Qed.

Lemma via_rules_in env layer p vv es :
  check_via_rules env layer p vv = Some es ->
  exists e3 e4,
    (forall e, In e es <->
       (exists s, p_spacey p = Some s /\ In e (check_space_y layer s vv)) \/
       (exists s, p_spacex p = Some s /\ In e (check_space_x layer s vv)) \/ In e e3 \/ In e e4) /\
    match p_maxy p with
    | None => e3 = []
    | Some m => exists h v, dget String.eqb (en_clg env) layer = Some (h, v) /\ check_adj_y layer m h vv = Some e3 end /\
    match p_maxx p with
    | None => e4 = []
    | Some m => exists h v, dget String.eqb (en_clg env) layer = Some (h, v) /\ check_adj_x layer m v vv = Some e4 end.
Proof.
  unfold check_via_rules.
  match goal with |- match ?a with _ => _ end = _ -> _ => destruct a as [e3|] eqn:E3; [|discriminate] end.
  match goal with |- match ?a with _ => _ end = _ -> _ => destruct a as [e4|] eqn:E4; [|discriminate] end.
  intros H; injection H as <-. exists e3, e4. split; [|split].
  - intros e. rewrite !in_app_iff.
    assert (X : forall o (f : Z -> list drc_err), In e (match o with None => [] | Some s => f s end) <->
                                        exists s, o = Some s /\ In e (f s)).
    { intros o f. destruct o as [z|]; split.
      - eauto.
      - intros (s & Es & Hs). injection Es as <-. exact Hs.
      - intros [].
      - intros (s & Es & _). discriminate. }
    rewrite !X. tauto.
  - destruct (p_maxy p); [|congruence]. destruct (dget String.eqb (en_clg env) layer) as [(h, v)|]; [|discriminate]. eauto.
  - destruct (p_maxx p); [|congruence]. destruct (dget String.eqb (en_clg env) layer) as [(h, v)|]; [|discriminate]. eauto.
Qed.

Lemma via_rules_layer env layer p vv es e :
  check_via_rules env layer p vv = Some es -> In e es -> err_layer e = layer.
Proof.
  intros H He. apply via_rules_in in H. destruct H as (e3 & e4 & Hin & H3 & H4).
  apply Hin in He. destruct He as [(s & _ & He)|[(s & _ & He)|[He|He]]].
  - apply space_y_in in He. destruct He as (?&?&?&?&->&_). reflexivity.
  - apply space_x_in in He. destruct He as (?&?&?&?&->&_). reflexivity.
  - destruct (p_maxy p); [|subst; destruct He]. destruct H3 as (h & v & _ & H3).
    apply (adj_y_in _ _ _ _ _ H3) in He. destruct He as (?&?&?&?&->&_). reflexivity.
  - destruct (p_maxx p); [|subst; destruct He]. destruct H4 as (h & v & _ & H4).
    apply (adj_x_in _ _ _ _ _ H4) in He. destruct He as (?&?&?&?&(?&->&_)&_). reflexivity.
Qed.

Lemma single_layer sto via r ly vert enc es e :
  check_single sto via r ly vert enc = Some es -> In e es -> exists f, e = EEnclosure via ly r f.
Proof.
  unfold check_single. destruct (find_covering sto r ly vert) as [[m|]|]; [| |discriminate].
  - destruct (_ || _); intros H; injection H as <-; [intros [<-|[]]; eauto|intros []].
  - intros H; injection H as <-. intros [<-|[]]; eauto.
Qed.

(** The enclosure checks made for one via. *)
Definition enc_for (p : rules) (up : bool) : option string * Z :=
  if up then (snd (p_stack p), p_vench p) else (fst (p_stack p), p_vencl p).

Lemma enclosure_in env sto layer p vv es :
  check_enclosure env sto layer p vv = Some es ->
  (forall e, In e es <->
     exists c sl r up ly q a, In (c, sl) vv /\ In r sl /\ fst (enc_for p up) = Some ly /\
       dget String.eqb (en_pdk env) ly = Some q /\
       check_single sto layer r ly (p_vertical q) (snd (enc_for p up)) = Some a /\ In e a) /\
  (forall c sl r up ly, In (c, sl) vv -> In r sl -> fst (enc_for p up) = Some ly ->
     exists q, dget String.eqb (en_pdk env) ly = Some q /\
       check_single sto layer r ly (p_vertical q) (snd (enc_for p up)) <> None).
Proof.
  unfold check_enclosure.
  match goal with |- (if ?c then _ else _) = _ -> _ => destruct c eqn:Ec; [|discriminate] end.
  intros H. apply flat_mapM_in in H. destruct H as [H Hn]. unfold enc_for. split.
  - intros e. rewrite H. split.
    + intros (r & es0 & Hr & E & He). apply in_concat_snd in Hr. destruct Hr as (c & sl & Hl & Hr).
      destruct (p_stack p) as [lo hi]. cbn [fst snd] in *.
      match type of E with match ?a with _ => _ end = _ => destruct a as [ea|] eqn:Ea; [|discriminate] end.
      match type of E with match ?a with _ => _ end = _ => destruct a as [eb|] eqn:Eb; [|discriminate] end.
      injection E as <-. apply in_app_iff in He. destruct He as [He|He].
      * destruct lo as [ly|]; [|injection Ea as <-; destruct He].
        destruct (dget String.eqb (en_pdk env) ly) as [q|] eqn:Eq; [|discriminate].
        exists c, sl, r, false, ly, q, ea. cbn [fst snd]. repeat split; auto.
      * destruct hi as [ly|]; [|injection Eb as <-; destruct He].
        destruct (dget String.eqb (en_pdk env) ly) as [q|] eqn:Eq; [|discriminate].
        exists c, sl, r, true, ly, q, eb. cbn [fst snd]. repeat split; auto.
    + intros (c & sl & r & up & ly & q & a & Hl & Hr & Ely & Eq & Ea & He).
      assert (Hc : In r (concat (map snd vv))) by (apply in_concat_snd; eauto).
      specialize (Hn r Hc). destruct (p_stack p) as [lo hi]. cbn [fst snd] in *.
      match type of Hn with match ?a with _ => _ end <> _ => destruct a as [ea|] eqn:Eaa; [|congruence] end.
      match type of Hn with match ?a with _ => _ end <> _ => destruct a as [eb|] eqn:Ebb; [|congruence] end.
      exists r, (ea ++ eb). split; [exact Hc|]. rewrite Eaa, Ebb. split; [reflexivity|].
      rewrite in_app_iff. destruct up; cbn [fst snd] in *.
      * right. subst hi. rewrite Eq in Ebb. congruence.
      * left. subst lo. rewrite Eq in Eaa. congruence.
  - intros c sl r up ly Hl Hr Ely.
    assert (Hc : In r (concat (map snd vv))) by (apply in_concat_snd; eauto).
    specialize (Hn r Hc). destruct (p_stack p) as [lo hi]. cbn [fst snd] in *.
    match type of Hn with match ?a with _ => _ end <> _ => destruct a as [ea|] eqn:Eaa; [|congruence] end.
    match type of Hn with match ?a with _ => _ end <> _ => destruct a as [eb|] eqn:Ebb; [|congruence] end.
    destruct up; cbn [fst snd] in *; subst.
    + destruct (dget String.eqb (en_pdk env) ly) as [q|]; [|discriminate]. exists q. split; [reflexivity|congruence].
    + destruct (dget String.eqb (en_pdk env) ly) as [q|]; [|discriminate]. exists q. split; [reflexivity|congruence].
Qed.

Lemma enclosure_layer env sto layer p vv es e :
  check_enclosure env sto layer p vv = Some es -> In e es -> err_layer e = layer.
Proof.
  intros H He. apply enclosure_in in H. destruct H as [H _]. apply H in He.
  destruct He as (?&?&?&?&?&?&a&_&_&_&_&Ea&Hin). destruct (single_layer _ _ _ _ _ _ _ _ Ea Hin) as (f & ->). reflexivity.
Qed.

Lemma checked_first layer : checked layer -> first_is "V"%char layer || first_is "M"%char layer = true.
Proof. intros (tl & [-> | ->]); reflexivity. Qed.

Definition run_layer (env : drcenv) (sto : scan_store) (lv : string * list (Z * list Rect)) : option (list drc_err) :=
    let '(layer, vv) := lv in
    if first_is "V"%char layer || first_is "M"%char layer then
      match dget String.eqb (en_pdk env) layer with
      | None => Some []
      | Some p =>
        match dget String.eqb (en_layers env) layer with
        | None => None
        | Some DStar =>
          match check_via_rules env layer p vv, check_enclosure env sto layer p vv with
          | Some a, Some b => Some (a ++ b)
          | _, _ => None
          end
        | Some d => Some (check_metal env layer p d vv ++ check_attack layer p vv)
        end
      end
    else Some [].

(** Every error names the layer whose scan lines were being checked. *)
Lemma entry_layer env sto l' vv' r e : run_layer env sto (l', vv') = Some r -> In e r -> l' = err_layer e.
Proof.
  intros E He. unfold run_layer in E.
  destruct (first_is "V"%char l' || first_is "M"%char l'); [|injection E as <-; destruct He].
  destruct (dget String.eqb (en_pdk env) l') as [p'|]; [|injection E as <-; destruct He].
  assert (X : forall d, In e (check_metal env l' p' d vv' ++ check_attack l' p' vv') -> l' = err_layer e).
  { intros d H. apply in_app_iff in H. destruct H as [H|H].
    - apply metal_in in H. destruct H as (?&?&_&[H|H]); [apply min_length_layer in H|apply min_spacing_layer in H]; congruence.
    - apply attack_in in H. destruct H as (?&?&?&?&?&?&?&->&_). reflexivity. }
  destruct (dget String.eqb (en_layers env) l') as [[| |]|]; try discriminate.
  - injection E as <-. eapply X; eauto.
  - injection E as <-. eapply X; eauto.
  - destruct (check_via_rules env l' p' vv') as [a|] eqn:Ea; [|discriminate].
    destruct (check_enclosure env sto l' p' vv') as [b|] eqn:Eb; [|discriminate].
    injection E as <-. apply in_app_iff in He. destruct He as [He|He]; symmetry.
    + eapply via_rules_layer; eauto.
    + eapply enclosure_layer; eauto.
Qed.

(** Errors of a wire layer. *)
Lemma run_metal env sto errs layer vv p d :
  drc_run env sto = Some errs -> NoDup (map fst sto) -> In (layer, vv) sto -> checked layer ->
  dget String.eqb (en_pdk env) layer = Some p -> dget String.eqb (en_layers env) layer = Some d -> d <> DStar ->
  forall e, err_layer e = layer ->
    (In e errs <-> In e (check_metal env layer p d vv) \/ In e (check_attack layer p vv)).
Proof.
  intros H Hnd Hin Hck Hp Hd Hds e Hel. apply flat_mapM_in in H. destruct H as [H Hn]. rewrite H. split.
  - intros ((l', vv') & r & Hl & E & He).
    assert (l' = layer).
    { rewrite <- Hel. eapply (entry_layer env sto); eauto. }
    subst l'.
    assert (vv' = vv).
    { apply (in_dget String.eqb String.eqb_eq) in Hl; [|exact Hnd]. apply (in_dget String.eqb String.eqb_eq) in Hin; [|exact Hnd]. congruence. }
    subst vv'. rewrite (checked_first _ Hck), Hp, Hd in E.
    destruct d; [| |congruence]; injection E as <-; apply in_app_iff in He; exact He.
  - intros He. exists (layer, vv), (check_metal env layer p d vv ++ check_attack layer p vv).
    split; [exact Hin|]. rewrite (checked_first _ Hck), Hp, Hd. rewrite in_app_iff.
    split; [destruct d; congruence|exact He].
Qed.

(** Errors of a via layer. *)
Lemma run_via env sto errs layer vv p :
  drc_run env sto = Some errs -> NoDup (map fst sto) -> In (layer, vv) sto -> checked layer ->
  dget String.eqb (en_pdk env) layer = Some p -> dget String.eqb (en_layers env) layer = Some DStar ->
  exists ea eb, check_via_rules env layer p vv = Some ea /\ check_enclosure env sto layer p vv = Some eb /\
  forall e, err_layer e = layer -> (In e errs <-> In e ea \/ In e eb).
Proof.
  intros H Hnd Hin Hck Hp Hd. apply flat_mapM_in in H. destruct H as [H Hn].
  pose proof (Hn _ Hin) as Hl0. cbn beta iota in Hl0. rewrite (checked_first _ Hck), Hp, Hd in Hl0.
  destruct (check_via_rules env layer p vv) as [ea|] eqn:Ea; [|congruence].
  destruct (check_enclosure env sto layer p vv) as [eb|] eqn:Eb; [|congruence].
  exists ea, eb. split; [reflexivity|]. split; [reflexivity|].
  intros e Hel. rewrite H. split.
  - intros ((l', vv') & r & Hl & E & He).
    assert (l' = layer).
    { rewrite <- Hel. eapply (entry_layer env sto); eauto. }
    subst l'.
    assert (vv' = vv).
    { apply (in_dget String.eqb String.eqb_eq) in Hl; [|exact Hnd]. apply (in_dget String.eqb String.eqb_eq) in Hin; [|exact Hnd]. congruence. }
    subst vv'. rewrite (checked_first _ Hck), Hp, Hd, Ea, Eb in E.
    injection E as <-. apply in_app_iff in He. exact He.
  - intros He. exists (layer, vv), (ea ++ eb).
    split; [exact Hin|]. rewrite (checked_first _ Hck), Hp, Hd, Ea, Eb. rewrite in_app_iff. auto.
Qed.
