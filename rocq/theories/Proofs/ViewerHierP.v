(** Lemmas for C87: a hierarchy of assembled layouts. *)
From Coq Require Import String Ascii ZifyBool.
From Verif Require Import Base.Prelude Base.PyDict Model.Transformation Model.Grid Model.RemoveDuplicates Model.Viewer.
From Verif Require Import Spec.Geometry Spec.RemoveDuplicatesSpec Spec.FlatLayout Proofs.TransformationP Proofs.ViewerP Props.C09_C13.
Local Open Scope Z_scope.

Lemma inside_move T a b : unit_tr T -> ordered a -> inside a b -> inside (canonical (hitRect T a)) (canonical (hitRect T b)).
Proof.
  intros [[Ex|Ex] [Ey|Ey]] [O1 O2] (I1 & I2 & I3 & I4); rewrite !canonical_min_max; unfold inside, hitRect, hit; cbn [llx lly urx ury]; rewrite Ex, Ey; lia.
Qed.
Lemma inside_trans a b c : inside a b -> inside b c -> inside a c.
Proof. unfold inside. lia. Qed.
Lemma canonical_twice r : canonical (canonical r) = canonical r.
Proof. apply canonical_id, canonical_ordered. Qed.
Lemma canonical_hit_canonical T r : canonical (hitRect T (canonical r)) = canonical (hitRect T r).
Proof. symmetry. rewrite <- (canonical_twice (hitRect T r)). rewrite (canonical_min_max (hitRect T (canonical r))), (canonical_min_max (canonical (hitRect T r))), (canonical_min_max (hitRect T r)), (canonical_min_max r). unfold hitRect, hit. cbn [llx lly urx ury]. f_equal; nia. Qed.

Lemma covers_move k T r p : 0 < k -> unit_tr T -> ordered r -> covers k (canonical (hitRect T r)) (move k T p) <-> covers k r p.
Proof.
  intros Hk [[Ex|Ex] [Ey|Ey]] [O1 O2]; rewrite canonical_min_max; unfold covers, hitRect, hit, move; cbn [llx lly urx ury fst snd]; rewrite Ex, Ey.
  - rewrite !Z.min_l, !Z.max_r by lia. nia.
  - rewrite (Z.min_l _ (1 * urx r + oX T)), (Z.max_r (1 * llx r + oX T)), (Z.min_r _ (-1 * ury r + oY T)), (Z.max_l (-1 * lly r + oY T)) by lia. nia.
  - rewrite (Z.min_r _ (-1 * urx r + oX T)), (Z.max_l (-1 * llx r + oX T)), (Z.min_l _ (1 * ury r + oY T)), (Z.max_r (1 * lly r + oY T)) by lia. nia.
  - rewrite !Z.min_r, !Z.max_l by lia. nia.
Qed.
Lemma move_onto k T p : unit_tr T -> exists q, p = move k T q.
Proof.
  intros [Hx Hy]. exists (sX T * (fst p - k * oX T), sY T * (snd p - k * oY T)). unfold move. cbn [fst snd]. destruct p as [x y]. cbn [fst snd].
  f_equal; [destruct Hx as [->| ->]|destruct Hy as [->| ->]]; ring.
Qed.

Section Hier.
  Context {P : Type}.
  Variables (file : string -> option (lay P)) (grids : string -> option Grid) (sf : Z) (cf : rdcfg) (post : list term -> list term).
  Variables (node : string -> option hnode) (layer : string) (d : sdir).
  Hypotheses (sf_pos : 0 < sf) (cf_good : cfg_ok cf) (cf_layer : wire_layer cf layer d) (not_bnd : layer <> "boundary"%string).

  (** The check of [h] runs without messages of its own. *)
  Definition clean (top : bool) (h : hnode) (out : outcome) : Prop :=
    exists dnr, viewer file grids sf cf post top dnr h = Some out /\ o_errors out = [] /\ well_named h.
  (** The layout of every routed block below is the file written for it. *)
  Definition consistent : Prop := forall m h, node m = Some h -> exists out, clean false h out /\ file m = Some (o_file out).
  (** On the layer, no layout has terminals of devices, and rectangles have their corners in order. *)
  Definition tidy : Prop := forall m l s, file m = Some l -> In s (ly_terms l) -> t_layer s = layer -> t_term s = None /\ ordered (t_rect s).
  (** Everything drawn on the layer is a plain wire. *)
  Definition wires_only (h : hnode) : Prop := forall bb ts ds es x, scaled file grids sf h = Some (bb, ts, ds, es) -> In x ts -> t_layer x = layer -> plain x.

  Lemma clean_inv top h out : clean top h out -> well_named h /\ exists bb ts ds dnr, scaled file grids sf h = Some (bb, ts, ds, []) /\
    remove_duplicates (mkRC (cf_layers cf) (cf_skip cf) (cf_stack cf) (open_ok h top dnr) false) ts = Some (o_rd out) /\
    (top = false -> ly_terms (o_file out) = r_terms (o_rd out)).
  Proof.
    intros (dnr & H & E & W). split; [assumption|]. unfold viewer in H.
    destruct (scaled file grids sf h) as [[[[bb ts] ds] es]|]; [|discriminate].
    destruct (remove_duplicates _ ts) as [r|] eqn:ER; [|discriminate]. injection H as <-. cbn in *. subst es.
    exists bb, ts, ds, dnr. split; [reflexivity|]. split; [assumption|]. intros ->. reflexivity.
  Qed.

  Lemma name_step h top out b l s nm y : clean top h out -> wires_only h -> In b (h_blocks h) -> file (k_master b) = Some l ->
    In s (ly_terms l) -> t_layer s = layer -> t_term s = None -> t_net s = Some nm -> named h b nm y ->
    exists T o, position sf b T /\ In o (r_terms (o_rd out)) /\ t_layer o = layer /\ t_net o = Some y /\ inside (canonical (hitRect T (t_rect s))) (t_rect o).
  Proof.
    intros HC HW Hb Hf Hs Hl Ht Hn HN. destruct (clean_inv _ _ _ HC) as (W & bb & ts & ds & dnr & HS & HR & _).
    destruct (scaled_fwd file grids sf sf_pos h bb ts ds b l s W HS Hb Hf Hs) as (x & Hx & C1 & C2 & (T & HT & C3) & C4); [congruence|].
    rewrite Ht, Hn in C4. destruct C4 as (_ & y' & C4 & C5).
    assert (exists fa, fa_map h = Some fa) as [fa Hfa].
    { unfold scaled, assemble in HS. destruct (fa_map h); [eauto|discriminate]. }
    assert (y' = y) by (eapply named_unique; eassumption). subst y'.
    set (c := match d with DH => lly (t_rect x) + ury (t_rect x) | _ => llx (t_rect x) + urx (t_rect x) end).
    destruct (C13_names_survive (mkRC (cf_layers cf) (cf_skip cf) (cf_stack cf) (open_ok h top dnr) false) ts (o_rd out) layer d c x y cf_good HR cf_layer) as (o & Ho & [Ho1 _] & HI & Hon); [|assumption|split; [congruence|reflexivity]|assumption|].
    - intros z Hz [Hzl _]. eapply HW; eassumption.
    - exists T, o. rewrite <- C3. auto.
  Qed.

  Lemma seen_ok : consistent -> tidy -> (forall m h, node m = Some h -> wires_only h) ->
    forall h T m nm x, seen node sf h T m nm x -> forall top out, clean top h out -> wires_only h ->
    forall l s, file m = Some l -> In s (ly_terms l) -> t_layer s = layer -> t_net s = Some nm ->
    exists o, In o (r_terms (o_rd out)) /\ t_layer o = layer /\ t_net o = Some x /\ inside (canonical (hitRect T (t_rect s))) (t_rect o).
  Proof.
    intros HK HT HW. induction 1 as [h b T nm x Hb HP HN|h b h' T1 T2 m nm y x Hb Hn HP HS IH HN]; intros top out HC Hw l s Hf Hs Hl Hnm.
    - destruct (HT _ _ _ Hf Hs Hl) as [Ht _]. destruct (name_step h top out b l s nm x HC Hw Hb Hf Hs Hl Ht Hnm HN) as (T' & o & HP' & Ho).
      rewrite (in_pdk_unique _ _ _ _ HP HP'). eauto.
    - destruct (HK _ _ Hn) as (out' & HC' & Hf'). destruct (IH false out' HC' (HW _ _ Hn) l s Hf Hs Hl Hnm) as (o' & Ho1 & Ho2 & Ho3 & Ho4).
      destruct (clean_inv _ _ _ HC') as (_ & bb & ts & ds & dnr & _ & _ & EF). specialize (EF eq_refl). rewrite <- EF in Ho1.
      destruct (HT _ _ _ Hf' Ho1 Ho2) as [Ht _].
      destruct (name_step h top out b _ o' y x HC Hw Hb Hf' Ho1 Ho2 Ht Ho3 HN) as (T' & o & HP' & Q1 & Q2 & Q3 & Q4).
      exists o. split; [assumption|]. split; [assumption|]. split; [assumption|].
      rewrite <- (in_pdk_unique _ _ _ _ HP HP') in Q4. eapply inside_trans; [|exact Q4].
      rewrite hitRect_mult, <- canonical_hit_canonical. apply inside_move; [eapply position_unit; eassumption|apply canonical_ordered|assumption].
  Qed.

  (** Some terminal on the layer covers the point. *)
  Definition metal (ts : list term) (k : Z) (p : Z * Z) : Prop := exists t, In t ts /\ t_layer t = layer /\ covers k (t_rect t) p.

  Lemma rd_metal o ts r k p : 0 < k -> remove_duplicates (mkRC (cf_layers cf) (cf_skip cf) (cf_stack cf) o false) ts = Some r -> metal (r_terms r) k p <-> metal ts k p.
  Proof.
    intros Hk H. set (c := fun t => match d with DH => lly (t_rect t) + ury (t_rect t) | _ => llx (t_rect t) + urx (t_rect t) end).
    split; intros (t & H1 & H2 & H3).
    - assert (M : metal_at (r_terms r) layer d (c t) k p) by (exists t; split; [assumption|]; split; [split; [assumption|reflexivity]|assumption]).
      apply (C09_same_metal (mkRC (cf_layers cf) (cf_skip cf) (cf_stack cf) o false) ts r layer d (c t) k p cf_good H cf_layer Hk) in M as (t' & ? & [? _] & ?). exists t'. auto.
    - assert (M : metal_at ts layer d (c t) k p) by (exists t; split; [assumption|]; split; [split; [assumption|reflexivity]|assumption]).
      apply (C09_same_metal (mkRC (cf_layers cf) (cf_skip cf) (cf_stack cf) o false) ts r layer d (c t) k p cf_good H cf_layer Hk) in M as (t' & ? & [? _] & ?). exists t'. auto.
  Qed.

  Lemma metal_step top h out b l k p T : 0 < k -> clean top h out -> tidy -> In b (h_blocks h) -> file (k_master b) = Some l -> position sf b T ->
    metal (ly_terms l) k p -> metal (r_terms (o_rd out)) k (move k T p).
  Proof.
    intros Hk HC HT Hb Hf HP (s & Hs & Hl & Hp). destruct (clean_inv _ _ _ HC) as (W & bb & ts & ds & dnr & HS & HR & _).
    apply (rd_metal _ _ _ _ _ Hk HR). destruct (scaled_fwd file grids sf sf_pos h bb ts ds b l s W HS Hb Hf Hs) as (x & Hx & C1 & C2 & (T' & HT' & C3) & _); [congruence|].
    exists x. split; [assumption|]. split; [congruence|]. rewrite C3, <- (in_pdk_unique _ _ _ _ HP HT'). apply covers_move; [assumption|eapply position_unit; eassumption| |assumption].
    apply (HT _ _ _ Hf Hs Hl).
  Qed.

  Lemma drawn_metal k : 0 < k -> consistent -> tidy -> forall h p, drawn file node sf layer k h p -> forall top out, clean top h out -> metal (r_terms (o_rd out)) k p.
  Proof.
    intros Hk HK HT. induction 1 as [h nm s r p Hd Hl Hr Hp|h b l s T p Hb Hn Hf Hs Hl HP Hp|h b h' T p Hb Hn HP HD IH]; intros top out HC.
    - destruct (clean_inv _ _ _ HC) as (W & bb & ts & ds & dnr & HS & HR & _). apply (rd_metal _ _ _ _ _ Hk HR).
      destruct (scaled_parts file grids sf sf_pos _ _ _ _ W HS) as (xss & own & -> & _ & HO).
      exists (mkTerm (sh_layer s) (Some nm) r "drawing" None). split; [|auto]. apply in_app_iff. right. apply HO. exists nm, s, r. auto.
    - eapply metal_step; eauto. exists s. auto.
    - destruct (HK _ _ Hn) as (out' & HC' & Hf'). specialize (IH false out' HC'). destruct (clean_inv _ _ _ HC') as (_ & bb & ts & ds & dnr & _ & _ & EF).
      eapply metal_step; eauto. rewrite (EF eq_refl). exact IH.
  Qed.

  Lemma metal_drawn_step k top h out p : 0 < k -> clean top h out -> tidy -> metal (r_terms (o_rd out)) k p ->
    (exists nm s r, draws h nm s /\ sh_layer s = layer /\ shape_in_pdk sf (sh_box s) r /\ covers k r p) \/
    (exists b l s T q, In b (h_blocks h) /\ file (k_master b) = Some l /\ In s (ly_terms l) /\ t_layer s = layer /\ position sf b T /\ covers k (t_rect s) q /\ p = move k T q).
  Proof.
    intros Hk HC HT HM. destruct (clean_inv _ _ _ HC) as (W & bb & ts & ds & dnr & HS & HR & _). apply (rd_metal _ _ _ _ _ Hk HR) in HM as (x & Hx & Hl & Hp).
    destruct (scaled_bwd file grids sf sf_pos _ _ _ _ _ W HS Hx) as [(nm & s & r & Hd & Hr & ->)|(b & l & s & Hb & Hf & Hs & Hnb & C1 & C2 & (T & HP & C3) & _)].
    - left. exists nm, s, r. cbn in *. auto.
    - right. destruct (move_onto k T p (position_unit _ _ _ HP)) as [q ->]. exists b, l, s, T, q. assert (t_layer s = layer) by congruence.
      do 5 (split; [assumption|]). split; [|reflexivity]. rewrite C3 in Hp. apply covers_move in Hp; [assumption|assumption|eapply position_unit; eassumption|]. apply (HT _ _ _ Hf Hs). assumption.
  Qed.

  Lemma metal_drawn k (rank : string -> nat) : 0 < k -> consistent -> tidy ->
    (forall m h b, node m = Some h -> In b (h_blocks h) -> node (k_master b) <> None -> (rank (k_master b) < rank m)%nat) ->
    forall top h out p, clean top h out -> metal (r_terms (o_rd out)) k p -> drawn file node sf layer k h p.
  Proof.
    intros Hk HK HT HR.
    assert (B : forall n m h out p, (rank m < n)%nat -> node m = Some h -> clean false h out -> metal (r_terms (o_rd out)) k p -> drawn file node sf layer k h p).
    { induction n as [|n IH]; intros m h out p Hn Hm HC HM; [lia|].
      destruct (metal_drawn_step k _ _ _ _ Hk HC HT HM) as [(nm & s & r & ? & ? & ? & ?)|(b & l & s & T & q & Hb & Hf & Hs & Hl & HP & Hq & ->)]; [eapply drawn_own; eassumption|].
      destruct (node (k_master b)) as [h'|] eqn:En; [|eapply drawn_leaf; eassumption].
      destruct (HK _ _ En) as (out' & HC' & Hf'). destruct (clean_inv _ _ _ HC') as (_ & bb & ts & ds & dnr & _ & _ & EF). specialize (EF eq_refl).
      rewrite Hf in Hf'. injection Hf' as ->. rewrite EF in Hs. eapply drawn_below; [exact Hb|exact En|exact HP|]. eapply (IH (k_master b)); [|exact En|exact HC'|exists s; auto].
      assert (rank (k_master b) < rank m)%nat by (eapply HR; [exact Hm|assumption|congruence]). lia. }
    intros top h out p HC HM.
    destruct (metal_drawn_step k _ _ _ _ Hk HC HT HM) as [(nm & s & r & ? & ? & ? & ?)|(b & l & s & T & q & Hb & Hf & Hs & Hl & HP & Hq & ->)]; [eapply drawn_own; eassumption|].
    destruct (node (k_master b)) as [h'|] eqn:En; [|eapply drawn_leaf; eassumption].
    destruct (HK _ _ En) as (out' & HC' & Hf'). destruct (clean_inv _ _ _ HC') as (_ & bb & ts & ds & dnr & _ & _ & EF). specialize (EF eq_refl).
    rewrite Hf in Hf'. injection Hf' as ->. rewrite EF in Hs. eapply drawn_below; [exact Hb|exact En|exact HP|]. eapply (B (Datatypes.S (rank (k_master b)))); [|exact En|exact HC'|exists s; auto]. lia.
  Qed.
End Hier.
