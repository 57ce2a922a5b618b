(** C09, C11, C13: removeDuplicates keeps metal, reports shorts and keeps names
    (align/cell_fabric/remove_duplicates.py). *)
From Coq Require Import String Ascii.
From Verif Require Import Base.Prelude Base.PyDict Model.Transformation Model.UnionFind Model.PySort
  Model.RemoveDuplicates Spec.RemoveDuplicatesSpec Proofs.UnionFindP Proofs.PySortP Proofs.RemoveDuplicatesP
  Proofs.RdLineP Proofs.RdPassP Proofs.RdViaP Proofs.RdRunP.
From Coq Require Import ZifyBool.
Local Open Scope Z_scope.

(** An output terminal on a scan-line layer is one rectangle of one scan line. *)
Lemma out_on_track cf ts res t s1 rep1 ps s2 rep2 layer d c o :
  cfg_ok cf -> RUN cf ts res t s1 rep1 ps s2 rep2 -> wire_layer cf layer d ->
  In o (r_terms res) -> on_track layer d c o ->
  exists i ids ls, o = mkTerm layer (net_of s2 (rep2 i)) (rect_of s1 i) (if ported_of s1 i then "pin"%string else type_of s1 i) (term_of s1 i) /\
    In (layer, ls) (r_store res) /\ In (c, ids) ls /\ In i ids /\ LINE layer d (track_entries cf layer d c ts) ids s1 rep1 /\
    track_entries cf layer d c ts <> [].
Proof.
  intros Hcf R [Hl Hs] Ho [Ho1 Ho2]. rewrite (rn_terms _ _ _ _ _ _ _ _ _ R) in Ho.
  apply in_app_iff in Ho as [Ho|Ho].
  - apply filter_In in Ho as [_ Ho]. apply in_strs_ok in Ho. congruence.
  - apply in_map_iff in Ho as ([ly i] & <- & Ho). simpl in *. subst ly.
    apply layer_ids_in in Ho as (ls & c0 & ids & H1 & H2 & H3).
    destruct (track_line cf ts t (r_store res) s1 rep1 Hcf (rn_tbl _ _ _ _ _ _ _ _ _ R) (rn_store _ _ _ _ _ _ _ _ _ R) _ _ _ _ H1 H2)
      as (d0 & [Hl0 _] & Hne & L).
    assert (d0 = d) by (pose proof (layer_dget _ _ _ Hcf Hl0); pose proof (layer_dget _ _ _ Hcf Hl); congruence). subst d0.
    assert (c0 = c).
    { destruct (ln_start _ _ _ _ _ _ L i H3) as (e & He & _ & Hw & _).
      apply filter_In in He as [_ He]. apply Z.eqb_eq in He. unfold same_width, twice_center in *. destruct d; simpl in *; lia. }
    subst c0. exists i, ids, ls. repeat (split; [assumption || reflexivity|]). assumption.
Qed.

Lemma filter_none {A} (f : A -> bool) l : (forall x, In x l -> f x = false) -> filter f l = [].
Proof.
  induction l as [|a l IH]; simpl; [reflexivity|]. intros H. rewrite (H a (or_introl eq_refl)). apply IH. auto.
Qed.

(** C09: on every wiring layer and track, exactly the same (rational) points are covered. *)
Theorem C09_same_metal :
  forall cf ts res layer d c k p, cfg_ok cf -> remove_duplicates cf ts = Some res -> wire_layer cf layer d -> 0 < k ->
  metal_at (r_terms res) layer d c k p <-> metal_at ts layer d c k p.
Proof.
  intros cf ts res layer d c k p Hcf H HL Hk.
  destruct (run_spec cf ts res Hcf H) as (t & s1 & rep1 & ps & s2 & rep2 & R). split.
  - intros (o & Ho & Ht & Hp).
    destruct (out_on_track _ _ _ _ _ _ _ _ _ _ _ _ _ Hcf R HL Ho Ht) as (i & ids & ls & -> & H1 & H2 & H3 & L & Hne).
    simpl in Hp. destruct (ln_out _ _ _ _ _ _ L i k p H3 Hk Hp) as (e & He & Hc).
    apply track_entries_in in He; [|apply HL]. destruct He as (x & Hx & Hxt & ->). exists x. auto.
  - intros (x & Hx & Hxt & Hp).
    assert (Hin : In (entry_of x) (track_entries cf layer d c ts)) by (apply track_entries_in; [apply HL|eauto]).
    destruct (track_fwd cf ts t (r_store res) s1 rep1 Hcf (rn_tbl _ _ _ _ _ _ _ _ _ R) (rn_store _ _ _ _ _ _ _ _ _ R) layer d c HL)
      as (ls & ids & H1 & H2 & L); [intros E; rewrite E in Hin; destruct Hin|].
    destruct (ln_in _ _ _ _ _ _ L _ Hin) as (i & Hi & Hins & Hw).
    eexists. split; [|split].
    + rewrite (rn_terms _ _ _ _ _ _ _ _ _ R). apply in_app_iff. right. apply in_map_iff. exists (layer, i).
      split; [reflexivity|]. apply layer_ids_in. eauto 8.
    + split; simpl; [reflexivity|]. destruct Hxt as [_ Hc]. unfold same_width in Hw. destruct d; simpl in *; lia.
    + simpl. unfold covers, inside in *. simpl in Hins. nia.
Qed.
Print Assumptions C09_same_metal.

(** Region layers are copied unchanged and in order. *)
Theorem C09_regions_unchanged :
  forall cf ts res, cfg_ok cf -> remove_duplicates cf ts = Some res ->
  filter (fun x => in_strs (t_layer x) (cf_skip cf)) (r_terms res) = filter (fun x => in_strs (t_layer x) (cf_skip cf)) ts.
Proof.
  intros cf ts res Hcf H. destruct (run_spec cf ts res Hcf H) as (t & s1 & rep1 & ps & s2 & rep2 & R).
  rewrite (rn_terms _ _ _ _ _ _ _ _ _ R), filter_app.
  assert (E1 : forall (f : term -> bool) l, filter f (filter f l) = filter f l).
  { intros f l. induction l as [|a l IH]; simpl; [reflexivity|]. destruct (f a) eqn:E; simpl; [rewrite E; congruence|assumption]. }
  rewrite E1. rewrite (filter_none (fun x => in_strs (t_layer x) (cf_skip cf)) (map _ _)), app_nil_r; [reflexivity|].
  intros x Hx. apply in_map_iff in Hx as ([ly i] & <- & Hx). simpl.
  apply layer_ids_in in Hx as (ls & c0 & ids & H1 & H2 & H3).
  destruct (track_line cf ts t (r_store res) s1 rep1 Hcf (rn_tbl _ _ _ _ _ _ _ _ _ R) (rn_store _ _ _ _ _ _ _ _ _ R) _ _ _ _ H1 H2)
    as (d0 & [_ Hs] & _). destruct (in_strs ly (cf_skip cf)) eqn:E; [|reflexivity]. apply in_strs_ok in E. contradiction.
Qed.
Print Assumptions C09_regions_unchanged.

(** A layer that is neither a wiring layer nor a region layer disappears from the output
    (line 196-197 only logs a warning). *)
Theorem C09_other_layers_dropped :
  forall cf ts res layer, cfg_ok cf -> remove_duplicates cf ts = Some res ->
  (forall d, ~ In (layer, d) (cf_layers cf)) -> ~ In layer (cf_skip cf) ->
  forall o, In o (r_terms res) -> t_layer o <> layer.
Proof.
  intros cf ts res layer Hcf H Hd Hs o Ho. destruct (run_spec cf ts res Hcf H) as (t & s1 & rep1 & ps & s2 & rep2 & R).
  rewrite (rn_terms _ _ _ _ _ _ _ _ _ R) in Ho. apply in_app_iff in Ho as [Ho|Ho].
  - apply filter_In in Ho as [_ Ho]. apply in_strs_ok in Ho. congruence.
  - apply in_map_iff in Ho as ([ly i] & <- & Ho). simpl in *. intros ->.
    apply layer_ids_in in Ho as (ls & c0 & ids & H1 & H2 & H3).
    destruct (track_line cf ts t (r_store res) s1 rep1 Hcf (rn_tbl _ _ _ _ _ _ _ _ _ R) (rn_store _ _ _ _ _ _ _ _ _ R) _ _ _ _ H1 H2)
      as (d0 & [Hl _] & _). eapply Hd; eauto.
Qed.
Print Assumptions C09_other_layers_dropped.

(** * C11 *)

Lemma plain_clean t : plain t -> clean_entry (entry_of t).
Proof.
  intros [H1 H2]. split; simpl.
  - now apply parse_name_plain.
  - unfold is_blockage. now apply String.eqb_neq.
Qed.

Lemma ssorted_pair {A} (Rl : A -> A -> Prop) l x y : StronglySorted Rl l -> In x l -> In y l -> x <> y -> Rl x y \/ Rl y x.
Proof.
  induction 1 as [|a l H1 IH H2]; simpl; [tauto|]. rewrite Forall_forall in H2.
  intros [<-|Hx] [<-|Hy] Hne; [congruence|left; auto|right; auto|auto].
Qed.

(** Two wires of different nets that meet on a track of plain wires of one width give a short. *)
Theorem C11_short_reported :
  forall cf ts res layer d c a b n m, cfg_ok cf -> remove_duplicates cf ts = Some res -> wire_layer cf layer d ->
  (forall x, In x ts -> on_track layer d c x -> plain x) ->
  (forall x y, In x ts -> In y ts -> on_track layer d c x -> on_track layer d c y -> equal_width d (t_rect x) (t_rect y)) ->
  In a ts -> In b ts -> on_track layer d c a -> on_track layer d c b ->
  t_net a = Some n -> t_net b = Some m -> n <> m -> meet (t_rect a) (t_rect b) ->
  r_shorts res <> [].
Proof.
  intros cf ts res layer d c a b n m Hcf H HL Hplain Hw Ha Hb Hat Hbt Hn Hm Hnm Hmeet Hsh.
  destruct (run_spec cf ts res Hcf H) as (t & s1 & rep1 & ps & s2 & rep2 & R).
  destruct (rn_shorts12 _ _ _ _ _ _ _ _ _ R) as [n12 E12]. destruct (rn_shorts23 _ _ _ _ _ _ _ _ _ R) as [n23 E23].
  rewrite Hsh, E12 in E23. symmetry in E23. apply app_eq_nil in E23 as [E23 _]. apply app_eq_nil in E23 as [E1 _].
  assert (HT : forall e, In e (track_entries cf layer d c ts) <-> exists t, In t ts /\ on_track layer d c t /\ e = entry_of t)
    by (intros e; apply track_entries_in; apply HL).
  assert (Ha' : In (entry_of a) (track_entries cf layer d c ts)) by (apply HT; eauto).
  assert (Hb' : In (entry_of b) (track_entries cf layer d c ts)) by (apply HT; eauto).
  destruct (track_fwd cf ts t (r_store res) s1 rep1 Hcf (rn_tbl _ _ _ _ _ _ _ _ _ R) (rn_store _ _ _ _ _ _ _ _ _ R) layer d c HL)
    as (ls & ids & H1 & H2 & L); [intros E; rewrite E in Ha'; destruct Ha'|].
  assert (Hclean : forall e, In e (track_entries cf layer d c ts) -> clean_entry e).
  { intros e He. apply HT in He as (x & Hx & Hxt & ->). apply plain_clean. auto. }
  destruct (ln_clean _ _ _ _ _ _ L Hclean) as (_ & _ & C & _).
  assert (SS : StronglySorted (gap_order d s1) ids).
  { apply (ln_sorted _ _ _ _ _ _ L Hclean E1). intros e e' He He'.
    apply HT in He as (x & Hx & Hxt & ->). apply HT in He' as (y & Hy & Hyt & ->).
    specialize (Hw x y Hx Hy Hxt Hyt). unfold same_width, equal_width in *. destruct d; simpl in *; lia. }
  destruct (C _ Ha') as (i & Hi & Ii & Ni & _). destruct (C _ Hb') as (j & Hj & Ij & Nj & _).
  specialize (Ni n Hn). specialize (Nj m Hm).
  assert (Hij : i <> j) by (intros ->; congruence).
  destruct (ssorted_pair _ _ _ _ SS Hi Hj Hij) as [[_ G]|[_ G]]; unfold meet, inside in *; destruct d; simpl in *; lia.
Qed.
Print Assumptions C11_short_reported.

(** Without assuming anything about widths: an error of one of the two kinds is reported
    (on layer 'Active' different widths are not looked at). *)
Theorem C11_error_reported :
  forall cf ts res layer d c a b n m, cfg_ok cf -> remove_duplicates cf ts = Some res -> wire_layer cf layer d ->
  layer <> "Active"%string ->
  (forall x, In x ts -> on_track layer d c x -> plain x) ->
  In a ts -> In b ts -> on_track layer d c a -> on_track layer d c b ->
  t_net a = Some n -> t_net b = Some m -> n <> m -> meet (t_rect a) (t_rect b) ->
  r_shorts res <> [] \/ r_widths res <> 0%nat.
Proof.
  intros cf ts res layer d c a b n m Hcf H HL Hact Hplain Ha Hb Hat Hbt Hn Hm Hnm Hmeet.
  destruct (Nat.eq_dec (r_widths res) 0) as [E0|]; [left|now right].
  destruct (run_spec cf ts res Hcf H) as (t & s1 & rep1 & ps & s2 & rep2 & R).
  eapply (C11_short_reported cf ts res layer d c a b n m); eauto.
  assert (HT : forall e, In e (track_entries cf layer d c ts) <-> exists t, In t ts /\ on_track layer d c t /\ e = entry_of t)
    by (intros e; apply track_entries_in; apply HL).
  assert (Ha' : In (entry_of a) (track_entries cf layer d c ts)) by (apply HT; eauto).
  assert (W0 : widths_of_bin layer d (track_entries cf layer d c ts) = 0%nat).
  { destruct (centerline_spec _ _ _ (rn_tbl _ _ _ _ _ _ _ _ _ R)) as [_ E]. specialize (E layer).
    rewrite (layer_dget _ _ _ Hcf (proj1 HL)) in E.
    assert (Hin : In (c, track_entries cf layer d c ts) (layer_bins cf layer d ts)).
    { unfold layer_bins. apply (group_by_in _ _ zeqb_ok). split; [reflexivity|]. intros E1.
      change (track_entries cf layer d c ts = []) in E1. rewrite E1 in Ha'. destruct Ha'. }
    destruct (layer_bins cf layer d ts) as [|b0 bs0] eqn:Eb; [destruct Hin|]. rewrite <- Eb in *.
    apply (rn_widths _ _ _ _ _ _ _ _ _ R E0 layer d _ _ (proj1 HL) E Hin). }
  assert (SW : forall e e', In e (track_entries cf layer d c ts) -> In e' (track_entries cf layer d c ts) ->
     same_width d (e_rect e) (e_rect e') = true).
  { unfold widths_of_bin in W0. apply String.eqb_neq in Hact. rewrite Hact in W0.
    destruct (track_entries cf layer d c ts) as [|e0 tl]; [intros ? ? []|].
    assert (F : forall e, In e (e0 :: tl) -> same_width d (e_rect e) (e_rect e0) = true).
    { intros e [<-|He]; [apply same_width_refl|].
      destruct (same_width d (e_rect e) (e_rect e0)) eqn:E; [reflexivity|exfalso].
      assert (Hf : In e (filter (fun e => negb (same_width d (e_rect e) (e_rect e0))) tl)) by (apply filter_In; rewrite E; auto).
      destruct (filter _ tl); [destruct Hf|discriminate W0]. }
    intros e e' He He'. eapply same_width_trans; [apply F; assumption|]. apply same_width_sym. now apply F. }
  intros x y Hx Hy Hxt Hyt.
  assert (S : same_width d (t_rect x) (t_rect y) = true) by (apply (SW (entry_of x) (entry_of y)); apply HT; eauto).
  unfold same_width, equal_width in *. destruct d; simpl in *; lia.
Qed.
Print Assumptions C11_error_reported.

(** Every reported short involves two different names; the names occur in the input. *)
Theorem C11_shorts_genuine :
  forall cf ts res, cfg_ok cf -> remove_duplicates cf ts = Some res ->
  (forall l x y, In (SPair l x y) (r_shorts res) -> x <> y /\
     (exists a, In a ts /\ t_net a = Some x) /\ (exists b, In b ts /\ t_net b = Some y)) /\
  (forall i p ns, In (STerm i p ns) (r_shorts res) ->
     (exists x y, In x ns /\ In y ns /\ x <> y) /\ forall n, In (Some n) ns -> exists a, In a ts /\ t_net a = Some n).
Proof.
  intros cf ts res Hcf H. destruct (run_spec cf ts res Hcf H) as (t & s1 & rep1 & ps & s2 & rep2 & R).
  split.
  - intros l x y Hs. apply (rn_from _ _ _ _ _ _ _ _ _ R) in Hs. destruct Hs as (H1 & (a & ? & _ & ?) & (b & ? & _ & ?)). eauto 8.
  - intros i p ns Hs. apply (rn_from _ _ _ _ _ _ _ _ _ R) in Hs. destruct Hs as (H1 & H2). split; [assumption|].
    intros n Hn. destruct (H2 n Hn) as (a & ? & _ & ?). eauto.
Qed.
Print Assumptions C11_shorts_genuine.

Definition cfg1 : rdcfg := mkRC [("M1"%string, DH)] ["boundary"%string] [] [] false.
Definition wire (n : option string) (x0 x1 : Z) : term := mkTerm "M1"%string n (mkRect x0 (-5) x1 5) "drawing"%string None.

(** Without the restriction to plain wires the claim fails: a terminal marker inside the first
    wire hides the second one. *)
Theorem C11_refuted_with_terminal :
  exists cf ts res a b n m, cfg_ok cf /\ remove_duplicates cf ts = Some res /\ wire_layer cf "M1"%string DH /\
  In a ts /\ In b ts /\ on_track "M1"%string DH 0 a /\ on_track "M1"%string DH 0 b /\
  (forall x y, In x ts -> In y ts -> equal_width DH (t_rect x) (t_rect y)) /\
  t_net a = Some n /\ t_net b = Some m /\ n <> m /\ meet (t_rect a) (t_rect b) /\
  r_shorts res = [] /\ r_widths res = 0%nat.
Proof.
  exists cfg1, [wire (Some "A"%string) 0 100; wire (Some "M:D"%string) 5 6; wire (Some "B"%string) 50 60].
  eexists. exists (wire (Some "A"%string) 0 100), (wire (Some "B"%string) 50 60), "A"%string, "B"%string.
  split; [repeat constructor; simpl; tauto|]. split; [vm_compute; reflexivity|].
  split; [split; [now left|simpl; intros [|[]]; discriminate]|].
  split; [simpl; tauto|]. split; [simpl; tauto|]. split; [split; reflexivity|]. split; [split; reflexivity|].
  split; [intros x y [<-|[<-|[<-|[]]]] [<-|[<-|[<-|[]]]]; split; reflexivity|].
  repeat split; try reflexivity; try discriminate; simpl; lia.
Qed.
Print Assumptions C11_refuted_with_terminal.

(** * C13 *)

(** A named plain wire ends up inside an output wire of that name. *)
Theorem C13_names_survive :
  forall cf ts res layer d c a n, cfg_ok cf -> remove_duplicates cf ts = Some res -> wire_layer cf layer d ->
  (forall x, In x ts -> on_track layer d c x -> plain x) ->
  In a ts -> on_track layer d c a -> t_net a = Some n ->
  exists o, In o (r_terms res) /\ on_track layer d c o /\ inside (t_rect a) (t_rect o) /\ t_net o = Some n.
Proof.
  intros cf ts res layer d c a n Hcf H HL Hplain Ha Hat Hn.
  destruct (run_spec cf ts res Hcf H) as (t & s1 & rep1 & ps & s2 & rep2 & R).
  assert (HT : forall e, In e (track_entries cf layer d c ts) <-> exists t, In t ts /\ on_track layer d c t /\ e = entry_of t)
    by (intros e; apply track_entries_in; apply HL).
  assert (Ha' : In (entry_of a) (track_entries cf layer d c ts)) by (apply HT; eauto).
  destruct (track_fwd cf ts t (r_store res) s1 rep1 Hcf (rn_tbl _ _ _ _ _ _ _ _ _ R) (rn_store _ _ _ _ _ _ _ _ _ R) layer d c HL)
    as (ls & ids & H1 & H2 & L); [intros E; rewrite E in Ha'; destruct Ha'|].
  assert (Hclean : forall e, In e (track_entries cf layer d c ts) -> clean_entry e).
  { intros e He. apply HT in He as (x & Hx & Hxt & ->). apply plain_clean. auto. }
  destruct (ln_clean _ _ _ _ _ _ L Hclean) as (Crep & _ & C & _).
  destruct (C _ Ha') as (i & Hi & Ii & Ni & _). specialize (Ni n Hn).
  eexists. split; [|split; [|split]].
  - rewrite (rn_terms _ _ _ _ _ _ _ _ _ R). apply in_app_iff. right. apply in_map_iff. exists (layer, i).
    split; [reflexivity|]. apply layer_ids_in. eauto 8.
  - split; simpl; [reflexivity|]. destruct (ln_start _ _ _ _ _ _ L i Hi) as (e & He & _ & Hw & _).
    apply filter_In in He as [_ He]. apply Z.eqb_eq in He. unfold same_width, twice_center in *. destruct d; simpl in *; lia.
  - exact Ii.
  - simpl. apply (rn_J _ _ _ _ _ _ _ _ _ R i).
    + apply (ln_ids _ _ _ _ _ _ L i Hi).
    + intros n0 Hn0. now rewrite (Crep i Hi).
    + now apply (rn_mono _ _ _ _ _ _ _ _ _ R).
Qed.
Print Assumptions C13_names_survive.

(** When no short is reported and widths agree, every unnamed plain wire meeting a named one
    gets that name: it is inside an output wire carrying it. *)
Theorem C13_unnamed_gets_name :
  forall cf ts res layer d c a u n, cfg_ok cf -> remove_duplicates cf ts = Some res -> wire_layer cf layer d ->
  (forall x, In x ts -> on_track layer d c x -> plain x) ->
  (forall x y, In x ts -> In y ts -> on_track layer d c x -> on_track layer d c y -> equal_width d (t_rect x) (t_rect y)) ->
  r_shorts res = [] ->
  In a ts -> on_track layer d c a -> t_net a = Some n ->
  In u ts -> on_track layer d c u -> meet (t_rect u) (t_rect a) ->
  exists o, In o (r_terms res) /\ on_track layer d c o /\ inside (t_rect a) (t_rect o) /\ inside (t_rect u) (t_rect o) /\
    t_net o = Some n.
Proof.
  intros cf ts res layer d c a u n Hcf H HL Hplain Hw Hsh Ha Hat Hn Hu Hut Hmeet.
  destruct (run_spec cf ts res Hcf H) as (t & s1 & rep1 & ps & s2 & rep2 & R).
  destruct (rn_shorts12 _ _ _ _ _ _ _ _ _ R) as [n12 E12]. destruct (rn_shorts23 _ _ _ _ _ _ _ _ _ R) as [n23 E23].
  rewrite Hsh, E12 in E23. symmetry in E23. apply app_eq_nil in E23 as [E23 _]. apply app_eq_nil in E23 as [E1 _].
  assert (HT : forall e, In e (track_entries cf layer d c ts) <-> exists t, In t ts /\ on_track layer d c t /\ e = entry_of t)
    by (intros e; apply track_entries_in; apply HL).
  assert (Ha' : In (entry_of a) (track_entries cf layer d c ts)) by (apply HT; eauto).
  assert (Hu' : In (entry_of u) (track_entries cf layer d c ts)) by (apply HT; eauto).
  destruct (track_fwd cf ts t (r_store res) s1 rep1 Hcf (rn_tbl _ _ _ _ _ _ _ _ _ R) (rn_store _ _ _ _ _ _ _ _ _ R) layer d c HL)
    as (ls & ids & H1 & H2 & L); [intros E; rewrite E in Ha'; destruct Ha'|].
  assert (Hclean : forall e, In e (track_entries cf layer d c ts) -> clean_entry e).
  { intros e He. apply HT in He as (x & Hx & Hxt & ->). apply plain_clean. auto. }
  destruct (ln_clean _ _ _ _ _ _ L Hclean) as (Crep & _ & C & _).
  assert (SS : StronglySorted (gap_order d s1) ids).
  { apply (ln_sorted _ _ _ _ _ _ L Hclean E1). intros e e' He He'.
    apply HT in He as (x & Hx & Hxt & ->). apply HT in He' as (y & Hy & Hyt & ->).
    specialize (Hw x y Hx Hy Hxt Hyt). unfold same_width, equal_width in *. destruct d; simpl in *; lia. }
  destruct (C _ Ha') as (i & Hi & Ii & Ni & _). destruct (C _ Hu') as (j & Hj & Ij & _).
  specialize (Ni n Hn).
  assert (j = i).
  { destruct (Nat.eq_dec j i); [assumption|exfalso].
    destruct (ssorted_pair _ _ _ _ SS Hj Hi) as [[_ G]|[_ G]]; [assumption| |]; unfold meet, inside in *; destruct d; simpl in *; lia. }
  subst j. eexists. split; [|split; [|split; [|split]]].
  - rewrite (rn_terms _ _ _ _ _ _ _ _ _ R). apply in_app_iff. right. apply in_map_iff. exists (layer, i).
    split; [reflexivity|]. apply layer_ids_in. eauto 8.
  - split; simpl; [reflexivity|]. destruct (ln_start _ _ _ _ _ _ L i Hi) as (e & He & _ & Hw' & _).
    apply filter_In in He as [_ He]. apply Z.eqb_eq in He. unfold same_width, twice_center in *. destruct d; simpl in *; lia.
  - exact Ii.
  - exact Ij.
  - simpl. apply (rn_J _ _ _ _ _ _ _ _ _ R i).
    + apply (ln_ids _ _ _ _ _ _ L i Hi).
    + intros n0 Hn0. now rewrite (Crep i Hi).
    + now apply (rn_mono _ _ _ _ _ _ _ _ _ R).
Qed.
Print Assumptions C13_unnamed_gets_name.

(** No name is invented: every name in the output on a wiring layer is a name of the input. *)
Theorem C13_no_new_names :
  forall cf ts res o n, cfg_ok cf -> remove_duplicates cf ts = Some res ->
  In o (r_terms res) -> t_net o = Some n -> exists a, In a ts /\ t_net a = Some n.
Proof.
  intros cf ts res o n Hcf H Ho Hn. destruct (run_spec cf ts res Hcf H) as (t & s1 & rep1 & ps & s2 & rep2 & R).
  rewrite (rn_terms _ _ _ _ _ _ _ _ _ R) in Ho. apply in_app_iff in Ho as [Ho|Ho].
  - apply filter_In in Ho as [Ho _]. eauto.
  - apply in_map_iff in Ho as ([ly i] & <- & Ho). simpl in Hn. destruct (rn_names _ _ _ _ _ _ _ _ _ R _ _ Hn) as (a & ? & _ & ?). eauto.
Qed.
Print Assumptions C13_no_new_names.

(** Not restricted to plain wires the claim is false: two terminal markers followed by the named
    wire leave all three outputs unnamed although no error is reported for them. *)
Theorem C13_refuted_with_terminals :
  exists cf ts res a n, cfg_ok cf /\ remove_duplicates cf ts = Some res /\ wire_layer cf "M1"%string DH /\
  In a ts /\ t_net a = Some n /\ no_colon n /\ r_shorts res = [] /\ r_widths res = 0%nat /\
  (forall x y, In x ts -> In y ts -> equal_width DH (t_rect x) (t_rect y)) /\
  forall o, In o (r_terms res) -> t_net o = None.
Proof.
  exists cfg1, [wire (Some "M1:D"%string) 0 10; wire (Some "M1:D"%string) 5 15; wire (Some "N"%string) 12 40].
  eexists. exists (wire (Some "N"%string) 12 40), "N"%string.
  split; [repeat constructor; simpl; tauto|]. split; [vm_compute; reflexivity|].
  split; [split; [now left|simpl; intros [|[]]; discriminate]|].
  split; [simpl; tauto|]. split; [reflexivity|]. split; [simpl; split; [discriminate|exact I]|].
  split; [reflexivity|]. split; [reflexivity|].
  split; [intros x y [<-|[<-|[<-|[]]]] [<-|[<-|[<-|[]]]]; split; reflexivity|].
  simpl. intros o [<-|[<-|[<-|[]]]]; reflexivity.
Qed.
Print Assumptions C13_refuted_with_terminals.

(** Instances of the hypotheses: vertical M2 wires on one track, a via between M1 and M2. *)
Example C09_C13_nonvacuous :
  let cf := mkRC [("M1"%string, DH); ("M2"%string, DV); ("V1"%string, DStar)] ["boundary"%string]
                 [("V1"%string, (Some "M2"%string, Some "M1"%string))] [] false in
  let ts := [mkTerm "boundary" None (mkRect 0 0 99 99) "drawing" None; wire None 0 60; wire (Some "A"%string) 50 100; wire None 40 55;
             mkTerm "M2" None (mkRect 20 (-50) 30 50) "drawing" None; mkTerm "V1" None (mkRect 20 (-5) 30 5) "drawing" None]%string in
  cfg_ok cf /\ wire_layer cf "M1"%string DH /\
  option_map (fun r => (r_terms r, r_shorts r)) (remove_duplicates cf ts) =
  Some ([mkTerm "boundary" None (mkRect 0 0 99 99) "drawing" None; wire (Some "A"%string) 0 100;
         mkTerm "M2" (Some "A") (mkRect 20 (-50) 30 50) "drawing" None; mkTerm "V1" (Some "A") (mkRect 20 (-5) 30 5) "drawing" None]%string, []).
Proof.
  split; [|split; [|vm_compute; reflexivity]].
  - repeat constructor; simpl; intuition discriminate.
  - split; [now left|simpl; intros [|[]]; discriminate].
Qed.
