(** The whole removeDuplicates pass. *)
From Coq Require Import String Ascii.
From Verif Require Import Base.Prelude Base.PyDict Model.Transformation Model.UnionFind Model.PySort
  Model.RemoveDuplicates Spec.RemoveDuplicatesSpec Proofs.UnionFindP Proofs.PySortP Proofs.RemoveDuplicatesP
  Proofs.RdLineP Proofs.RdPassP Proofs.RdViaP.
From Coq Require Import ZifyBool.
Local Open Scope Z_scope.

Lemma Forall2_in_l {A B} (R : A -> B -> Prop) l l' x : Forall2 R l l' -> In x l -> exists y, In y l' /\ R x y.
Proof.
  induction 1 as [|a b l l' H1 H2 IH]; simpl; [tauto|]. intros [<-|H]; [eauto|]. destruct (IH H) as (y & ? & ?); eauto.
Qed.
Lemma Forall2_in_r {A B} (R : A -> B -> Prop) l l' y : Forall2 R l l' -> In y l' -> exists x, In x l /\ R x y.
Proof.
  induction 1 as [|a b l l' H1 H2 IH]; simpl; [tauto|]. intros [<-|H]; [eauto|]. destruct (IH H) as (x & ? & ?); eauto.
Qed.

Lemma st_root_valid s x r : st_root s x = Some r -> (x < size s)%nat.
Proof.
  unfold st_root, uf_root. simpl. destruct (nth_error (s_dad s) x) eqn:E; [|discriminate].
  intros _. unfold size. eapply nth_error_Some_lt; eauto.
Qed.

Lemma root_names_valid xs : forall s rep r, wf s rep -> root_names s xs = Some r -> forall x, In x xs -> (x < size s)%nat.
Proof.
  induction xs as [|x xs IH]; intros s rep r W; simpl; [intros _ y []|].
  unfold root_name. destruct (st_root s x) as [[r1 s1]|] eqn:E; [|discriminate].
  pose proof (st_root_valid _ _ _ E) as Hx.
  destruct (st_root_same s rep x W Hx) as (s1' & E1 & S1 & _). rewrite E in E1. injection E1 as -> ->.
  destruct (root_names s1' xs) as [[ns s2]|] eqn:E2; [|discriminate]. intros _ y [<-|Hy]; [assumption|].
  rewrite <- (geo_size _ _ (sm_geo _ _ _ S1)). eapply IH; eauto. apply S1.
Qed.

Lemma name_eqb_ok a b : name_eqb a b = true <-> a = b.
Proof.
  destruct a, b; simpl; try (split; congruence). rewrite String.eqb_eq. split; congruence.
Qed.

Lemma dedup_in {A} (eqb : A -> A -> bool) (ok : forall a b, eqb a b = true <-> a = b) l x :
  In x (dedup eqb l) <-> In x l.
Proof.
  induction l as [|a l IH]; simpl; [tauto|]. rewrite filter_In, IH. split; [tauto|].
  intros [->|H]; [now left|]. destruct (eqb a x) eqn:E; [left; now apply ok|right; auto].
Qed.

Lemma dedup_nodup {A} (eqb : A -> A -> bool) (ok : forall a b, eqb a b = true <-> a = b) l : NoDup (dedup eqb l).
Proof.
  induction l as [|a l IH]; simpl; [constructor|]. constructor; [|now apply NoDup_filter].
  rewrite filter_In. intros [_ H]. assert (eqb a a = true) by now apply ok. rewrite H0 in H. discriminate.
Qed.

Lemma check_terms_spec (Nm : string -> Prop) s rep s' :
  wf s rep -> names_from Nm s -> shorts_from Nm s -> check_terms s = Some s' ->
  same s s' rep /\ shorts_from Nm s' /\ (exists new, s_shorts s' = s_shorts s ++ new) /\
  (s_pins s = [] -> s_shorts s' = s_shorts s).
Proof.
  intros W HN HS H. unfold check_terms in H.
  assert (Last : s_pins s = [] -> s_shorts s' = s_shorts s).
  { intros Ep. rewrite Ep in H. simpl in H. congruence. }
  pose (Q := fun (_ : list ((string * string) * list ((string * string) * nat))) (s2 : rst) =>
     same s s2 rep /\ shorts_from Nm s2 /\ (exists new, s_shorts s2 = s_shorts s ++ new)).
  apply (foldM_inv _ Q) in H; [destruct H as (A & B & C); auto| |].
  - split; [split; auto; apply geo_refl|]. split; [assumption|]. exists []. now rewrite app_nil_r.
  - intros pre g post s1 s2 _ (S1 & F1 & new1 & N1) E.
    destruct (root_names s1 (map snd (snd g))) as [[ns s3]|] eqn:Er; [|discriminate].
    destruct (root_names_same (map snd (snd g)) s1 rep (sm_wf _ _ _ S1)) as (s3' & E3 & S3 & A3 & _).
    { eapply root_names_valid; [apply S1|eassumption]. }
    rewrite Er in E3. injection E3 as -> ->.
    assert (S13 : same s s3' rep) by (eapply same_trans; eauto).
    assert (NmR : forall n, In (Some n) (map (fun x => net_of s1 (rep x)) (map snd (snd g))) -> Nm n).
    { intros n Hn. apply in_map_iff in Hn as (x & Hx & _). rewrite (same_net_of _ _ _ _ S1) in Hx. eapply HN; eauto. }
    set (ns := map (fun x => net_of s1 (rep x)) (map snd (snd g))) in *.
    destruct (1 <? Z.of_nat (List.length (dedup name_eqb ns))) eqn:El; injection E as <-.
    + split; [|split].
      * destruct S13 as [B1 B2 B3]. split; [destruct B1; split; assumption|destruct B2; split; assumption|assumption].
      * intros x Hx. simpl in Hx. rewrite A3 in Hx. apply in_app_iff in Hx as [Hx|[<-|[]]]; [auto|].
        simpl. split.
        -- pose proof (dedup_nodup name_eqb name_eqb_ok ns) as ND.
           destruct (dedup name_eqb ns) as [|a [|b l]] eqn:Ed; [simpl in El; discriminate El|simpl in El; discriminate El|].
           exists a, b. split; [now left|]. split; [right; now left|]. apply NoDup_cons_iff in ND as [ND _]. intros ->. apply ND. now left.
        -- intros n Hn. apply dedup_in in Hn; [auto|apply name_eqb_ok].
      * exists (new1 ++ [STerm (fst (fst g)) (snd (fst g)) (dedup name_eqb ns)]). simpl. rewrite A3, N1. now rewrite app_assoc.
    + split; [assumption|]. split; [intros x Hx; rewrite A3 in Hx; auto|]. exists new1. congruence.
Qed.

(** * From the store to tracks *)

Definition track_entries (cf : rdcfg) (layer : string) (d : sdir) (c : Z) (ts : list term) : list entry :=
  filter (fun e => twice_center d (e_rect e) =? c) (map entry_of (filter (on_layer cf layer) ts)).

Lemma track_entries_in cf layer d c ts e : ~ In layer (cf_skip cf) ->
  In e (track_entries cf layer d c ts) <-> exists t, In t ts /\ on_track layer d c t /\ e = entry_of t.
Proof.
  intros Hs. unfold track_entries. rewrite filter_In, in_map_iff. split.
  - intros [(t & <- & Ht) Hc]. apply filter_In in Ht as [Ht Hl]. unfold on_layer in Hl.
    apply Bool.andb_true_iff in Hl as [Hl _]. apply String.eqb_eq in Hl.
    exists t. split; [assumption|]. split; [|reflexivity]. split; [assumption|].
    simpl in Hc. apply Z.eqb_eq in Hc. destruct d; exact Hc.
  - intros (t & Ht & [Hl Hc] & ->). split.
    + exists t. split; [reflexivity|]. apply filter_In. split; [assumption|]. unfold on_layer.
      rewrite Hl, String.eqb_refl. simpl. destruct (in_strs layer (cf_skip cf)) eqn:E; [|reflexivity].
      apply in_strs_ok in E. contradiction.
    + simpl. apply Z.eqb_eq. destruct d; exact Hc.
Qed.

Lemma layer_dget cf layer d : cfg_ok cf -> In (layer, d) (cf_layers cf) -> dget String.eqb (cf_layers cf) layer = Some d.
Proof. intros H1 H2. apply (in_dget _ str_eqb_ok); auto. Qed.

Section Tracks.
  Variables (cf : rdcfg) (ts : list term) (t : tbl) (st : store) (s : rst) (rep : nat -> nat).
  Hypothesis Hcf : cfg_ok cf.
  Hypothesis Ht : build_centerline_tbl cf ts = Some t.
  Hypothesis HS : STORE t (cf_layers cf) st s rep.

  Lemma tbl_bins layer d bs c v : In (layer, d) (cf_layers cf) -> dget String.eqb t layer = Some bs -> In (c, v) bs ->
    v = track_entries cf layer d c ts /\ v <> [] /\ ~ In layer (cf_skip cf).
  Proof.
    intros Hl Hb Hv. destruct (centerline_spec _ _ _ Ht) as [_ E]. rewrite E in Hb.
    rewrite (layer_dget _ _ _ Hcf Hl) in Hb. destruct (layer_bins cf layer d ts) as [|b0 bs0] eqn:Eb; [discriminate|].
    injection Hb as <-. rewrite <- Eb in Hv. unfold layer_bins in Hv.
    apply (group_by_in _ _ zeqb_ok) in Hv as [-> Hne]. split; [reflexivity|]. split; [assumption|].
    intros Hskip. apply Hne. replace (filter (on_layer cf layer) ts) with (@nil term); [reflexivity|].
    symmetry. clear -Hskip. induction ts as [|x l IH]; simpl; [reflexivity|]. unfold on_layer at 1.
    destruct (String.eqb (t_layer x) layer) eqn:El; simpl; [|assumption].
    apply String.eqb_eq in El. rewrite El. apply in_strs_ok in Hskip. rewrite Hskip. assumption.
  Qed.

  Lemma store_lines layer ls : In (layer, ls) st ->
    exists d bs, In (layer, d) (cf_layers cf) /\ dget String.eqb t layer = Some bs /\ LAYER layer d bs ls s rep.
  Proof.
    intros H. unfold STORE in HS.
    destruct (Forall2_in_r _ _ _ _ HS H) as ([[l0 d] bs] & H1 & H2 & H3). simpl in *. subst l0.
    apply in_flat_map in H1 as ([l1 d1] & H4 & H5). simpl in H5.
    destruct (dget String.eqb t l1) as [bs1|] eqn:E; [|destruct H5]. destruct H5 as [H5|[]].
    injection H5 as -> -> ->. eauto.
  Qed.

  Lemma track_line layer ls c ids : In (layer, ls) st -> In (c, ids) ls ->
    exists d, wire_layer cf layer d /\ track_entries cf layer d c ts <> [] /\
      LINE layer d (track_entries cf layer d c ts) ids s rep.
  Proof.
    intros H1 H2. destruct (store_lines _ _ H1) as (d & bs & H3 & H4 & H5).
    destruct (Forall2_in_r _ _ _ _ H5 H2) as ([c0 v] & H6 & H7 & H8). simpl in *. subst c0.
    destruct (tbl_bins _ _ _ _ _ H3 H4 H6) as (-> & Hne & Hs).
    exists d. split; [split; assumption|]. auto.
  Qed.

  Lemma track_fwd layer d c : wire_layer cf layer d -> track_entries cf layer d c ts <> [] ->
    exists ls ids, In (layer, ls) st /\ In (c, ids) ls /\ LINE layer d (track_entries cf layer d c ts) ids s rep.
  Proof.
    intros [Hl Hs] Hne. destruct (centerline_spec _ _ _ Ht) as [_ E]. specialize (E layer).
    rewrite (layer_dget _ _ _ Hcf Hl) in E.
    assert (Hin : In (c, track_entries cf layer d c ts) (layer_bins cf layer d ts)).
    { unfold layer_bins. apply (group_by_in _ _ zeqb_ok). split; [reflexivity|assumption]. }
    destruct (layer_bins cf layer d ts) as [|b0 bs0] eqn:Eb; [destruct Hin|]. rewrite <- Eb in *. clear b0 bs0 Eb.
    unfold STORE in HS.
    destruct (Forall2_in_l _ _ _ ((layer, d), layer_bins cf layer d ts) HS) as ([l1 ls] & H1 & H2 & H3).
    { apply in_flat_map. exists (layer, d). split; [assumption|]. simpl. rewrite E. now left. }
    simpl in *. subst l1. destruct (Forall2_in_l _ _ _ _ H3 Hin) as ([c1 ids] & H4 & H5 & H6). simpl in *. subst c1.
    exists ls, ids. auto.
  Qed.

  Lemma layer_ids_in layer i : In (layer, i) (layer_ids st) <-> exists ls c ids, In (layer, ls) st /\ In (c, ids) ls /\ In i ids.
  Proof.
    unfold layer_ids. rewrite in_flat_map. split.
    - intros ([l0 ls] & H1 & H2). apply in_map_iff in H2 as (j & [= <- <-] & H2).
      apply in_concat in H2 as (ids & H2 & H3). apply in_map_iff in H2 as ([c ids0] & <- & H2). eauto 8.
    - intros (ls & c & ids & H1 & H2 & H3). exists (layer, ls). split; [assumption|]. simpl.
      apply in_map_iff. exists i. split; [reflexivity|]. apply in_concat. exists ids. split; [|assumption].
      apply in_map_iff. exists (c, ids). auto.
  Qed.

  Lemma STORE_valid : store_valid (size s) st.
  Proof.
    intros layer ls c ids i H1 H2 H3. destruct (track_line _ _ _ _ H1 H2) as (d & _ & _ & L). now apply (ln_ids _ _ _ _ _ _ L).
  Qed.
End Tracks.

(** * What a successful run computes *)

(** Terminals on a wiring layer. *)
Definition wired (cf : rdcfg) (x : term) : Prop := exists d, wire_layer cf (t_layer x) d.

(** Writing the result leaves the rectangles alone. *)
Lemma generate_rects cf ts st s out s' : generate_rectangles cf ts st s = Some (out, s') -> s_rect s' = s_rect s.
Proof.
  unfold generate_rectangles. generalize (filter (fun d => in_strs (t_layer d) (cf_skip cf)) ts) as acc.
  generalize (layer_ids st) as lis. intros lis; revert s. induction lis as [|li lis IH]; intros s acc.
  - simpl. intros H; injection H as _ <-. reflexivity.
  - cbn [foldM]. unfold out_term at 1, root_name, st_root. simpl fst. simpl snd.
    destruct (uf_root (s_dad s) (snd li)) as [[r d]|]; [|discriminate].
    intros H. rewrite (IH _ _ H). reflexivity.
Qed.

Record RUN (cf : rdcfg) (ts : list term) (res : rd_result) (t : tbl) (s1 : rst) (rep1 : nat -> nat)
  (ps : list vpair) (s2 : rst) (rep2 : nat -> nat) : Prop := {
  rn_tbl : build_centerline_tbl cf ts = Some t;
  rn_scan : build_scan_lines cf t = Some (r_store res, s1, r_widths res);
  rn_wf1 : wf s1 rep1;
  rn_store : STORE t (cf_layers cf) (r_store res) s1 rep1;
  rn_pairs : via_pairs (rect_of s1) cf (r_store res) = Some ps;
  rn_wf2 : wf s2 rep2;
  rn_links : foldM link ps s1 = Some s2;
  rn_geo : geo s1 s2;
  rn_mono : forall x n, net_of s1 x = Some n -> net_of s2 x = Some n;
  rn_J : forall x, (x < size s1)%nat -> (forall n, net_of s1 x = Some n -> net_of s1 (rep1 x) = Some n) ->
               (forall n, net_of s2 x = Some n -> net_of s2 (rep2 x) = Some n);
  rn_names : forall i n, net_of s2 i = Some n -> exists x, In x ts /\ wired cf x /\ t_net x = Some n;
  rn_shorts12 : exists new, s_shorts s2 = s_shorts s1 ++ new;
  rn_shorts23 : exists new, r_shorts res = s_shorts s2 ++ new;
  rn_from : forall x, In x (r_shorts res) -> short_from (fun n => exists x, In x ts /\ wired cf x /\ t_net x = Some n) x;
  rn_joined : s_shorts s2 = s_shorts s1 -> forall via a b, In (via, a, b) ps -> rep2 a = rep2 b;
  rn_widths : r_widths res = 0%nat -> forall layer d bs b, In (layer, d) (cf_layers cf) -> dget String.eqb t layer = Some bs ->
     In b bs -> widths_of_bin layer d (snd b) = 0%nat;
  rn_terms : r_terms res = filter (fun x => in_strs (t_layer x) (cf_skip cf)) ts ++
     map (fun li => mkTerm (fst li) (net_of s2 (rep2 (snd li))) (rect_of s1 (snd li))
            (if ported_of s1 (snd li) then "pin"%string else type_of s1 (snd li)) (term_of s1 (snd li))) (layer_ids (r_store res));
  rn_final : s_rect (r_state res) = s_rect s1 }.

Lemma run_spec cf ts res : cfg_ok cf -> remove_duplicates cf ts = Some res ->
  exists t s1 rep1 ps s2 rep2, RUN cf ts res t s1 rep1 ps s2 rep2.
Proof.
  intros Hcf H. unfold remove_duplicates in H.
  destruct (build_centerline_tbl cf ts) as [t|] eqn:Et; [|discriminate].
  destruct (build_scan_lines cf t) as [[[st s1] w]|] eqn:Es; [|discriminate].
  destruct (check_vias cf st s1) as [s2|] eqn:Ev; [|discriminate].
  destruct (check_terms s2) as [s3|] eqn:Ec; [|discriminate].
  destruct (check_opens cf st s3) as [[ops s4]|] eqn:Eo; [|discriminate].
  destruct (generate_rectangles cf ts st s4) as [[out s5]|] eqn:Eg; [|discriminate].
  injection H as <-.
  set (Nm := fun n => exists x, In x ts /\ wired cf x /\ t_net x = Some n).
  destruct (build_scan_lines_spec cf t st s1 w Nm) as (rep1 & W1 & HS & HN1 & HF1 & HW1); [|assumption|].
  { intros layer bs b e n Hb Hin He Hn. destruct (centerline_spec _ _ _ Et) as [_ E]. rewrite E in Hb.
    destruct (dget String.eqb (cf_layers cf) layer) as [d|] eqn:Ed; [|discriminate].
    destruct (layer_bins cf layer d ts) as [|b0 bs0] eqn:Eb; [discriminate|]. injection Hb as <-.
    rewrite <- Eb in Hin. destruct b as [c v]. unfold layer_bins in Hin.
    apply (group_by_in _ _ zeqb_ok) in Hin as [-> _]. simpl in He. apply filter_In in He as [He _].
    apply in_map_iff in He as (x & <- & Hx). apply filter_In in Hx as [Hx Hol].
    exists x. split; [assumption|]. split; [|assumption]. exists d. unfold on_layer in Hol.
    apply Bool.andb_true_iff in Hol as [Ho1 Ho2]. apply String.eqb_eq in Ho1. subst layer.
    split; [now apply (dget_in _ str_eqb_ok)|]. intros Hsk. apply in_strs_ok in Hsk. rewrite Hsk in Ho2. discriminate. }
  pose proof (STORE_valid cf ts t st s1 rep1 Hcf Et HS) as HV.
  assert (OK1 : okst (size s1) (s_rect s1) s1) by (split; eauto).
  rewrite (check_vias_eq (size s1) (s_rect s1) st HV cf s1 OK1) in Ev.
  change (fun i => nth i (s_rect s1) (mkRect 0 0 0 0)) with (rect_of s1) in Ev.
  destruct (via_pairs (rect_of s1) cf st) as [ps|] eqn:Ep; [|discriminate].
  destruct (links_inv Nm (size s1) ps (via_pairs_valid _ _ _ HV _ _ Ep) s1 rep1 s2 W1 eq_refl HN1 HF1 Ev)
    as (rep2 & W2 & G2 & HN2 & HF2 & HP2 & Mono & HJ & Hrep & Hjoin).
  destruct (check_terms_spec Nm s2 rep2 s3 W2 HN2 HF2 Ec) as (S3 & HF3 & HP3 & _).
  assert (HV3 : store_valid (size s3) st).
  { rewrite (geo_size _ _ (sm_geo _ _ _ S3)), (geo_size _ _ G2). exact HV. }
  destruct (opens_spec cf st s3 rep2 ops s4 (sm_wf _ _ _ S3) HV3 Eo) as (S4 & A4).
  assert (HV4 : store_valid (size s4) st) by (rewrite (geo_size _ _ (sm_geo _ _ _ S4)); exact HV3).
  destruct (generate_spec cf ts st s4 rep2 (sm_wf _ _ _ S4) HV4) as (s5' & E5 & A5).
  rewrite Eg in E5. injection E5 as -> ->.
  exists t, s1, rep1, ps, s2, rep2.
  assert (S24 : same s2 s4 rep2) by (eapply same_trans; eauto).
  assert (G14 : geo s1 s4) by (eapply geo_trans; [exact G2|apply S24]).
  split; simpl; auto.
  - rewrite A5, A4. exact HP3.
  - rewrite A5, A4. exact HF3.
  - f_equal. apply map_ext. intros li.
    rewrite (same_net_of _ _ _ _ S24), (geo_rect_of _ _ _ G14), (geo_ported_of _ _ _ G14), (geo_type_of _ _ _ G14), (geo_term_of _ _ _ G14).
    reflexivity.
  - rewrite (generate_rects _ _ _ _ _ _ Eg). apply (geo_rect _ _ G14).
Qed.
