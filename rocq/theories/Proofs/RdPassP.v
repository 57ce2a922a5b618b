(** The whole removeDuplicates pass. *)
From Coq Require Import String Ascii.
From Verif Require Import Base.Prelude Base.PyDict Model.Transformation Model.UnionFind Model.PySort
  Model.RemoveDuplicates Spec.RemoveDuplicatesSpec Proofs.UnionFindP Proofs.PySortP Proofs.RemoveDuplicatesP
  Proofs.RdLineP.
From Coq Require Import ZifyBool.
Local Open Scope Z_scope.

(** * Facts about one line, stated in any later state *)
Record LINE (layer : string) (d : sdir) (v : list entry) (ids : list nat) (s : rst) (rep : nat -> nat) : Prop := {
  ln_ids : forall i, In i ids -> (i < size s)%nat;
  ln_nodup : NoDup ids;
  ln_start : forall i, In i ids -> exists e, In e v /\ dlo d (rect_of s i) = dlo d (e_rect e) /\
     same_width d (rect_of s i) (e_rect e) = true /\ type_of s i = e_type e /\
     (e_ported e = true -> ported_of s i = true) /\ inside (e_rect e) (rect_of s i);
  ln_in : forall e, In e v -> exists i, In i ids /\ inside (e_rect e) (rect_of s i) /\
     same_width d (e_rect e) (rect_of s i) = true;
  ln_out : forall i k p, In i ids -> 0 < k -> covers k (rect_of s i) p ->
     exists e, In e v /\ covers k (e_rect e) p;
  ln_clean : (forall e, In e v -> clean_entry e) ->
     (forall i, In i ids -> rep i = i) /\
     (forall i, In i ids -> term_of s i = None) /\
     (forall e, In e v -> exists i, In i ids /\ inside (e_rect e) (rect_of s i) /\
         (forall n, e_net e = Some n -> net_of s i = Some n) /\ (e_ported e = true -> ported_of s i = true)) /\
     (forall i n, In i ids -> net_of s i = Some n -> exists e, In e v /\ inside (e_rect e) (rect_of s i) /\ e_net e = Some n) /\
     (forall i, In i ids -> ported_of s i = true ->
         exists e, In e v /\ e_ported e = true /\ (forall n, e_net e = Some n -> net_of s i = Some n));
  ln_sorted : (forall e, In e v -> clean_entry e) -> s_shorts s = [] ->
     (forall e e', In e v -> In e' v -> same_width d (e_rect e) (e_rect e') = true) ->
     StronglySorted (gap_order d s) ids }.

(** Objects below [N] are the same in both states. *)
Record agree (N : nat) (s s' : rst) (rep rep' : nat -> nat) : Prop := {
  ag_size : (N <= size s)%nat /\ (N <= size s')%nat;
  ag_obj : forall i, (i < N)%nat ->
     rect_of s' i = rect_of s i /\ type_of s' i = type_of s i /\ term_of s' i = term_of s i /\
     ported_of s' i = ported_of s i /\ net_of s' i = net_of s i /\ rep' i = rep i;
  ag_shorts : exists new, s_shorts s' = s_shorts s ++ new }.

Lemma agree_trans N N' a b c ra rb rc : (N <= N')%nat ->
  agree N a b ra rb -> agree N' b c rb rc -> agree N a c ra rc.
Proof.
  intros HN [[A1 A1'] A2 [n1 A3]] [[B1 B1'] B2 [n2 B3]]. split.
  - lia.
  - intros i Hi. destruct (A2 i Hi) as (? & ? & ? & ? & ? & ?).
    destruct (B2 i) as (? & ? & ? & ? & ? & ?); [lia|]. repeat split; congruence.
  - exists (n1 ++ n2). rewrite B3, A3. now rewrite app_assoc.
Qed.

Lemma agree_refl s rep : agree (size s) s s rep rep.
Proof. split; [lia|auto 10|]. exists []. now rewrite app_nil_r. Qed.

Lemma LINE_agree layer d v ids s rep s' rep' :
  LINE layer d v ids s rep -> agree (size s) s s' rep rep' -> LINE layer d v ids s' rep'.
Proof.
  intros L [A1 A2 [new A3]].
  assert (Hi : forall i, In i ids -> rect_of s' i = rect_of s i /\ type_of s' i = type_of s i /\ term_of s' i = term_of s i /\
     ported_of s' i = ported_of s i /\ net_of s' i = net_of s i /\ rep' i = rep i).
  { intros i Hi. apply A2. apply (ln_ids _ _ _ _ _ _ L i Hi). }
  split.
  - intros i H. pose proof (ln_ids _ _ _ _ _ _ L i H). lia.
  - apply L.
  - intros i H. destruct (Hi i H) as (-> & -> & _ & -> & _). apply (ln_start _ _ _ _ _ _ L i H).
  - intros e H. destruct (ln_in _ _ _ _ _ _ L e H) as (i & H1 & H2). exists i.
    destruct (Hi i H1) as (-> & _). auto.
  - intros i k p H Hk. destruct (Hi i H) as (-> & _). apply (ln_out _ _ _ _ _ _ L); auto.
  - intros Hc. destruct (ln_clean _ _ _ _ _ _ L Hc) as (C1 & C2 & C3 & C4 & C5).
    split; [|split; [|split; [|split]]].
    + intros i H. destruct (Hi i H) as (_ & _ & _ & _ & _ & ->). auto.
    + intros i H. destruct (Hi i H) as (_ & _ & -> & _). auto.
    + intros e H. destruct (C3 e H) as (i & H1 & H2). exists i.
      destruct (Hi i H1) as (-> & _ & _ & -> & -> & _). auto.
    + intros i n H. destruct (Hi i H) as (-> & _ & _ & _ & -> & _). auto.
    + intros i H. destruct (Hi i H) as (_ & _ & _ & -> & -> & _). auto.
  - intros Hc Hs Hw. rewrite A3 in Hs. apply app_eq_nil in Hs as [Hs _].
    eapply ssorted_impl_in; [|apply (ln_sorted _ _ _ _ _ _ L); auto].
    intros i j H1 H2. unfold gap_order. destruct (Hi i H1) as (-> & _). destruct (Hi j H2) as (-> & _). auto.
Qed.

(** Names and shorts come from [Nm]. *)
Definition names_from (Nm : string -> Prop) (s : rst) : Prop := forall i n, net_of s i = Some n -> Nm n.
Definition short_from (Nm : string -> Prop) (x : short) : Prop :=
  match x with
  | SPair _ a b => a <> b /\ Nm a /\ Nm b
  | STerm _ _ ns => (exists a b, In a ns /\ In b ns /\ a <> b) /\ forall n, In (Some n) ns -> Nm n
  end.
Definition shorts_from (Nm : string -> Prop) (s : rst) : Prop := forall x, In x (s_shorts s) -> short_from Nm x.

Lemma build_line_LINE layer d s0 rep0 v ids s Nm :
  wf s0 rep0 -> build_line layer d s0 v = Some (ids, s) ->
  names_from Nm s0 -> shorts_from Nm s0 -> (forall e n, In e v -> e_net e = Some n -> Nm n) ->
  exists rep, wf s rep /\ LINE layer d v ids s rep /\ agree (size s0) s0 s rep0 rep /\
    names_from Nm s /\ shorts_from Nm s /\ (forall i, In i ids -> (size s0 <= i)%nat).
Proof.
  intros W H HN HS HE. destruct (build_line_spec _ _ _ _ _ _ _ W H) as (cur & rep & P & Hp & I & C).
  exists rep. split; [apply I|].
  assert (In1 : forall e, In e P -> In e v) by (intros e; apply Permutation_in; now symmetry).
  assert (In2 : forall e, In e v -> In e P) by (intros e; now apply Permutation_in).
  destruct (li_shorts _ _ _ _ _ _ _ _ _ I) as (new & Hnew & Fnew).
  split; [|split; [|split; [|split]]].
  - split.
    + intros i Hi. apply (li_ids _ _ _ _ _ _ _ _ _ I) in Hi. lia.
    + apply I.
    + intros i Hi. destruct (li_start _ _ _ _ _ _ _ _ _ I i Hi) as (e & H1 & H2). exists e. auto.
    + intros e He. apply (li_in _ _ _ _ _ _ _ _ _ I). auto.
    + intros i k p Hi Hk Hcov. destruct (li_out _ _ _ _ _ _ _ _ _ I i k p Hi Hk Hcov) as (e & H1 & H2). eauto.
    + intros Hc. specialize (C Hc). split; [apply C|]. split; [apply C|]. split; [|split].
      * intros e He. apply (lc_names _ _ _ _ _ _ C). auto.
      * intros i n Hi Hn. destruct (lc_back _ _ _ _ _ _ C i n Hi Hn) as (e & H1 & H2). exists e. auto.
      * intros i Hi Hpo. destruct (lc_ported _ _ _ _ _ _ C i Hi Hpo) as (e & H1 & H2). exists e. auto.
    + intros Hc Hs Hw. specialize (C Hc). apply (lc_sorted _ _ _ _ _ _ C).
      * rewrite Hnew in Hs. apply app_eq_nil in Hs as [Hs ->]. now rewrite Hnew, app_nil_r.
      * intros; apply Hw; auto.
  - split.
    + split; [lia|apply I].
    + apply I.
    + exists new. exact Hnew.
  - intros i n Hi. destruct (Nat.lt_ge_cases i (size s0)) as [Hlt|Hge].
    + destruct (li_frame _ _ _ _ _ _ _ _ _ I i Hlt) as (_ & _ & _ & _ & E & _). rewrite E in Hi. eauto.
    + destruct (li_names _ _ _ _ _ _ _ _ _ I i n Hge Hi) as (e & H1 & H2). eauto.
  - intros x Hx. rewrite Hnew in Hx. apply in_app_iff in Hx as [Hx|Hx]; [auto|].
    destruct (Fnew x Hx) as (a & b & -> & Hab & (ea & Ha1 & Ha2) & (eb & Hb1 & Hb2)). simpl. split; [assumption|]. split; [apply (HE ea)|apply (HE eb)]; auto.
  - intros i Hi. apply (li_ids _ _ _ _ _ _ _ _ _ I) in Hi. lia.
Qed.

(** * All scan lines *)

Definition LAYER (layer : string) (d : sdir) (bs : bins) (ls : lines) (s : rst) (rep : nat -> nat) : Prop :=
  Forall2 (fun b l => fst l = fst b /\ LINE layer d (snd b) (snd l) s rep) bs ls.

Lemma LAYER_agree layer d bs ls s rep s' rep' :
  LAYER layer d bs ls s rep -> agree (size s) s s' rep rep' -> LAYER layer d bs ls s' rep'.
Proof.
  intros H A. unfold LAYER in *. induction H as [|b l bs ls [H1 H2] H IH]; constructor; auto.
  split; auto. eapply LINE_agree; eauto.
Qed.

Definition widths_layer (layer : string) (d : sdir) (bs : bins) : nat :=
  fold_left (fun w b => (w + widths_of_bin layer d (snd b))%nat) bs 0%nat.

Lemma Forall2_snoc {A B} (R : A -> B -> Prop) l l' x y : Forall2 R l l' -> R x y -> Forall2 R (l ++ [x]) (l' ++ [y]).
Proof. intros H1 H2. apply Forall2_app; auto. Qed.

Lemma build_layer_fold layer d bs s0 rep0 w0 ls s w (Nm : string -> Prop) :
  wf s0 rep0 -> names_from Nm s0 -> shorts_from Nm s0 ->
  (forall b e n, In b bs -> In e (snd b) -> e_net e = Some n -> Nm n) ->
  foldM (build_layer layer d) bs ([], s0, w0) = Some (ls, s, w) ->
  exists rep, wf s rep /\ LAYER layer d bs ls s rep /\ agree (size s0) s0 s rep0 rep /\
    names_from Nm s /\ shorts_from Nm s /\
    (w <= w0 -> w = w0 /\ forall b, In b bs -> widths_of_bin layer d (snd b) = 0)%nat.
Proof.
  intros W HN HS HE H.
  pose (Q := fun (pre : bins) (acc : lines * rst * nat) =>
     let '(ls, s, w) := acc in
     exists rep, wf s rep /\ LAYER layer d pre ls s rep /\ agree (size s0) s0 s rep0 rep /\
     names_from Nm s /\ shorts_from Nm s /\ (w0 <= w)%nat /\
     (w <= w0 -> w = w0 /\ forall b, In b pre -> widths_of_bin layer d (snd b) = 0)%nat).
  apply (foldM_inv _ Q) in H.
  - destruct H as (rep & H1 & H2 & H3 & H4 & H5 & H6 & H7). exists rep. auto 10.
  - exists rep0. split; [assumption|]. split; [constructor|]. split; [apply agree_refl|].
    split; [assumption|]. split; [assumption|]. split; [lia|]. intros _. split; [reflexivity|]. intros b [].
  - intros pre b post [[l1 s1] w1] [[l2 s2] w2] E (rep & H1 & H2 & H3 & H4 & H5 & H6 & H7).
    unfold build_layer. destruct (build_line layer d s1 (snd b)) as [[ids s3]|] eqn:EL; [|discriminate].
    intros [= <- <- <-].
    destruct (build_line_LINE _ _ _ _ _ _ _ Nm H1 EL H4 H5) as (rep' & K1 & K2 & K3 & K4 & K5 & K6).
    { intros e n He Hn. apply (HE b e n); auto. rewrite E. apply in_app_iff. right. now left. }
    exists rep'. split; [assumption|]. split.
    { apply Forall2_snoc; [|simpl; auto]. eapply LAYER_agree; eauto. }
    split; [eapply agree_trans; [|eassumption|eassumption]; apply H3|].
    split; [assumption|]. split; [assumption|]. split; [lia|].
    intros Hle. destruct H7 as [-> H7]; [lia|]. split; [lia|].
    intros b0 Hb. apply in_app_iff in Hb as [Hb|[<-|[]]]; [auto|lia].
Qed.

(** The store: for every layer of the configuration that has wires, its lines. *)
Definition STORE (t : tbl) (lds : list (string * sdir)) (st : store) (s : rst) (rep : nat -> nat) : Prop :=
  Forall2 (fun (ld : string * sdir * bins) (sl : string * lines) =>
             fst sl = fst (fst ld) /\ LAYER (fst (fst ld)) (snd (fst ld)) (snd ld) (snd sl) s rep)
    (flat_map (fun ld => match dget String.eqb t (fst ld) with Some bs => [(ld, bs)] | None => [] end) lds) st.

Lemma STORE_agree t lds st s rep s' rep' :
  STORE t lds st s rep -> agree (size s) s s' rep rep' -> STORE t lds st s' rep'.
Proof.
  unfold STORE. intros H A. induction H as [|ld sl l l' [H1 H2] H IH]; constructor; auto.
  split; auto. eapply LAYER_agree; eauto.
Qed.

Lemma build_scan_lines_spec cf (t : tbl) st s w (Nm : string -> Prop) :
  (forall layer bs b e n, dget String.eqb t layer = Some bs -> In b bs -> In e (snd b) -> e_net e = Some n -> Nm n) ->
  build_scan_lines cf t = Some (st, s, w) ->
  exists rep, wf s rep /\ STORE t (cf_layers cf) st s rep /\ names_from Nm s /\ shorts_from Nm s /\
   (w = 0%nat -> forall layer d bs b, In (layer, d) (cf_layers cf) -> dget String.eqb t layer = Some bs -> In b bs ->
       widths_of_bin layer d (snd b) = 0%nat).
Proof.
  intros HE H. unfold build_scan_lines in H.
  pose (Q := fun (pre : list (string * sdir)) (acc : store * rst * nat) =>
     let '(st, s, w) := acc in
     exists rep, wf s rep /\ STORE t pre st s rep /\ names_from Nm s /\ shorts_from Nm s /\
     (w = 0%nat -> forall layer d bs b, In (layer, d) pre -> dget String.eqb t layer = Some bs -> In b bs ->
       widths_of_bin layer d (snd b) = 0%nat)).
  apply (foldM_inv _ Q) in H; [exact H| |].
  - exists (fun x => x). split; [apply wf0|]. split; [constructor|]. split; [|split].
    + intros i n Hi. unfold net_of in Hi. simpl in Hi. destruct i; discriminate.
    + intros x [].
    + intros _ ? ? ? ? [].
  - clear H. intros pre [layer d] post [[st1 s1] w1] [[st2 s2] w2] E (rep & H1 & H2 & H3 & H4 & H5). cbn [fst snd].
    destruct (dget String.eqb t layer) as [bs|] eqn:Eb.
    + destruct (foldM (build_layer layer d) bs ([], s1, w1)) as [[[ls s3] w3]|] eqn:EF; [|discriminate].
      intros [= <- <- <-].
      destruct (build_layer_fold _ _ _ _ _ _ _ _ _ Nm H1 H3 H4 ltac:(intros; eapply HE; eauto) EF)
        as (rep' & K1 & K2 & K3 & K4 & K5 & K6).
      exists rep'. split; [assumption|]. split.
      { unfold STORE. rewrite flat_map_app. simpl. rewrite Eb. simpl. apply Forall2_app.
        - eapply STORE_agree; eauto.
        - constructor; [|constructor]. simpl. auto. }
      split; [assumption|]. split; [assumption|].
      intros -> ly d0 bs0 b Hin Hd Hb.
      destruct K6 as [Ew K6]; [lia|]. apply in_app_iff in Hin as [Hin|[[= <- <-]|[]]].
      * eapply H5; eauto.
      * rewrite Eb in Hd. injection Hd as <-. auto.
    + intros [= <- <- <-]. exists rep. split; [assumption|]. split.
      { unfold STORE in *. rewrite flat_map_app. simpl. rewrite Eb. simpl. now rewrite app_nil_r. }
      split; [assumption|]. split; [assumption|].
      intros Hw ly d0 bs0 b Hin Hd Hb. apply in_app_iff in Hin as [Hin|[[= <- <-]|[]]]; [eapply H5; eauto|congruence].
Qed.

(** * The centre-line table *)
Definition entry_of (t : term) : entry := mkE (t_rect t) (t_net t) (t_type t) (has_pin (t_type t)).

Definition on_layer (cf : rdcfg) (layer : string) (t : term) : bool :=
  String.eqb (t_layer t) layer && negb (in_strs (t_layer t) (cf_skip cf)).

Definition layer_bins (cf : rdcfg) (layer : string) (d : sdir) (ts : list term) : bins :=
  group_by Z.eqb (fun e => twice_center d (e_rect e)) (map entry_of (filter (on_layer cf layer) ts)).

Lemma centerline_spec cf ts (t : tbl) :
  build_centerline_tbl cf ts = Some t ->
  (forall x, In x ts -> has_pin (t_type x) = true -> t_net x <> None) /\
  forall layer, dget String.eqb t layer =
    match dget String.eqb (cf_layers cf) layer with
    | None => None
    | Some d => match layer_bins cf layer d ts with [] => None | b => Some b end
    end.
Proof.
  intros H. unfold build_centerline_tbl in H.
  pose (Q := fun (pre : list term) (t : tbl) =>
    (forall x, In x pre -> has_pin (t_type x) = true -> t_net x <> None) /\
    forall layer, dget String.eqb t layer =
    match dget String.eqb (cf_layers cf) layer with
    | None => None
    | Some d => match layer_bins cf layer d pre with [] => None | b => Some b end
    end).
  apply (foldM_inv _ Q) in H; [exact H| |].
  - split; [intros x []|]. intros layer. simpl. destruct (dget String.eqb (cf_layers cf) layer); reflexivity.
  - clear H. intros pre x post t1 t2 E [H1 H2] Hst. unfold centerline_step in Hst.
    assert (Hpin : has_pin (t_type x) = true -> t_net x <> None).
    { intros Hp Hn. rewrite Hp, Hn in Hst. discriminate. }
    assert (Hst' : (if in_strs (t_layer x) (cf_skip cf) then Some t1
      else match dget String.eqb (cf_layers cf) (t_layer x) with
         | None => Some t1
         | Some dir =>
           Some (dupd String.eqb t1 (t_layer x)
                   (fun o => dappend Z.eqb (match o with Some b => b | None => [] end)
                               (twice_center dir (t_rect x)) (entry_of x)))
         end) = Some t2).
    { unfold entry_of. destruct (has_pin (t_type x)); [destruct (t_net x); [exact Hst|discriminate]|exact Hst]. }
    clear Hst. split.
    + intros y Hy. apply in_app_iff in Hy as [Hy|[<-|[]]]; auto.
    + intros layer. unfold layer_bins. rewrite filter_app, map_app. cbn [filter].
      assert (Skip : on_layer cf layer x = false -> dget String.eqb t2 layer = dget String.eqb t1 layer ->
        dget String.eqb t2 layer = match dget String.eqb (cf_layers cf) layer with
         | None => None
         | Some d => match group_by Z.eqb (fun e => twice_center d (e_rect e))
             (map entry_of (filter (on_layer cf layer) pre) ++ map entry_of (if on_layer cf layer x then [x] else [])) with
             [] => None | b => Some b end
        end).
      { intros -> ->. simpl. rewrite H2. destruct (dget String.eqb (cf_layers cf) layer); [|reflexivity].
        rewrite app_nil_r. reflexivity. }
      destruct (in_strs (t_layer x) (cf_skip cf)) eqn:Es.
      * injection Hst' as <-. apply Skip; [|reflexivity]. unfold on_layer. rewrite Es. apply Bool.andb_false_r.
      * destruct (dget String.eqb (cf_layers cf) (t_layer x)) as [dir|] eqn:Ed.
        -- injection Hst' as <-. destruct (String.eqb_spec (t_layer x) layer) as [El|Hn].
           ++ subst layer. rewrite (dget_dupd_same _ str_eqb_ok), H2, Ed.
              assert (Eo : on_layer cf (t_layer x) x = true) by (unfold on_layer; rewrite Es, String.eqb_refl; reflexivity).
              rewrite Eo. cbn [map]. rewrite group_by_snoc.
              change (group_by Z.eqb (fun e => twice_center dir (e_rect e)) (map entry_of (filter (on_layer cf (t_layer x)) pre)))
                with (layer_bins cf (t_layer x) dir pre).
              change (e_rect (entry_of x)) with (t_rect x).
              destruct (layer_bins cf (t_layer x) dir pre) as [|p b] eqn:EB; [reflexivity|].
              unfold dappend. destruct p as [k v]. simpl.
              destruct (twice_center dir (t_rect x) =? k); reflexivity.
           ++ apply Skip.
              ** unfold on_layer. apply String.eqb_neq in Hn. rewrite Hn. reflexivity.
              ** rewrite (dget_dupd_other _ str_eqb_ok); auto.
        -- injection Hst' as <-. destruct (String.eqb_spec (t_layer x) layer) as [El|Hn].
           ++ subst layer. rewrite H2, Ed. reflexivity.
           ++ apply Skip; [|reflexivity]. unfold on_layer. apply String.eqb_neq in Hn. rewrite Hn. reflexivity.
Qed.

(** Converse: the table exists as soon as every pin has a name. *)
Lemma centerline_total cf ts :
  (forall x, In x ts -> has_pin (t_type x) = true -> t_net x <> None) -> exists t, build_centerline_tbl cf ts = Some t.
Proof.
  intros H. unfold build_centerline_tbl.
  destruct (foldM_total (centerline_step cf) (fun _ => True) ts []) as (t & -> & _); eauto.
  intros x t1 Hx _. unfold centerline_step.
  specialize (H x Hx). destruct (has_pin (t_type x)); [destruct (t_net x); [|exfalso; apply H; auto]|];
   (destruct (in_strs (t_layer x) (cf_skip cf)); [eauto|]);
   (destruct (dget String.eqb (cf_layers cf) (t_layer x)); eauto).
Qed.
