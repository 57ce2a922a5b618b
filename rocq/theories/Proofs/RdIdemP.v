(** A second removeDuplicates pass over a normalised output. *)
From Coq Require Import String Ascii.
From Verif Require Import Base.Prelude Base.PyDict Model.Transformation Model.UnionFind Model.PySort
  Model.RemoveDuplicates Spec.RemoveDuplicatesSpec Proofs.UnionFindP Proofs.PySortP Proofs.RemoveDuplicatesP
  Proofs.RdLineP Proofs.RdPassP Proofs.RdViaP Proofs.RdRunP.
From Coq Require Import ZifyBool.
Local Open Scope Z_scope.

(** * States made of fresh objects only *)
Definition al (s : rst) (e : entry) : rst := snd (alloc s (e_rect e) (e_net e) (e_type e) None (e_ported e)).
Definition als (es : list entry) (s : rst) : rst := fold_left al es s.

Lemma als_app a b s : als (a ++ b) s = als b (als a s).
Proof. unfold als. apply fold_left_app. Qed.

Lemma als_fields es : forall s,
  s_rect (als es s) = s_rect s ++ map e_rect es /\ s_net (als es s) = s_net s ++ map e_net es /\
  s_type (als es s) = s_type s ++ map e_type es /\ s_term (als es s) = s_term s ++ map (fun _ => None) es /\
  s_ported (als es s) = s_ported s ++ map e_ported es /\ s_shorts (als es s) = s_shorts s /\ s_pins (als es s) = s_pins s /\
  size (als es s) = (size s + List.length es)%nat.
Proof.
  induction es as [|e es IH]; intros s; simpl.
  - rewrite !app_nil_r. repeat split; auto.
  - destruct (IH (al s e)) as (H1 & H2 & H3 & H4 & H5 & H6 & H7 & H8).
    change (fold_left al es (al s e)) with (als es (al s e)) in *.
    rewrite H1, H2, H3, H4, H5, H6, H7, H8. unfold al, alloc, size, uf_new. simpl. rewrite <- !app_assoc, app_length. simpl.
    repeat split; auto. lia.
Qed.

Lemma al_wf s rep e : wf s rep -> (forall i, (i < size s)%nat -> rep i = i) ->
  exists rep', wf (al s e) rep' /\ (forall i, (i < size (al s e))%nat -> rep' i = i).
Proof.
  intros W Hr. destruct (alloc s (e_rect e) (e_net e) (e_type e) None (e_ported e)) as [i s'] eqn:E.
  destruct (alloc_ok _ _ _ _ _ _ _ _ _ W E) as (-> & W' & Z' & _).
  exists (addrep (size s) rep). unfold al. rewrite E. simpl. split; [assumption|].
  intros i Hi. destruct (Nat.eq_dec i (size s)) as [->|]; [apply addrep_same|]. rewrite addrep_other by assumption. apply Hr. lia.
Qed.

Lemma als_wf es : forall s rep, wf s rep -> (forall i, (i < size s)%nat -> rep i = i) ->
  exists rep', wf (als es s) rep' /\ (forall i, (i < size (als es s))%nat -> rep' i = i).
Proof.
  induction es as [|e es IH]; intros s rep W Hr; simpl; [eauto|].
  destruct (al_wf s rep e W Hr) as (rep' & W' & Hr'). apply (IH (al s e) rep'); auto.
Qed.

(** * One already normalised scan line *)
Definition egap (d : sdir) (a b : entry) : Prop :=
  dlo d (e_rect a) <= dlo d (e_rect b) /\ dhi d (e_rect a) < dlo d (e_rect b).

Lemma line_loop layer d es : forall cur ids s rep,
  wf s rep -> (forall i, (i < size s)%nat -> rep i = i) ->
  (forall e, In e es -> clean_entry e) ->
  match cur with None => True | Some c => forall e, In e es -> (c < size s)%nat /\ dhi d (rect_of s c) < dlo d (e_rect e) end ->
  StronglySorted (egap d) es ->
  exists cur', foldM (line_step layer d) es (cur, ids, s) = Some (cur', ids ++ seq (size s) (List.length es), als es s).
Proof.
  induction es as [|e es IH]; intros cur ids s rep W Hr Hc Hcur HS.
  - exists cur. simpl. now rewrite app_nil_r.
  - destruct (Hc e (or_introl eq_refl)) as [Hp _].
    change (foldM (line_step layer d) (e :: es) (cur, ids, s)) with
      (match line_step layer d (cur, ids, s) e with Some x => foldM (line_step layer d) es x | None => None end).
    change (als (e :: es) s) with (als es (al s e)). change (List.length (e :: es)) with (Datatypes.S (List.length es)).
    cbn [seq]. unfold line_step at 1. rewrite Hp.
    inversion HS as [|? ? HS1 HS2]; subst.
    destruct (alloc s (e_rect e) (e_net e) (e_type e) None (e_ported e)) as [i s'] eqn:E.
    destruct (alloc_ok _ _ _ _ _ _ _ _ _ W E) as (-> & W' & Z' & _ & _ & R' & _).
    assert (Eal : al s e = s') by (unfold al; now rewrite E).
    assert (Step : exists cur', foldM (line_step layer d) es (Some (size s), ids ++ [size s], s') =
       Some (cur', ids ++ size s :: seq (Datatypes.S (size s)) (List.length es), als es s')).
    { destruct (al_wf s rep e W Hr) as (rep' & W2 & Hr2). rewrite Eal in *.
      destruct (IH (Some (size s)) (ids ++ [size s]) s' rep') as (cur' & Ec); auto.
      - intros; apply Hc; now right.
      - intros e' He'. split; [lia|]. rewrite R', Nat.eqb_refl. rewrite Forall_forall in HS2. apply (HS2 e' He').
      - exists cur'. rewrite Ec, Z', <- app_assoc. reflexivity. }
    rewrite Eal. destruct cur as [c|]; [|exact Step].
    destruct (Hcur e (or_introl eq_refl)) as [Hcs Hgap].
    rewrite R'. destruct (Nat.eqb_spec c (size s)) as [|Hne]; [lia|].
    replace (dlo d (e_rect e) <=? dhi d (rect_of s c)) with false by lia. simpl. exact Step.
Qed.

Lemma build_line_normal layer d s rep es :
  wf s rep -> (forall i, (i < size s)%nat -> rep i = i) ->
  (forall e, In e es -> clean_entry e) -> StronglySorted (egap d) es ->
  build_line layer d s es = Some (seq (size s) (List.length es), als es s).
Proof.
  intros W Hr Hc HS. unfold build_line.
  rewrite sort_by_sorted_id.
  2:{ eapply ssorted_impl_in; [|exact HS]. intros x y _ _ [H _]. exact H. }
  destruct (line_loop layer d es None [] s rep) as (cur & ->); auto.
Qed.

(** * Renumbering *)
Definition map_lines (g : nat -> nat) (ls : lines) : lines := map (fun l => (fst l, map g (snd l))) ls.
Definition map_store (g : nat -> nat) (st : store) : store := map (fun l => (fst l, map_lines g (snd l))) st.
Definition gp (g : nat -> nat) (p : vpair) : vpair := let '(v, a, b) := p in (v, g a, g b).

Lemma dget_map {K V W} (eqb : K -> K -> bool) (f : V -> W) (d : list (K * V)) k :
  dget eqb (map (fun kv => (fst kv, f (snd kv))) d) k = option_map f (dget eqb d k).
Proof.
  induction d as [|[k' v] d IH]; simpl; [reflexivity|]. destruct (eqb k k'); [reflexivity|assumption].
Qed.

Lemma concatM_map {A B C D} (h : A -> C) (hb : B -> D) (f : A -> option (list B)) (f' : C -> option (list D)) l :
  (forall x, In x l -> f' (h x) = option_map (map hb) (f x)) ->
  concatM f' (map h l) = option_map (map hb) (concatM f l).
Proof.
  induction l as [|a l IH]; simpl; intros H; [reflexivity|].
  rewrite H by now left. destruct (f a) as [x|]; [|reflexivity]. simpl.
  rewrite IH by (intros; apply H; now right). destruct (concatM f l); [|reflexivity]. simpl. now rewrite map_app.
Qed.

Section Renum.
  Variables (g : nat -> nat) (R : nat -> Rect).
  Let R' k := R (g k).

  Lemma ftouch_map ids v : ftouch R (map g ids) (g v) = option_map g (ftouch R' ids v).
  Proof.
    unfold ftouch. induction ids as [|a ids IH]; simpl; [reflexivity|]. unfold R' at 1 2.
    destruct (touching (R (g v)) (R (g a))); [reflexivity|assumption].
  Qed.

  Lemma pair_mv_map via mids v : pair_mv R via (map g mids) (g v) = option_map (map (gp g)) (pair_mv R' via mids v).
  Proof. unfold pair_mv. rewrite ftouch_map. destruct (ftouch R' mids v); reflexivity. Qed.

  Lemma get_lines_map st layer : get_lines (map_store g st) layer = map_lines g (get_lines st layer).
  Proof.
    unfold get_lines, map_store. rewrite (dget_map String.eqb (map_lines g)). destruct (dget String.eqb st layer); reflexivity.
  Qed.

  Lemma pair_mh_map via st h v :
    pair_mh R via (get_lines (map_store g st) h) (g v) = option_map (map (gp g)) (pair_mh R' via (get_lines st h) v).
  Proof.
    unfold pair_mh. rewrite get_lines_map. unfold map_lines. rewrite (dget_map Z.eqb (map g)). unfold R' at 1 2.
    destruct (dget Z.eqb (get_lines st h) _) as [mids|]; [|reflexivity]. simpl. rewrite ftouch_map.
    destruct (ftouch R' mids v); reflexivity.
  Qed.

  Lemma pairs_h_map via st mh vs :
    pairs_h R via (map_store g st) mh (map g vs) = option_map (map (gp g)) (pairs_h R' via st mh vs).
  Proof.
    unfold pairs_h. destruct mh as [h|]; [|reflexivity]. apply concatM_map. intros. apply pair_mh_map.
  Qed.

  Lemma pairs_line_map via st mv mh l :
    pairs_line R via (map_store g st) mv mh (fst l, map g (snd l)) = option_map (map (gp g)) (pairs_line R' via st mv mh l).
  Proof.
    unfold pairs_line. destruct mv as [m|]; simpl; [|apply pairs_h_map].
    rewrite get_lines_map. unfold map_lines. rewrite (dget_map Z.eqb (map g)).
    destruct (dget Z.eqb (get_lines st m) (fst l)) as [mids|]; [|reflexivity]. simpl.
    rewrite (concatM_map g (gp g) (pair_mv R' via mids)) by (intros; apply pair_mv_map).
    destruct (concatM (pair_mv R' via mids) (snd l)) as [a|]; [|reflexivity]. simpl.
    rewrite pairs_h_map. destruct (pairs_h R' via st mh (snd l)); [|reflexivity]. simpl. now rewrite map_app.
  Qed.

  Lemma pairs_via_map st e : pairs_via R (map_store g st) e = option_map (map (gp g)) (pairs_via R' st e).
  Proof.
    destruct e as [via [mv mh]]. unfold pairs_via.
    assert (G : match dget String.eqb (map_store g st) via with None => Some [] | Some ls => concatM (pairs_line R via (map_store g st) mv mh) ls end =
      option_map (map (gp g)) match dget String.eqb st via with None => Some [] | Some ls => concatM (pairs_line R' via st mv mh) ls end).
    { unfold map_store at 1. rewrite (dget_map String.eqb (map_lines g)).
      destruct (dget String.eqb st via) as [ls|]; [|reflexivity]. simpl. unfold map_lines. apply concatM_map. intros. apply pairs_line_map. }
    destruct mv, mh; auto.
  Qed.

  Lemma via_pairs_map cf st : via_pairs R cf (map_store g st) = option_map (map (gp g)) (via_pairs R' cf st).
  Proof.
    unfold via_pairs. rewrite <- (map_id (cf_stack cf)) at 1. apply concatM_map. intros. apply pairs_via_map.
  Qed.
End Renum.

Lemma concatM_ext {A B} (f f' : A -> option (list B)) l : (forall x, f x = f' x) -> concatM f l = concatM f' l.
Proof. intros H. induction l as [|a l IH]; simpl; [reflexivity|]. now rewrite H, IH. Qed.

Lemma via_pairs_ext (R R' : nat -> Rect) cf st : (forall k, R k = R' k) -> via_pairs R' cf st = via_pairs R cf st.
Proof.
  intros H.
  assert (Hf : forall ids v, ftouch R' ids v = ftouch R ids v) by (intros; unfold ftouch; apply find_ext; intros; now rewrite !H).
  assert (Hh : forall via mh vs, pairs_h R' via st mh vs = pairs_h R via st mh vs).
  { intros. unfold pairs_h. destruct mh; [|reflexivity]. apply concatM_ext. intros v. unfold pair_mh. rewrite H.
    destruct (dget Z.eqb (get_lines st s) _); [|reflexivity]. now rewrite Hf. }
  assert (Hl : forall via mv mh l, pairs_line R' via st mv mh l = pairs_line R via st mv mh l).
  { intros. unfold pairs_line. destruct mv; [|apply Hh]. destruct (dget Z.eqb _ (fst l)) as [mids|]; [|reflexivity]. rewrite Hh.
    rewrite (concatM_ext _ (pair_mv R via mids)); [reflexivity|]. intros v. unfold pair_mv. now rewrite Hf. }
  unfold via_pairs. apply concatM_ext. intros [via [mv mh]]. unfold pairs_via.
  destruct mv, mh; auto; destruct (dget String.eqb st via); auto; apply concatM_ext; auto.
Qed.

(** * Rebuilding the scan lines *)
Lemma Forall2_cons_inv {A B} (Rl : A -> B -> Prop) x y l l' : Forall2 Rl (x :: l) (y :: l') -> Rl x y /\ Forall2 Rl l l'.
Proof. intros H. inversion H; auto. Qed.

Lemma filter_none' {A} (f : A -> bool) l : (forall x, In x l -> f x = false) -> filter f l = [].
Proof.
  induction l as [|a l IH]; simpl; [reflexivity|]. intros H. rewrite (H a (or_introl eq_refl)). apply IH. auto.
Qed.

Lemma nth_mid_seq {A} (a b c : list A) x : map (fun k => nth k (a ++ b ++ c) x) (seq (List.length a) (List.length b)) = b.
Proof.
  apply nth_ext with (d := x) (d' := x); [now rewrite map_length, seq_length|].
  rewrite map_length, seq_length. intros n Hn.
  rewrite (nth_indep _ x (nth 0 (a ++ b ++ c) x)) by now rewrite map_length, seq_length.
  rewrite (map_nth (fun k => nth k (a ++ b ++ c) x)), seq_nth by assumption.
  rewrite app_nth2 by lia. rewrite app_nth1 by lia. f_equal. lia.
Qed.

Definition lids (ls : lines) : list nat := concat (map snd ls).

Lemma all_ids_app a b : all_ids (a ++ b) = all_ids a ++ all_ids b.
Proof. unfold all_ids. rewrite map_app, concat_app, map_app, concat_app. reflexivity. Qed.
Lemma all_ids_one layer ls : all_ids [(layer, ls)] = lids ls.
Proof. unfold all_ids, lids. simpl. now rewrite app_nil_r. Qed.
Lemma lids_app a b : lids (a ++ b) = lids a ++ lids b.
Proof. unfold lids. now rewrite map_app, concat_app. Qed.
Lemma lids_one c ids : lids [(c, ids)] = ids.
Proof. unfold lids. simpl. now rewrite app_nil_r. Qed.

Section Rebuild.
  Variables (E : nat -> entry) (A : list nat) (x0 : nat).
  Let g k := nth k A x0.
  Definition good_line (layer : string) (d : sdir) (ids : list nat) : Prop :=
    (forall i, In i ids -> clean_entry (E i)) /\ StronglySorted (egap d) (map E ids) /\
    (forall i j, In i ids -> In j ids -> same_width d (e_rect (E i)) (e_rect (E j)) = true).

  Lemma widths_good layer d ids : good_line layer d ids -> widths_of_bin layer d (map E ids) = 0%nat.
  Proof.
    intros (_ & _ & H). unfold widths_of_bin. destruct (String.eqb layer "Active"); [reflexivity|].
    destruct ids as [|i ids]; [reflexivity|]. simpl.
    rewrite filter_none'; [reflexivity|]. intros e He. apply in_map_iff in He as (j & <- & Hj).
    rewrite H; [reflexivity|now right|now left].
  Qed.

  Lemma rebuild_layer layer d (ls : lines) : forall (acc : lines) done post w,
    A = done ++ lids ls ++ post ->
    (forall c ids, In (c, ids) ls -> good_line layer d ids) ->
    exists acc' : lines, foldM (build_layer layer d) (map (fun l => (fst l, map E (snd l))) ls) ((acc, als (map E done) rst0, w) : lines * rst * nat) =
      Some (acc ++ acc', als (map E (done ++ lids ls)) rst0, w) /\ map_lines g acc' = ls.
  Proof.
    induction ls as [|[c ids] ls IH]; intros acc done post w HA HG; simpl.
    - exists []. change (lids []) with (@nil nat). rewrite !app_nil_r. auto.
    - destruct (als_wf (map E done) rst0 (fun x => x) wf0 ltac:(auto)) as (rep & W & Hr).
      destruct (HG c ids (or_introl eq_refl)) as (G1 & G2 & G3).
      rewrite (build_line_normal layer d _ rep (map E ids) W Hr); auto.
      2:{ intros e He. apply in_map_iff in He as (i & <- & Hi). auto. }
      rewrite widths_good by (apply (HG c ids); now left). rewrite Nat.add_0_r, map_length.
      destruct (als_fields (map E done) rst0) as (_ & _ & _ & _ & _ & _ & _ & Hsz). rewrite Hsz, map_length. simpl.
      rewrite <- als_app, <- map_app.
      assert (HA' : A = (done ++ ids) ++ lids ls ++ post).
      { rewrite HA. change ((c, ids) :: ls) with ([(c, ids)] ++ ls). rewrite lids_app, lids_one, <- !app_assoc. reflexivity. }
      destruct (IH (acc ++ [(c, seq (List.length done) (List.length ids))]) (done ++ ids) post w HA') as (acc' & Ef & Em).
      { intros; eapply HG; right; eauto. }
      exists ((c, seq (List.length done) (List.length ids)) :: acc'). split.
      { refine (eq_trans Ef _). change ((c, ids) :: ls) with ([(c, ids)] ++ ls). rewrite lids_app, lids_one, <- !app_assoc. reflexivity. }
      simpl. f_equal; [|exact Em]. f_equal. unfold g. rewrite HA', <- app_assoc. apply nth_mid_seq.
  Qed.

  Lemma rebuild_store (t2 : tbl) (lds : list (string * sdir)) : forall (st acc : store) done post w,
    A = done ++ all_ids st ++ post ->
    (** the second table, layer by layer *)
    Forall2 (fun ld sl => fst sl = fst ld /\ forall c ids, In (c, ids) (snd sl) -> good_line (fst ld) (snd ld) ids)
            (filter (fun ld => match dget String.eqb t2 (fst ld) with Some _ => true | None => false end) lds) st ->
    (forall layer ls, In (layer, ls) st -> dget String.eqb t2 layer = Some (map (fun l => (fst l, map E (snd l))) ls)) ->
    exists acc' : store, foldM (fun (acc : store * rst * nat) (ld : string * sdir) =>
           let '(st, s, w) := acc in
           match dget String.eqb t2 (fst ld) with
           | None => Some acc
           | Some bs =>
             match foldM (build_layer (fst ld) (snd ld)) bs ([], s, w) with
             | None => None
             | Some (ls, s', w') => Some (st ++ [(fst ld, ls)], s', w')
             end
           end) lds (acc, als (map E done) rst0, w) =
      Some (acc ++ acc', als (map E (done ++ all_ids st)) rst0, w) /\ map_store g acc' = st.
  Proof.
    induction lds as [|[layer d] lds IH]; intros st acc done post w HA HF HT; simpl in *.
    - destruct st; [|inversion HF]. exists []. change (all_ids []) with (@nil nat). rewrite !app_nil_r. auto.
    - destruct (dget String.eqb t2 layer) as [bs|] eqn:Ed.
      + destruct st as [|[l1 ls] st']; [inversion HF|]. apply Forall2_cons_inv in HF as [[H1 H2] H3]. simpl in *. subst l1.
        assert (bs = map (fun l => (fst l, map E (snd l))) ls) as ->.
        { specialize (HT layer ls (or_introl eq_refl)). congruence. }
        assert (HA1 : A = done ++ lids ls ++ all_ids st' ++ post).
        { rewrite HA. change ((layer, ls) :: st') with ([(layer, ls)] ++ st'). rewrite all_ids_app, all_ids_one, <- !app_assoc. reflexivity. }
        destruct (rebuild_layer layer d ls [] done (all_ids st' ++ post) w HA1 H2) as (ls2 & Ef & Em).
        match goal with |- context [foldM (build_layer layer d) ?a ?b] => set (fm := foldM (build_layer layer d) a b) end.
        assert (Efm : fm = Some (ls2, als (map E (done ++ lids ls)) rst0, w)) by exact Ef. rewrite Efm. clearbody fm. clear fm Efm.
        assert (HA2 : A = (done ++ lids ls) ++ all_ids st' ++ post) by (rewrite HA1, <- app_assoc; reflexivity).
        destruct (IH st' (acc ++ [(layer, ls2)]) (done ++ lids ls) post w HA2 H3) as (acc' & Ef2 & Em2).
        { intros; apply HT; now right. }
        exists ((layer, ls2) :: acc'). split.
        { refine (eq_trans Ef2 _). change ((layer, ls) :: st') with ([(layer, ls)] ++ st').
          rewrite all_ids_app, all_ids_one, <- !app_assoc. reflexivity. }
        simpl. now rewrite Em, Em2.
      + apply (IH st acc done post w HA HF HT).
  Qed.
End Rebuild.

(** * Links between objects that already agree *)
Lemma link_pins s p s' : (forall i, term_of s i = None) -> link s p = Some s' -> s_pins s' = s_pins s /\ (forall i, term_of s' i = None).
Proof.
  destruct p as [[via a] b]. intros HT. unfold link, st_root.
  destruct (uf_root (s_dad s) a) as [[ra d1]|]; [|discriminate]. simpl.
  destruct (uf_root d1 b) as [[rb d2]|]; [|discriminate]. unfold connectPair, set_dad, st_connect, term_of, net_of in *; simpl.
  assert (HT' : forall i, nth i (s_term s) None = None) by exact HT.
  destruct (nth ra (s_net s) None) as [x|], (nth rb (s_net s) None) as [y|]; simpl.
  all: try destruct (String.eqb x y).
  all: try (destruct (uf_connect d2 ra rb) as [d3|]; [|discriminate]); simpl; rewrite !HT'; simpl; intros [= <-]; auto.
Qed.

Lemma links_agree (nm : nat -> name) N ps : forall s rep,
  wf s rep -> size s = N -> (forall p, In p ps -> pair_valid N p) ->
  (forall i, term_of s i = None) -> (forall i, (i < N)%nat -> net_of s i = nm i) ->
  (forall i j, (i < N)%nat -> (j < N)%nat -> rep i = rep j -> nm i = nm j) ->
  (forall via a b, In (via, a, b) ps -> nm a = nm b) ->
  exists s' rep', foldM link ps s = Some s' /\ wf s' rep' /\ geo s s' /\ s_shorts s' = s_shorts s /\ s_pins s' = s_pins s /\
    (forall i, (i < N)%nat -> net_of s' i = nm i) /\ (forall i j, (i < N)%nat -> (j < N)%nat -> rep' i = rep' j -> nm i = nm j).
Proof.
  induction ps as [|[[via a] b] ps IH]; intros s rep W Hsz Hv HT Hnm Hrep Hpair.
  - exists s, rep. split; [reflexivity|]. split; [assumption|]. split; [apply geo_refl|]. auto.
  - destruct (Hv _ (or_introl eq_refl)) as [Ha Hb]. simpl in Ha, Hb.
    assert (Hab : nm a = nm b) by (eapply Hpair; now left).
    destruct (link_ok s rep via a b W) as (s1 & rep1 & E & W1 & G1 & K); try lia.
    destruct (link_pins _ _ _ HT E) as [P1 T1].
    change (foldM link ((via, a, b) :: ps) s) with (match link s (via, a, b) with Some s' => foldM link ps s' | None => None end).
    rewrite E.
    assert (LT : forall i, (i < N)%nat -> (rep i < N)%nat /\ rep (rep i) = rep i).
    { intros i Hi. split; [subst N; eapply Inv_rep_lt; [apply W|assumption]|eapply Inv_rep_idem; [apply W|unfold size in Hsz; lia]]. }
    assert (Nrep : forall i, (i < N)%nat -> nm (rep i) = nm i).
    { intros i Hi. destruct (LT i Hi). apply Hrep; auto. }
    assert (Nra : net_of s (rep a) = nm a) by (rewrite Hnm by (apply LT; assumption); auto).
    assert (Nrb : net_of s (rep b) = nm a) by (rewrite Hnm by (apply LT; assumption); rewrite Nrep by assumption; congruence).
    destruct K as [(x & y & K1 & K2 & K3 & _)|(Kj & Ks & K)]; [congruence|].
    assert (Hnm1 : forall i, (i < N)%nat -> net_of s1 i = nm i).
    { intros i Hi. destruct K as [[_ EN]|(x & Ex & _ & EN)]; rewrite EN.
      - destruct (Nat.eqb_spec i (rep a)) as [->|]; [|auto]. rewrite Nrb. symmetry. now apply Nrep.
      - destruct (Nat.eqb_spec i (rep b)) as [->|]; [|auto]. rewrite <- Ex, Nra, Hab. symmetry. now apply Nrep. }
    assert (Hrep1 : forall i j, (i < N)%nat -> (j < N)%nat -> rep1 i = rep1 j -> nm i = nm j).
    { intros i j Hi Hj. subst rep1. unfold join. destruct (LT a Ha) as [_ Ea]. destruct (LT b Hb) as [_ Eb]. rewrite Ea, Eb.
      assert (Hb2 : nm (rep b) = nm a) by (rewrite Nrep by assumption; congruence).
      assert (Ha2 : nm (rep a) = nm a) by now apply Nrep.
      destruct (Nat.eqb_spec (rep i) (rep b)) as [Ei|], (Nat.eqb_spec (rep j) (rep b)) as [Ej|]; intros Heq.
      - rewrite <- (Nrep i Hi), <- (Nrep j Hj). congruence.
      - rewrite <- (Nrep i Hi), <- (Nrep j Hj). congruence.
      - rewrite <- (Nrep i Hi), <- (Nrep j Hj). congruence.
      - now apply Hrep. }
    destruct (IH s1 rep1) as (s' & rep' & F1 & F2 & F3 & F4 & F5 & F6 & F7); auto.
    + rewrite (geo_size _ _ G1). assumption.
    + intros; apply Hv; now right.
    + intros; eapply Hpair; right; eauto.
    + exists s', rep'. split; [assumption|]. split; [assumption|]. split; [eapply geo_trans; eauto|]. split; [congruence|]. split; [congruence|]. auto.
Qed.
