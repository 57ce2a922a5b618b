(** Automatic symmetry constraints: disjointness, and what a rejected constraint leaves behind. *)
From Coq Require Import String ZifyBool.
From Verif Require Import Base.Prelude Model.PySort Model.RemoveDuplicates Model.Netlist Model.GroupBlock Model.ConstraintDB Model.SymConst Spec.SymConstSpec Proofs.PySortP Proofs.NetlistP Proofs.HierP Proofs.GroupBlockP.

Lemma nodup_app' {A} (l1 l2 : list A) : NoDup l1 -> NoDup l2 -> (forall x, In x l1 -> ~ In x l2) -> NoDup (l1 ++ l2).
Proof. induction l1 as [|a l1 IH]; intros N1 N2 D; cbn; [assumption|]. inversion N1; subst. constructor; [rewrite in_app_iff; intros [H|H]; [contradiction|exact (D a (or_introl eq_refl) H)]|]. apply IH; auto. intros x Hx. apply D. now right. Qed.
Lemma in_strs_false x l : in_strs x l = false <-> ~ In x l.
Proof. destruct (in_strs x l) eqn:E; split; intros H; try discriminate; try reflexivity; [apply in_strs_iff in E; contradiction|]. intros Hi. apply in_strs_iff in Hi. congruence. Qed.
Lemma names_app a b : names_of (a ++ b) = names_of a ++ names_of b.
Proof. apply flat_map_app. Qed.
Lemma names_sets p : names_of (map WSet p) = concat p.
Proof. unfold names_of. induction p as [|x p IH]; [reflexivity|]. cbn. now rewrite IH. Qed.
Lemma smem_app_cons x y l : smem x (y :: l) = true <-> x = y \/ smem x l = true.
Proof. unfold smem. cbn [existsb]. rewrite orb_true_iff, String.eqb_eq. reflexivity. Qed.

Lemma filter_blocks_ok V stop w pairs : forall ins p, filter_blocks V stop w ins pairs = Some p ->
  (forall q, In q p -> from_pair V stop (names_of w) pairs q) /\ NoDup (concat p) /\ (forall x, In x (concat p) -> ~ In x ins).
Proof.
  induction pairs as [|(k, v) tl IH]; intros ins p H; cbn [filter_blocks] in H; [injection H as <-; split; [intros q []|]; split; [constructor|intros x []]|].
  assert (Wk : forall ins p, filter_blocks V stop w ins tl = Some p -> (forall q, In q p -> from_pair V stop (names_of w) ((k, v) :: tl) q) /\ NoDup (concat p) /\ (forall x, In x (concat p) -> ~ In x ins)).
  { intros ins' p' H'. destruct (IH _ _ H') as (I1 & I2 & I3). split; [|auto]. intros q Hq. destruct (I1 q Hq) as (k' & v' & Hi & R). exists k', v'. split; [now right|exact R]. }
  unfold pre_filter in H. destruct (in_strs k stop) eqn:S; [discriminate|]. destruct (in_strs k (names_of w) || in_strs v (names_of w)) eqn:Wn; [exact (Wk _ _ H)|]. destruct (in_strs k (v_nodes V)) eqn:Nd; cbn [negb] in H; [|exact (Wk _ _ H)].
  destruct (v_net V k) eqn:Nt.
  { destruct (in_strs v (v_nodes V)); [|discriminate]. destruct (negb _); [exact (Wk _ _ H)|]. destruct (in_strs k ins || in_strs v ins); exact (Wk _ _ H). }
  destruct (in_strs k ins || in_strs v ins) eqn:In'; [exact (Wk _ _ H)|]. apply orb_false_iff in Wn as (W1 & W2). apply orb_false_iff in In' as (N1 & N2). rewrite in_strs_false in S, W1, W2, N1, N2. apply in_strs_iff in Nd.
  destruct (String.eqb_spec k v) as [<-|Hne].
  - unfold single in H. destruct (in_strs (v_base V k) _) eqn:Sg; [exact (Wk _ _ H)|]. rewrite in_strs_false in Sg. destruct (filter_blocks V stop w (k :: ins) tl) as [p'|] eqn:E; [|discriminate]. injection H as <-. destruct (Wk _ _ E) as (I1 & I2 & I3). split; [|split].
    + intros q [<-|Hq]; [|now apply I1]. exists k, k. repeat (split; [first [assumption|now left]|]). right. auto.
    + cbn [concat app]. constructor; [|assumption]. intros Hi. apply (I3 k Hi). now left.
    + cbn [concat app]. intros x [<-|Hx]; [assumption|]. intros Hi. apply (I3 x Hx). now right.
  - destruct (filter_blocks V stop w (k :: v :: ins) tl) as [p'|] eqn:E; [|discriminate]. injection H as <-. destruct (Wk _ _ E) as (I1 & I2 & I3). split; [|split].
    + intros q [<-|Hq]; [|now apply I1]. exists k, v. repeat (split; [first [assumption|now left]|]). left. auto.
    + cbn [concat app]. constructor; [|constructor; [|assumption]]; [intros [E'|Hi]; [now apply Hne|apply (I3 k Hi); now left]|intros Hi; apply (I3 v Hi); right; now left].
    + cbn [concat app]. intros x [<-|[<-|Hx]]; [assumption|assumption|]. intros Hi. apply (I3 x Hx). right. now right.
Qed.
Lemma from_pair_user V stop u u' d q : (forall x, In x u -> In x u') -> from_pair V stop u' d q -> from_pair V stop u d q.
Proof. intros Hu (k & v & H1 & H2 & H3 & H4 & H5 & H6 & H7). exists k, v. repeat (split; [auto|]). exact H7. Qed.
Lemma from_pair_names V stop u d q x : from_pair V stop u d q -> In x q -> ~ In x u.
Proof. intros (k & v & _ & _ & _ & _ & H5 & H6 & [(_ & ->)|(_ & -> & _)]); cbn; intuition congruence. Qed.
Lemma from_pair_in V stop u d d' q : (forall e, In e d -> In e d') -> from_pair V stop u d q -> from_pair V stop u d' q.
Proof. intros Hd (k & v & H1 & R). exists k, v. split; [auto|exact R]. Qed.

Section Add.
  Variables (F : Type) (repr : auto -> string) (tr : auto -> option F) (base : list F) (unsat : list F -> bool).
  Variables (valid : list (list string) -> bool) (nets : string -> string -> list written -> option (option (list string * list string))).
  Variables (V : view) (stop : list string).
  Notation put := (put F repr tr base unsat).
  Notation add_const := (add_const F repr tr base unsat valid).
  Notation add_nets := (add_nets F repr tr base unsat nets V stop).
  Notation loop_blocks := (loop_blocks F repr tr base unsat valid V stop).
  Notation loop_nets := (loop_nets F repr tr base unsat valid nets V stop).
  Notation add_symmetry := (add_symmetry F repr tr base unsat valid nets V stop).

  Lemma put_cases c d d' ok : put c d = (d', ok) ->
    (ok = true /\ root d' = root d ++ [c] /\ cache d' = repr c :: cache d) \/
    (root d' = root d /\ cache d' = cache d /\ ok = smem (repr c) (cache d)).
  Proof.
    unfold SymConst.put, append. destruct (smem (repr c) (cache d)) eqn:M; [intros [= <- <-]; right; auto|]. destruct (tr c) as [f|]; [|intros [= <- <-]; left; auto].
    unfold ensure. destruct (solver d) as [fr|] eqn:S.
    - unfold verify_one. rewrite S. destruct (negb _); intros [= <- <-]; [left|right]; auto.
    - unfold verify_all. destruct (negb _); [|intros [= <- <-]; right; auto]. unfold verify_one. cbn [solver]. destruct (negb _); intros [= <- <-]; [left|right]; auto.
  Qed.

  Variables (d0 : cst F) (w0 : list written) (all : list (list (string * string))).
  Notation user := (names_of w0).
  Definition good (c : auto) : Prop := match c with
    | Blocks p => worth p = true /\ valid p = true /\ axis V stop user all p
    | Nets a b p1 p2 => a <> b /\ (exists d, In d all /\ In (a, b) d) /\ v_net V a = true /\ ~ In a stop /\ ~ In a user /\ ~ In b user /\ exists w, nets a b w = Some (Some (p1, p2))
    | Before _ => False
    end.
  Definition inv (added : list auto) (s : cst F * list written) : Prop :=
    root (fst s) = root d0 ++ added /\ Forall good added /\
    NoDup (flat_map insts added) /\ NoDup (flat_map nets_of added) /\
    (forall x, In x user \/ In x (flat_map insts added) \/ In x (flat_map nets_of added) -> In x (names_of (snd s))).
  (** Blocks that may be added. *)
  Definition fresh (added : list auto) (p : list (list string)) : Prop :=
    axis V stop user all p /\ NoDup (concat p) /\ forall x, In x (concat p) -> ~ In x (flat_map insts added).
  Lemma add_const_inv added p s : inv added s -> fresh added p -> exists added', inv added' (add_const p s) /\ (forall q, fresh added' q -> fresh added q) /\
    (fresh added' p \/ smem (repr (Blocks p)) (cache (fst (add_const p s))) = true).
  Proof.
    intros (I1 & I2 & I3 & I4 & I5) (A & N & D). unfold SymConst.add_const. destruct (worth p && valid p) eqn:W; [|exists added; split; [repeat split; assumption|split; [auto|left; repeat split; assumption]]].
    apply andb_true_iff in W as (W1 & W2). destruct (put (Blocks p) (fst s)) as (d, ok) eqn:P. destruct (put_cases _ _ _ _ P) as [(-> & R & C)|(R & C & M)].
    - exists (added ++ [Blocks p]). split; [|split].
      + split; [cbn [fst]; rewrite R, I1; now rewrite app_assoc|]. split; [apply Forall_app; split; [assumption|constructor; [cbn; auto|constructor]]|]. rewrite !flat_map_app. cbn [flat_map insts nets_of]. rewrite !app_nil_r. split; [apply nodup_app'; auto; intros x Hx Hx'; exact (D x Hx' Hx)|]. split; [assumption|].
        cbn [snd]. intros x Hx. rewrite names_app, names_sets, in_app_iff. rewrite in_app_iff in Hx. destruct Hx as [Hx|[[Hx|Hx]|Hx]]; [left; apply I5; auto|left; apply I5; auto|now right|left; apply I5; auto].
      + intros q (Q1 & Q2 & Q3). split; [assumption|]. split; [assumption|]. intros x Hx Hi. apply (Q3 x Hx). rewrite flat_map_app, in_app_iff. now left.
      + right. cbn [fst]. rewrite C. apply smem_app_cons. now left.
    - exists added. split; [|split; [auto|]].
      + split; [cbn [fst]; now rewrite R|]. repeat (split; [assumption|]). cbn [snd]. intros x Hx. destruct ok; [rewrite names_app, in_app_iff; left|]; auto.
      + cbn [fst]. rewrite C. destruct ok; [now right|left; repeat split; assumption].
  Qed.
  Lemma add_const_cached p (s : cst F * list written) : smem (repr (Blocks p)) (cache (fst s)) = true -> add_const p s = s \/ add_const p s = (fst s, snd s ++ map WSet p).
  Proof. intros M. unfold SymConst.add_const. destruct (_ && _); [|now left]. assert (E : put (Blocks p) (fst s) = (fst s, true)) by (unfold SymConst.put, append; case_eq (smem (repr (Blocks p)) (cache (fst s))); [reflexivity|intros E; exact (False_ind _ (Bool.diff_true_false (eq_trans (eq_sym M) E)))]). rewrite E. now right. Qed.
  Lemma inv_more added d w w' : inv added (d, w) -> inv added (d, w ++ w').
  Proof. intros (I1 & I2 & I3 & I4 & I5). repeat (split; [assumption|]). cbn [snd] in *. intros x Hx. rewrite names_app, in_app_iff. left. auto. Qed.

  Lemma filter_fresh added s d p : In d all -> inv added s -> filter_blocks V stop (snd s) [] (ksorted fst d) = Some p -> fresh added p.
  Proof.
    intros Hd (I1 & I2 & I3 & I4 & I5) H. destruct (filter_blocks_ok _ _ _ _ _ _ H) as (F1 & F2 & _). split; [|split; [assumption|]].
    - exists d. split; [assumption|]. intros q Hq. apply (from_pair_in V stop user (ksorted fst d)); [intros e He; exact (Permutation_in _ (ksorted_perm _ _) He)|]. apply (from_pair_user V stop user (names_of (snd s))); [intros x Hx; apply I5; now left|now apply F1].
    - intros x Hx Hi. apply in_concat in Hx as (q & Hq & Hx). apply (from_pair_names _ _ _ _ _ _ (F1 q Hq) Hx). apply I5. auto.
  Qed.
  Lemma loop_blocks_inv l : forall added last s last' s', (forall d, In d l -> In d all) -> inv added s -> fresh added last \/ smem (repr (Blocks last)) (cache (fst s)) = true ->
    loop_blocks l last s = Some (last', s') -> exists added', inv added' s' /\ (fresh added' last' \/ smem (repr (Blocks last')) (cache (fst s')) = true).
  Proof.
    induction l as [|d l IH]; intros added last s last' s' Hl I Hf H; cbn [SymConst.loop_blocks] in H; [injection H as <- <-; exists added; auto|]. destruct (filter_blocks V stop (snd s) [] (ksorted fst d)) as [p|] eqn:E; [|discriminate].
    destruct (add_const_inv added p s I (filter_fresh _ _ _ _ (Hl d (or_introl eq_refl)) I E)) as (added' & I' & _ & Hf'). apply (IH added' p _ _ _ ltac:(intros; apply Hl; now right) I' Hf' H).
  Qed.
  Lemma add_nets_inv l : forall added s s', (forall e, In e l -> exists d, In d all /\ In e d) -> inv added s -> add_nets l s = Some s' ->
    exists more, inv (added ++ more) s' /\ (forall c, In c more -> insts c = []) /\ (forall x, smem x (cache (fst s)) = true -> smem x (cache (fst s')) = true).
  Proof.
    induction l as [|(k, v) tl IH]; intros added s s' Hl I H; cbn [SymConst.add_nets] in H; [injection H as <-; exists []; rewrite app_nil_r; split; [assumption|split; [intros ? []|auto]]|].
    assert (Hl' : forall e, In e tl -> exists d, In d all /\ In e d) by (intros; apply Hl; now right).
    destruct (pre_filter V stop (snd s) k v) as [[|]|] eqn:P; [exact (IH _ _ _ Hl' I H)| |discriminate]. destruct (v_net V k && negb (String.eqb k v)) eqn:C; [|exact (IH _ _ _ Hl' I H)].
    destruct (nets k v (snd s)) as [[(p1, p2)|]|] eqn:E; [|exact (IH _ _ _ Hl' I H)|discriminate]. destruct (put (Nets k v p1 p2) (fst s)) as (d, ok) eqn:Pu. cbn [fst] in H.
    apply andb_true_iff in C as (C1 & C2). destruct (String.eqb_spec k v) as [|Hne]; [discriminate|]. unfold pre_filter in P. destruct (in_strs k stop) eqn:S; [discriminate|]. destruct (in_strs k (names_of (snd s)) || in_strs v (names_of (snd s))) eqn:Wn; [discriminate|]. apply orb_false_iff in Wn as (W1 & W2). rewrite in_strs_false in S, W1, W2. destruct I as (I1 & I2 & I3 & I4 & I5).
    destruct (put_cases _ _ _ _ Pu) as [(-> & R & Ca)|(R & Ca & M)].
    - assert (J : inv (added ++ [Nets k v p1 p2]) (d, snd s ++ [WSet [k; v]])).
      { split; [cbn [fst]; rewrite R, I1; now rewrite app_assoc|]. split; [apply Forall_app; split; [assumption|constructor; [|constructor]]; cbn; split; [assumption|]; split; [apply Hl; now left|]; split; [assumption|]; split; [assumption|]; split; [intros X; apply W1, I5; now left|]; split; [intros X; apply W2, I5; now left|]; exists (snd s); assumption|].
        rewrite !flat_map_app. cbn [flat_map insts nets_of app]. rewrite app_nil_r. split; [assumption|]. split.
        - apply nodup_app'; [assumption| |intros x Hx [<-|[<-|[]]]; [apply W1|apply W2]; apply I5; auto]. constructor; [intros [E'|[]]; now apply Hne|]. constructor; [intros []|constructor].
        - cbn [snd]. intros x Hx. rewrite names_app, in_app_iff. cbn. rewrite in_app_iff in Hx. destruct Hx as [Hx|[Hx|[Hx|[<-|[<-|[]]]]]]; [left; apply I5; auto|left; apply I5; auto|left; apply I5; auto|right; now left|right; right; now left]. }
      destruct (IH _ _ _ Hl' J H) as (more & J' & Hm & Hc). exists (Nets k v p1 p2 :: more). rewrite <- app_assoc in J'. split; [exact J'|]. split; [intros c [<-|Hc']; [reflexivity|auto]|]. intros x Hx. apply Hc. cbn [fst]. rewrite Ca. apply smem_app_cons. now right.
    - assert (J : inv added (d, snd s ++ [WSet [k; v]])) by (apply inv_more; split; [cbn [fst]; now rewrite R|]; repeat (split; [assumption|]); exact I5).
      destruct (IH _ _ _ Hl' J H) as (more & J' & Hm & Hc). exists more. split; [assumption|]. split; [assumption|]. intros x Hx. apply Hc. cbn [fst]. now rewrite Ca.
  Qed.
  Lemma fresh_more added more p : (forall c, In c more -> insts c = []) -> fresh added p -> fresh (added ++ more) p.
  Proof.
    intros Hm (A & N & D). split; [assumption|]. split; [assumption|]. intros x Hx. rewrite flat_map_app, in_app_iff. intros [Hi|Hi]; [exact (D x Hx Hi)|]. apply in_flat_map in Hi as (c & Hc & Hi). rewrite (Hm c Hc) in Hi. destruct Hi.
  Qed.
  Lemma loop_nets_inv l last : forall added s s', (forall d, In d l -> In d all) -> inv added s -> fresh added last \/ smem (repr (Blocks last)) (cache (fst s)) = true ->
    loop_nets l last s = Some s' -> exists added', inv added' s'.
  Proof.
    induction l as [|d l IH]; intros added s s' Hl I Hf H; cbn [SymConst.loop_nets] in H; [injection H as <-; exists added; assumption|]. destruct (add_nets (ksorted fst d) s) as [s1|] eqn:E; [|discriminate].
    destruct (add_nets_inv (ksorted fst d) added s s1 ltac:(intros e He; exists d; split; [apply Hl; now left|exact (Permutation_in _ (ksorted_perm _ _) He)]) I E) as (more & I' & Hm & Hc).
    assert (Hl' : forall d, In d l -> In d all) by (intros; apply Hl; now right).
    destruct Hf as [Hf|Hf].
    - destruct (add_const_inv _ last s1 I' (fresh_more _ _ _ Hm Hf)) as (added' & J & _ & Hf'). exact (IH added' _ _ Hl' J Hf' H).
    - apply Hc in Hf. destruct (add_const_cached last s1 Hf) as [X|X]; rewrite X in H.
      + exact (IH (added ++ more) _ _ Hl' I' (or_intror Hf) H).
      + refine (IH (added ++ more) (fst s1, snd s1 ++ map WSet last) _ Hl' _ (or_intror Hf) H). apply inv_more. now destruct s1.
  Qed.
  Lemma add_symmetry_inv s' : add_symmetry all (d0, w0) = Some s' -> exists added, inv added s'.
  Proof.
    unfold SymConst.add_symmetry. intros H. destruct (loop_blocks (sort_by weight all) [] (d0, w0)) as [(last, s1)|] eqn:L; [|discriminate].
    assert (Hl : forall d, In d (sort_by weight all) -> In d all) by (intros d Hd; exact (Permutation_in _ (Permutation_sym (sort_by_perm _ _)) Hd)).
    assert (I0 : inv [] (d0, w0)) by (split; [cbn; now rewrite app_nil_r|]; split; [constructor|]; split; [constructor|]; split; [constructor|]; cbn; intuition).
    destruct all as [|d l] eqn:Ea; [cbn in L, H; injection L as <- <-; injection H as <-; exists []; rewrite <- Ea in *; exact I0|]. rewrite <- Ea in *.
    assert (Hf : fresh [] [] ) by (split; [exists d; split; [rewrite Ea; now left|intros q []]|]; split; [constructor|intros x []]).
    destruct (loop_blocks_inv _ [] [] _ _ _ Hl I0 (or_introl Hf) L) as (added & I1 & Hf1). exact (loop_nets_inv _ _ _ _ _ Hl I1 Hf1 H).
  Qed.

  (** When nothing raises. *)
  Hypothesis keys_ok : forall d k v, In d all -> In (k, v) d -> ~ In k stop.
  Hypothesis vals_ok : forall d k v, In d all -> In (k, v) d -> In k (v_nodes V) -> v_net V k = true -> In v (v_nodes V).
  Hypothesis nets_ok : forall d k v w, In d all -> In (k, v) d -> nets k v w <> None.
  Lemma pre_ok d k v w : In d all -> In (k, v) d -> pre_filter V stop w k v <> None.
  Proof.
    intros Hd Hk. unfold pre_filter. destruct (in_strs k stop) eqn:S; [apply in_strs_iff in S; destruct (keys_ok d k v Hd Hk S)|]. destruct (_ || _); [discriminate|]. destruct (in_strs k (v_nodes V)) eqn:N; cbn [negb]; [|discriminate]. destruct (v_net V k) eqn:T; [|discriminate]. apply in_strs_iff in N. pose proof (vals_ok d k v Hd Hk N T) as X. apply in_strs_iff in X. rewrite X. discriminate.
  Qed.
  Lemma filter_ok d w l : In d all -> (forall e, In e l -> In e d) -> forall ins, filter_blocks V stop w ins l <> None.
  Proof.
    intros Hd. induction l as [|(k, v) l IH]; intros Hl ins; cbn [filter_blocks]; [discriminate|]. assert (Hl' : forall e, In e l -> In e d) by (intros; apply Hl; now right). pose proof (pre_ok d k v w Hd (Hl _ (or_introl eq_refl))) as P.
    destruct (pre_filter V stop w k v) as [[|]|]; [now apply IH| |contradiction]. destruct (_ || _); [now apply IH|]. destruct (v_net V k); [now apply IH|]. destruct (String.eqb k v); [destruct (single _); [now apply IH|]|].
    - specialize (IH Hl' (k :: ins)). destruct (filter_blocks _ _ _ _ l); [discriminate|contradiction].
    - specialize (IH Hl' (k :: v :: ins)). destruct (filter_blocks _ _ _ _ l); [discriminate|contradiction].
  Qed.
  Lemma add_nets_ok d l : In d all -> (forall e, In e l -> In e d) -> forall s, add_nets l s <> None.
  Proof.
    intros Hd. induction l as [|(k, v) l IH]; intros Hl s; cbn [SymConst.add_nets]; [discriminate|]. assert (Hl' : forall e, In e l -> In e d) by (intros; apply Hl; now right). pose proof (pre_ok d k v (snd s) Hd (Hl _ (or_introl eq_refl))) as P. pose proof (nets_ok d k v (snd s) Hd (Hl _ (or_introl eq_refl))) as Q.
    destruct (pre_filter V stop (snd s) k v) as [[|]|]; [now apply IH| |contradiction]. destruct (_ && _); [|now apply IH]. destruct (nets k v (snd s)) as [[(p1, p2)|]|]; [now apply IH|now apply IH|contradiction].
  Qed.
  Lemma add_symmetry_ok s : add_symmetry all s <> None.
  Proof.
    unfold SymConst.add_symmetry. assert (Hl : forall d, In d (sort_by weight all) -> In d all) by (intros d Hd; exact (Permutation_in _ (Permutation_sym (sort_by_perm _ _)) Hd)). revert Hl. generalize (sort_by weight all). intros l Hl.
    assert (L : forall l last s, (forall d, In d l -> In d all) -> loop_blocks l last s <> None).
    { clear - keys_ok vals_ok. induction l as [|d l IH]; intros last s Hl; cbn [SymConst.loop_blocks]; [discriminate|]. pose proof (filter_ok d (snd s) (ksorted fst d) (Hl d (or_introl eq_refl)) ltac:(intros e He; exact (Permutation_in _ (ksorted_perm _ _) He)) []) as X. destruct (filter_blocks _ _ _ _ _); [|contradiction]. apply IH. intros; apply Hl; now right. }
    specialize (L l [] s Hl). destruct (loop_blocks l [] s) as [(last, s1)|]; [|contradiction]. clear L. revert s1. induction l as [|d l IH]; intros s1; cbn [SymConst.loop_nets]; [discriminate|]. pose proof (add_nets_ok d (ksorted fst d) (Hl d (or_introl eq_refl)) ltac:(intros e He; exact (Permutation_in _ (ksorted_perm _ _) He)) s1) as X. destruct (add_nets _ s1); [|contradiction]. apply IH. intros; apply Hl; now right.
  Qed.
End Add.

Section Dead.
  Variables (F : Type) (repr : auto -> string) (tr : auto -> option F) (base : list F) (unsat : list F -> bool).
  Variables (valid : list (list string) -> bool) (nets : string -> string -> list written -> option (option (list string * list string))).
  Variables (V : view) (stop : list string).
  Notation put := (put F repr tr base unsat).
  Notation add_const := (add_const F repr tr base unsat valid).
  Notation add_nets := (add_nets F repr tr base unsat nets V stop).
  Notation loop_blocks := (loop_blocks F repr tr base unsat valid V stop).
  Notation loop_nets := (loop_nets F repr tr base unsat valid nets V stop).
  Notation add_symmetry := (add_symmetry F repr tr base unsat valid nets V stop).
  (** More formulae do not make an unsatisfiable set satisfiable. *)
  Hypothesis mono : forall l l', (forall f, In f l -> In f l') -> unsat l = true -> unsat l' = true.
  Hypothesis hard : forall p, tr (Blocks p) <> None.
  Definition dead (d : cst F) : Prop := exists fr, solver d = Some fr /\ unsat (asserted F fr) = true.
  Lemma asserted_post f fr x : In x (asserted F fr) -> In x (asserted F (post F f fr)).
  Proof.
    unfold asserted, post. destruct fr as [|t tl]; [intros []|]. cbn [rev]. rewrite !concat_app, !in_app_iff. cbn [concat]. rewrite !app_nil_r, in_app_iff. tauto.
  Qed.
  Lemma put_rejected c d d' : put c d = (d', false) -> dead d'.
  Proof.
    unfold SymConst.put, append. destruct (smem (repr c) (cache d)); [discriminate|]. destruct (tr c) as [f|]; [|discriminate]. unfold ensure. destruct (solver d) as [fr|] eqn:S.
    - unfold verify_one. rewrite S. destruct (unsat _) eqn:U; cbn [negb]; [|discriminate]. intros [= <-]. exists (post F f fr). auto.
    - unfold verify_all. destruct (unsat (asserted F [base ++ formulas auto F tr (root d)])) eqn:U; cbn [negb].
      + intros [= <-]. eexists. split; [reflexivity|assumption].
      + unfold verify_one. cbn [solver]. destruct (unsat (asserted F (post F f _))) eqn:U2; cbn [negb]; [|discriminate]. intros [= <-]. eexists. split; [reflexivity|assumption].
  Qed.
  Lemma put_dead c d d' ok : dead d -> put c d = (d', ok) -> dead d' /\ (tr c <> None -> root d' = root d).
  Proof.
    intros (fr & S & U) H. unfold SymConst.put, append in H. destruct (smem (repr c) (cache d)); [injection H as <- <-; split; [exists fr; auto|auto]|]. destruct (tr c) as [f|].
    - unfold ensure in H. rewrite S in H. unfold verify_one in H. rewrite S in H. assert (U' : unsat (asserted F (post F f fr)) = true) by (apply (mono (asserted F fr)); [intros x; apply asserted_post|assumption]). rewrite U' in H. cbn [negb] in H. injection H as <- <-. split; [exists (post F f fr); auto|auto].
    - injection H as <- <-. split; [exists fr; auto|intros X; contradiction].
  Qed.
  Definition no_blocks (d d' : cst F) : Prop := exists more, root d' = root d ++ more /\ forall p, ~ In (Blocks p) more.
  Lemma nb_refl d : no_blocks d d.
  Proof. exists []. rewrite app_nil_r. split; [reflexivity|intros p []]. Qed.
  Lemma nb_trans a b c : no_blocks a b -> no_blocks b c -> no_blocks a c.
  Proof. intros (m1 & E1 & H1) (m2 & E2 & H2). exists (m1 ++ m2). split; [now rewrite E2, E1, app_assoc|]. intros p. rewrite in_app_iff. intros [H|H]; [exact (H1 p H)|exact (H2 p H)]. Qed.
  Lemma add_const_dead p s : dead (fst s) -> dead (fst (add_const p s)) /\ no_blocks (fst s) (fst (add_const p s)).
  Proof.
    intros D. unfold SymConst.add_const. destruct (_ && _); [|split; [assumption|apply nb_refl]]. destruct (put (Blocks p) (fst s)) as (d, ok) eqn:P. destruct (put_dead _ _ _ _ D P) as (D' & R). split; [exact D'|]. exists []. cbn [fst]. rewrite app_nil_r. split; [apply R, hard|intros q []].
  Qed.
  Lemma add_nets_dead l : forall s s', dead (fst s) -> add_nets l s = Some s' -> dead (fst s') /\ no_blocks (fst s) (fst s').
  Proof.
    induction l as [|(k, v) l IH]; intros s s' D H; cbn [SymConst.add_nets] in H; [injection H as <-; split; [assumption|apply nb_refl]|]. destruct (pre_filter V stop (snd s) k v) as [[|]|]; [exact (IH _ _ D H)| |discriminate]. destruct (_ && _); [|exact (IH _ _ D H)]. destruct (nets k v (snd s)) as [[(p1, p2)|]|]; [|exact (IH _ _ D H)|discriminate].
    destruct (put (Nets k v p1 p2) (fst s)) as (d, ok) eqn:P. destruct (put_dead _ _ _ _ D P) as (D' & _). destruct (IH (d, snd s ++ [WSet [k; v]]) s' D' H) as (D2 & N2). split; [assumption|]. cbn [fst] in N2. apply (nb_trans _ d); [|assumption].
    destruct (put_cases _ _ _ _ _ _ _ _ _ P) as [(_ & R & _)|(R & _)]; [exists [Nets k v p1 p2]; split; [assumption|intros p [X|[]]; discriminate]|exists []; rewrite app_nil_r; split; [assumption|intros p []]].
  Qed.
  Lemma loop_blocks_dead l : forall last s last' s', dead (fst s) -> loop_blocks l last s = Some (last', s') -> dead (fst s') /\ no_blocks (fst s) (fst s').
  Proof.
    induction l as [|d l IH]; intros last s last' s' D H; cbn [SymConst.loop_blocks] in H; [injection H as <- <-; split; [assumption|apply nb_refl]|]. destruct (filter_blocks _ _ _ _ _) as [p|]; [|discriminate]. destruct (add_const_dead p s D) as (D1 & N1). destruct (IH _ _ _ _ D1 H) as (D2 & N2). split; [assumption|exact (nb_trans _ _ _ N1 N2)].
  Qed.
  Lemma loop_nets_dead l last : forall s s', dead (fst s) -> loop_nets l last s = Some s' -> dead (fst s') /\ no_blocks (fst s) (fst s').
  Proof.
    induction l as [|d l IH]; intros s s' D H; cbn [SymConst.loop_nets] in H; [injection H as <-; split; [assumption|apply nb_refl]|]. destruct (add_nets _ s) as [s1|] eqn:A; [|discriminate]. destruct (add_nets_dead _ _ _ D A) as (D1 & N1). destruct (add_const_dead last s1 D1) as (D2 & N2). destruct (IH _ _ D2 H) as (D3 & N3). split; [assumption|exact (nb_trans _ _ _ N1 (nb_trans _ _ _ N2 N3))].
  Qed.
  Lemma add_symmetry_dead all s s' : dead (fst s) -> add_symmetry all s = Some s' -> no_blocks (fst s) (fst s').
  Proof.
    intros D H. unfold SymConst.add_symmetry in H. destruct (loop_blocks _ [] s) as [(last, s1)|] eqn:L; [|discriminate]. destruct (loop_blocks_dead _ _ _ _ _ D L) as (D1 & N1). destruct (loop_nets_dead _ _ _ _ D1 H) as (D2 & N2). exact (nb_trans _ _ _ N1 N2).
  Qed.
End Dead.

Lemma filter_blocks_kept V stop w k v q pairs : In k (v_nodes V) -> v_net V k = false -> ~ In k (names_of w) -> ~ In v (names_of w) ->
  ((k <> v /\ q = [k; v]) \/ (k = v /\ q = [k] /\ ~ In (v_base V k) ["NMOS"; "PMOS"; "RES"; "CAP"]%string)) ->
  (forall k' v', In (k', v') pairs -> k' = k \/ k' = v \/ v' = k \/ v' = v -> k' = k /\ v' = v) -> In (k, v) pairs ->
  forall ins p, ~ In k ins -> ~ In v ins -> filter_blocks V stop w ins pairs = Some p -> In q p.
Proof.
  intros Hn Ht Wk Wv Hq. induction pairs as [|(k', v') tl IH]; intros Hd Hi ins p I1 I2 H; [destruct Hi|]. cbn [filter_blocks] in H.
  assert (Hd' : forall k' v', In (k', v') tl -> k' = k \/ k' = v \/ v' = k \/ v' = v -> k' = k /\ v' = v) by (intros; apply Hd; [now right|assumption]).
  assert (D : (k' = k /\ v' = v) \/ (k' <> k /\ k' <> v /\ v' <> k /\ v' <> v)).
  { destruct (string_dec k' k) as [e|e]; [left; apply Hd; [now left|auto]|]. destruct (string_dec k' v) as [e1|e1]; [left; apply Hd; [now left|auto]|]. destruct (string_dec v' k) as [e2|e2]; [left; apply Hd; [now left|auto]|]. destruct (string_dec v' v) as [e3|e3]; [left; apply Hd; [now left|auto]|]. auto. }
  destruct D as [(-> & ->)|(N1 & N2 & N3 & N4)].
  - unfold pre_filter in H. destruct (in_strs k stop); [discriminate|]. rewrite (proj2 (in_strs_false _ _) Wk), (proj2 (in_strs_false _ _) Wv), (proj2 (in_strs_iff _ _) Hn) in H. cbn [negb orb] in H. rewrite Ht, (proj2 (in_strs_false _ _) I1), (proj2 (in_strs_false _ _) I2) in H. cbn [orb] in H.
    destruct Hq as [(Hne & ->)|(<- & -> & Hs)].
    + destruct (String.eqb_spec k v); [contradiction|]. destruct (filter_blocks V stop w _ tl); [|discriminate]. injection H as <-. now left.
    + rewrite String.eqb_refl in H. unfold single in H. rewrite (proj2 (in_strs_false _ _) Hs) in H. destruct (filter_blocks V stop w _ tl); [|discriminate]. injection H as <-. now left.
  - destruct Hi as [[= -> ->]|Hi]; [contradiction N1; reflexivity|]. destruct (pre_filter V stop w k' v') as [[|]|]; [exact (IH Hd' Hi ins p I1 I2 H)| |discriminate].
    destruct (_ || _); [exact (IH Hd' Hi ins p I1 I2 H)|]. destruct (v_net V k'); [exact (IH Hd' Hi ins p I1 I2 H)|]. destruct (String.eqb k' v').
    + destruct (single _); [exact (IH Hd' Hi ins p I1 I2 H)|]. destruct (filter_blocks V stop w (k' :: ins) tl) as [p'|] eqn:E; [|discriminate]. injection H as <-. right. apply (IH Hd' Hi _ _) in E; [assumption|intros [X|X]; auto|intros [X|X]; auto].
    + destruct (filter_blocks V stop w (k' :: v' :: ins) tl) as [p'|] eqn:E; [|discriminate]. injection H as <-. right. apply (IH Hd' Hi _ _) in E; [assumption|intros [X|[X|X]]; auto|intros [X|[X|X]]; auto].
Qed.
