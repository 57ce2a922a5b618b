(** Proofs: the moves keep a sequence pair, and keep it symmetric-feasible. *)
From Verif Require Import Base.Prelude Model.SeqEnum Spec.SeqEnumSpec Proofs.SeqEnumP Proofs.SeqSearchP Model.SymmGroup Spec.SymmGroupSpec Proofs.SymmGroupP Proofs.SeqMovesP Proofs.SeqSwapP.

Lemma flat_unique A B (f : A -> list B) l k k' a b x : NoDup (flat_map f l) -> nth_error l k = Some a -> nth_error l k' = Some b ->
  In x (f a) -> In x (f b) -> k = k'.
Proof.
  revert k k'. induction l as [|g l IH]; intros [|k] [|k'] Hn Hk Hk' H H'; cbn in *; try discriminate; auto.
  - exfalso. injection Hk as ->. apply in_split in H as (l1 & l2 & E). rewrite E, <- app_assoc in Hn. cbn in Hn. apply NoDup_remove_2 in Hn.
    apply Hn. rewrite !in_app_iff. right. right. apply in_flat_map. exists b. split; auto. now apply nth_error_In in Hk'.
  - exfalso. injection Hk' as ->. apply in_split in H' as (l1 & l2 & E). rewrite E, <- app_assoc in Hn. cbn in Hn. apply NoDup_remove_2 in Hn.
    apply Hn. rewrite !in_app_iff. right. right. apply in_flat_map. exists a. split; auto. now apply nth_error_In in Hk.
  - f_equal. eapply IH; eauto. clear - Hn. induction (f g) as [|y t IHt]; auto. cbn in Hn. inversion Hn; auto.
Qed.

Lemma group_blocks_in d g x : In x (group_blocks d g) <-> In x (gblocks g) /\ x < blocks_no d.
Proof. unfold group_blocks. rewrite in_app_iff, !real_in, gblocks_eq, in_app_iff. tauto. Qed.
Lemma group_nodes_in d k g x : In x (group_nodes d k g) <-> (In x (gblocks g) /\ x < blocks_no d) \/ x = dnode d k.
Proof. unfold group_nodes. rewrite in_app_iff, group_blocks_in. cbn. intuition. Qed.

Lemma nodes_disjoint d k k' a b : separate d -> nth_error (pd_groups d) k = Some a -> nth_error (pd_groups d) k' = Some b -> k <> k' ->
  forall x, In x (group_nodes d k a) -> ~ In x (group_nodes d k' b).
Proof.
  intros Hs Ha Hb Hk x H H'. apply group_nodes_in in H, H'. unfold dnode in *.
  destruct H as [[H1 H2]|H1], H' as [[H3 H4]|H3]; try lia.
  apply Hk. eapply flat_unique with (f := gblocks); eauto.
Qed.

(** * Sequence pairs stay sequence pairs *)

Definition no_swap (m : move) : Prop := match m with SwapGroups _ _ => False | _ => True end.

Lemma swap_pair_ok d g s ab s' : NoDup (p_pos s) -> NoDup (p_neg s) -> swap_pair d g s ab = Some s' ->
  exists sa sb, counterpart d (fst ab) = Some sa /\ counterpart d (snd ab) = Some sb /\
    In (fst ab) (group_blocks d g) /\ In (snd ab) (group_blocks d g) /\ fst ab <> snd ab /\ snd ab <> sa /\
    exchanged (p_pos s) (p_pos s') (fst ab) (snd ab) /\ exchanged (p_neg s) (p_neg s') sa sb /\ p_sel s' = p_sel s.
Proof.
  intros H1 H2. destruct ab as [a b]. unfold swap_pair.
  destruct (counterpart d a) as [sa|] eqn:Ea; [|discriminate]. destruct (counterpart d b) as [sb|] eqn:Eb; [|discriminate].
  match goal with |- (if ?b then _ else _) = _ -> _ => destruct b eqn:E end; [|discriminate].
  destruct (swap_in (p_pos s) a b) as [p|] eqn:Ep; [|discriminate]. destruct (swap_in (p_neg s) sa sb) as [q|] eqn:Eq; [|discriminate].
  intros H. injection H as <-. apply andb_true_iff in E as [E E4]. apply andb_true_iff in E as [E E3]. apply andb_true_iff in E as [E1 E2].
  apply has_iff in E1, E2. apply negb_true_iff in E3, E4. apply Nat.eqb_neq in E3, E4.
  exists sa, sb. cbn. do 6 (split; [auto|]). split; [now apply swap_in_some|]. split; [now apply swap_in_some|reflexivity].
Qed.

Definition perm_ok (d : pdesign) (s : sp) : Prop := Permutation (all_nodes d) (p_pos s) /\ Permutation (all_nodes d) (p_neg s).
Lemma perm_nodup d s : perm_ok d s -> NoDup (p_pos s) /\ NoDup (p_neg s).
Proof. intros [H1 H2]. split; eapply Permutation_NoDup; eauto; apply all_nodes_nodup. Qed.

Lemma many_some d g abs_ s s' : fold_left (fun s ab => match s with Some s => swap_pair d g s ab | None => None end) abs_ (Some s) = Some s' ->
  match abs_ with [] => s' = s | ab :: rest => exists s1, swap_pair d g s ab = Some s1 /\
    fold_left (fun s ab => match s with Some s => swap_pair d g s ab | None => None end) rest (Some s1) = Some s' end.
Proof.
  destruct abs_ as [|ab rest]; cbn; [congruence|]. destruct (swap_pair d g s ab) as [s1|]; [eauto|].
  intros H. exfalso. clear - H. induction rest; cbn in H; [discriminate|auto].
Qed.

Lemma swap_pair_perm d g s ab s' : perm_ok d s -> swap_pair d g s ab = Some s' -> perm_ok d s' /\ p_sel s' = p_sel s.
Proof.
  intros H E. destruct (perm_nodup d s H) as [N1 N2]. destruct (swap_pair_ok d g s ab s' N1 N2 E) as (sa & sb & _ & _ & _ & _ & _ & _ & X1 & X2 & X3).
  split; auto. destruct H as [H1 H2]. split; [rewrite H1|rewrite H2]; eapply exchanged_perm; eauto.
Qed.
Lemma many_perm d g abs_ s s' : perm_ok d s -> fold_left (fun s ab => match s with Some s => swap_pair d g s ab | None => None end) abs_ (Some s) = Some s' ->
  perm_ok d s' /\ p_sel s' = p_sel s.
Proof.
  revert s. induction abs_ as [|ab rest IH]; intros s H E; apply many_some in E.
  - subst. auto.
  - destruct E as (s1 & E1 & E2). destruct (swap_pair_perm d g s ab s1 H E1) as [P1 P2]. destruct (IH s1 P1 E2) as [P3 P4]. split; auto. congruence.
Qed.

Lemma apply_ok d s m s' : separate d \/ no_swap m -> perm_ok d s -> in_range d (p_sel s) -> apply d s m = Some s' ->
  perm_ok d s' /\ in_range d (p_sel s').
Proof.
  intros Hm Hp Hr H. destruct m as [b v|a new|a new|a new new'|k ab|k abs_|k k']; unfold apply in H.
  - destruct (nth_error (pd_sizes d) b) as [sz|] eqn:E; [|discriminate]. destruct ((1 <? sz) && (v <? sz)) eqn:E1; [|discriminate].
    injection H as <-. split; [exact Hp|]. cbn. destruct Hr as [R1 R2]. split; [now rewrite set_nth_len|].
    intros i Hi. assert (b < length (pd_sizes d)) as Hb by (apply nth_error_Some; congruence).
    rewrite nth_set_nth by lia. destruct (Nat.eqb_spec i b) as [->|]; auto.
    rewrite (nth_error_nth _ _ 0 E). apply andb_true_iff in E1 as [_ E1]. now apply Nat.ltb_lt.
  - destruct (info d a); [discriminate|]. destruct (a <? blocks_no d); [|discriminate].
    destruct (move_unit (p_pos s) a new) as [p|] eqn:E; [|discriminate]. injection H as <-. split; auto. destruct Hp as [P1 P2]. split; auto. cbn.
    rewrite P1. eapply moved_perm, move_unit_moved, E.
  - destruct (info d a); [discriminate|]. destruct (a <? blocks_no d); [|discriminate].
    destruct (move_unit (p_neg s) a new) as [p|] eqn:E; [|discriminate]. injection H as <-. split; auto. destruct Hp as [P1 P2]. split; auto. cbn.
    rewrite P2. eapply moved_perm, move_unit_moved, E.
  - destruct (info d a); [discriminate|]. destruct (a <? blocks_no d); [|discriminate].
    destruct (move_unit (p_pos s) a new) as [p|] eqn:E; [|discriminate]. destruct (move_unit (p_neg s) a new') as [q|] eqn:E'; [|discriminate].
    injection H as <-. split; auto. destruct Hp as [P1 P2]. split; cbn; [rewrite P1|rewrite P2]; eapply moved_perm, move_unit_moved; eauto.
  - destruct (nth_error (pd_groups d) k) as [g|]; [|discriminate]. destruct (swap_pair_perm d g s ab s' Hp H) as [P1 P2]. rewrite P2. auto.
  - destruct (nth_error (pd_groups d) k) as [g|]; [|discriminate]. destruct (many_perm d g abs_ s s' Hp H) as [P1 P2]. rewrite P2. auto.
  - destruct (nth_error (pd_groups d) k) as [a|] eqn:Ea; [|discriminate]. destruct (nth_error (pd_groups d) k') as [b|] eqn:Eb; [|discriminate].
    destruct (Nat.eqb_spec k k') as [|N]; [discriminate|]. injection H as <-. split; auto. destruct Hm as [Hm|[]].
    pose proof (nodes_disjoint d k k' a b Hm Ea Eb N) as Hd. destruct Hp as [P1 P2].
    split; cbn; [rewrite P1|rewrite P2]; now apply swap_lists_perm.
Qed.

Theorem perturb_ok d s m : same_ok d -> separate d \/ no_swap m -> sp_ok d s -> sp_ok d (perturb d s m).
Proof.
  intros Hs Hm (P1 & P2 & C1 & C2 & C3). unfold perturb.
  assert (perm_ok d s) as Hp by (split; auto). assert (in_range d (p_sel s)) as Hr by (split; auto).
  destruct (apply d s m) as [s'|] eqn:E.
  - destruct (apply_ok d s m s' Hm Hp Hr E) as [[Q1 Q2] Q3]. split; [auto|split; [auto|]]. now apply same_selected_ok.
  - split; [auto|split; [auto|]]. now apply same_selected_ok.
Qed.
Theorem perturbs_ok d s ms : same_ok d -> separate d \/ Forall no_swap ms -> sp_ok d s -> sp_ok d (fold_left (perturb d) ms s).
Proof.
  intros Hs. revert s. induction ms as [|m ms IH]; intros s Hm H; cbn; auto. apply IH.
  - destruct Hm as [Hm|Hm]; [auto|right; now inversion Hm].
  - apply perturb_ok; auto. destruct Hm as [Hm|Hm]; [auto|right; now inversion Hm].
Qed.

(** * Feasibility *)

Section Feas.
Variable d : pdesign.
Hypothesis Hsep : separate d.
Hypothesis Hterm : no_terminals d.

Definition sym (x : nat) : nat := match counterpart d x with Some c => c | None => x end.
Definition tw {A} (a : dir) (l : list A) : list A := match a with DirH => l | DirV => rev l end.
Definition sub (k : nat) (g : group) (l : list nat) : list nat := filter (fun x => has x (group_nodes d k g)) l.
Definition feas (s : sp) : Prop :=
  forall k g, nth_error (pd_groups d) k = Some g -> tw (g_axis g) (sub k g (p_neg s)) = map sym (sub k g (p_pos s)).

Lemma gblocks_real g x : In g (pd_groups d) -> In x (gblocks g) -> x < blocks_no d.
Proof. intros Hg H. unfold gblocks in H. apply in_flat_map in H as (e & He & Hx). eapply Hterm; eauto. Qed.
Lemma belongs_in k g x : nth_error (pd_groups d) k = Some g -> (belongs d k g x <-> In x (group_nodes d k g)).
Proof.
  intros Hk. pose proof (nth_error_In _ _ Hk) as Hg. rewrite group_nodes_in. unfold belongs, mirror. split.
  - intros (y & [H|[H|[<- [H|H]]]]).
    + left. assert (In x (gblocks g)) as Q by (apply gblocks_in; left; apply in_map_iff; exists (x, y); auto). split; auto. eapply gblocks_real; eauto.
    + left. assert (In x (gblocks g)) as Q by (apply gblocks_in; right; left; apply in_map_iff; exists (y, x); auto). split; auto. eapply gblocks_real; eauto.
    + left. assert (In x (gblocks g)) as Q by (apply gblocks_in; right; right; auto). split; auto. eapply gblocks_real; eauto.
    + right. exact H.
  - intros [[H _]|H]; [|exists x; auto].
    apply gblocks_in in H as [H|[H|H]].
    + apply in_map_iff in H as ([a b] & <- & H). exists b. cbn. auto.
    + apply in_map_iff in H as ([a b] & <- & H). exists a. cbn. auto.
    + exists x. auto.
Qed.
Lemma part_filter P f l m : (forall x, P x <-> f x = true) -> (part P l m <-> m = filter f l).
Proof.
  intros H. split.
  - induction 1 as [|x l m Hx _ IH|x l m Hx _ IH]; cbn; auto.
    + apply H in Hx. rewrite Hx. now f_equal.
    + destruct (f x) eqn:E; auto. apply H in E. contradiction.
  - intros ->. induction l as [|x l IH]; cbn; [constructor|]. destruct (f x) eqn:E; constructor; auto; [now apply H|].
    intros Hx. apply H in Hx. congruence.
Qed.
Lemma dnode_info k : info d (dnode d k) = None.
Proof.
  apply info_none. intros H. apply in_flat_map in H as (g & Hg & H). apply gblocks_real in H; auto. unfold dnode in H. lia.
Qed.
Lemma mirror_sym k g a b : nth_error (pd_groups d) k = Some g -> mirror d k g a b -> b = sym a.
Proof.
  intros Hk H. unfold sym, counterpart. destruct H as [H|[H|[<- [H|H]]]].
  - rewrite (info_some d a (k, b) Hsep); [reflexivity|]. exact (proj1 (infos_pair _ _ _ _ _ Hk H)).
  - rewrite (info_some d a (k, b) Hsep); [reflexivity|]. exact (proj2 (infos_pair _ _ _ _ _ Hk H)).
  - apply in_map_iff in H as ([x m] & <- & H). cbn [fst].
    rewrite (info_some d x (k, x) Hsep); [reflexivity|]. eapply infos_self; eauto.
  - rewrite H. fold (dnode d k). now rewrite dnode_info.
Qed.
Lemma sym_mirror k g a : nth_error (pd_groups d) k = Some g -> In a (group_nodes d k g) -> mirror d k g a (sym a).
Proof.
  intros Hk H. apply (belongs_in k g a Hk) in H as (b & H). now rewrite <- (mirror_sym k g a b Hk H).
Qed.
Lemma mirror_flip k g a b : mirror d k g a b -> mirror d k g b a.
Proof. intros [H|[H|[<- H]]]; [right; left|left|right; right]; auto. Qed.
Lemma sym_in k g a : nth_error (pd_groups d) k = Some g -> In a (group_nodes d k g) -> In (sym a) (group_nodes d k g) /\ sym (sym a) = a.
Proof.
  intros Hk H. pose proof (mirror_flip _ _ _ _ (sym_mirror k g a Hk H)) as M. split.
  - apply (belongs_in k g _ Hk). exists a. exact M.
  - symmetry. eapply mirror_sym; eauto.
Qed.
Lemma F2_sym k g l m : nth_error (pd_groups d) k = Some g -> (forall x, In x l -> In x (group_nodes d k g)) ->
  (Forall2 (mirror d k g) l m <-> m = map sym l).
Proof.
  intros Hk Hl. split.
  - induction 1 as [|a b l m H _ IH]; cbn; auto. f_equal; [eapply mirror_sym; eauto|]. apply IH. intros x Hx. apply Hl. now right.
  - intros ->. induction l as [|a l IH]; cbn; constructor; [apply sym_mirror; auto; apply Hl; now left|].
    apply IH. intros x Hx. apply Hl. now right.
Qed.
Lemma feas_iff s : feasible d s <-> feas s.
Proof.
  assert (forall k g, nth_error (pd_groups d) k = Some g -> forall x, belongs d k g x <-> has x (group_nodes d k g) = true) as Hb.
  { intros k g Hk x. rewrite has_iff. now apply belongs_in. }
  assert (forall k g, nth_error (pd_groups d) k = Some g ->
    (Forall2 (mirror d k g) (sub k g (p_pos s)) (tw (g_axis g) (sub k g (p_neg s))) <->
     tw (g_axis g) (sub k g (p_neg s)) = map sym (sub k g (p_pos s)))) as Hf.
  { intros k g Hk. apply F2_sym; auto. intros x Hx. apply filter_In in Hx as [_ Hx]. now apply has_iff. }
  split.
  - intros H k g Hk. apply Hf; auto. apply (H k g); auto; apply (part_filter _ _ _ _ (Hb k g Hk)); reflexivity.
  - intros H k g p q Hk Hp Hq. apply (part_filter _ _ _ _ (Hb k g Hk)) in Hp, Hq. subst p q. apply (Hf k g Hk). now apply H.
Qed.

Lemma tw_map A B (f : A -> B) a l : tw a (map f l) = map f (tw a l).
Proof. destruct a; cbn; auto. symmetry. apply map_rev. Qed.

Lemma has_out k g a : nth_error (pd_groups d) k = Some g -> info d a = None -> a < blocks_no d -> has a (group_nodes d k g) = false.
Proof.
  intros Hk Hi Hlt. apply has_false. intros H. apply group_nodes_in in H as [[H _]|H]; [|unfold dnode in H; lia].
  apply info_none in Hi. apply Hi. apply in_flat_map. exists g. split; auto. now apply nth_error_In in Hk.
Qed.

Lemma swap_pair_feas k0 g0 s ab s' : perm_ok d s -> nth_error (pd_groups d) k0 = Some g0 -> swap_pair d g0 s ab = Some s' -> feas s -> feas s'.
Proof.
  intros Hp Hk0 E F. destruct (perm_nodup d s Hp) as [N1 N2].
  destruct (swap_pair_ok d g0 s ab s' N1 N2 E) as (sa & sb & Ca & Cb & Ia & Ib & Nab & _ & (_ & _ & X1) & (_ & _ & X2) & _).
  destruct ab as [a b]. cbn [fst snd] in *.
  assert (sa = sym a) as Ea by (unfold sym; now rewrite Ca). assert (sb = sym b) as Eb by (unfold sym; now rewrite Cb).
  clear Ca Cb.
  assert (In a (group_nodes d k0 g0)) as Ga by (apply in_or_app; auto). assert (In b (group_nodes d k0 g0)) as Gb by (apply in_or_app; auto).
  destruct (sym_in _ _ _ Hk0 Ga) as [Sa1 Sa2]. destruct (sym_in _ _ _ Hk0 Gb) as [Sb1 Sb2]. rewrite <- Ea in Sa1, Sa2. rewrite <- Eb in Sb1, Sb2.
  intros k g Hk. pose proof (F k g Hk) as Fk. fold (tr a b) in X1. fold (tr sa sb) in X2. rewrite X1, X2. unfold sub in *.
  destruct (Nat.eq_dec k k0) as [->|N].
  - assert (g = g0) by congruence. subst g.
    rewrite filter_tr by (rewrite (proj2 (has_iff sa _) Sa1), (proj2 (has_iff sb _) Sb1); reflexivity).
    rewrite filter_tr by (rewrite (proj2 (has_iff a _) Ga), (proj2 (has_iff b _) Gb); reflexivity).
    rewrite tw_map, Fk, !map_map. apply map_ext_in. intros x Hx. apply filter_In in Hx as [_ Hx]. apply has_iff in Hx.
    destruct (sym_in _ _ _ Hk0 Hx) as [_ Sx]. unfold tr.
    destruct (Nat.eqb_spec x a) as [->|Na]; [rewrite <- Ea, Nat.eqb_refl; auto|].
    destruct (Nat.eqb_spec x b) as [->|Nb].
    + rewrite <- Eb, Nat.eqb_refl, <- Ea. destruct (Nat.eqb_spec sb sa) as [Y|]; auto.
    + destruct (Nat.eqb_spec (sym x) sa) as [Y|]; [exfalso; apply Na; congruence|].
      destruct (Nat.eqb_spec (sym x) sb) as [Y|]; [exfalso; apply Nb; congruence|]. reflexivity.
  - assert (forall x, In x (group_nodes d k0 g0) -> has x (group_nodes d k g) = false) as Ho.
    { intros x Hx. apply has_false. apply (nodes_disjoint d k0 k g0 g); auto. }
    rewrite (filter_tr_out _ sa sb), (filter_tr_out _ a b) by auto. exact Fk.
Qed.
Lemma many_feas k0 g0 abs_ s s' : perm_ok d s -> nth_error (pd_groups d) k0 = Some g0 ->
  fold_left (fun s ab => match s with Some s => swap_pair d g0 s ab | None => None end) abs_ (Some s) = Some s' -> feas s -> feas s'.
Proof.
  intros Hp Hk. revert s Hp. induction abs_ as [|ab rest IH]; intros s Hp E F; apply many_some in E.
  - now subst.
  - destruct E as (s1 & E1 & E2). apply (IH s1); auto.
    + eapply swap_pair_perm; eauto.
    + eapply swap_pair_feas; eauto.
Qed.

Lemma apply_feas s m s' : perm_ok d s -> apply d s m = Some s' -> feas s -> feas s'.
Proof.
  intros Hp H F. destruct m as [b v|a new|a new|a new new'|k ab|k abs_|k k']; unfold apply in H.
  - destruct (nth_error (pd_sizes d) b) as [sz|]; [|discriminate]. destruct ((1 <? sz) && (v <? sz)); [|discriminate]. injection H as <-. exact F.
  - destruct (info d a) eqn:Ei; [discriminate|]. destruct (a <? blocks_no d) eqn:El; [|discriminate]. apply Nat.ltb_lt in El.
    destruct (move_unit (p_pos s) a new) as [p|] eqn:E; [|discriminate]. injection H as <-.
    intros k g Hk. cbn [p_pos p_neg]. rewrite (F k g Hk). unfold sub. f_equal. symmetry. eapply moved_filter; [eapply move_unit_moved; eauto|]. now apply has_out.
  - destruct (info d a) eqn:Ei; [discriminate|]. destruct (a <? blocks_no d) eqn:El; [|discriminate]. apply Nat.ltb_lt in El.
    destruct (move_unit (p_neg s) a new) as [p|] eqn:E; [|discriminate]. injection H as <-.
    intros k g Hk. cbn [p_pos p_neg]. rewrite <- (F k g Hk). unfold sub. f_equal. eapply moved_filter; [eapply move_unit_moved; eauto|]. now apply has_out.
  - destruct (info d a) eqn:Ei; [discriminate|]. destruct (a <? blocks_no d) eqn:El; [|discriminate]. apply Nat.ltb_lt in El.
    destruct (move_unit (p_pos s) a new) as [p|] eqn:E; [|discriminate]. destruct (move_unit (p_neg s) a new') as [q|] eqn:E'; [|discriminate].
    injection H as <-. intros k g Hk. cbn [p_pos p_neg]. pose proof (F k g Hk) as Fk. unfold sub in *.
    rewrite (moved_filter _ _ _ _ _ (move_unit_moved _ _ _ _ E)) by now apply has_out.
    rewrite (moved_filter _ _ _ _ _ (move_unit_moved _ _ _ _ E')) by now apply has_out. exact Fk.
  - destruct (nth_error (pd_groups d) k) as [g|] eqn:Ek; [|discriminate]. eapply swap_pair_feas; eauto.
  - destruct (nth_error (pd_groups d) k) as [g|] eqn:Ek; [|discriminate]. eapply many_feas; eauto.
  - destruct (nth_error (pd_groups d) k) as [a|] eqn:Ea; [|discriminate]. destruct (nth_error (pd_groups d) k') as [b|] eqn:Eb; [|discriminate].
    destruct (Nat.eqb_spec k k') as [|N]; [discriminate|]. injection H as <-.
    pose proof (nodes_disjoint d k k' a b Hsep Ea Eb N) as Hd.
    assert (forall l j g, nth_error (pd_groups d) j = Some g -> sub j g (swap_lists (group_nodes d k a) (group_nodes d k' b) l) = sub j g l) as Hsub.
    { intros l j g Hj. pose proof (swap_lists_ok _ _ l Hd) as (_ & _ & Fa & Fb & _). unfold sub.
      destruct (Nat.eq_dec j k) as [->|N1]; [replace g with a by congruence; exact Fa|].
      destruct (Nat.eq_dec j k') as [->|N2]; [replace g with b by congruence; exact Fb|].
      apply swap_lists_other; auto. intros x Hx. split; eapply nodes_disjoint; eauto. }
    intros j g Hj. cbn [p_pos p_neg]. rewrite !Hsub by auto. now apply F.
Qed.

Lemma perturb_feas s m : perm_ok d s -> feas s -> feas (perturb d s m).
Proof.
  intros Hp F. unfold perturb. destruct (apply d s m) as [s'|] eqn:E; [|exact F].
  exact (apply_feas s m s' Hp E F).
Qed.
Lemma perturbs_feas s ms : same_ok d -> sp_ok d s -> feas s -> feas (fold_left (perturb d) ms s).
Proof.
  intros Hs. revert s. induction ms as [|m ms IH]; intros s H F; cbn; auto. apply IH.
  - apply perturb_ok; auto.
  - apply perturb_feas; auto. split; apply H.
Qed.

(** The first pair. *)
Lemma real_id l : (forall x, In x l -> x < blocks_no d) -> real d l = l.
Proof.
  intros H. unfold real. induction l as [|x l IH]; cbn [filter]; auto. rewrite (proj2 (Nat.ltb_lt _ _) (H x (or_introl eq_refl))).
  f_equal. apply IH. intros y Hy. apply H. now right.
Qed.
Lemma nodup_part A B (f : A -> list B) l x : NoDup (flat_map f l) -> In x l -> NoDup (f x).
Proof.
  induction l as [|y l IH]; cbn; intros H Hx; [destruct Hx|]. destruct Hx as [->|Hx].
  - clear - H. induction (f x) as [|z t IHt]; [constructor|]. cbn in H. inversion H; subst. constructor; auto. intros X. apply H2, in_or_app; auto.
  - apply IH; auto. clear - H. induction (f y) as [|z t IHt]; auto. cbn in H. inversion H; auto.
Qed.
Lemma pairs_perm g : Permutation (gblocks g) (firsts g ++ selfs g ++ rev (seconds g)).
Proof.
  rewrite gblocks_eq. rewrite (Permutation_app_comm (selfs g)), app_assoc. apply Permutation_app_tail.
  rewrite <- (Permutation_rev (seconds g)). unfold firsts, seconds. induction (g_pairs g) as [|p l IH]; cbn; auto.
  apply perm_skip. rewrite IH. apply Permutation_middle.
Qed.
Lemma group_reals k g : nth_error (pd_groups d) k = Some g ->
  real d (firsts g) = firsts g /\ real d (selfs g) = selfs g /\ real d (rev (seconds g)) = rev (seconds g) /\
  real d (seconds g) = seconds g /\ real d (rev (firsts g)) = rev (firsts g) /\ real d (rev (selfs g)) = rev (selfs g).
Proof.
  intros Hk. pose proof (nth_error_In _ _ Hk) as Hg.
  assert (forall x, In x (firsts g) \/ In x (seconds g) \/ In x (selfs g) -> x < blocks_no d) as H.
  { intros x Hx. apply gblocks_in in Hx. eapply gblocks_real; eauto. }
  repeat split; apply real_id; intros x Hx; rewrite <- ?in_rev in Hx; apply H; auto.
Qed.
Lemma gblocks_nodup k g : nth_error (pd_groups d) k = Some g -> NoDup (gblocks g).
Proof. intros Hk. apply (nodup_part _ _ gblocks (pd_groups d)); [exact Hsep|]. now apply nth_error_In in Hk. Qed.
Lemma pos_nodup k g : nth_error (pd_groups d) k = Some g -> NoDup (group_pos d (k, g)).
Proof.
  intros Hk. destruct (group_reals k g Hk) as (E1 & E2 & E3 & _). unfold group_pos. cbn [fst snd]. rewrite E1, E2, E3.
  apply (Permutation_NoDup (l := dnode d k :: gblocks g)).
  - rewrite (pairs_perm g). cbn [app]. apply Permutation_middle.
  - constructor; [|eapply gblocks_nodup; eauto]. intros H. apply nth_error_In in Hk. apply gblocks_real in H; auto. unfold dnode in H. lia.
Qed.
Lemma pos_neg k g : nth_error (pd_groups d) k = Some g -> tw (g_axis g) (group_neg d (k, g)) = map sym (group_pos d (k, g)).
Proof.
  intros Hk. destruct (group_reals k g Hk) as (E1 & E2 & E3 & E4 & E5 & E6). unfold group_pos, group_neg. cbn [fst snd].
  assert (map sym (firsts g) = seconds g) as F1.
  { unfold firsts, seconds. rewrite map_map. apply map_ext_in. intros [a b] H. cbn. symmetry. eapply mirror_sym; eauto. left. auto. }
  assert (map sym (seconds g) = firsts g) as F2.
  { unfold firsts, seconds. rewrite map_map. apply map_ext_in. intros [a b] H. cbn. symmetry. eapply mirror_sym; eauto. right. left. auto. }
  assert (map sym (selfs g) = selfs g) as F3.
  { unfold selfs. rewrite map_map. apply map_ext_in. intros [a m] H. cbn. symmetry. eapply mirror_sym; eauto. right. right. split; auto.
    left. apply in_map_iff. exists (a, m). auto. }
  assert (sym (dnode d k) = dnode d k) as F4.
  { symmetry. eapply mirror_sym; eauto. right. right. split; auto. }
  rewrite E1, E2, E3, E4, E5, E6. rewrite !map_app, map_rev, F1, F2, F3. cbn [map]. rewrite F4. destruct (g_axis g); cbn [tw]; auto.
  rewrite !rev_app_distr, !rev_involutive. cbn [rev app]. rewrite <- !app_assoc. reflexivity.
Qed.
Lemma neg_nodup k g : nth_error (pd_groups d) k = Some g -> NoDup (group_neg d (k, g)).
Proof.
  intros Hk. assert (NoDup (tw (g_axis g) (group_neg d (k, g)))) as H.
  { rewrite (pos_neg k g Hk). 
    assert (forall x, In x (group_pos d (k, g)) -> sym (sym x) = x) as Hi.
    { intros x Hx. eapply sym_in; eauto. apply group_nodes_in. now apply group_pos_in. }
    pose proof (pos_nodup k g Hk) as Hn. revert Hn Hi. induction (group_pos d (k, g)) as [|x l IH]; intros Hn Hi; [constructor|].
    inversion Hn; subst. cbn. constructor.
    - intros X. apply in_map_iff in X as (y & Ey & Hy). apply H1. rewrite <- (Hi x (or_introl eq_refl)), <- Ey, (Hi y (or_intror Hy)). auto.
    - apply IH; auto. intros y Hy. apply Hi. now right. }
  destruct (g_axis g); auto. cbn in H. apply NoDup_rev in H. now rewrite rev_involutive in H.
Qed.
Lemma groups_flat f : (forall k g, nth_error (pd_groups d) k = Some g -> NoDup (f (k, g))) ->
  (forall k g x, In x (f (k, g)) <-> (In x (gblocks g) /\ x < blocks_no d) \/ x = dnode d k) ->
  NoDup (flat_map f (number (pd_groups d))) /\
  forall k g, nth_error (pd_groups d) k = Some g -> sub k g (flat_map f (number (pd_groups d))) = f (k, g).
Proof.
  intros Hn Hi.
  assert (forall k g x, nth_error (pd_groups d) k = Some g -> (In x (f (k, g)) <-> In x (group_nodes d k g))) as Hi'.
  { intros k g x _. rewrite Hi, group_nodes_in. reflexivity. }
  split.
  - apply nodup_flat.
    + apply NoDup_map_inv with (f := fst). unfold number. rewrite <- (seq_length (length (pd_groups d)) 0) at 1.
      assert (forall A (l : list A) n, map fst (combine (seq n (length l)) l) = seq n (length l)) as Q.
      { intros A l. induction l as [|x l IH]; intros n; cbn; auto. now rewrite IH. }
      rewrite seq_length, Q. apply seq_NoDup.
    + intros [k g] H. apply number_in in H. now apply Hn.
    + intros [k g] [k' g'] x H H' Hx Hx'. apply number_in in H, H'. apply (Hi' _ _ _ H) in Hx. apply (Hi' _ _ _ H') in Hx'.
      destruct (Nat.eq_dec k k') as [->|N]; [congruence|]. exfalso. exact (nodes_disjoint d k k' g g' Hsep H H' N x Hx Hx').
  - intros k g Hk. unfold sub.
    assert (forall l, (forall kg, In kg l -> In kg (number (pd_groups d))) -> NoDup (map fst l) ->
      filter (fun x => has x (group_nodes d k g)) (flat_map f l) = if has k (map fst l) then f (k, g) else []) as Hl.
    { induction l as [|[k' g'] l IH]; intros Hin Hnd; [reflexivity|].
      assert (nth_error (pd_groups d) k' = Some g') as Hk' by (apply number_in, Hin; now left).
      cbn [flat_map map fst has]. rewrite filter_app, IH by (intros; try apply Hin; cbn in *; auto; now inversion Hnd).
      inversion Hnd; subst.
      destruct (Nat.eqb_spec k k') as [->|N]; cbn [orb].
      - assert (g' = g) by congruence. subst g'. rewrite (proj2 (has_false k' _) H1), app_nil_r.
        assert (forall m, (forall x, In x m -> In x (group_nodes d k' g)) -> filter (fun x => has x (group_nodes d k' g)) m = m) as Q.
        { clear. induction m as [|x m IH]; intros H; cbn; auto. rewrite (proj2 (has_iff x _) (H x (or_introl eq_refl))). f_equal. apply IH. intros y Hy. apply H. now right. }
        apply Q. intros x Hx. now apply (Hi' k' g x Hk).
      - replace (filter (fun x => has x (group_nodes d k g)) (f (k', g'))) with (@nil nat); auto.
        assert (forall m, (forall x, In x m -> has x (group_nodes d k g) = false) -> [] = filter (fun x => has x (group_nodes d k g)) m) as Q.
        { clear. induction m as [|x m IH]; intros H; cbn; auto. rewrite (H x (or_introl eq_refl)). apply IH. intros y Hy. apply H. now right. }
        apply Q. intros x Hx. apply has_false. apply (Hi' k' g' x Hk') in Hx. intros Hx'. exact (nodes_disjoint d k k' g g' Hsep Hk Hk' N x Hx' Hx). }
    rewrite Hl; auto.
    + replace (has k (map fst (number (pd_groups d)))) with true; auto. symmetry. apply has_iff. apply in_map_iff. exists (k, g). split; auto. now apply number_in.
    + unfold number. assert (forall A (l : list A) n, map fst (combine (seq n (length l)) l) = seq n (length l)) as Q.
      { intros A l. induction l as [|x l IH]; intros n; cbn; auto. now rewrite IH. }
      rewrite Q. apply seq_NoDup.
Qed.
Lemma initial_feas : feas (initial d).
Proof.
  intros k g Hk.
  destruct (groups_flat (group_pos d) pos_nodup (group_pos_in d)) as [P1 P2].
  destruct (groups_flat (group_neg d) neg_nodup (group_neg_in d)) as [Q1 Q2].
  unfold initial. cbn [p_pos p_neg]. rewrite !compact_id by auto. unfold sub in *. rewrite !filter_app.
  set (loose := filter _ (seq 0 _)).
  replace (filter (fun x => has x (group_nodes d k g)) loose) with (@nil nat).
  - rewrite !app_nil_r, P2, Q2 by auto. now apply pos_neg.
  - assert (forall x, In x loose -> has x (group_nodes d k g) = false) as H.
    { intros x Hx. apply filter_In in Hx as [H1 H2]. apply in_seq in H1. apply has_out; auto; [destruct (info d x); congruence|lia]. }
    clearbody loose. induction loose as [|x l IH]; cbn; auto. rewrite (H x (or_introl eq_refl)). apply IH. intros y Hy. apply H. now right.
Qed.

Theorem annealed_feasible ms : same_ok d ->
  sp_ok d (fold_left (perturb d) ms (initial d)) /\ feasible d (fold_left (perturb d) ms (initial d)).
Proof.
  intros Hs. pose proof (initial_ok d Hs) as H0. split; [apply perturbs_ok; auto|].
  apply feas_iff. apply perturbs_feas; auto. apply initial_feas.
Qed.
End Feas.
