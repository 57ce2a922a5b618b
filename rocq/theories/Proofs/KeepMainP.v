From Verif Require Import Base.Prelude Model.SeqEnum Model.SymmGroup Model.KeepOrder Spec.SeqEnumSpec Spec.KeepOrderSpec
  Proofs.SeqEnumP Proofs.SymmGroupP Proofs.SeqMovesP Proofs.SeqSwapP Proofs.KeepOrderP Proofs.KeepSortP.

(** * What the loops check *)

Definition both_in (l : list nat) (os : list ordering) : Prop := forall o, In o os -> In (o_first o) l /\ In (o_second o) l.
Lemma here l v : (at_ l v =? length l) = false <-> In v l.
Proof.
  rewrite Nat.eqb_neq. destruct (at_split l v) as [[H _]|[H E]]; [|tauto]. split; auto. intros _. apply at_in in H. lia.
Qed.
Lemma fix_pos_none d l os : fix_pos d l os = Some None -> both_in l os /\ forall o, In o os -> at_ l (o_first o) <= at_ l (o_second o).
Proof.
  induction os as [|o os IH]; cbn [fix_pos]; cbv zeta; intros H; [split; intros o []|].
  destruct (at_ l (o_first o) =? length l) eqn:E1; [discriminate|]. destruct (at_ l (o_second o) =? length l) eqn:E2; [discriminate|]. cbn [orb] in H.
  apply here in E1, E2. destruct (Nat.ltb_spec (at_ l (o_second o)) (at_ l (o_first o))); [discriminate|].
  destruct (IH H) as [A B]. split; intros o' [<-|Ho]; auto.
Qed.
Lemma fix_pos_ok d l os : both_in l os -> (forall o, In o os -> at_ l (o_first o) <= at_ l (o_second o)) -> fix_pos d l os = Some None.
Proof.
  induction os as [|o os IH]; cbn [fix_pos]; cbv zeta; intros Hb H; [reflexivity|].
  destruct (Hb o (or_introl eq_refl)) as [A B]. apply here in A, B. rewrite A, B. cbn [orb].
  destruct (Nat.ltb_spec (at_ l (o_second o)) (at_ l (o_first o))) as [X|X]; [specialize (H o (or_introl eq_refl)); lia|].
  apply IH; [intros o' Ho; apply Hb; now right|intros o' Ho; apply H; now right].
Qed.
Lemma fix_neg_none d l os : fix_neg d l os = Some None -> both_in l os /\
  forall o, In o os -> match snd o with DirH => at_ l (o_first o) < at_ l (o_second o) | DirV => at_ l (o_second o) <= at_ l (o_first o) end.
Proof.
  induction os as [|o os IH]; cbn [fix_neg]; cbv zeta; intros H; [split; intros o []|].
  destruct (at_ l (o_first o) =? length l) eqn:E1; [discriminate|]. destruct (at_ l (o_second o) =? length l) eqn:E2; [discriminate|]. cbn [orb] in H.
  apply here in E1, E2. destruct (Nat.ltb_spec (at_ l (o_first o)) (at_ l (o_second o))).
  - destruct (snd o) eqn:Es; [|discriminate]. destruct (IH H) as [A B]. split; intros o' [<-|Ho]; auto; [now rewrite Es|]. now apply B.
  - destruct (snd o) eqn:Es; [discriminate|]. destruct (IH H) as [A B]. split; intros o' [<-|Ho]; auto; [now rewrite Es|]. now apply B.
Qed.
Lemma fix_neg_ok d l os : both_in l os ->
  (forall o, In o os -> match snd o with DirH => at_ l (o_first o) < at_ l (o_second o) | DirV => at_ l (o_second o) <= at_ l (o_first o) end) ->
  fix_neg d l os = Some None.
Proof.
  induction os as [|o os IH]; cbn [fix_neg]; cbv zeta; intros Hb H; [reflexivity|].
  destruct (Hb o (or_introl eq_refl)) as [A B]. apply here in A, B. rewrite A, B. cbn [orb].
  pose proof (H o (or_introl eq_refl)) as Ho. assert (fix_neg d l os = Some None) as R by (apply IH; [intros o' Ho'; apply Hb; now right|intros o' Ho'; apply H; now right]).
  destruct (Nat.ltb_spec (at_ l (o_first o)) (at_ l (o_second o))); destruct (snd o); auto; lia.
Qed.
Lemma loop_pos_done fuel d vs l p : loop_pos fuel d vs l = Done p -> fix_pos d p (o_orders d) = Some None.
Proof.
  revert vs l. induction fuel as [|f IH]; intros vs l H; cbn [loop_pos] in H; [discriminate|].
  destruct (fix_pos d l (o_orders d)) as [[l'|]|] eqn:E; [|congruence|discriminate]. destruct (seen l' vs); [discriminate|]. eauto.
Qed.
Lemma seen_in l vs : seen l vs = true <-> In l vs.
Proof.
  unfold seen. rewrite existsb_exists. split.
  - intros (v & Hv & E). destruct (list_eq_dec Nat.eq_dec v l); [now subst|discriminate].
  - intros H. exists l. split; auto. now destruct (list_eq_dec Nat.eq_dec l l).
Qed.
(** No fix-up of the negative sequence is ever followed by another round. *)
Lemma loop_neg_done fuel d vs l n : loop_neg fuel d vs l = Done n -> n = l /\ fix_neg d l (o_orders d) = Some None.
Proof.
  destruct fuel as [|f]; cbn [loop_neg]; [discriminate|].
  destruct (fix_neg d l (o_orders d)) as [[l'|]|] eqn:E; [|intros H; split; congruence|discriminate].
  destruct (seen l' vs); [discriminate|]. cbv zeta. assert (seen l' (l' :: vs) = true) as -> by (apply seen_in; now left). discriminate.
Qed.

Lemma at_same l a b : In a l -> In b l -> at_ l a = at_ l b -> a = b.
Proof. intros A B E. apply at_in in A as [_ A], B as [_ B]. congruence. Qed.

Theorem keep_sound fuel d w pos neg p n : keep_ordering fuel d w pos neg = Some (p, n, true) ->
  (forall a b m, In ((a, b), m) (o_orders d) -> a <> b -> keeps p n ((a, b), m)) /\
  place neg (neg_blocks d) (topo_sort (l_neg w) (neg_blocks d) (neg_edges d p)) = Some n.
Proof.
  unfold keep_ordering. cbv zeta. destruct (place pos _ _) as [p1|]; [|discriminate].
  destruct (loop_pos fuel d [pos] _) as [p'|p'| |] eqn:Ep; try discriminate.
  destruct (place neg _ _) as [n1|] eqn:En; [|discriminate]. destruct (loop_neg fuel d [neg] n1) as [n'|n'| |] eqn:El; try discriminate.
  intros H. injection H as -> ->. apply loop_neg_done in El as [<- El]. apply loop_pos_done in Ep. split; [|exact En].
  apply fix_pos_none in Ep as [P1 P2]. apply fix_neg_none in El as [N1 N2].
  intros a b m Ho Hab. specialize (P1 _ Ho). specialize (P2 _ Ho). specialize (N1 _ Ho). specialize (N2 _ Ho).
  unfold o_first, o_second in *. cbn [fst snd] in *. destruct P1 as [Pa Pb], N1 as [Na Nb].
  assert (precedes p a b) as Hp.
  { apply at_precedes; auto. destruct (Nat.eq_dec (at_ p a) (at_ p b)) as [E|]; [|lia]. now apply at_same in E. }
  unfold keeps, left_of, above. cbn [fst snd]. destruct m; (split; [exact Hp|]).
  - now apply at_precedes.
  - apply at_precedes; auto. destruct (Nat.eq_dec (at_ n a) (at_ n b)) as [E|]; [|lia]. now apply at_same in E.
Qed.

(** * The steps permute *)

Lemma swap_perm l i j : NoDup l -> i < length l -> j < length l -> Permutation l (set_nth j (nth i l 0) (set_nth i (nth j l 0) l)).
Proof.
  intros Hn Hi Hj. apply NoDup_Permutation_bis; [auto|rewrite !set_nth_len; lia|].
  intros x Hx. apply (In_nth _ _ 0) in Hx as (k & Hk & <-).
  assert (forall m, nth m (set_nth j (nth i l 0) (set_nth i (nth j l 0) l)) 0 = if m =? j then nth i l 0 else if m =? i then nth j l 0 else nth m l 0) as E.
  { intros m. rewrite nth_set_nth by (rewrite set_nth_len; lia). destruct (m =? j); auto. now apply nth_set_nth. }
  assert (length (set_nth j (nth i l 0) (set_nth i (nth j l 0) l)) = length l) as EL by now rewrite !set_nth_len.
  destruct (Nat.eq_dec k i) as [->|Hki].
  - replace (nth i l 0) with (nth j (set_nth j (nth i l 0) (set_nth i (nth j l 0) l)) 0) at 1; [apply nth_In; lia|]. rewrite E, Nat.eqb_refl. auto.
  - destruct (Nat.eq_dec k j) as [->|Hkj].
    + replace (nth j l 0) with (nth i (set_nth j (nth i l 0) (set_nth i (nth j l 0) l)) 0) at 1; [apply nth_In; lia|].
      rewrite E, Nat.eqb_refl. destruct (Nat.eqb_spec i j); [subst; tauto|auto].
    + replace (nth k l 0) with (nth k (set_nth j (nth i l 0) (set_nth i (nth j l 0) l)) 0) at 1; [apply nth_In; lia|].
      rewrite E. destruct (Nat.eqb_spec k j), (Nat.eqb_spec k i); auto; congruence.
Qed.
Lemma fix_pos_perm d l os l' : NoDup l -> fix_pos d l os = Some (Some l') -> Permutation l l'.
Proof.
  intros Hn. induction os as [|o os IH]; cbn [fix_pos]; cbv zeta; [discriminate|].
  destruct (at_ l (o_first o) =? length l) eqn:E1; [discriminate|]. destruct (at_ l (o_second o) =? length l) eqn:E2; [discriminate|]. cbn [orb].
  apply here in E1, E2. destruct (at_in _ _ E1) as [A1 A2], (at_in _ _ E2) as [B1 B2].
  destruct (Nat.ltb_spec (at_ l (o_second o)) (at_ l (o_first o))) as [Hlt|]; [|exact IH]. intros H. injection H as <-.
  assert (Permutation l (ins (at_ l (o_second o)) (o_first o) (del (at_ l (o_first o)) l))) as C1.
  { rewrite <- ins_perm. symmetry. now apply del_perm'. }
  assert (Permutation l (del (at_ l (o_second o)) (ins (at_ l (o_first o) + 1) (o_second o) l))) as C2.
  { symmetry. apply ins_del; [lia| |reflexivity]. rewrite ins_nth by lia. auto. }
  destruct (o_cp d (o_first o)); [|exact C1]. destruct (o_cp d (o_second o)); [|exact C2]. now apply swap_perm.
Qed.
Lemma fix_pos_some d l os : both_in l os -> fix_pos d l os <> None.
Proof.
  induction os as [|o os IH]; cbn [fix_pos]; cbv zeta; intros Hb; [discriminate|].
  destruct (Hb o (or_introl eq_refl)) as [A B]. apply here in A, B. rewrite A, B. cbn [orb]. destruct (_ <? _); [discriminate|].
  apply IH. intros o' Ho. apply Hb. now right.
Qed.
Lemma both_perm l l' os : Permutation l l' -> both_in l os -> both_in l' os.
Proof. intros Hp H o Ho. destruct (H o Ho). split; eapply Permutation_in; eauto. Qed.
Lemma loop_pos_ends fuel d vs l : NoDup l -> both_in l (o_orders d) -> NoDup vs -> (forall v, In v vs -> Permutation l v) -> fact (length l) < fuel + length vs ->
  exists p, Permutation l p /\ (loop_pos fuel d vs l = Done p \/ loop_pos fuel d vs l = Stuck p).
Proof.
  revert vs l. induction fuel as [|f IH]; intros vs l Hn Hb Hv Hp Hf.
  - exfalso. assert (length vs <= length (perms (length l) l)) as H.
    { apply NoDup_incl_length; auto. intros v Hin. apply perms_in; auto. }
    rewrite perms_len in H by auto. lia.
  - cbn [loop_pos]. destruct (fix_pos d l (o_orders d)) as [[l'|]|] eqn:E.
    + pose proof (fix_pos_perm _ _ _ _ Hn E) as HP. destruct (seen l' vs) eqn:Es; [exists l'; auto|].
      destruct (IH (l' :: vs) l') as (p & P1 & P2).
      * eapply Permutation_NoDup; eauto.
      * eapply both_perm; eauto.
      * constructor; auto. intros X. apply seen_in in X. congruence.
      * intros v [<-|Hin]; [reflexivity|]. rewrite <- HP. auto.
      * rewrite <- (Permutation_length HP). cbn [length]. lia.
      * exists p. split; auto. exact (Permutation_trans HP P1).
    + exists l. auto.
    + destruct (fix_pos_some d l (o_orders d) Hb E).
Qed.

Lemma holds_both d l : holds_all d l -> both_in l (o_orders d).
Proof. intros (H & _) [[a b] m] Ho. apply H in Ho. exact Ho. Qed.
Lemma holds_perm d l l' : Permutation l l' -> holds_all d l -> holds_all d l'.
Proof.
  intros Hp (A & B & C). assert (forall x, In x l -> In x l') as Hi by (intros x; now apply Permutation_in). split; [|split].
  - intros a b m H. destruct (A _ _ _ H). auto.
  - intros g Hg. destruct (B g Hg) as [B1 B2]. split; auto. intros a b H. destruct (B1 _ _ H). auto.
  - intros a b m H. destruct (C _ _ _ H). auto.
Qed.
Lemma surround_step d w l f : NoDup l -> holds_all d l -> proper d -> (forall x, f x = true -> In x (order_blocks (o_orders d))) ->
  Permutation l (surround d w l) /\ filter f (surround d w l) = filter f l.
Proof.
  intros Hn Hh Hp Hf. unfold surround. set (b := order_blocks (o_orders d)) in *.
  assert (forall gs l, (forall kg, In kg gs -> In (snd kg) (o_syms d)) -> NoDup l -> holds_all d l ->
    Permutation l (fold_left (fun l (kg : nat * group) =>
      match g_axis (snd kg), selfs (snd kg) with
      | DirV, (s :: _) as ss =>
          fold_left (fun l (ip : nat * (nat * nat)) => let p := snd ip in
            if has (fst p) b || has (snd p) b then l else around l (nth (l_pivot w (fst kg) (fst ip) mod length ss) ss s) (fst p) (snd p))
          (number (g_pairs (snd kg))) l
      | _, _ => l end) gs l) /\
    filter f (fold_left (fun l (kg : nat * group) =>
      match g_axis (snd kg), selfs (snd kg) with
      | DirV, (s :: _) as ss =>
          fold_left (fun l (ip : nat * (nat * nat)) => let p := snd ip in
            if has (fst p) b || has (snd p) b then l else around l (nth (l_pivot w (fst kg) (fst ip) mod length ss) ss s) (fst p) (snd p))
          (number (g_pairs (snd kg))) l
      | _, _ => l end) gs l) = filter f l) as H.
  { clear l Hn Hh. induction gs as [|[k g] gs IH]; intros l Hg Hn Hh; [split; reflexivity|]. cbn [fold_left fst snd].
    assert (In g (o_syms d)) as Hgin by (apply (Hg (k, g)); now left).
    assert (forall l1, Permutation l l1 /\ filter f l1 = filter f l -> Permutation l (fold_left (fun l (kg : nat * group) =>
      match g_axis (snd kg), selfs (snd kg) with
      | DirV, (s :: _) as ss =>
          fold_left (fun l (ip : nat * (nat * nat)) => let p := snd ip in
            if has (fst p) b || has (snd p) b then l else around l (nth (l_pivot w (fst kg) (fst ip) mod length ss) ss s) (fst p) (snd p))
          (number (g_pairs (snd kg))) l
      | _, _ => l end) gs l1) /\
    filter f (fold_left (fun l (kg : nat * group) =>
      match g_axis (snd kg), selfs (snd kg) with
      | DirV, (s :: _) as ss =>
          fold_left (fun l (ip : nat * (nat * nat)) => let p := snd ip in
            if has (fst p) b || has (snd p) b then l else around l (nth (l_pivot w (fst kg) (fst ip) mod length ss) ss s) (fst p) (snd p))
          (number (g_pairs (snd kg))) l
      | _, _ => l end) gs l1) = filter f l) as K.
    { intros l1 [A B]. destruct (IH l1) as [C D].
      - intros kg H. apply Hg. now right.
      - eapply Permutation_NoDup; eauto.
      - eapply holds_perm; eauto.
      - split; [exact (Permutation_trans A C)|congruence]. }
    apply K. clear K IH. destruct (g_axis g); [split; reflexivity|]. destruct (selfs g) as [|s ss] eqn:Es; [split; reflexivity|].
    assert (forall ip, In ip (number (g_pairs g)) -> In (snd ip) (g_pairs g)) as Hpairs.
    { intros [i p] Hi. apply number_in in Hi. cbn. now apply nth_error_In in Hi. }
    revert l Hn Hh Hpairs. generalize (number (g_pairs g)) as ips. induction ips as [|[i [a c]] ips IH]; intros l Hn Hh Hpairs; [split; reflexivity|].
    cbn [fold_left fst snd]. cbv zeta.
    assert (In (a, c) (g_pairs g)) as Hac by (apply (Hpairs (i, (a, c))); now left).
    destruct (has a b || has c b) eqn:Eb; [apply IH; auto; intros ip Hip; apply Hpairs; now right|].
    apply orb_false_iff in Eb as [Ea Ec]. apply has_false in Ea, Ec.
    set (pv := nth (l_pivot w k i mod length (s :: ss)) (s :: ss) s).
    assert (In pv (selfs g)) as Hpv by (rewrite Es; apply nth_In, Nat.mod_upper_bound; discriminate).
    destruct Hh as (H1 & H2 & H3). destruct (H2 g Hgin) as [H4 H5]. destruct (H4 a c Hac) as [Hla Hlc]. specialize (H5 pv Hpv).
    destruct (proj1 Hp g a c Hgin Hac) as (N1 & N2 & N3). fold (selfs g) in N2, N3.
    assert (Permutation l (around l pv a c)) as HP by (apply around_perm; auto; congruence).
    assert (filter f (around l pv a c) = filter f l) as HF.
    { assert (f a = false /\ f c = false) as [Fa Fc].
      { split; [destruct (f a) eqn:F|destruct (f c) eqn:F]; auto; apply Hf in F; tauto. }
      assert (forall i x l, f x = false -> filter f (ins i x l) = filter f l) as FI.
      { intros j x m Hx. unfold ins. rewrite filter_app. cbn [filter]. rewrite Hx, <- filter_app. now rewrite firstn_skipn. }
      assert (forall i l, f (nth i l 0) = false -> i < length l -> filter f (del i l) = filter f l) as FD.
      { intros j m Hx Hj. unfold del. rewrite <- (firstn_skipn j m) at 3. rewrite !filter_app. f_equal.
        clear - Hx Hj. revert j Hx Hj. induction m as [|y m IHm]; intros [|j] Hx Hj; cbn in *; try lia; [now rewrite Hx|]. apply IHm; auto. lia. }
      destruct (at_in _ _ Hla) as [A1 A2], (at_in _ _ Hlc) as [C1 C2], (at_in _ _ H5) as [P1 P2].
      assert (at_ l a <> at_ l c) by congruence.
      assert (forall x y, (x = a /\ y = c \/ x = c /\ y = a) -> at_ l x < at_ l y ->
        filter f (if at_ l y <? at_ l pv then del (at_ l x) (del (at_ l y) (ins (at_ l pv) x (ins (at_ l pv + 1) y l)))
          else if at_ l x <? at_ l pv then del (at_ l x) (ins (at_ l pv) x (ins (at_ l pv + 1) y (del (at_ l y) l)))
          else ins (at_ l pv) x (ins (at_ l pv + 1) y (del (at_ l x) (del (at_ l y) l)))) = filter f l) as HH.
      { intros x y Hxy Hlt. assert (f x = false /\ f y = false) as [Fx Fy] by (destruct Hxy as [[-> ->]|[-> ->]]; auto).
        assert (at_ l x < length l /\ nth (at_ l x) l 0 = x) as [X1 X2] by (destruct Hxy as [[-> ->]|[-> ->]]; auto).
        assert (at_ l y < length l /\ nth (at_ l y) l 0 = y) as [Y1 Y2] by (destruct Hxy as [[-> ->]|[-> ->]]; auto).
        destruct (Nat.ltb_spec (at_ l y) (at_ l pv)); [|destruct (Nat.ltb_spec (at_ l x) (at_ l pv))].
        - rewrite FD, FD, !FI; auto.
          + rewrite !ins_nth by (rewrite ?ins_len; lia). now rewrite Y2.
          + rewrite !ins_len; lia.
          + rewrite del_nth, !ins_nth by (rewrite ?ins_len; lia). now rewrite X2.
          + rewrite del_len; rewrite !ins_len; lia.
        - rewrite FD, !FI, FD; auto; [now rewrite Y2| |].
          + rewrite !ins_nth by (rewrite ?ins_len, ?del_len; lia). rewrite del_nth by lia. now rewrite X2.
          + rewrite !ins_len, del_len; lia.
        - rewrite !FI, FD, FD; auto; [now rewrite Y2| |rewrite del_len; lia]. rewrite del_nth by lia. now rewrite X2. }
      unfold around. destruct (Nat.ltb_spec (at_ l c) (at_ l a)); apply HH; auto; lia. }
    destruct (IH (around l pv a c)) as [I1 I2].
    - eapply Permutation_NoDup; eauto.
    - eapply holds_perm; eauto. split; auto.
    - intros ip Hip. apply Hpairs. now right.
    - split; [exact (Permutation_trans HP I1)|congruence]. }
  apply H; auto. intros [k g] Hk. apply number_in in Hk. now apply nth_error_In in Hk.
Qed.
Lemma abuts_perm d os l : NoDup l -> (forall o, In o os -> In (o_first o) l /\ In (o_second o) l /\ o_first o <> o_second o) -> Permutation l (fold_left (abut d) os l).
Proof.
  revert l. induction os as [|o os IH]; intros l Hn H; [reflexivity|]. cbn [fold_left].
  destruct (H o (or_introl eq_refl)) as (A & B & C). pose proof (abut_perm d l o Hn A B C) as HP. apply (Permutation_trans HP). apply IH.
  - eapply Permutation_NoDup; eauto.
  - intros o' Ho. destruct (H o' (or_intror Ho)) as (A' & B' & C'). repeat split; auto; eapply Permutation_in; eauto.
Qed.

(** * The whole *)

Lemma order_incl d l : holds_all d l -> incl (order_blocks (o_orders d)) l.
Proof.
  intros Hh x Hx. apply (proj2 (order_blocks_spec _)) in Hx as (o & Ho & Hx). destruct (holds_both _ _ Hh o Ho). destruct Hx; now subst.
Qed.
Lemma precedes_filter f l r u v : NoDup l -> NoDup r -> filter f r = filter f l -> f u = true -> f v = true -> precedes l u v -> precedes r u v.
Proof.
  intros Hl Hr E Fu Fv (l1 & l2 & l3 & ->). rewrite !filter_app in E. cbn [filter] in E. rewrite Fu, filter_app in E. cbn [filter] in E. rewrite Fv in E.
  assert (In u r /\ In v r) as [Hu Hv].
  { split; apply (proj1 (filter_In f _ r)); rewrite E; apply in_or_app; right; [now left|right; apply in_elt]. }
  apply at_precedes; auto. destruct (Nat.lt_total (at_ r u) (at_ r v)) as [|[H|H]]; auto.
  - apply at_same in H; auto. subst. exfalso. apply NoDup_remove_2 in Hl. apply Hl. apply in_or_app. right. apply in_elt.
  - exfalso. apply at_precedes in H; auto. destruct H as (r1 & r2 & r3 & ->). rewrite !filter_app in E. cbn [filter] in E. rewrite Fv, filter_app in E. cbn [filter] in E. rewrite Fu in E.
    assert (NoDup (filter f (r1 ++ v :: r2 ++ u :: r3))) as Hn by now apply NoDup_filter.
    rewrite !filter_app in Hn. cbn [filter] in Hn. rewrite Fv, filter_app in Hn. cbn [filter] in Hn. rewrite Fu in Hn.
    assert (precedes (filter f r1 ++ v :: filter f r2 ++ u :: filter f r3) v u) as A by (do 3 eexists; reflexivity).
    assert (precedes (filter f r1 ++ v :: filter f r2 ++ u :: filter f r3) u v) as B by (rewrite E; do 3 eexists; reflexivity).
    apply precedes_at in A, B; auto. lia.
Qed.

(** What the first half makes of the positive sequence. *)
Definition first_half (fuel : nat) (d : odesign) (w : luck) (pos : list nat) : option outcome :=
  let b := order_blocks (o_orders d) in
  match place pos b (topo_sort (l_pos w) b (pos_edges d pos)) with
  | None => None
  | Some p1 => Some (loop_pos fuel d [pos] (fold_left (abut d) (o_abuts d) (surround d w p1)))
  end.
Lemma first_half_ends fuel d w pos : NoDup pos -> holds_all d pos -> proper d -> shuffles w ->
  (forall u v, In (u, v) (pos_edges d pos) -> In u (order_blocks (o_orders d)) /\ In v (order_blocks (o_orders d))) -> acyclic (pos_edges d pos) ->
  fact (length pos) <= fuel ->
  exists p, Permutation pos p /\ (first_half fuel d w pos = Some (Done p) \/ (first_half fuel d w pos = Some (Stuck p) /\ o_abuts d <> [])).
Proof.
  intros Hn Hh Hp [Hs _] Hw Ha Hf. unfold first_half. cbv zeta. set (b := order_blocks (o_orders d)) in *.
  assert (NoDup b) as Hb by apply order_blocks_spec.
  assert (listing b (pos_edges d pos) (topo_sort (l_pos w) b (pos_edges d pos))) as HL by (apply topo_listing; auto; apply pos_edges_nodup).
  destruct (place_listing pos b _ _ Hn Hb (order_incl d pos Hh) HL) as (p1 & E & [R1 R2] & R3). rewrite E.
  assert (NoDup p1) as Hn1 by (eapply Permutation_NoDup; eauto). assert (holds_all d p1) as Hh1 by (eapply holds_perm; eauto).
  destruct (surround_step d w p1 (fun x => has x b) Hn1 Hh1 Hp) as [S1 S2]; [intros x; apply has_iff|].
  set (p2 := surround d w p1) in *. assert (NoDup p2) as Hn2 by (eapply Permutation_NoDup; eauto). assert (holds_all d p2) as Hh2 by (eapply holds_perm; eauto).
  assert (Permutation p2 (fold_left (abut d) (o_abuts d) p2)) as HA.
  { apply abuts_perm; auto. intros [[x y] m] Ho. unfold o_first, o_second. cbn. destruct (proj2 (proj2 Hh2) _ _ _ Ho). repeat split; auto. eapply (proj2 Hp); eauto. }
  set (p3 := fold_left (abut d) (o_abuts d) p2) in *.
  assert (Permutation pos p3) as HP by exact (Permutation_trans R1 (Permutation_trans S1 HA)).
  destruct (o_abuts d) as [|o os] eqn:Eab.
  - exists p2. split; [exact (Permutation_trans R1 S1)|]. left. subst p3. cbn [fold_left]. destruct fuel as [|f]; [pose proof (lt_O_fact (length pos)); lia|]. cbn [loop_pos].
    rewrite fix_pos_ok; auto; [now apply holds_both|]. intros o Ho. apply Nat.lt_le_incl.
    apply precedes_at; auto. apply (precedes_filter (fun x => has x b) p1); auto.
    + apply has_iff. apply order_blocks_spec. eauto.
    + apply has_iff. apply order_blocks_spec. eauto.
    + apply R3. now apply pos_edges_order.
  - destruct (loop_pos_ends fuel d [pos] p3) as (p & P1 & P2).
    + eapply Permutation_NoDup; eauto.
    + eapply both_perm; eauto. now apply holds_both.
    + constructor; [easy|constructor].
    + intros v [<-|[]]. now symmetry.
    + rewrite <- (Permutation_length HP). cbn. lia.
    + exists p. split; [exact (Permutation_trans HP P1)|]. destruct P2 as [->| ->]; auto. right. split; auto. discriminate.
Qed.
Lemma keep_half fuel d w pos neg : keep_ordering fuel d w pos neg =
  match first_half fuel d w pos with
  | Some (Done p) =>
      match place neg (neg_blocks d) (topo_sort (l_neg w) (neg_blocks d) (neg_edges d p)) with
      | None => None
      | Some n1 => match loop_neg fuel d [neg] n1 with Done n => Some (p, n, true) | Stuck n => Some (p, n, false) | _ => None end
      end
  | Some (Stuck p) => Some (p, neg, false)
  | _ => None
  end.
Proof.
  unfold keep_ordering, first_half. cbv zeta. destruct (place pos _ _); reflexivity.
Qed.
Lemma second_half fuel d w neg p : NoDup neg -> holds_all d neg -> shuffles w -> acyclic (neg_edges d p) -> 0 < fuel ->
  exists n, place neg (neg_blocks d) (topo_sort (l_neg w) (neg_blocks d) (neg_edges d p)) = Some n /\
    rearranged (fun x => In x (neg_blocks d)) neg n /\ loop_neg fuel d [neg] n = Done n.
Proof.
  intros Hn Hh [_ Hs] Ha Hf. destruct (neg_blocks_spec d) as (B1 & B2 & B3). destruct (neg_edges_good d p) as [[G1 G2] G3].
  assert (listing (neg_blocks d) (neg_edges d p) (topo_sort (l_neg w) (neg_blocks d) (neg_edges d p))) as HL by (apply topo_listing; auto).
  destruct (place_listing neg _ _ _ Hn B1 (B3 _ Hh) HL) as (n & E & R & O). exists n. split; [exact E|]. split; [exact R|].
  destruct R as [R _]. assert (NoDup n) as Hnn by (eapply Permutation_NoDup; eauto).
  destruct fuel as [|f]; [lia|]. cbn [loop_neg]. rewrite fix_neg_ok; auto.
  - eapply both_perm; eauto. now apply holds_both.
  - intros o Ho. pose proof (O _ _ (G3 o Ho)) as X. apply precedes_at in X as [X _]; auto. unfold neg_first, neg_second in X.
    destruct (snd o); lia.
Qed.

Theorem keep_complete fuel d w pos : NoDup pos -> holds_all d pos -> proper d -> shuffles w ->
  (forall u v, In (u, v) (pos_edges d pos) -> constrained d u /\ constrained d v) -> acyclic (pos_edges d pos) ->
  fact (length pos) <= fuel ->
  exists p, Permutation pos p /\
    forall neg, NoDup neg -> holds_all d neg ->
      (o_abuts d <> [] /\ keep_ordering fuel d w pos neg = Some (p, neg, false)) \/
      (acyclic (neg_edges d p) -> exists n, keep_ordering fuel d w pos neg = Some (p, n, true) /\
          rearranged (fun x => In x (neg_blocks d)) neg n).
Proof.
  intros Hn Hh Hp Hs Hw Ha Hf.
  destruct (first_half_ends fuel d w pos) as (p & P & E); auto.
  { intros u v H. apply Hw in H as [(a & b & m & Hu & Eu) (a' & b' & m' & Hv & Ev)]. split; apply order_blocks_spec; [exists ((a, b), m)|exists ((a', b'), m')]; auto. }
  exists p. split; [exact P|]. intros neg Nn Nh. rewrite keep_half. destruct E as [->|[-> Hab]]; [|auto]. right. intros Hc.
  destruct (second_half fuel d w neg p Nn Nh Hs Hc) as (n & -> & R & ->); [pose proof (lt_O_fact (length pos)); lia|]. eauto.
Qed.

(** Without symmetry, alignment and abutment. *)
Theorem keep_plain fuel d w pos neg p0 q0 : o_aligns d = [] -> o_syms d = [] -> o_abuts d = [] ->
  NoDup pos -> NoDup neg -> (forall a b m, In ((a, b), m) (o_orders d) -> In a pos /\ In b pos /\ In a neg /\ In b neg) -> shuffles w ->
  NoDup p0 -> NoDup q0 -> (forall c, In c (o_orders d) -> keeps p0 q0 c) -> 0 < fuel ->
  exists p n, keep_ordering fuel d w pos neg = Some (p, n, true) /\ rearranged (constrained d) pos p /\ rearranged (constrained d) neg n /\
    forall c, In c (o_orders d) -> keeps p n c.
Proof.
  intros A S B Hn Nn Hin Hs Hp0 Hq0 Hk Hf.
  assert (holds_all d pos) as Hh by (split; [intros a b m H; now apply Hin in H|split; [rewrite S; intros g []|rewrite B; intros a b m []]]).
  assert (holds_all d neg) as Nh by (split; [intros a b m H; now apply Hin in H|split; [rewrite S; intros g []|rewrite B; intros a b m []]]).
  set (b := order_blocks (o_orders d)).
  assert (pos_edges d pos = order_edges (o_orders d)) as EP by (unfold pos_edges; now rewrite A).
  assert (forall p, neg_edges d p = order_edges_neg (o_orders d)) as EN by (intros p; unfold neg_edges; now rewrite A, S).
  assert (neg_blocks d = b) as EB by (unfold neg_blocks; now rewrite S).
  assert (forall c, In c (o_orders d) -> at_ p0 (o_first c) < at_ p0 (o_second c) /\ at_ q0 (neg_first c) < at_ q0 (neg_second c)) as HR.
  { intros c Hc. pose proof (Hk c Hc) as K. unfold keeps, left_of, above in K. unfold neg_first, neg_second, o_first, o_second.
    destruct (snd c); destruct K as [K1 K2]; apply precedes_at in K1, K2; auto; tauto. }
  assert (acyclic (order_edges (o_orders d))) as AP.
  { exists (at_ p0). intros u v H. apply order_edges_only in H as [[]|(o & Ho & -> & ->)]. now apply HR. }
  assert (acyclic (order_edges_neg (o_orders d))) as AN.
  { exists (at_ q0). intros u v H. unfold order_edges_neg in H. rewrite neg_edges_eq in H. apply neg_edges_only in H as [[]|(o & Ho & -> & ->)]. now apply HR. }
  assert (forall x, In x b <-> constrained d x) as BC.
  { intros x. unfold b. rewrite (proj2 (order_blocks_spec (o_orders d)) x). unfold constrained, o_first, o_second. split.
    - intros ([[y z] m] & Ho & H). exists y, z, m. auto.
    - intros (y & z & m & Ho & H). exists ((y, z), m). auto. }
  destruct Hs as [Hs1 Hs2].
  assert (listing b (pos_edges d pos) (topo_sort (l_pos w) b (pos_edges d pos))) as HL.
  { rewrite EP. apply topo_listing; auto; [apply order_blocks_spec|rewrite <- EP; apply pos_edges_nodup|].
    intros u v H. apply order_edges_only in H as [[]|(o & Ho & -> & ->)]. split; apply order_blocks_spec; eauto. }
  destruct (place_listing pos b _ _ Hn (proj1 (order_blocks_spec _)) (order_incl d pos Hh) HL) as (p & E & R & O).
  assert (NoDup p) as Hnp by (destruct R as [R _]; eapply Permutation_NoDup; eauto).
  assert (first_half fuel d w pos = Some (Done p)) as F.
  { unfold first_half. cbv zeta. fold b. rewrite E. unfold surround. rewrite S, B. cbn [number fold_left combine seq length].
    change (fold_left _ (number []) p) with p. destruct fuel as [|f]; [lia|]. cbn [loop_pos].
    rewrite fix_pos_ok; auto; [eapply both_perm; [apply R|now apply holds_both]|].
    intros o Ho. apply Nat.lt_le_incl. apply precedes_at; auto. apply O. now apply pos_edges_order. }
  destruct (second_half fuel d w neg p Nn Nh (conj Hs1 Hs2)) as (n & E2 & R2 & L2); [now rewrite EN|auto|].
  assert (keep_ordering fuel d w pos neg = Some (p, n, true)) as K by now rewrite keep_half, F, E2, L2.
  exists p, n. split; [exact K|]. rewrite EB in R2. split; [|split].
  - destruct R as [R1 R3]. split; auto. intros i Hi H. apply R3; auto. now rewrite BC.
  - destruct R2 as [R1 R3]. split; auto. intros i Hi H. apply R3; auto. now rewrite BC.
  - intros [[x y] m] Hc. apply (proj1 (keep_sound _ _ _ _ _ _ _ K)); auto. intros ->. pose proof (HR _ Hc) as [H _]. unfold o_first, o_second in H. cbn in H. lia.
Qed.
