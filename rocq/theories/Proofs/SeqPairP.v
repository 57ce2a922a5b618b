From Coq Require Import String QArith Qround Lqa.
From Verif Require Import Base.Prelude Base.PyDict Model.Transformation Model.RemoveDuplicates Model.Hpwl Model.PlaceGrid Model.SeqPair
  Spec.Geometry Spec.PlaceGridSpec Spec.SeqPairSpec Proofs.HpwlP Proofs.PlaceGridP.
Local Open Scope nat_scope.

(** * Generic *)
Lemma mapM_forall2 {A B} (f : A -> option B) l bs : mapM f l = Some bs -> Forall2 (fun a b => f a = Some b) l bs.
Proof.
  revert bs; induction l as [|a l IH]; simpl; intros bs E; [injection E as <-; constructor|].
  destruct (f a) eqn:Ea; [|discriminate]. destruct (mapM f l); [|discriminate]. injection E as <-. constructor; auto.
Qed.
Lemma mapM_fwd {A B} (f : A -> option B) l bs a : mapM f l = Some bs -> In a l -> exists b, f a = Some b /\ In b bs.
Proof.
  intros E. apply mapM_forall2 in E. induction E; simpl; [tauto|]. intros [<-|Hi]; [eauto|].
  destruct (IHE Hi) as (b & ? & ?). eauto.
Qed.
Lemma concatM_fwd {A B} (f : A -> option (list B)) l r a : concatM f l = Some r -> In a l -> exists x, f a = Some x /\ incl x r.
Proof.
  revert r; induction l as [|a0 l IH]; simpl; intros r E; [tauto|].
  destruct (f a0) eqn:Ea; [|discriminate]. destruct (concatM f l) eqn:El; [|discriminate]. injection E as <-.
  intros [<-|Hi].
  - eexists; split; [eassumption|]. intros z Hz. apply in_or_app. now left.
  - destruct (IH _ eq_refl Hi) as (x & ? & Hx). exists x; split; auto. intros z Hz. apply in_or_app. right. auto.
Qed.

(** * Positions *)
Lemma combine_seq_nth (l : list nat) s i k : In (i, k) (combine (seq s (length l)) l) <-> s <= i /\ nth_error l (i - s) = Some k.
Proof.
  revert s. induction l as [|x l IH]; intros s; simpl.
  - split; [tauto|]. intros (_ & E). destruct (i - s); discriminate.
  - split.
    + intros [E|Hi].
      * injection E as <- <-. rewrite Nat.sub_diag. auto.
      * apply IH in Hi as (Hle & E). split; [lia|]. replace (i - s) with (Datatypes.S (i - Datatypes.S s)) by lia. exact E.
    + intros (Hle & E). destruct (Nat.eq_dec i s) as [->|Hne].
      * rewrite Nat.sub_diag in E. injection E as <-. now left.
      * right. apply IH. split; [lia|]. replace (i - s) with (Datatypes.S (i - Datatypes.S s)) in E by lia. exact E.
Qed.

Lemma position_nth l k i : NoDup l -> position l k = Some i <-> nth_error l i = Some k.
Proof.
  intros Hnd. unfold position.
  assert (Hk : forall (s : nat) (m : list nat), map snd (combine (seq s (length m)) m) = m).
  { intros s m; revert s; induction m; intros; simpl; f_equal; auto. }
  assert (E : fold_left (fun d p => dset Nat.eqb d (snd p) (fst p)) (combine (seq 0 (length l)) l) [] =
              map (fun p => (snd p, fst p)) (combine (seq 0 (length l)) l)).
  { rewrite <- (app_nil_l (map _ _)). rewrite <- (fold_dset_nodup Nat.eqb Nat.eqb_eq).
    - generalize (combine (seq 0 (length l)) l) (@nil (nat * nat)). induction l0 as [|p l0 IH]; intros d; simpl; auto.
    - rewrite app_nil_l, map_map. change (NoDup (map snd (combine (seq 0 (length l)) l))). now rewrite (Hk 0 l). }
  rewrite E. clear E.
  assert (Hnd' : NoDup (map fst (map (fun p : nat * nat => (snd p, fst p)) (combine (seq 0 (length l)) l)))).
  { rewrite map_map. change (NoDup (map snd (combine (seq 0 (length l)) l))). now rewrite (Hk 0 l). }
  assert (Hin : In (k, i) (map (fun p : nat * nat => (snd p, fst p)) (combine (seq 0 (length l)) l)) <-> nth_error l i = Some k).
  { rewrite in_map_iff. split.
    - intros ((a, b) & E & Hi). simpl in E. injection E as -> ->. apply combine_seq_nth in Hi as (_ & E). now rewrite Nat.sub_0_r in E.
    - intros E. exists (i, k). split; [reflexivity|]. apply combine_seq_nth. rewrite Nat.sub_0_r. split; [lia|exact E]. }
  rewrite <- Hin. split; intros H.
  - eapply dget_in; [|exact H]. apply Nat.eqb_eq.
  - apply in_dget; auto. apply Nat.eqb_eq.
Qed.

Lemma position_some l k : NoDup l -> In k l -> exists i, position l k = Some i.
Proof. intros Hnd Hi. apply In_nth_error in Hi as (i & Hi). exists i. now apply position_nth. Qed.

Lemma position_inj l a b i : NoDup l -> position l a = Some i -> position l b = Some i -> a = b.
Proof. intros Hnd Ha Hb. apply position_nth in Ha, Hb; auto. congruence. Qed.

Definition before (l : list nat) (a b : nat) : Prop := exists i j, position l a = Some i /\ position l b = Some j /\ i < j.

Lemma before_trans l a b c : before l a b -> before l b c -> before l a c.
Proof. intros (i & j & ? & ? & ?) (j' & k & ? & ? & ?). exists i, k. replace j' with j in * by congruence. repeat split; auto; lia. Qed.

Lemma before_total l a b : NoDup l -> In a l -> In b l -> a <> b -> before l a b \/ before l b a.
Proof.
  intros Hnd Ha Hb Hne. destruct (position_some l a Hnd Ha) as (i & Ei), (position_some l b Hnd Hb) as (j & Ej).
  destruct (Nat.lt_trichotomy i j) as [H|[->|H]].
  - left; exists i, j; auto.
  - exfalso. apply Hne. eapply position_inj; eauto.
  - right; exists j, i; auto.
Qed.

Lemma combos_in {A} (l : list A) a b : In (a, b) (combos l) <-> exists l1 l2 l3, l = l1 ++ a :: l2 ++ b :: l3.
Proof.
  induction l as [|x l IH]; simpl.
  - split; [tauto|]. intros (l1 & l2 & l3 & E). destruct l1; discriminate.
  - rewrite in_app_iff, in_map_iff, IH. split.
    + intros [(y & E & Hy)|(l1 & l2 & l3 & ->)].
      * injection E as <- <-. apply in_split in Hy as (l1 & l2 & ->). exists [], l1, l2. reflexivity.
      * exists (x :: l1), l2, l3. reflexivity.
    + intros (l1 & l2 & l3 & E). destruct l1 as [|y l1]; injection E as -> ->.
      * left. exists b. split; auto. apply in_elt.
      * right. exists l1, l2, l3. reflexivity.
Qed.

Lemma combos_two {A} (l : list A) a b : In a l -> In b l -> a <> b -> In (a, b) (combos l) \/ In (b, a) (combos l).
Proof.
  induction l as [|x l IH]; simpl; [tauto|]. intros [->|Ha] [->|Hb] Hne; [congruence| | |].
  - left. apply in_app_iff. left. now apply in_map.
  - right. apply in_app_iff. left. now apply in_map.
  - destruct IH as [H|H]; auto; [left|right]; apply in_app_iff; now right.
Qed.

(** * Constraints of a sequence pair *)
Section Pair.
  Variables (cs : list ucon) (im : imap) (size : string -> Z * Z) (sp : list nat * list nat) (ws : wires_t) (pg : string -> list pog) (scale : Z).
  Variables (k : list con) (s : sol).
  Hypothesis Him : imap_ok im.
  Hypothesis Hsp : sp_ok im sp.
  Hypothesis Hpost : posted cs im size sp ws pg scale = Some k.
  Hypothesis Hfeas : feasible k s.

  Lemma feas_in c : In c k -> c s.
  Proof. intros Hc. unfold feasible in Hfeas. rewrite Forall_forall in Hfeas. now apply Hfeas. Qed.

  Lemma posted_parts : exists a b c, concatM (fun e => option_map (app (inst_cons size (fst e))) (pog_cons size (fst e) (pg (fst e)))) im = Some a /\
    sp_cons sp im = Some b /\ concatM (user_con scale) cs = Some c /\
    k = ([fun s => in_bounds (v_W s); fun s => in_bounds (v_H s)] ++ a ++ b ++ c ++ wires_cons size cs ws)%list.
  Proof.
    unfold posted in Hpost. destruct (concatM _ im) as [a|]; [|discriminate]. destruct (sp_cons sp im) as [b|]; [|discriminate].
    destruct (concatM (user_con scale) cs) as [c|]; [|discriminate]. injection Hpost as <-. exists a, b, c. auto.
  Qed.

  Lemma inst_con n c : In n (map fst im) -> In c (inst_cons size n) -> c s.
  Proof.
    intros Hn Hc. destruct posted_parts as (a & b & c' & Ea & _ & _ & Ek). apply in_map_iff in Hn as (e & <- & He).
    destruct (concatM_fwd _ _ _ e Ea He) as (x & Ex & Hx). apply feas_in. rewrite Ek. apply in_or_app; right. apply in_or_app; left.
    apply Hx. destruct (pog_cons size (fst e) (pg (fst e))); [|discriminate]. injection Ex as <-.
    destruct Hc as [<-|[<-|[<-|[<-|[<-|[<-|[<-|[<-|[]]]]]]]]]; simpl; auto 12.
  Qed.

  Lemma pog_inst n c : In n (map fst im) -> In c (pg n) -> exists q, pog_con size n c = Some q /\ q s.
  Proof.
    intros Hn Hc. destruct posted_parts as (a & b & c' & Ea & _ & _ & Ek). apply in_map_iff in Hn as (e & <- & He).
    destruct (concatM_fwd _ _ _ e Ea He) as (x & Ex & Hx).
    destruct (pog_cons size (fst e) (pg (fst e))) as [y|] eqn:Ey; [|discriminate]. injection Ex as <-.
    unfold pog_cons in Ey. destruct (length (pg (fst e)) <=? 2); [|discriminate].
    destruct (mapM_fwd _ _ _ c Ey Hc) as (q & Eq & Hq). exists q. split; auto.
    apply feas_in. rewrite Ek. apply in_or_app; right. apply in_or_app; left. apply Hx. do 8 right. exact Hq.
  Qed.

  Lemma user_in c x q : In c cs -> user_con scale c = Some x -> In q x -> q s.
  Proof.
    intros Hc Ex Hq. destruct posted_parts as (a & b & c' & _ & _ & Ec & Ek).
    destruct (concatM_fwd _ _ _ c Ec Hc) as (x' & Ex' & Hx'). assert (x' = x) by congruence. subst x'.
    apply feas_in. rewrite Ek. do 3 (apply in_or_app; right). apply in_or_app; left. auto.
  Qed.

  Lemma user_some c : In c cs -> exists x, user_con scale c = Some x.
  Proof. intros Hc. destruct posted_parts as (a & b & c' & _ & _ & Ec & Ek). destruct (concatM_fwd _ _ _ c Ec Hc) as (x' & Ex' & Hx'). eauto. Qed.

  Lemma wire_in q : In q (wires_cons size cs ws) -> q s.
  Proof. intros Hq. destruct posted_parts as (a & b & c' & _ & _ & Ec & Ek). apply feas_in. rewrite Ek. do 4 (apply in_or_app; right). exact Hq. Qed.

  Lemma W_bound : in_bounds (v_W s) /\ in_bounds (v_H s).
  Proof. destruct posted_parts as (a & b & c' & _ & _ & Ec & Ek). split; apply feas_in; rewrite Ek; simpl; auto. Qed.

  Lemma pair_in e0 e1 : In (e0, e1) (combos im) -> exists q, sp_con sp e0 e1 = Some q /\ q s.
  Proof.
    intros Hp. destruct posted_parts as (a & b & c' & _ & Eb & _ & Ek).
    destruct (mapM_fwd _ _ _ _ Eb Hp) as (q & Eq & Hq). exists q; split; auto.
    apply feas_in. rewrite Ek. do 2 (apply in_or_app; right). apply in_or_app; left. exact Hq.
  Qed.

  Lemma inst_facts n : In n (map fst im) ->
    (0 <= qlx (v_box s n) /\ 0 <= qly (v_box s n) /\ qux (v_box s n) - qlx (v_box s n) == inject_Z (fst (size n)) /\
     quy (v_box s n) - qly (v_box s n) == inject_Z (snd (size n)) /\ qux (v_box s n) <= v_W s /\ quy (v_box s n) <= v_H s)%Q.
  Proof.
    intros Hn. pose proof (fun c => inst_con n c Hn) as H.
    assert (H1 := H (fun s => in_bounds (qlx (v_box s n))) ltac:(simpl; tauto)).
    assert (H2 := H (fun s => in_bounds (qly (v_box s n))) ltac:(simpl; tauto)).
    assert (H3 := H (fun s => qux (v_box s n) - qlx (v_box s n) == inject_Z (fst (size n)))%Q ltac:(simpl; tauto)).
    assert (H4 := H (fun s => quy (v_box s n) - qly (v_box s n) == inject_Z (snd (size n)))%Q ltac:(simpl; tauto)).
    assert (H5 := H (fun s => qux (v_box s n) <= v_W s)%Q ltac:(simpl; tauto)).
    assert (H6 := H (fun s => quy (v_box s n) <= v_H s)%Q ltac:(simpl; tauto)).
    unfold in_bounds in H1, H2. tauto.
  Qed.

  Lemma inside n : In n (map fst im) -> q_inside (v_W s) (v_H s) (v_box s n).
  Proof. intros Hn. apply inst_facts in Hn. unfold q_inside. tauto. Qed.

  Lemma im_index n i : In (n, i) im -> i < length im.
  Proof.
    intros Hn. assert (H : In i (map snd im)) by (apply in_map_iff; exists (n, i); auto). destruct Him as (_ & E). rewrite E in H.
    apply in_seq in H. lia.
  Qed.
  Lemma im_nodup : NoDup (map snd im).
  Proof. destruct Him as (_ & ->). apply seq_NoDup. Qed.
  Lemma im_names_ne n0 i0 n1 i1 : In (n0, i0) im -> In (n1, i1) im -> n0 <> n1 -> i0 <> i1.
  Proof.
    intros H0 H1 Hne ->. apply Hne. pose proof im_nodup as Hnd. clear - H0 H1 Hnd.
    induction im as [|(n, i) l IH]; simpl in *; [tauto|]. apply NoDup_cons_iff in Hnd as (H2 & Hnd).
    destruct H0 as [E0|H0], H1 as [E1|H1].
    - congruence.
    - injection E0 as -> ->. exfalso. apply H2. apply in_map_iff. exists (n1, i1). auto.
    - injection E1 as -> ->. exfalso. apply H2. apply in_map_iff. exists (n0, i1). auto.
    - auto.
  Qed.

  Lemma sp_nodup : NoDup (fst sp) /\ NoDup (snd sp).
  Proof. destruct Hsp as (A & B). split; eapply Permutation_NoDup; try (symmetry; eassumption); apply seq_NoDup. Qed.
  Lemma sp_in n i : In (n, i) im -> In i (fst sp) /\ In i (snd sp).
  Proof.
    intros Hn. apply im_index in Hn. destruct Hsp as (A & B).
    split; (eapply Permutation_in; [symmetry; eassumption|]); apply in_seq; lia.
  Qed.

  (** The relation forced on two blocks by their relative positions. *)
  Lemma forced n0 i0 n1 i1 : In (n0, i0) im -> In (n1, i1) im -> n0 <> n1 ->
    ((before (fst sp) i0 i1 -> before (snd sp) i0 i1 -> qux (v_box s n0) <= qlx (v_box s n1)) /\
     (before (fst sp) i0 i1 -> before (snd sp) i1 i0 -> quy (v_box s n1) <= qly (v_box s n0)))%Q.
  Proof.
    intros H0 H1 Hne. assert (Hne' : (n0, i0) <> (n1, i1)) by congruence.
    destruct (combos_two im (n0, i0) (n1, i1) H0 H1 Hne') as [Hc|Hc]; apply pair_in in Hc as (q & Eq & Hq);
      unfold sp_con in Eq; simpl in Eq;
      (split; [intros (a & b & Ea & Eb & Hab) (c & d & Ec & Ed & Hcd)|intros (a & b & Ea & Eb & Hab) (c & d & Ec & Ed & Hcd)]);
      rewrite Ea, Eb, Ec, Ed in Eq;
      repeat (match type of Eq with context [?x <? ?y] => destruct (Nat.ltb_spec x y) end; try lia); simpl in Eq;
      injection Eq as <-; exact Hq.
  Qed.

  Lemma disjoint n0 n1 : In n0 (map fst im) -> In n1 (map fst im) -> n0 <> n1 -> q_disjoint (v_box s n0) (v_box s n1).
  Proof.
    intros H0 H1 Hne. apply in_map_iff in H0 as ((n0', i0) & E0 & H0). apply in_map_iff in H1 as ((n1', i1) & E1 & H1). simpl in E0, E1. subst.
    assert (Hi := im_names_ne _ _ _ _ H0 H1 Hne). destruct sp_nodup as (N1 & N2). destruct (sp_in _ _ H0) as (A0 & B0), (sp_in _ _ H1) as (A1 & B1).
    destruct (forced _ _ _ _ H0 H1 Hne) as (F1 & F2). destruct (forced _ _ _ _ H1 H0 (not_eq_sym Hne)) as (F3 & F4).
    unfold q_disjoint. destruct (before_total _ _ _ N1 A0 A1 Hi), (before_total _ _ _ N2 B0 B1 Hi); tauto.
  Qed.
End Pair.

(** * Rounding and extraction *)
Lemma py_round_int q z : (q == inject_Z z)%Q -> py_round q = z.
Proof.
  intros E. assert (Ef : Qfloor q = z) by (rewrite E; apply Qfloor_Z).
  unfold py_round. rewrite Ef. assert (Hd : (q - inject_Z z == 0)%Q) by (rewrite E; ring).
  destruct (Qle_bool (q - inject_Z z) (1 # 2)) eqn:E1.
  - destruct (Qle_bool (1 # 2) (q - inject_Z z)) eqn:E2; [|reflexivity]. apply Qle_bool_iff in E2. rewrite Hd in E2. lra.
  - exfalso. assert (H : Qle_bool (q - inject_Z z) (1 # 2) = true) by (apply Qle_bool_iff; rewrite Hd; lra). congruence.
Qed.

Lemma py_round_ge q z : (inject_Z z <= q)%Q -> (z <= py_round q)%Z.
Proof.
  intros H. assert (Hf : (z <= Qfloor q)%Z) by (rewrite <- (Qfloor_Z z); now apply Qfloor_resp_le).
  unfold py_round. destruct (Qle_bool _ _); [destruct (Qle_bool _ _); [destruct (Z.even _)|]|]; lia.
Qed.

Lemma extract_box size s n :
  (0 <= fst (size n))%Z -> (0 <= snd (size n))%Z -> int_box (v_box s n) ->
  (qux (v_box s n) - qlx (v_box s n) == inject_Z (fst (size n)))%Q -> (quy (v_box s n) - qly (v_box s n) == inject_Z (snd (size n)))%Q ->
  same_rect (v_box s n) (canonical (hitRect (extract size s n) (mkRect 0 0 (fst (size n)) (snd (size n))))).
Proof.
  intros Hw Hh ((x & Ex) & (y & Ey)) Sx Sy. destruct (size n) as (w, h) eqn:Es. cbn [fst snd] in *.
  assert (Ex' : py_round (qlx (v_box s n) + b2q (v_fx s n) * inject_Z w) = (x + b2z (v_fx s n) * w)%Z).
  { apply py_round_int. rewrite Ex. destruct (v_fx s n); unfold b2q, b2z; rewrite inject_Z_plus, inject_Z_mult; unfold inject_Z; ring. }
  assert (Ey' : py_round (qly (v_box s n) + b2q (v_fy s n) * inject_Z h) = (y + b2z (v_fy s n) * h)%Z).
  { apply py_round_int. rewrite Ey. destruct (v_fy s n); unfold b2q, b2z; rewrite inject_Z_plus, inject_Z_mult; unfold inject_Z; ring. }
  assert (Hc : canonical (hitRect (extract size s n) (mkRect 0 0 w h)) = mkRect x y (x + w) (y + h)).
  { unfold extract. rewrite Es. cbn [fst snd]. rewrite Ex', Ey'. unfold hitRect, hit, canonical. simpl.
    destruct (v_fx s n), (v_fy s n); unfold b2z; cbn [oX oY sX sY];
      match goal with |- context [(if (?a <? ?b)%Z then (?p, ?q) else (?u, ?v))] => destruct (Z.ltb_spec a b) end;
      match goal with |- context [(if (?a <? ?b)%Z then (?p, ?q) else (?u, ?v))] => destruct (Z.ltb_spec a b) end;
      f_equal; lia. }
  rewrite Hc. unfold same_rect. simpl. rewrite !inject_Z_plus. repeat split; try assumption.
  - rewrite <- Ex, <- Sx. ring.
  - rewrite <- Ey, <- Sy. ring.
Qed.

(** * PlaceOnGrid *)
Lemma os_sound c : NoDup (map fst (offset_scalings c)) /\
  forall o sc, In (o, sc) (offset_scalings c) -> (forall x, In x sc -> exists t, In t (pg_terms c) /\ In o (ot_offsets t) /\ In x (ot_scalings t)) /\
    (exists t, In t (pg_terms c) /\ In o (ot_offsets t) /\ incl (ot_scalings t) sc).
Proof.
  unfold offset_scalings.
  set (P := fun (ts : list oterm) (d : list (Z * list Z)) => NoDup (map fst d) /\ forall o sc, In (o, sc) d ->
    (forall x, In x sc -> exists t, In t ts /\ In o (ot_offsets t) /\ In x (ot_scalings t)) /\ (exists t, In t ts /\ In o (ot_offsets t) /\ incl (ot_scalings t) sc)).
  assert (Hoff : forall ts t os d, In t ts -> incl os (ot_offsets t) -> P ts d ->
     P ts (fold_left (fun d o => dupd Z.eqb d o (fun x => match x with Some l => (l ++ ot_scalings t)%list | None => ot_scalings t end)) os d)).
  { intros ts t os. induction os as [|o os IH]; intros d Ht Hi (Hnd & HP); [split; auto|]. simpl. apply IH; auto.
    { intros z Hz. apply Hi. now right. }
    split; [now apply dupd_nodup; [apply Z.eqb_eq|]|].
    intros o' sc Hin. apply (in_dget _ Z.eqb_eq) in Hin; [|now apply dupd_nodup; [apply Z.eqb_eq|]].
    destruct (Z.eq_dec o' o) as [->|Hne].
    - rewrite (dget_dupd_same _ Z.eqb_eq) in Hin. injection Hin as <-.
      destruct (dget Z.eqb d o) as [l|] eqn:El.
      + apply (dget_in _ Z.eqb_eq) in El. destruct (HP _ _ El) as (A & B). split.
        * intros x Hx. apply in_app_iff in Hx as [Hx|Hx]; [auto|]. exists t. repeat split; auto. apply Hi. now left.
        * exists t. repeat split; auto; [apply Hi; now left|]. intros z Hz. apply in_or_app; now right.
      + split; [intros x Hx|]; exists t; repeat split; auto; try (apply Hi; now left). apply incl_refl.
    - rewrite (dget_dupd_other _ Z.eqb_eq) in Hin by auto. apply HP. now apply (dget_in _ Z.eqb_eq). }
  assert (G : forall ts ts' d, incl ts' ts -> P ts d -> P ts (fold_left (fun d t => fold_left (fun d o => dupd Z.eqb d o (fun x => match x with Some l => (l ++ ot_scalings t)%list | None => ot_scalings t end)) (ot_offsets t) d) ts' d)).
  { intros ts ts'. induction ts' as [|t ts' IH]; intros d Hi HP; [exact HP|]. simpl. apply IH.
    - intros z Hz; apply Hi; now right.
    - apply Hoff; auto; [apply Hi; now left|apply incl_refl]. }
  apply (G (pg_terms c) (pg_terms c) []); [apply incl_refl|]. split; [constructor|]. intros ? ? [].
Qed.

Lemma one_true (os : list (Z * list Z)) (v : Z -> bool) : zsuml (map (fun e => b2z (v (fst e))) os) = 1%Z ->
  exists e, In e os /\ v (fst e) = true /\ zsuml (map (fun e => fst e * b2z (v (fst e)))%Z os) = fst e.
Proof.
  assert (Hpos : forall os, (0 <= zsuml (map (fun e : Z * list Z => b2z (v (fst e))) os))%Z).
  { induction os0 as [|a os0 IHos0]; cbn [map zsuml fold_right]; [lia|]. unfold zsuml in IHos0. destruct (v (fst a)); unfold b2z at 1; lia. }
  assert (Hz : forall os, zsuml (map (fun e : Z * list Z => b2z (v (fst e))) os) = 0%Z -> zsuml (map (fun e => fst e * b2z (v (fst e)))%Z os) = 0%Z).
  { induction os0 as [|a os0 IHos0]; cbn [map zsuml fold_right]; [reflexivity|]. intros E. specialize (Hpos os0). unfold zsuml in *. destruct (v (fst a)); unfold b2z at 1 in E; unfold b2z at 1; [lia|]. rewrite IHos0; lia. }
  induction os as [|e os IH]; cbn [map zsuml fold_right]; intros E; [discriminate|].
  destruct (v (fst e)) eqn:Ev; unfold b2z at 1 in E; unfold b2z at 1.
  - exists e. split; [now left|]. split; auto. unfold zsuml in *. rewrite Hz; lia.
  - destruct IH as (e' & Hi & Hv & Es); [unfold zsuml; lia|]. exists e'. split; [now right|]. split; auto. unfold zsuml in Es. rewrite Es. lia.
Qed.

Lemma set_eqb_ok l m : set_eqb l m = true <-> forall x, In x l <-> In x m.
Proof.
  unfold set_eqb, all_in. rewrite andb_true_iff, !forallb_forall. split.
  - intros (A & B) x. split; intros Hx; [apply A in Hx|apply B in Hx]; now apply zmem_ok.
  - intros H. split; intros x Hx; apply zmem_ok; now apply H.
Qed.

Lemma scalings_ok_in l : scalings_ok l = true -> l <> [] /\ forall x, In x l -> x = 1%Z \/ x = (-1)%Z.
Proof.
  intros H. unfold scalings_ok in H. rewrite !orb_true_iff, !set_eqb_ok in H. split.
  - intros ->. destruct H as [[H|H]|H].
    + destruct (proj2 (H 1%Z)); simpl; auto.
    + destruct (proj2 (H (-1)%Z)); simpl; auto.
    + destruct (proj2 (H (-1)%Z)); simpl; auto.
  - intros x Hx. destruct H as [[H|H]|H]; apply H in Hx; simpl in Hx; intuition lia.
Qed.

Lemma scal_con_in sc flip : sc <> [] -> (forall x, In x sc -> x = 1%Z \/ x = (-1)%Z) -> scal_con sc true flip ->
  In (if flip then (-1)%Z else 1%Z) sc.
Proof.
  intros Hne Hin H. unfold scal_con in H.
  assert (D : forall a, In a sc \/ ~ In a sc) by (intros a; destruct (in_dec Z.eq_dec a sc); auto).
  destruct (D 1%Z) as [D1|D1], (D (-1)%Z) as [D2|D2].
  - destruct flip; assumption.
  - assert (E : set_eqb sc [1%Z] = true).
    { apply set_eqb_ok. intros x. split; [|intros [<-|[]]; auto]. intros Hx. destruct (Hin x Hx) as [->| ->]; [now left|contradiction]. }
    rewrite E in H. destruct flip; simpl in H; [lia|assumption].
  - assert (E : set_eqb sc [(-1)%Z] = true).
    { apply set_eqb_ok. intros x. split; [|intros [<-|[]]; auto]. intros Hx. destruct (Hin x Hx) as [->| ->]; [contradiction|now left]. }
    destruct (set_eqb sc [1%Z]) eqn:E1.
    { exfalso. apply D1. apply (proj1 (set_eqb_ok _ _) E1). now left. }
    rewrite E in H. destruct flip; simpl in H; [assumption|lia].
  - destruct sc as [|x sc]; [congruence|]. exfalso. destruct (Hin x (or_introl eq_refl)) as [->| ->]; [apply D1|apply D2]; now left.
Qed.

Lemma round_origin ll f w z : (inject_Z (z - w * b2z f)%Z == ll)%Q -> py_round (ll + b2q f * inject_Z w) = z.
Proof.
  intros H. apply py_round_int. rewrite <- H. unfold Z.sub. rewrite inject_Z_plus, inject_Z_opp, inject_Z_mult. destruct f; unfold b2q, b2z; [change (inject_Z 1) with 1%Q|change (inject_Z 0) with 0%Q]; ring.
Qed.

Lemma pog_con_accepts size s n c q : pog_con size n c = Some q -> q s -> 
  on_grid c (extract size s n).
Proof.
  unfold pog_con. destruct (forallb _ _) eqn:Ef; [|discriminate]. intros [= <-] (v & grid & H1 & H2 & H3 & H4). simpl in *.
  destruct (one_true _ _ H2) as ((o, sc) & Hin & Hv & Es). simpl in Hv, Es. rewrite Es in H4.
  rewrite Forall_forall in H1. specialize (H1 _ Hin). simpl in H1. rewrite Hv in H1.
  destruct (os_sound c) as (_ & Ho). destruct (Ho _ _ Hin) as (A & (t0 & Ht0 & Hot0 & Hincl)).
  rewrite forallb_forall in Ef.
  assert (Hne : sc <> []).
  { intros ->. destruct (scalings_ok_in _ (Ef _ Ht0)) as (Hn & _). apply Hn. destruct (ot_scalings t0) as [|z l]; [reflexivity|]. destruct (Hincl z (or_introl eq_refl)). }
  assert (Hpm : forall x, In x sc -> x = 1%Z \/ x = (-1)%Z).
  { intros x Hx. destruct (A x Hx) as (t & Ht & _ & Hxt). now apply (proj2 (scalings_ok_in _ (Ef _ Ht))). }
  pose proof (scal_con_in _ _ Hne Hpm H1) as Hs. destruct (A _ Hs) as (t & Ht & Hot & Hst).
  unfold on_grid, accepts, extract. destruct (pg_dir c); cbn [oX oY sX sY]; apply round_origin in H4; rewrite H4; exists t, o; repeat split; auto; exists grid; lia.
Qed.

Lemma sp_check_ok t cs : (forall c, In c cs -> (0 < pg_pitch c)%Z) -> sp_check t cs = true <-> all_on_grid cs t.
Proof.
  intros Hp. unfold sp_check, all_on_grid. rewrite forallb_forall. split; intros H c Hc; specialize (H c Hc); specialize (Hp c Hc).
  - apply existsb_exists in H as (tm & Ht & H). apply existsb_exists in H as (off & Ho & H). apply andb_true_iff in H as (H1 & H2).
    apply Z.eqb_eq in H1. apply zmem_ok in H2. unfold on_grid, accepts. apply Z.mod_divide in H1; [|lia]. destruct (pg_dir c); eauto 8.
  - apply existsb_exists. unfold on_grid, accepts in H. destruct (pg_dir c); destruct H as (tm & off & Ht & Ho & Hs & Hd); exists tm; (split; [assumption|]);
      apply existsb_exists; exists off; (split; [assumption|]); apply andb_true_iff; (split; [apply Z.eqb_eq; apply Z.mod_divide; [lia|assumption]|now apply zmem_ok]).
Qed.

(** * Topological sorts *)
Lemma is_edge_ok es a b : is_edge es a b = true <-> In (a, b) es.
Proof.
  unfold is_edge. rewrite existsb_exists. split.
  - intros ((x, y) & Hi & E). simpl in E. apply andb_true_iff in E as (E1 & E2). apply Nat.eqb_eq in E1, E2. subst. exact Hi.
  - intros H. exists (a, b). split; auto. simpl. now rewrite !Nat.eqb_refl.
Qed.

Lemma sources_ok es rem n : In n (sources es rem) <-> In n rem /\ forall m, In m rem -> ~ In (m, n) es.
Proof.
  unfold sources. rewrite filter_In, forallb_forall. split; intros (A & B); split; auto; intros m Hm.
  - intros He. apply is_edge_ok in He. specialize (B m Hm). now rewrite He in B.
  - destruct (is_edge es m n) eqn:E; [|reflexivity]. apply is_edge_ok in E. exfalso. eapply B; eauto.
Qed.

Lemma remove_nodup (n : nat) l : NoDup l -> NoDup (remove Nat.eq_dec n l).
Proof.
  induction l as [|x l IH]; simpl; intros H; [constructor|]. apply NoDup_cons_iff in H as (Hn & H).
  destruct (Nat.eq_dec n x); [auto|]. constructor; auto. intros Hx. apply in_remove in Hx. tauto.
Qed.
Lemma remove_perm (n : nat) l : NoDup l -> In n l -> Permutation l (n :: remove Nat.eq_dec n l).
Proof.
  induction l as [|x l IH]; simpl; intros H; [tauto|]. apply NoDup_cons_iff in H as (Hn & H).
  destruct (Nat.eq_dec n x) as [->|Hne].
  - intros _. rewrite notin_remove by assumption. reflexivity.
  - intros [->|Hi]; [congruence|]. rewrite perm_swap. constructor. auto.
Qed.
Lemma in_remove_iff (n x : nat) l : In x (remove Nat.eq_dec n l) <-> In x l /\ x <> n.
Proof. split; [apply in_remove|]. intros (A & B). now apply in_in_remove. Qed.

Lemma before_cons n l a b : NoDup (n :: l) -> before l a b -> before (n :: l) a b.
Proof.
  intros Hnd (i & j & Hi & Hj & Hlt). assert (Hl : NoDup l) by now apply NoDup_cons_iff in Hnd.
  apply position_nth in Hi, Hj; auto. exists (Datatypes.S i), (Datatypes.S j). rewrite !position_nth by assumption. simpl. repeat split; auto; lia.
Qed.
Lemma before_head n l b : NoDup (n :: l) -> In b l -> before (n :: l) n b.
Proof.
  intros Hnd Hb. apply In_nth_error in Hb as (j & Hj). exists 0, (Datatypes.S j). rewrite !position_nth by assumption. simpl. repeat split; auto; lia.
Qed.
Lemma before_uncons n l a b : NoDup (n :: l) -> a <> n -> before (n :: l) a b -> before l a b.
Proof.
  intros Hnd Hne (i & j & Hi & Hj & Hlt). assert (Hl : NoDup l) by now apply NoDup_cons_iff in Hnd.
  apply position_nth in Hi, Hj; auto. destruct i as [|i]; [simpl in Hi; congruence|]. destruct j as [|j]; [lia|].
  exists i, j. rewrite !position_nth by assumption. repeat split; auto; lia.
Qed.
Lemma before_irrefl l a : ~ before l a a.
Proof. intros (i & j & E1 & E2 & H). assert (i = j) by congruence. lia. Qed.

Lemma tsorts_sound fuel es rem l : NoDup rem -> In l (tsorts fuel es rem) ->
  Permutation l rem /\ forall a b, In (a, b) es -> In a rem -> In b rem -> before l a b.
Proof.
  revert rem l. induction fuel as [|f IH]; intros rem l Hnd Hl.
  - destruct rem; [|destruct Hl]. destruct Hl as [<-|[]]. split; [reflexivity|]. intros ? ? _ [].
  - destruct rem as [|r0 rem0]; [destruct Hl as [<-|[]]; split; [reflexivity|]; intros ? ? _ []|].
    cbn [tsorts] in Hl. set (rem := r0 :: rem0) in *. clearbody rem.
    apply in_flat_map in Hl as (n & Hn & Hl). apply in_map_iff in Hl as (l' & <- & Hl'). apply sources_ok in Hn as (Hn & Hs).
    destruct (IH (remove Nat.eq_dec n rem) l') as (Hp & Hb); [now apply remove_nodup|exact Hl'|].
    assert (HP : Permutation (n :: l') rem) by (rewrite Hp; symmetry; now apply remove_perm).
    assert (HN : NoDup (n :: l')) by (eapply Permutation_NoDup; [symmetry; exact HP|exact Hnd]).
    split; [exact HP|]. intros a b He Ha Hb'.
    destruct (Nat.eq_dec b n) as [->|Hbn]; [exfalso; apply (Hs a); assumption|].
    assert (Hbl : In b l') by (eapply Permutation_in; [symmetry; exact Hp|]; now apply in_remove_iff).
    destruct (Nat.eq_dec a n) as [->|Han]; [now apply before_head|].
    apply before_cons; [exact HN|]. apply Hb; auto; now apply in_remove_iff.
Qed.

Lemma tsorts_complete es l : forall rem, NoDup l -> Permutation l rem ->
  (forall a b, In (a, b) es -> In a rem -> In b rem -> before l a b) -> In l (tsorts (length l) es rem).
Proof.
  induction l as [|n l IH]; intros rem Hnd HP Hb.
  - apply Permutation_nil in HP as ->. now left.
  - destruct rem as [|r0 rem0]; [now apply Permutation_sym, Permutation_nil_cons in HP|].
    cbn [length tsorts]. set (rem := r0 :: rem0) in *. clearbody rem.
    assert (Hn : In n rem) by (eapply Permutation_in; [exact HP|now left]).
    assert (Hndr : NoDup rem) by (eapply Permutation_NoDup; eauto).
    assert (HP' : Permutation l (remove Nat.eq_dec n rem)).
    { apply Permutation_cons_inv with (a := n). rewrite HP. now apply remove_perm. }
    apply in_flat_map. exists n. split.
    + apply sources_ok. split; auto. intros m Hm He. specialize (Hb _ _ He Hm Hn).
      destruct Hb as (i & j & Hi & Hj & Hlt). apply position_nth in Hi, Hj; auto.
      destruct j as [|j]; [lia|]. simpl in Hj. apply nth_error_In in Hj. apply NoDup_cons_iff in Hnd. tauto.
    + apply in_map. apply IH; auto; [now apply NoDup_cons_iff in Hnd|]. intros a b He Ha Hb'.
      apply in_remove_iff in Ha as (Ha & Han), Hb' as (Hb' & Hbn). apply before_uncons with (n := n); auto.
Qed.
