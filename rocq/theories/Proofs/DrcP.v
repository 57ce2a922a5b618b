From Coq Require Import String Ascii ZifyBool.
From Verif Require Import Base.Prelude Base.PyDict Model.Transformation Model.PySort Model.Grid Model.RemoveDuplicates
  Model.Drc Spec.RemoveDuplicatesSpec Spec.DrcSpec Proofs.PySortP.
Local Open Scope Z_scope.

Lemma dlo_start d r : dlo d r = start_of d r. Proof. destruct d; reflexivity. Qed.
Lemma dhi_end d r : dhi d r = end_of d r. Proof. destruct d; reflexivity. Qed.

Lemma contained_in_spec regions r : contained_in regions r = true <-> exempt regions r.
Proof.
  unfold contained_in, exempt, inside. rewrite existsb_exists.
  split; intros (b & Hb & Hc); exists b; (split; [exact Hb|lia]).
Qed.

(** ** neighbours *)
Lemma neighbours_split {A} (l : list A) a b :
  In (a, b) (neighbours l) <-> exists l1 l2, l = l1 ++ a :: b :: l2.
Proof.
  induction l as [|x l IH].
  - split; [intros [] | intros (l1 & l2 & E); destruct l1; discriminate].
  - destruct l as [|y l].
    + split; [intros [] | intros (l1 & l2 & E)].
      destruct l1 as [|z [|]]; discriminate.
    + change (neighbours (x :: y :: l)) with ((x, y) :: neighbours (y :: l)). simpl In.
      rewrite IH. split.
      * intros [E | (l1 & l2 & E)].
        -- injection E as -> ->. exists [], l. reflexivity.
        -- exists (x :: l1), l2. rewrite E. reflexivity.
      * intros (l1 & l2 & E). destruct l1 as [|z l1].
        -- injection E as -> -> ->. now left.
        -- injection E as -> E. right. exists l1, l2. exact E.
Qed.

Lemma SS_app {A} (R : A -> A -> Prop) l1 a l2 :
  StronglySorted R (l1 ++ a :: l2) -> Forall (R a) l2.
Proof.
  induction l1; simpl; intros H; inversion H; subst; auto.
Qed.

Lemma SS_pair {A} (R : A -> A -> Prop) l1 a l2 b l3 :
  StronglySorted R (l1 ++ a :: l2 ++ b :: l3) -> R a b.
Proof.
  intros H. apply SS_app in H. rewrite Forall_forall in H. apply H. rewrite in_app_iff. right; left; reflexivity.
Qed.

(** Two members of a list, in order, at different positions. *)
Definition before {A} (l : list A) (a b : A) : Prop := exists l1 l2 l3, l = l1 ++ a :: l2 ++ b :: l3.

Lemma before_trichotomy {A} (l : list A) a b :
  In a l -> In b l -> a = b \/ before l a b \/ before l b a.
Proof.
  intros Ha Hb. apply in_split in Ha. destruct Ha as (l1 & l2 & ->).
  apply in_app_iff in Hb. destruct Hb as [Hb|[Hb|Hb]].
  - apply in_split in Hb. destruct Hb as (m1 & m2 & ->). right; right.
    exists m1, m2, l2. rewrite <- app_assoc. reflexivity.
  - auto.
  - apply in_split in Hb. destruct Hb as (m1 & m2 & ->). right; left.
    exists l1, m1, m2. reflexivity.
Qed.

(** If the last-before-b neighbour is considered, its gap to b is at most that of any earlier one. *)
Lemma gap_neighbour {A} (lo hi : A -> Z) (l : list A) a b :
  StronglySorted (fun x y => hi x < lo y) l -> (forall x, In x l -> lo x <= hi x) ->
  before l a b ->
  exists c, In (c, b) (neighbours l) /\ hi a <= hi c /\ hi c < lo b.
Proof.
  intros HS Hle (l1 & l2 & l3 & E). subst l.
  destruct (exists_last (l := a :: l2) ltac:(discriminate)) as (m & c & Em).
  exists c. split; [|split].
  - apply neighbours_split. exists (l1 ++ m), l3.
    rewrite <- app_assoc.
    change (c :: b :: l3) with ([c] ++ b :: l3). rewrite (app_assoc m [c]).
    rewrite <- Em. simpl. reflexivity.
  - destruct m as [|x m].
    + injection Em as -> _. lia.
    + injection Em as -> E2. subst l2.
      assert (H : hi x < lo c).
      { eapply (SS_pair (fun x y => hi x < lo y) l1 x m c (b :: l3)). rewrite <- app_assoc in HS. exact HS. }
      assert (Hc : lo c <= hi c). { apply Hle. rewrite !in_app_iff. right. right. rewrite !in_app_iff. simpl. tauto. }
      lia.
  - destruct m as [|x m].
    + injection Em as -> ->. eapply (SS_pair (fun x y => hi x < lo y) l1 c [] b l3). exact HS.
    + injection Em as -> E2. subst l2. rewrite <- app_assoc in HS.
      change (l1 ++ x :: m ++ [c] ++ b :: l3) with (l1 ++ (x :: m) ++ c :: [] ++ b :: l3) in HS.
      rewrite app_assoc in HS.
      eapply (SS_pair (fun x y => hi x < lo y) _ c [] b l3). exact HS.
Qed.

Lemma neighbours_before {A} (l : list A) a b : In (a, b) (neighbours l) -> before l a b.
Proof. intros H. apply neighbours_split in H. destruct H as (l1 & l2 & ->). exists l1, [], l2. reflexivity. Qed.

Lemma before_in_l {A} (l : list A) a b : before l a b -> In a l.
Proof. intros (l1 & l2 & l3 & ->). rewrite in_app_iff. right; left; reflexivity. Qed.
Lemma before_in_r {A} (l : list A) a b : before l a b -> In b l.
Proof. intros (l1 & l2 & l3 & ->). rewrite in_app_iff. right; right. rewrite in_app_iff. right; left; reflexivity. Qed.

(** ** mapM / flat_mapM *)
Lemma mapM_in {A B} (f : A -> option B) l bs :
  mapM f l = Some bs -> (forall b, In b bs <-> exists a, In a l /\ f a = Some b) /\ (forall a, In a l -> f a <> None).
Proof.
  revert bs; induction l as [|x l IH]; simpl; intros bs H.
  - injection H as <-. split; [|intros ? []]. intros b; split; [intros [] | intros (a & [] & _)].
  - destruct (f x) as [b0|] eqn:Ex; [|discriminate]. destruct (mapM f l) as [bs0|] eqn:El; [|discriminate].
    injection H as <-. destruct (IH bs0 eq_refl) as [I1 I2]. split.
    + intros b; simpl; rewrite I1. split.
      * intros [<- | (a & Ha & Ea)]; eauto.
      * intros (a & [<- | Ha] & Ea); [left; congruence | right; eauto].
    + intros a [<- | Ha]; [congruence | auto].
Qed.

Lemma flat_mapM_in {A B} (f : A -> option (list B)) l bs :
  flat_mapM f l = Some bs ->
  (forall b, In b bs <-> exists a r, In a l /\ f a = Some r /\ In b r) /\ (forall a, In a l -> f a <> None).
Proof.
  unfold flat_mapM. destruct (mapM f l) as [bss|] eqn:E; simpl; [|discriminate].
  intros H; injection H as <-. apply mapM_in in E. destruct E as [E1 E2]. split; [|exact E2].
  intros b. rewrite in_concat. split.
  - intros (r & Hr & Hb). apply E1 in Hr. destruct Hr as (a & Ha & Ea). eauto.
  - intros (a & r & Ha & Ea & Hb). exists r. split; [|exact Hb]. apply E1. eauto.
Qed.

Lemma mapM_map {A B} (f : A -> option B) l bs : mapM f l = Some bs -> Forall2 (fun a b => f a = Some b) l bs.
Proof.
  revert bs; induction l as [|x l IH]; simpl; intros bs H.
  - injection H as <-. constructor.
  - destruct (f x) eqn:Ex; [|discriminate]. destruct (mapM f l); [|discriminate]. injection H as <-. constructor; auto.
Qed.

(** ** min length, min spacing *)
Lemma min_length_in regions layer minl d sl e :
  In e (check_min_length regions layer minl d sl) <->
  exists r, e = EMinLength layer r /\ In r sl /\ end_of d r - start_of d r < minl /\ ~ exempt regions r.
Proof.
  unfold check_min_length. rewrite in_flat_map. split.
  - intros (r & Hr & H). rewrite dlo_start, dhi_end in H.
    destruct ((end_of d r - start_of d r <? minl) && negb (contained_in regions r)) eqn:E; [|destruct H].
    destruct H as [<-|[]]. exists r. repeat split; auto; [lia|].
    rewrite <- contained_in_spec. intros H. rewrite H in E. lia.
  - intros (r & -> & Hr & Hl & Hx). exists r. split; [exact Hr|]. rewrite dlo_start, dhi_end.
    rewrite <- contained_in_spec in Hx. destruct (contained_in regions r); [easy|].
    replace (end_of d r - start_of d r <? minl) with true by lia. now left.
Qed.

Lemma min_spacing_in regions layer space d sl e :
  In e (check_min_spacing regions layer space d sl) <->
  exists a b, e = EMinSpace layer a b /\ In (a, b) (neighbours sl) /\
              0 < start_of d b - end_of d a < space /\ ~ exempt regions b.
Proof.
  unfold check_min_spacing. rewrite in_flat_map. split.
  - intros ((a, b) & Hr & H). cbn [fst snd] in H. rewrite dlo_start, dhi_end in H.
    match type of H with In _ (if ?c then _ else _) => destruct c eqn:E; [|destruct H] end.
    destruct H as [<-|[]]. exists a, b. repeat split; auto; try lia.
    rewrite <- contained_in_spec. intros H. rewrite H in E. lia.
  - intros (a & b & -> & Hr & Hl & Hx). exists (a, b). split; [exact Hr|]. cbn [fst snd]. rewrite dlo_start, dhi_end.
    rewrite <- contained_in_spec in Hx. destruct (contained_in regions b); [easy|].
    replace (0 <? start_of d b - end_of d a) with true by lia.
    replace (start_of d b - end_of d a <? space) with true by lia. now left.
Qed.

(** ** via spacing *)
Lemma space_y_in layer space vv e :
  In e (check_space_y layer space vv) <->
  exists c sl a b, e = EVSpace layer a b /\ In (c, sl) vv /\ In (a, b) (neighbours sl) /\ 0 < lly b - ury a < space.
Proof.
  unfold check_space_y. rewrite in_flat_map. split.
  - intros ((c, sl) & Hl & H). apply in_flat_map in H. destruct H as ((a, b) & Hn & H). cbn [fst snd] in *.
    match type of H with In _ (if ?c then _ else _) => destruct c eqn:E; [|destruct H] end.
    destruct H as [<-|[]]. exists c, sl, a, b. repeat split; auto; lia.
  - intros (c & sl & a & b & -> & Hl & Hn & Hg). exists (c, sl). split; [exact Hl|].
    apply in_flat_map. exists (a, b). split; [exact Hn|]. cbn [fst snd].
    match goal with |- In _ (if ?c then _ else _) => replace c with true by lia end. now left.
Qed.

Lemma space_x_in layer space vv e :
  In e (check_space_x layer space vv) <->
  exists c sl a b, e = EHSpace layer a b /\ In (c, sl) (rows vv) /\ In (a, b) (neighbours sl) /\ 0 < llx b - urx a < space.
Proof.
  unfold check_space_x. rewrite in_flat_map. split.
  - intros ((c, sl) & Hl & H). apply in_flat_map in H. destruct H as ((a, b) & Hn & H). cbn [fst snd] in *.
    match type of H with In _ (if ?c then _ else _) => destruct c eqn:E; [|destruct H] end.
    destruct H as [<-|[]]. exists c, sl, a, b. repeat split; auto; lia.
  - intros (c & sl & a & b & -> & Hl & Hn & Hg). exists (c, sl). split; [exact Hl|].
    apply in_flat_map. exists (a, b). split; [exact Hn|]. cbn [fst snd].
    match goal with |- In _ (if ?c then _ else _) => replace c with true by lia end. now left.
Qed.

(** ** rows *)
Lemma in_concat_snd (vv : list (Z * list Rect)) r :
  In r (concat (map snd vv)) <-> exists c sl, In (c, sl) vv /\ In r sl.
Proof.
  rewrite in_concat. split.
  - intros (l & Hl & Hr). apply in_map_iff in Hl. destruct Hl as ((c, sl) & <- & H). eauto.
  - intros (c & sl & H & Hr). exists sl. split; [apply in_map_iff; exists (c, sl); auto | exact Hr].
Qed.

Lemma rows_mem vv c sl r : In (c, sl) (rows vv) -> In r sl ->
  lly r + ury r = c /\ exists c' sl', In (c', sl') vv /\ In r sl'.
Proof.
  unfold rows. intros H Hr. apply in_map_iff in H. destruct H as ((k, b) & E & Hb). cbn [fst snd] in E.
  injection E as <- <-. apply sort_by_in in Hr.
  apply (group_by_in _ _ Z.eqb_eq) in Hb. destruct Hb as [Eb _].
  rewrite Eb in Hr. apply filter_In in Hr. destruct Hr as [Hr Hk].
  split; [lia|]. apply in_concat_snd; exact Hr.
Qed.

Lemma rows_find vv r c' sl' : In (c', sl') vv -> In r sl' ->
  exists sl, In (lly r + ury r, sl) (rows vv) /\ In r sl.
Proof.
  intros H Hr. assert (Hc : In r (concat (map snd vv))) by (apply in_concat_snd; eauto).
  destruct (group_by_elem _ (fun r => lly r + ury r) Z.eqb_eq _ _ Hc) as (b & Hb & Hrb).
  exists (sort_by llx b). split; [|apply sort_by_in; exact Hrb].
  unfold rows. apply in_map_iff. exists (lly r + ury r, b). split; [reflexivity|exact Hb].
Qed.

Lemma rows_unique vv c s1 s2 : In (c, s1) (rows vv) -> In (c, s2) (rows vv) -> s1 = s2.
Proof.
  unfold rows. intros H1 H2. apply in_map_iff in H1, H2.
  destruct H1 as ((k1, b1) & E1 & H1), H2 as ((k2, b2) & E2 & H2). cbn [fst snd] in *.
  injection E1 as <- <-. injection E2 as <- <-. f_equal.
  apply (group_by_in _ _ Z.eqb_eq) in H1, H2. destruct H1 as [-> _], H2 as [-> _]. reflexivity.
Qed.

Lemma rows_sorted vv c sl : In (c, sl) (rows vv) -> key_sorted llx sl.
Proof.
  unfold rows. intros H. apply in_map_iff in H. destruct H as (b & E & _). injection E as <- <-. apply sort_by_sorted.
Qed.

(** ** binary search *)
Lemma alo_start (v : bool) r : alo v r = start_of (if v then DV else DH) r. Proof. destruct v; reflexivity. Qed.
Lemma ahi_end (v : bool) r : ahi v r = end_of (if v then DV else DH) r. Proof. destruct v; reflexivity. Qed.

Definition ord (vert : bool) (sl : list Rect) : Prop :=
  (forall i j a b, (i < j)%nat -> nth_error sl i = Some a -> nth_error sl j = Some b -> ahi vert a <= alo vert b) /\
  (forall r, In r sl -> alo vert r <= ahi vert r).

Lemma SS_nth {A} (R : A -> A -> Prop) (l : list A) :
  StronglySorted R l -> forall i j a b, (i < j)%nat -> nth_error l i = Some a -> nth_error l j = Some b -> R a b.
Proof.
  induction 1 as [|x l HS IH HF]; intros i j a b Hij Ha Hb.
  - destruct i; discriminate.
  - destruct j as [|j]; [lia|]. destruct i as [|i]; simpl in *.
    + injection Ha as <-. rewrite Forall_forall in HF. apply HF. eapply nth_error_In; eauto.
    + eapply IH; [|exact Ha|exact Hb]. lia.
Qed.

Lemma ordered_ord (vert : bool) sl : ordered (if vert then DV else DH) sl -> ord vert sl.
Proof.
  intros [H1 H2]. split.
  - intros i j a b Hij Ha Hb. rewrite ahi_end, alo_start. exact (SS_nth _ _ H1 i j a b Hij Ha Hb).
  - intros r Hr. rewrite ahi_end, alo_start. auto.
Qed.

(** What the search returns: the last rectangle of [l, u) starting at or before [v] (or the first
    one), if it reaches [v]. *)
Lemma bsearch_sound fuel vert sl l u v m :
  bsearch fuel vert sl l u v = Some m -> In m sl /\ alo vert m <= v <= ahi vert m.
Proof.
  revert l u; induction fuel as [|f IH]; intros l u; cbn [bsearch]; [discriminate|].
  destruct (l =? u)%nat; [discriminate|].
  destruct (l + 1 =? u)%nat.
  - destruct (nth_error sl l) as [r|] eqn:E; [|discriminate].
    destruct ((alo vert r <=? v) && (v <=? ahi vert r)) eqn:Eb; [|discriminate].
    intros H; injection H as <-. split; [eapply nth_error_In; eauto | lia].
  - destruct (nth_error sl ((l + u + 1) / 2)) as [r|]; [|discriminate].
    destruct (alo vert r <=? v); apply IH.
Qed.

Lemma bsearch_complete fuel vert sl l u v i m :
  ord vert sl -> (u - l < fuel)%nat -> (l <= i < u)%nat -> (u <= List.length sl)%nat ->
  nth_error sl i = Some m -> alo vert m <= v <= ahi vert m ->
  exists m', bsearch fuel vert sl l u v = Some m' /\
             (exists j, (i <= j < u)%nat /\ nth_error sl j = Some m').
Proof.
  intros [Ho Hle]. revert l u i m; induction fuel as [|f IH]; intros l u i m Hf Hi Hu Hm Hv; [lia|].
  cbn [bsearch].
  destruct (Nat.eqb_spec l u); [lia|].
  destruct (Nat.eqb_spec (l + 1) u).
  - assert (i = l) by lia. subst i. rewrite Hm.
    replace ((alo vert m <=? v) && (v <=? ahi vert m)) with true by lia.
    exists m. split; [reflexivity|]. exists l. split; [lia|exact Hm].
  - set (k := ((l + u + 1) / 2)%nat).
    assert (Hk : (l < k < u)%nat).
    { unfold k. pose proof (Nat.div_mod (l + u + 1) 2 ltac:(lia)). pose proof (Nat.mod_upper_bound (l + u + 1) 2 ltac:(lia)). lia. }
    destruct (nth_error sl k) as [r|] eqn:Ek.
    2:{ apply nth_error_None in Ek. lia. }
    destruct (alo vert r <=? v) eqn:Er.
    + destruct (le_lt_dec k i) as [Hki|Hki].
      * destruct (IH k u i m ltac:(lia) ltac:(lia) Hu Hm Hv) as (m' & E1 & j & Hj & Ej).
        exists m'. split; [exact E1|]. exists j. split; [lia|exact Ej].
      * (* i < k: then m ends where r starts *)
        assert (H1 : ahi vert m <= alo vert r) by (eapply Ho; eauto).
        assert (H2 : alo vert r = v) by lia.
        assert (H3 : alo vert r <= ahi vert r) by (apply Hle; eapply nth_error_In; eauto).
        destruct (IH k u k r ltac:(lia) ltac:(lia) Hu Ek ltac:(lia)) as (m' & E1 & j & Hj & Ej).
        exists m'. split; [exact E1|]. exists j. split; [lia|exact Ej].
    + destruct (le_lt_dec k i) as [Hki|Hki].
      * exfalso. destruct (Nat.eq_dec k i) as [->|Hne].
        -- rewrite Ek in Hm. injection Hm as ->. lia.
        -- assert (ahi vert r <= alo vert m) by (eapply (Ho k i); eauto; lia).
           assert (alo vert r <= ahi vert r) by (apply Hle; eapply nth_error_In; eauto). lia.
      * destruct (IH l k i m ltac:(lia) ltac:(lia) ltac:(lia) Hm Hv) as (m' & E1 & j & Hj & Ej).
        exists m'. split; [exact E1|]. exists j. split; [lia|exact Ej].
Qed.

(** The single-metal enclosure check is exact. *)
Lemma check_single_exact sto via r ly (vert : bool) enc ls sl :
  dget String.eqb sto ly = Some ls ->
  dget Z.eqb ls (if vert then llx r + urx r else lly r + ury r) = Some sl ->
  ordered (if vert then DV else DH) sl -> 0 <= enc -> alo vert r <= ahi vert r ->
  exists es, check_single sto via r ly vert enc = Some es /\
    (es <> [] <-> ~ exists m, In m sl /\ alo vert m <= alo vert r - enc /\ ahi vert r + enc <= ahi vert m) /\
    (forall e, In e es -> exists f, e = EEnclosure via ly r f).
Proof.
  intros H1 H2 Hord Henc Hr. apply ordered_ord in Hord.
  unfold check_single, find_covering.
  set (v := (if vert then lly r + ury r else llx r + urx r) / 2).
  assert (Hv : alo vert r <= v <= ahi vert r).
  { unfold v. destruct vert; unfold alo, ahi in *; lia. }
  assert (Hv2 : v = ahi vert r -> alo vert r = ahi vert r).
  { unfold v. destruct vert; unfold alo, ahi in *; lia. }
  replace (let '(c2a, c2p) := if vert then (lly r + ury r, llx r + urx r) else (llx r + urx r, lly r + ury r) in
     match dget String.eqb sto ly with
     | Some ls0 => match dget Z.eqb ls0 c2p with
        | Some sl0 => Some (bsearch (Datatypes.S (List.length sl0)) vert sl0 0 (List.length sl0) (c2a / 2))
        | None => None end
     | None => None end)
   with (Some (bsearch (Datatypes.S (List.length sl)) vert sl 0 (List.length sl) v)).
  2:{ unfold v. destruct vert; rewrite H1, H2; reflexivity. }
  destruct (bsearch (Datatypes.S (List.length sl)) vert sl 0 (List.length sl) v) as [m|] eqn:E.
  - destruct ((alo vert r - enc <? alo vert m) || (ahi vert m <? ahi vert r + enc)) eqn:Eb.
    + eexists. split; [reflexivity|]. split.
      * split; [intros _|discriminate]. intros (m0 & Hm0 & Hlo & Hhi).
        destruct (In_nth_error _ _ Hm0) as [i Hi].
        assert (Hil : (i < List.length sl)%nat) by (apply nth_error_Some; congruence).
        destruct (bsearch_complete (Datatypes.S (List.length sl)) vert sl 0 (List.length sl) v i m0 Hord
                    ltac:(lia) ltac:(lia) ltac:(lia) Hi ltac:(lia)) as (m' & E1 & j & Hj & Ej).
        rewrite E in E1. injection E1 as <-.
        apply bsearch_sound in E. destruct E as [_ E].
        destruct (Nat.eq_dec i j) as [->|Hne].
        -- rewrite Hi in Ej. injection Ej as ->. lia.
        -- assert (ahi vert m0 <= alo vert m). { destruct Hord as [Ho _]. eapply (Ho i j); eauto. lia. }
           assert (v = ahi vert r) by lia. specialize (Hv2 H0). lia.
      * intros e [<-|[]]. eauto.
    + eexists. split; [reflexivity|]. split; [|intros ? []]. split; [intros H; now destruct H|].
      intros H. exfalso. apply H. exists m. apply bsearch_sound in E. split; [tauto|lia].
  - eexists. split; [reflexivity|]. split; [|intros e [<-|[]]; eauto]. split; [intros _|discriminate].
    intros (m0 & Hm0 & Hlo & Hhi). destruct (In_nth_error _ _ Hm0) as [i Hi].
    assert (Hil : (i < List.length sl)%nat) by (apply nth_error_Some; congruence).
    destruct (bsearch_complete (Datatypes.S (List.length sl)) vert sl 0 (List.length sl) v i m0 Hord
                    ltac:(lia) ltac:(lia) ltac:(lia) Hi ltac:(lia)) as (m' & E1 & _).
    congruence.
Qed.

(** ** counting loop *)
Lemma consecutive_snoc l a b : consecutive (l ++ [a]) -> b = a + 1 -> consecutive (l ++ [a; b]).
Proof.
  induction l as [|x l IH]; intros H E.
  - simpl. auto.
  - destruct l as [|y l].
    + simpl in *. tauto.
    + destruct H as [H1 H2]. split; [exact H1|]. apply IH; assumption.
Qed.

Lemma consecutive_tail a l : consecutive (a :: l) -> consecutive l.
Proof. destruct l; [simpl; tauto|]. intros [_ H]; exact H. Qed.

Definition st_ok {A} (pre : list (Z * A)) (st : option (Z * Z)) : Prop :=
  match st with
  | None => pre = []
  | Some (prev, c) =>
      exists l0 seg a, pre = l0 ++ seg ++ [(prev, a)] /\ consecutive (map fst (seg ++ [(prev, a)])) /\
                       c <= Z.of_nat (List.length (seg ++ [(prev, a)]))
  end.

(** Every report ends a run longer than the limit. *)
Lemma count_loop_genuine {A} max (l pre : list (Z * A)) st a :
  st_ok pre st -> In a (count_loop max st l) ->
  exists l0 seg q l1, pre ++ l = l0 ++ seg ++ (q, a) :: l1 /\ consecutive (map fst (seg ++ [(q, a)])) /\
                      max < Z.of_nat (List.length (seg ++ [(q, a)])).
Proof.
  revert pre st; induction l as [|(i, x) l IH]; intros pre st Hst H; [destruct H|].
  cbn [count_loop] in H.
  set (count := match st with None => 1 | Some (prev, c) => if i - prev =? 1 then c + 1 else 0 end) in H.
  assert (Hst2 : st_ok (pre ++ [(i, x)]) (Some (i, count))).
  { unfold count. destruct st as [(prev, c)|]; simpl in Hst.
    - destruct Hst as (l0 & seg & y & Ep & Hc & Hle). destruct (i - prev =? 1) eqn:Ei.
      + exists l0, (seg ++ [(prev, y)]), x. split; [subst pre; rewrite <- !app_assoc; reflexivity|]. split.
        * rewrite <- app_assoc. rewrite map_app. rewrite map_app in Hc. apply consecutive_snoc; [exact Hc|cbn [fst]; lia].
        * rewrite app_length. simpl. lia.
      + exists pre, [], x. split; [reflexivity|]. split; [exact I|]. simpl; lia.
    - exists [], [], x. subst pre. repeat split; simpl; lia. }
  apply in_app_iff in H. destruct H as [H|H].
  - destruct (max <? count) eqn:Em; [|destruct H]. destruct H as [<-|[]].
    simpl in Hst2. destruct Hst2 as (l0 & seg & y & Ep & Hc & Hle).
    assert (y = x).
    { rewrite app_assoc in Ep. apply app_inj_tail in Ep. destruct Ep as [_ Ep]. congruence. }
    subst y. exists l0, seg, i, l. split; [|split; [exact Hc|lia]].
    change ((i, x) :: l) with ([(i, x)] ++ l). rewrite app_assoc, Ep, <- !app_assoc. reflexivity.
  - destruct (IH _ _ Hst2 H) as (l0 & seg & q & l1 & E & H2 & H3).
    exists l0, seg, q, l1. split; [|split; assumption].
    rewrite <- E. rewrite <- app_assoc. reflexivity.
Qed.

Lemma count_loop_app {A} max (pre l : list (Z * A)) st :
  exists st', count_loop max st (pre ++ l) = count_loop max st pre ++ count_loop max st' l /\
    (pre = [] -> st' = st) /\ (pre <> [] -> exists p c, st' = Some (p, c)) /\
    (forall p c, st' = Some (p, c) -> (forall p' c', st = Some (p', c') -> 0 <= c') -> 0 <= c).
Proof.
  revert st; induction pre as [|(i, x) pre IH]; intros st.
  - exists st. split; [reflexivity|]. split; [auto|]. split; [congruence|]. intros p c E H. eapply H; eauto.
  - cbn [app count_loop].
    set (count := match st with None => 1 | Some (prev, c) => if i - prev =? 1 then c + 1 else 0 end).
    destruct (IH (Some (i, count))) as (st' & E1 & E2 & E3 & E4).
    exists st'. split; [|split; [discriminate|split]].
    + rewrite E1, app_assoc. reflexivity.
    + intros _. destruct pre as [|y pre]; [|apply E3; discriminate]. rewrite (E2 eq_refl). eauto.
    + intros p c Ec H. eapply E4; [exact Ec|]. intros p' c' Ec'. injection Ec' as <- <-.
      unfold count. destruct st as [(prev, c0)|]; [|lia]. specialize (H _ _ eq_refl). destruct (i - prev =? 1); lia.
Qed.

(** Inside a run the count goes up. *)
Lemma count_loop_run {A} max (seg l : list (Z * A)) prev c :
  consecutive (prev :: map fst seg) -> c <= max -> max < c + Z.of_nat (List.length seg) ->
  count_loop max (Some (prev, c)) (seg ++ l) <> [].
Proof.
  revert prev c; induction seg as [|(i, x) seg IH]; intros prev c Hc Hle Hlt; [simpl in Hlt; lia|].
  cbn [app count_loop]. destruct Hc as [Hi Hc]. cbn [fst] in Hi.
  replace (i - prev =? 1) with true by lia.
  destruct (max <? c + 1) eqn:Em; [discriminate|].
  simpl app. apply IH; [exact Hc|lia|]. simpl List.length in Hlt. lia.
Qed.

Lemma count_loop_first {A} max (seg l : list (Z * A)) :
  consecutive (map fst seg) -> max < Z.of_nat (List.length seg) -> seg <> [] -> count_loop max None (seg ++ l) <> [].
Proof.
  destruct seg as [|(i, x) seg]; intros Hc Hlt Hne; [congruence|].
  cbn [app count_loop]. destruct (max <? 1) eqn:Em; [discriminate|]. simpl app.
  apply count_loop_run; [exact Hc|lia|]. simpl List.length in Hlt. lia.
Qed.

Lemma count_loop_later {A} max (pre seg l : list (Z * A)) :
  consecutive (map fst seg) -> max + 1 < Z.of_nat (List.length seg) -> seg <> [] ->
  count_loop max None (pre ++ seg ++ l) <> [].
Proof.
  intros Hc Hlt Hne.
  destruct (count_loop_app max pre (seg ++ l) None) as (st & E & Hnil & Hst & Hnn).
  rewrite E. destruct pre as [|p0 pre].
  - rewrite (Hnil eq_refl). apply count_loop_first; auto; lia.
  - destruct (Hst ltac:(discriminate)) as (p & c & ->).
    assert (0 <= c) by (eapply Hnn; [reflexivity|discriminate]).
    destruct seg as [|(i, x) seg]; [congruence|].
    intros H0. apply app_eq_nil in H0. destruct H0 as [_ H0]. revert H0.
    cbn [app count_loop]. set (count := if i - p =? 1 then c + 1 else 0).
    destruct (max <? count) eqn:Em; [discriminate|]. simpl app.
    apply count_loop_run; [exact Hc|lia|]. simpl List.length in Hlt. unfold count. destruct (i - p =? 1); lia.
Qed.
