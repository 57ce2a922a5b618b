From Verif Require Import Base.Prelude Model.SeqEnum Model.SymmGroup Model.KeepOrder Spec.SeqEnumSpec Spec.KeepOrderSpec Proofs.SeqEnumP Proofs.SymmGroupP Proofs.SeqMovesP Proofs.SeqSwapP.

(** * Positions *)
Lemma at_split l v : (In v l /\ exists l1 l2, l = l1 ++ v :: l2 /\ length l1 = at_ l v /\ ~ In v l1) \/ (~ In v l /\ at_ l v = length l).
Proof.
  unfold at_. destruct (index_of v l) as [i|] eqn:E.
  - left. destruct (index_of_some _ _ _ E) as (l1 & l2 & -> & <- & H). split; [apply in_elt|]. eauto.
  - right. split; [|reflexivity]. intros Hin. destruct (index_of_in _ _ Hin) as [i Hi]. congruence.
Qed.
Lemma at_in l v : In v l -> at_ l v < length l /\ nth (at_ l v) l 0 = v.
Proof.
  intros Hin. destruct (at_split l v) as [(_ & l1 & l2 & E & <- & _)|[H _]]; [|tauto].
  subst l. rewrite app_length. cbn. split; [lia|]. rewrite app_nth2, Nat.sub_diag by lia. reflexivity.
Qed.
Lemma at_lt l v : at_ l v < length l -> In v l.
Proof. destruct (at_split l v) as [[H _]|[_ H]]; [auto|lia]. Qed.
Lemma at_nth l i : NoDup l -> i < length l -> at_ l (nth i l 0) = i.
Proof.
  intros Hn Hi. destruct (at_in l (nth i l 0) (nth_In _ _ Hi)) as [A B]. eapply nodup_nth_inj; eauto.
Qed.
Lemma at_precedes l a b : at_ l a < at_ l b -> In b l -> precedes l a b.
Proof.
  intros H Hb. assert (In a l) as Ha by (apply at_lt; apply at_in in Hb; lia).
  destruct (at_split l a) as [(_ & l1 & l2 & E & La & Na)|[? _]]; [|tauto].
  assert (In b l2) as Hb2.
  { rewrite E in Hb. apply in_app_iff in Hb as [Hb|[<-|Hb]]; auto; [|lia].
    exfalso. destruct (at_split l b) as [(_ & m1 & m2 & E2 & Lb & Nb)|[? _]]; [|subst l; rewrite in_app_iff in *; tauto].
    apply in_split in Hb as (k1 & k2 & ->). apply Nb.
    rewrite E in E2. clear - E2 Lb La H. revert m1 E2 Lb. rewrite <- La in H. rewrite app_length in H. cbn in H.
    induction k1 as [|x k1 IH]; intros m1 E2 Lb.
    - destruct m1 as [|y m1]; cbn in *; [lia|]. injection E2 as <- _. now left.
    - destruct m1 as [|y m1]; cbn in *; [lia|]. injection E2 as <- E2. right.
      revert IH. intros _. rewrite <- app_assoc in E2. clear - E2 Lb H.
      assert (length k1 < length m1) as HL by lia. clear Lb H. revert m1 E2 HL.
      induction k1 as [|z k1 IH]; intros [|y m1] E2 HL; cbn in *; try lia; injection E2 as -> E2; auto.
      right. apply IH; [auto|lia]. }
  apply in_split in Hb2 as (k1 & k2 & ->). exists l1, k1, k2. exact E.
Qed.
Lemma precedes_at l a b : NoDup l -> precedes l a b -> at_ l a < at_ l b /\ In a l /\ In b l.
Proof.
  intros Hn (l1 & l2 & l3 & ->). 
  assert (at_ (l1 ++ a :: l2 ++ b :: l3) a = length l1) as A.
  { pose proof (at_nth _ (length l1) Hn) as H. rewrite app_nth2, Nat.sub_diag in H by lia. cbn in H. apply H. rewrite app_length. cbn. lia. }
  assert (at_ (l1 ++ a :: l2 ++ b :: l3) b = length (l1 ++ a :: l2)) as B.
  { replace (l1 ++ a :: l2 ++ b :: l3) with ((l1 ++ a :: l2) ++ b :: l3) in * by now rewrite <- app_assoc.
    pose proof (at_nth _ (length (l1 ++ a :: l2)) Hn) as H. rewrite app_nth2, Nat.sub_diag in H by lia. cbn [nth] in H. apply H. rewrite (app_length _ (b :: l3)). cbn. lia. }
  rewrite A, B, app_length. cbn. split; [lia|]. split; apply in_or_app; right; [now left|]. right. apply in_elt.
Qed.

(** * Inserting and erasing *)
Lemma ins_perm i x l : Permutation (x :: l) (ins i x l).
Proof. unfold ins. rewrite <- (firstn_skipn i l) at 1. apply Permutation_middle. Qed.
Lemma del_perm i l : i < length l -> Permutation (nth i l 0 :: del i l) l.
Proof.
  intros Hi. unfold del. destruct (nth_split l 0 Hi) as (l1 & l2 & E & L). rewrite E at 2 3 4. subst i.
  rewrite firstn_app, firstn_all, Nat.sub_diag. cbn [firstn]. rewrite app_nil_r.
  replace (S (length l1)) with (length (l1 ++ [nth (length l1) l 0])) by (rewrite app_length; cbn; lia).
  replace (l1 ++ nth (length l1) l 0 :: l2) with ((l1 ++ [nth (length l1) l 0]) ++ l2) by now rewrite <- app_assoc.
  rewrite skipn_app, skipn_all, Nat.sub_diag. cbn [skipn app]. rewrite <- app_assoc. apply Permutation_middle.
Qed.
Lemma ins_len i x l : length (ins i x l) = S (length l).
Proof. symmetry. apply (Permutation_length (ins_perm i x l)). Qed.
Lemma del_len i l : i < length l -> length (del i l) = length l - 1.
Proof. intros Hi. pose proof (Permutation_length (del_perm i l Hi)). cbn in *. lia. Qed.
Lemma ins_nth i x l k : k < i -> k < length l -> nth k (ins i x l) 0 = nth k l 0.
Proof.
  intros Hk Hl. unfold ins. rewrite app_nth1 by (rewrite firstn_length; lia).
  rewrite <- (firstn_skipn i l) at 2. rewrite app_nth1 by (rewrite firstn_length; lia). reflexivity.
Qed.
Lemma del_nth i l k : k < i -> k < length l -> nth k (del i l) 0 = nth k l 0.
Proof.
  intros Hk Hl. unfold del. rewrite app_nth1 by (rewrite firstn_length; lia).
  rewrite <- (firstn_skipn i l) at 2. rewrite app_nth1 by (rewrite firstn_length; lia). reflexivity.
Qed.
Lemma del_perm' i x l : i < length l -> nth i l 0 = x -> Permutation (x :: del i l) l.
Proof. intros Hi <-. now apply del_perm. Qed.
(** Insertion, then erasure of the same value. *)
Lemma ins_del i j x l l0 : j < S (length l) -> nth j (ins i x l) 0 = x -> Permutation l l0 -> Permutation (del j (ins i x l)) l0.
Proof.
  intros Hj Hx Hp. rewrite <- Hp. apply (Permutation_cons_inv (a := x)).
  rewrite (del_perm' j x) by (rewrite ?ins_len; auto). symmetry. apply ins_perm.
Qed.
Lemma around_perm l p a b : NoDup l -> In p l -> In a l -> In b l -> a <> b -> p <> a -> p <> b -> Permutation l (around l p a b).
Proof.
  intros Hn Hp Ha Hb Hab Hpa Hpb. unfold around.
  assert (forall x y, In x l -> In y l -> x <> y -> p <> x -> p <> y -> at_ l x <= at_ l y ->
    Permutation l (if at_ l y <? at_ l p then del (at_ l x) (del (at_ l y) (ins (at_ l p) x (ins (at_ l p + 1) y l)))
       else if at_ l x <? at_ l p then del (at_ l x) (ins (at_ l p) x (ins (at_ l p + 1) y (del (at_ l y) l)))
       else ins (at_ l p) x (ins (at_ l p + 1) y (del (at_ l x) (del (at_ l y) l))))) as H.
  { intros x y Hx Hy Hxy Hpx Hpy Hle. destruct (at_in _ _ Hx) as [X1 X2], (at_in _ _ Hy) as [Y1 Y2], (at_in _ _ Hp) as [P1 P2].
    assert (at_ l x <> at_ l y) by congruence. assert (at_ l p <> at_ l y) by congruence. assert (at_ l p <> at_ l x) by congruence.
    set (i := at_ l x) in *. set (j := at_ l y) in *. set (k := at_ l p) in *. clearbody i j k.
    destruct (Nat.ltb_spec j k).
    - apply (Permutation_cons_inv (a := x)), (Permutation_cons_inv (a := y)).
      transitivity (y :: del j (ins k x (ins (k + 1) y l))).
      + rewrite (del_perm' j y); [|rewrite !ins_len; lia|rewrite !ins_nth by (rewrite ?ins_len; lia); auto].
        rewrite <- (ins_perm k x), <- (ins_perm (k + 1) y). apply perm_swap.
      + apply perm_skip. symmetry. apply del_perm'.
        * rewrite del_len; rewrite !ins_len; lia.
        * rewrite del_nth, !ins_nth by (rewrite ?ins_len; lia). auto.
    - destruct (Nat.ltb_spec i k).
      + apply (Permutation_cons_inv (a := x)). rewrite (del_perm' i x).
        * rewrite <- (ins_perm k x), <- (ins_perm (k + 1) y). apply perm_skip. symmetry. apply del_perm'; auto.
        * rewrite !ins_len, del_len; lia.
        * rewrite !ins_nth by (rewrite ?ins_len, ?del_len; lia). rewrite del_nth by lia. auto.
      + rewrite <- (ins_perm k x), <- (ins_perm (k + 1) y). symmetry. rewrite perm_swap.
        rewrite (del_perm' i x); [apply del_perm'; auto|rewrite del_len; lia|rewrite del_nth by lia; auto]. }
  destruct (Nat.ltb_spec (at_ l b) (at_ l a)); apply H; auto; lia.
Qed.
Lemma abut_perm d l o : NoDup l -> In (o_first o) l -> In (o_second o) l -> o_first o <> o_second o -> Permutation l (abut d l o).
Proof.
  intros Hn Ha Hb Hab. unfold abut. destruct (snd o); [reflexivity|].
  assert (forall x y, In x l -> In y l -> x <> y ->
   Permutation l (if at_ l x <? at_ l y then
        if match o_cp d x, o_cp d y with Some x0, Some y0 => (x0 =? x) && (y0 =? y) | _, _ => false end then
          let '(f, k) := innermost d l (at_ l x) (at_ l y) in
          if (f <? k) && negb (f =? at_ l x) && negb (k =? at_ l y) then
            if at_ l y <? f then del (at_ l x) (del (at_ l y) (ins (f + 1) x (ins k y l)))
            else if at_ l y <? k then
              if at_ l x <? f then del (at_ l x) (ins (f + 1) x (del (at_ l y) (ins k y l)))
              else ins (f + 1) x (del (at_ l x) (del (at_ l y) (ins k y l)))
            else if at_ l x <? f then del (at_ l x) (ins (f + 1) x (ins k y (del (at_ l y) l)))
            else if at_ l x <? k then ins (f + 1) x (del (at_ l x) (ins k y (del (at_ l y) l)))
            else ins (f + 1) x (ins k y (del (at_ l x) (del (at_ l y) l)))
          else l
        else l
      else l)) as H.
  { intros x y Hx Hy Hxy. destruct (Nat.ltb_spec (at_ l x) (at_ l y)) as [Hlt|]; [|reflexivity].
    destruct (match o_cp d x, o_cp d y with Some x0, Some y0 => (x0 =? x) && (y0 =? y) | _, _ => false end); [|reflexivity].
    destruct (innermost d l (at_ l x) (at_ l y)) as [f k].
    match goal with |- Permutation _ (if ?b then _ else _) => destruct b eqn:E end; [|reflexivity].
    apply andb_true_iff in E as [E _]. apply andb_true_iff in E as [E _]. apply Nat.ltb_lt in E.
    destruct (at_in _ _ Hx) as [X1 X2], (at_in _ _ Hy) as [Y1 Y2].
    set (i := at_ l x) in *. set (j := at_ l y) in *. clearbody i j.
    destruct (Nat.ltb_spec j f); [|destruct (Nat.ltb_spec j k); [destruct (Nat.ltb_spec i f)|destruct (Nat.ltb_spec i f); [|destruct (Nat.ltb_spec i k)]]].
    - apply (Permutation_cons_inv (a := x)). rewrite (del_perm' i x).
      + apply (Permutation_cons_inv (a := y)). rewrite (del_perm' j y).
        * rewrite <- (ins_perm (f + 1) x), <- (ins_perm k y). apply perm_swap.
        * rewrite !ins_len; lia.
        * rewrite !ins_nth by (rewrite ?ins_len; lia). auto.
      + rewrite del_len; rewrite !ins_len; lia.
      + rewrite del_nth, !ins_nth by (rewrite ?ins_len; lia). auto.
    - symmetry. apply ins_del.
      + rewrite del_len; rewrite !ins_len; lia.
      + rewrite ins_nth by (rewrite ?del_len; rewrite ?ins_len; lia). rewrite del_nth by (rewrite ?ins_len; lia). rewrite ins_nth by lia. auto.
      + apply ins_del; [lia| |reflexivity]. rewrite ins_nth by lia. auto.
    - rewrite <- (ins_perm (f + 1) x). rewrite (del_perm' i x).
      + symmetry. apply ins_del; [lia| |reflexivity]. rewrite ins_nth by lia. auto.
      + rewrite del_len; rewrite !ins_len; lia.
      + rewrite del_nth by (rewrite ?ins_len; lia). rewrite ins_nth by lia. auto.
    - symmetry. apply ins_del.
      + rewrite ins_len, del_len; lia.
      + rewrite !ins_nth by (rewrite ?ins_len, ?del_len; lia). rewrite del_nth by lia. auto.
      + rewrite <- (ins_perm k y). apply del_perm'; auto.
    - rewrite <- (ins_perm (f + 1) x). rewrite (del_perm' i x).
      + rewrite <- (ins_perm k y). symmetry. apply del_perm'; auto.
      + rewrite ins_len, del_len; lia.
      + rewrite ins_nth by (rewrite ?del_len; lia). rewrite del_nth by lia. auto.
    - rewrite <- (ins_perm (f + 1) x), <- (ins_perm k y). symmetry. rewrite perm_swap.
      rewrite (del_perm' i x); [apply del_perm'; auto|rewrite del_len; lia|rewrite del_nth by lia; auto]. }
  destruct (Nat.ltb_spec (at_ l (o_second o)) (at_ l (o_first o))); apply H; auto.
Qed.
