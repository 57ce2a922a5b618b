(** Proofs about the visitors. *)
From Coq Require Import String.
From Verif Require Import Base.Prelude Model.Visitor Spec.VisitorSpec.

Lemma forall2_weaken {A B} (P Q : A -> B -> Prop) l l' : Forall2 P l l' -> (forall a b, In a l -> In b l' -> P a b -> Q a b) -> Forall2 Q l l'.
Proof. induction 1; intros H1; constructor; [apply H1; cbn; auto|]. apply IHForall2. intros. apply H1; cbn; auto. Qed.
Lemma stands_more h n v t : stands h n v t -> forall h' m, n <= m -> (exists r, h' = h ++ r) -> stands h' m v t.
Proof.
  revert v t. induction n as [|n IH]; intros v t H h' m L E; inversion H; subst; try constructor.
  destruct m as [|m]; [lia|]. econstructor.
  - destruct E as [r ->]. rewrite nth_error_app1; [eassumption|]. apply nth_error_Some. congruence.
  - eapply forall2_weaken; [eassumption|]. intros a b _ _ K. apply IH; auto. lia.
Qed.
Lemma forall2_fun {A B} (P : A -> B -> Prop) l : forall x y, Forall2 P l x -> Forall2 P l y -> (forall a b c, P a b -> P a c -> b = c) -> x = y.
Proof. induction l as [|a l IH]; intros x y H1 H2 H; inversion H1; inversion H2; subst; [reflexivity|]. f_equal; eauto. Qed.
Lemma stands_fun h n v t : stands h n v t -> forall t', stands h n v t' -> t = t'.
Proof.
  revert v t. induction n as [|n IH]; intros v t H t' H'; inversion H; inversion H'; subst; try congruence.
  assert (o = o0) as <- by congruence. f_equal. eapply forall2_fun; eauto.
Qed.
Lemma stands_fun' h n m v t t' : stands h n v t -> stands h m v t' -> t = t'.
Proof.
  intros H1 H2. apply (stands_fun h (n + m) v); eapply stands_more; eauto; try lia; exists []; now rewrite app_nil_r.
Qed.

Fixpoint tsize (t : tree) : nat := match t with TLeaf _ => 1 | TNode _ ts => S (list_sum (map tsize ts)) end.
Lemma tsize_kid b ts t : In t ts -> tsize t < tsize (TNode b ts).
Proof. intros H. cbn [tsize]. apply in_split in H. destruct H as (u & w & ->). rewrite map_app, list_sum_app. cbn. lia. Qed.

Lemma cached_in {R} id (c : list (nat * R)) v : cached id c = Some v -> In (id, v) c.
Proof. induction c as [|[k w] c IH]; [discriminate|]. cbn [cached]. destruct (Nat.eqb_spec id k) as [->|]; [intros [= ->]; now left|right; auto]. Qed.
Lemma cached_none {R} id (c : list (nat * R)) : cached id c = None <-> ~ In id (map fst c).
Proof.
  induction c as [|[k w] c IH]; cbn; [tauto|]. destruct (Nat.eqb_spec id k) as [->|N]; [split; [discriminate|intros H; destruct H; now left]|].
  rewrite IH. intuition congruence.
Qed.

Definition extends (h h' : list obj) : Prop := exists r, h' = h ++ r.
Lemma extends_refl h : extends h h. Proof. exists []. now rewrite app_nil_r. Qed.
Lemma extends_trans a b c : extends a b -> extends b c -> extends a c.
Proof. intros [r ->] [s ->]. exists (r ++ s). now rewrite app_assoc. Qed.
Lemma extends_nth h h' i o : extends h h' -> nth_error h i = Some o -> nth_error h' i = Some o.
Proof. intros [r ->] H. rewrite nth_error_app1; [exact H|]. apply nth_error_Some. congruence. Qed.
Lemma extends_stands h h' n v t : extends h h' -> stands h n v t -> stands h' n v t.
Proof. intros E H. eapply stands_more; eauto. Qed.
Lemma extends_alloc {R} (st : state R) o : extends (hp st) (hp (snd (alloc st o))).
Proof. exists [o]. reflexivity. Qed.
#[global] Hint Resolve extends_refl extends_trans : core.

(** A comprehension over a list whose elements have trees. *)
Section Each.
Context {S' A T : Type} (F : S' -> val -> option (A * S')) (Inv : S' -> Prop) (step : S' -> S' -> Prop) (good : S' -> val -> T -> A -> Prop).
Hypothesis step_refl : forall s, step s s.
Hypothesis step_trans : forall a b c, step a b -> step b c -> step a c.
Hypothesis good_step : forall s s' v t a, step s s' -> good s v t a -> good s' v t a.
Lemma each_ok : forall vs ts st, Inv st -> Forall2 (fun v t => forall st, Inv st -> exists a st', F st v = Some (a, st') /\ Inv st' /\ step st st' /\ good st' v t a) vs ts ->
  exists rs st', each F st vs = Some (rs, st') /\ Inv st' /\ step st st' /\ length rs = length vs /\
    (forall k v t, nth_error vs k = Some v -> nth_error ts k = Some t -> exists a, nth_error rs k = Some a /\ good st' v t a).
Proof.
  intros vs ts st I H. revert st I. induction H as [|v t vs ts Hv H IH]; intros st I; cbn [each].
  - exists [], st. split; [reflexivity|]. split; [exact I|]. split; [apply step_refl|]. split; [reflexivity|]. intros [|]; discriminate.
  - destruct (Hv st I) as (a & s1 & E1 & I1 & S1 & G1). destruct (IH s1 I1) as (rs & s2 & E2 & I2 & S2 & L & G2).
    rewrite E1, E2. exists (a :: rs), s2. split; [reflexivity|]. split; [exact I2|]. split; [eapply step_trans; eauto|]. split; [cbn; lia|].
    intros [|k] v' t' Hv' Ht'; cbn in *.
    + injection Hv' as <-. injection Ht' as <-. exists a. split; [reflexivity|]. eapply good_step; eauto.
    + now apply G2.
Qed.
End Each.

(** * Transformer *)
Section Tr.
Variables (f : leaf -> option leaf) (h0 : list obj).

Definition t_good (st : state val) (v : val) (t : tree) (a : val * bool) : Prop :=
  (exists m, stands (hp st) m (fst a) (mapped f t)) /\ (snd a = true <-> ~ touched f t) /\ (snd a = true -> fst a = v) /\
  (snd a = false -> forall id, v = VRef id -> exists j, fst a = VRef j /\ length h0 <= j).
Definition t_inv (st : state val) : Prop :=
  extends h0 (hp st) /\ NoDup (map fst (cache st)) /\
  forall id v', In (id, v') (cache st) -> exists n t, stands h0 n (VRef id) t /\ t_good st (VRef id) t (v', is_ref id v').
Definition t_step (B : nat) (st st' : state val) : Prop :=
  extends (hp st) (hp st') /\ exists new, cache st' = new ++ cache st /\
   forall id v', In (id, v') new -> exists n t, stands h0 n (VRef id) t /\ tsize t < B.

Lemma t_step_refl B st : t_step B st st.
Proof. split; [apply extends_refl|]. exists []. split; [reflexivity|]. intros id v' []. Qed.
Lemma t_step_trans B a b c : t_step B a b -> t_step B b c -> t_step B a c.
Proof.
  intros [E1 (n1 & C1 & H1)] [E2 (n2 & C2 & H2)]. split; [eapply extends_trans; eauto|]. exists (n2 ++ n1). rewrite C2, C1, app_assoc. split; [reflexivity|].
  intros id v' H. apply in_app_or in H. destruct H; eauto.
Qed.
Lemma t_good_step B s s' v t a : t_step B s s' -> t_good s v t a -> t_good s' v t a.
Proof. intros [E _] ((m & H) & G). split; [|exact G]. exists m. eapply extends_stands; eauto. Qed.
Lemma t_step_more B B' s s' : t_step B s s' -> B <= B' -> t_step B' s s'.
Proof. intros [E (new & C & H)] L. split; [exact E|]. exists new. split; [exact C|]. intros id v' Hi. destruct (H id v' Hi) as (n & t & S & Q). exists n, t. split; [exact S|lia]. Qed.

Lemma touched_node b ts : touched f (TNode b ts) <-> exists t, In t ts /\ touched f t.
Proof.
  unfold touched. cbn [leaves]. split.
  - intros (l & H & N). apply in_flat_map in H. destruct H as (t & H1 & H2). eauto.
  - intros (t & H & l & H1 & H2). exists l. split; [apply in_flat_map; eauto|exact H2].
Qed.

Lemma nth_all {A B} (P : A -> B -> Prop) l l' : length l = length l' -> (forall k a b, nth_error l k = Some a -> nth_error l' k = Some b -> P a b) -> Forall2 P l l'.
Proof.
  revert l'. induction l as [|a l IH]; intros [|b l'] L H; try discriminate; constructor; [apply (H 0); reflexivity|].
  apply IH; [cbn in L; lia|]. intros k x y Hx Hy. apply (H (S k)); assumption.
Qed.
Lemma forall2_len {A B} (P : A -> B -> Prop) l l' : Forall2 P l l' -> length l = length l'.
Proof. induction 1; cbn; congruence. Qed.

(** A new object for values with trees. *)
Lemma stands_list h vs ts : Forall2 (fun v t => exists m, stands h m v t) vs ts -> exists m, Forall2 (stands h m) vs ts.
Proof.
  induction 1 as [|v t vs ts [m Hm] _ [m' IH]]; [exists 0; constructor|]. exists (m + m'). constructor; [eapply stands_more; [exact Hm|lia|apply extends_refl]|].
  eapply forall2_weaken; [exact IH|]. intros. eapply stands_more; [eassumption|lia|apply extends_refl].
Qed.

Lemma coerce_ok st old new m t : stands (hp st) m new t ->
  exists new' r, coerce st (old, new) = Some (new', St (hp st ++ r) (cache st)) /\ stands (hp st ++ r) m new' t.
Proof.
  intros H. cbn [coerce]. destruct new as [j|l|]; [|exists (VLeaf l), []; rewrite app_nil_r; destruct st; auto|inversion H].
  assert (exists k, nth_error (hp st) j = k) as [k E] by eauto. rewrite E.
  assert (forall o, k = Some o -> forall o', label_of o' = label_of o -> kids o' = kids o -> stands (hp st ++ [o']) m (VRef (length (hp st))) t) as Q.
  { intros o -> o' El Ek. inversion H as [|? ? o1 ts E1 F]; subst. assert (o1 = o) as -> by congruence. rewrite <- El. constructor; [rewrite nth_error_app2, Nat.sub_diag by lia; reflexivity|].
    rewrite Ek. eapply forall2_weaken; [exact F|]. intros a b _ _ K. eapply stands_more; [exact K|lia|]. now exists [o']. }
  destruct k as [[cls fs|[]|[]]|]; try (exists (VRef j), []; rewrite app_nil_r; destruct st; now auto).
  - eexists _, [_]. split; [reflexivity|]. cbn. eapply Q; reflexivity.
  - eexists _, [_]. split; [reflexivity|]. cbn. eapply Q; reflexivity.
Qed.
Lemma coerces_ok : forall olds news ts st, length olds = length news -> Forall2 (fun v t => exists m, stands (hp st) m v t) news ts ->
  exists news' r, each coerce st (combine olds news) = Some (news', St (hp st ++ r) (cache st)) /\ Forall2 (fun v t => exists m, stands (hp st ++ r) m v t) news' ts.
Proof.
  induction olds as [|o olds IH]; intros [|v news] ts st L H; try discriminate; inversion H; subst; cbn [combine each].
  - exists [], []. rewrite app_nil_r. destruct st. split; [reflexivity|constructor].
  - match goal with Hx : exists m, stands _ m v ?t |- _ => destruct Hx as [m Hm] end.
    destruct (coerce_ok st o v m _ Hm) as (v' & r & E & S1). rewrite E.
    destruct (IH news l' (St (hp st ++ r) (cache st))) as (news' & r' & E' & S2); [cbn in L; lia| |].
    { eapply forall2_weaken; [eassumption|]. cbn. intros a b _ _ [k K]. exists k. eapply stands_more; [exact K|lia|now exists r]. }
    cbn [hp cache] in E', S2. rewrite E'. exists (v' :: news'), (r ++ r'). rewrite app_assoc. split; [reflexivity|]. constructor; [|exact S2].
    exists m. eapply stands_more; [exact S1|lia|now exists r'].
Qed.

Lemma combine_fst {A B} (l : list A) : forall (l' : list B), length l = length l' -> map fst (combine l l') = l.
Proof. induction l as [|a l IH]; intros [|b l'] H; try discriminate; cbn; [reflexivity|]. rewrite IH; auto. Qed.
Lemma combine_snd {A B} (l : list A) : forall (l' : list B), length l = length l' -> map snd (combine l l') = l'.
Proof. induction l as [|a l IH]; intros [|b l'] H; try discriminate; cbn; [reflexivity|]. rewrite IH; auto. Qed.

Lemma fresh_stands h o vs ts b : label_of o = b -> kids o = vs -> Forall2 (fun v t => exists m, stands h m v t) vs ts -> exists m, stands (h ++ [o]) m (VRef (length h)) (TNode b ts).
Proof.
  intros El Ek H. destruct (stands_list h vs ts H) as [m F]. exists (S m). rewrite <- El. constructor; [rewrite nth_error_app2, Nat.sub_diag by lia; reflexivity|].
  rewrite Ek. eapply forall2_weaken; [exact F|]. intros a c _ _ K. eapply stands_more; [exact K|lia|]. now exists [o].
Qed.

Lemma rebuild_ok st o new ts : length new = length (kids o) -> Forall2 (fun v t => exists m, stands (hp st) m v t) new ts ->
  exists j st', rebuild st o new = Some (VRef j, st') /\ length (hp st) <= j /\ extends (hp st) (hp st') /\ cache st' = cache st /\
    exists m, stands (hp st') m (VRef j) (TNode (label_of o) ts).
Proof.
  intros L H. destruct o as [cls fs|ty vs|ty kvs]; cbn [rebuild kids] in *.
  - destruct (coerces_ok (map snd fs) new ts st (eq_sym L) H) as (news' & r & E & S1). rewrite E. cbn [alloc].
    exists (length (hp st ++ r)), (St ((hp st ++ r) ++ [OModel cls (combine (map fst fs) news')]) (cache st)). split; [reflexivity|].
    split; [rewrite app_length; lia|]. split; [exists (r ++ [OModel cls (combine (map fst fs) news')]); now rewrite app_assoc|]. split; [reflexivity|].
    assert (length (map fst fs) = length news') as Ln by (rewrite (forall2_len _ _ _ S1), <- (forall2_len _ _ _ H), L, !map_length; reflexivity).
    eapply fresh_stands; [cbn; now rewrite combine_fst|cbn; now rewrite combine_snd|exact S1].
  - exists (length (hp st)), (St (hp st ++ [OSeq false new]) (cache st)). split; [reflexivity|]. split; [lia|]. split; [now exists [OSeq false new]|]. split; [reflexivity|].
    eapply fresh_stands; [reflexivity|reflexivity|exact H].
  - exists (length (hp st)), (St (hp st ++ [OMap false (combine (map fst kvs) new)]) (cache st)). split; [reflexivity|]. split; [lia|]. split; [now exists [OMap false (combine (map fst kvs) new)]|]. split; [reflexivity|].
    assert (length (map fst kvs) = length new) as Ln by (rewrite L, !map_length; reflexivity).
    eapply fresh_stands; [cbn; now rewrite combine_fst|cbn; now rewrite combine_snd|exact H].
Qed.

Lemma transform_ok n : forall v t st, stands h0 n v t -> t_inv st ->
  exists a st', transform f n st v = Some (a, st') /\ t_inv st' /\ t_step (S (tsize t)) st st' /\ t_good st' v t a.
Proof.
  induction n as [|n IH]; intros v t st H I; inversion H as [? l|? id o ts Ho F]; subst; cbn [transform].
  1, 2: (eexists _, st; split; [reflexivity|]; split; [exact I|]; split; [apply t_step_refl|];
         unfold t_good, touched; cbn [mapped leaves]; destruct (f l) as [l'|] eqn:E; cbn [fst snd];
         (split; [exists 0; constructor|]); (split; [|split; [try reflexivity; discriminate|intros _ id; discriminate]]);
         [split; [discriminate|intros Q; destruct Q; exists l; split; [now left|congruence]]|split; [intros _ (x & [<-|[]] & Q); congruence|reflexivity]]).
  pose proof I as (E & ND & C). rewrite (extends_nth _ _ _ _ E Ho).
  destruct (if cacheable o then cached id (cache st) else None) as [v'|] eqn:Ca.
  { eexists _, st. split; [reflexivity|]. split; [exact I|]. split; [apply t_step_refl|].
    assert (cached id (cache st) = Some v') as Ca' by (destruct (cacheable o); congruence). apply cached_in in Ca'. destruct (C _ _ Ca') as (n' & t' & S' & G).
    now rewrite (stands_fun' _ _ _ _ _ _ H S'). }
  destruct (each_ok (transform f n) t_inv (t_step (tsize (TNode (label_of o) ts))) t_good (t_step_refl _) (t_step_trans _) (t_good_step _) (kids o) ts st I) as (rs & s1 & E1 & I1 & S1 & L1 & G1).
  { eapply forall2_weaken; [exact F|]. intros v t _ Ht Q s Is. destruct (IH v t s Q Is) as (a & s' & A1 & A2 & A3 & A4). exists a, s'. split; [exact A1|]. split; [exact A2|]. split; [|exact A4].
    eapply t_step_more; [exact A3|]. now apply tsize_kid. }
  rewrite E1.
  pose proof (forall2_len _ _ _ F) as Lk.
  assert (Forall2 (fun v t => exists m, stands (hp s1) m v t) (map fst rs) (map (mapped f) ts)) as Fnew.
  { apply nth_all; [rewrite !map_length; congruence|]. intros k v' t' Hv Ht. rewrite nth_error_map in Hv, Ht.
    destruct (nth_error ts k) as [t|] eqn:Et; [|discriminate]. injection Ht as <-. destruct (nth_error (kids o) k) as [u|] eqn:Eu.
    - destruct (G1 k u t Eu Et) as (a & Ea & (Gm & _)). rewrite Ea in Hv. injection Hv as <-. exact Gm.
    - exfalso. apply nth_error_None in Eu. assert (k < length ts) by (apply nth_error_Some; congruence). lia. }
  assert (forallb snd rs = true <-> ~ touched f (TNode (label_of o) ts)) as Same.
  { rewrite forallb_forall, touched_node. split.
    - intros Q (t & Ht & Tt). apply In_nth_error in Ht. destruct Ht as [k Et]. destruct (nth_error (kids o) k) as [u|] eqn:Eu.
      + destruct (G1 k u t Eu Et) as (a & Ea & (_ & Gm & _)). apply nth_error_In in Ea. apply (proj1 Gm (Q a Ea)). exact Tt.
      + apply nth_error_None in Eu. assert (k < length ts) by (apply nth_error_Some; congruence). lia.
    - intros Q a Ha. apply In_nth_error in Ha. destruct Ha as [k Ea]. destruct (nth_error (kids o) k) as [u|] eqn:Eu.
      2:{ apply nth_error_None in Eu. assert (k < length rs) by (apply nth_error_Some; congruence). lia. }
      destruct (nth_error ts k) as [t|] eqn:Et.
      2:{ apply nth_error_None in Et. assert (k < length rs) by (apply nth_error_Some; congruence). lia. }
      destruct (G1 k u t Eu Et) as (a' & Ea' & (_ & Gm & _)). assert (a' = a) as -> by congruence. apply Gm. intros Tt. apply Q. exists t. split; [eapply nth_error_In; eauto|exact Tt]. }
  assert (exists v' s2, (if forallb snd rs then Some (VRef id, s1) else rebuild s1 o (map fst rs)) = Some (v', s2) /\ extends (hp s1) (hp s2) /\ cache s2 = cache s1 /\
          t_good s2 (VRef id) (TNode (label_of o) ts) (v', is_ref id v')) as (v' & s2 & E2 & X2 & C2 & G2).
  { destruct (forallb snd rs) eqn:Fb.
    - exists (VRef id), s1. split; [reflexivity|]. split; [apply extends_refl|]. split; [reflexivity|]. unfold t_good. cbn [is_ref fst snd mapped]. rewrite Nat.eqb_refl.
      split; [|split; [tauto|split; [reflexivity|discriminate]]]. exists (S n).
      assert (map (mapped f) ts = ts) as ->.
      { assert (forall t, ~ touched f t -> mapped f t = t) as Id.
        { fix Rec 1. intros [l|b ts'] Q; cbn.
          - destruct (f l) as [l'|] eqn:El; [|reflexivity]. exfalso. apply Q. exists l. split; [now left|congruence].
          - f_equal. assert (forall t, In t ts' -> ~ touched f t) as Q' by (intros t Ht Tt; apply Q, touched_node; eauto). clear Q.
            induction ts' as [|t ts' IHl]; [reflexivity|]. cbn. f_equal; [apply Rec, Q'; now left|]. apply IHl. intros; apply Q'; now right. }
        rewrite <- (map_id ts) at 2. apply map_ext_in. intros t Ht. apply Id. intros Tt. apply (proj1 Same eq_refl). apply touched_node. eauto. }
      destruct I1 as (E' & _). eapply extends_stands; [exact E'|exact H].
    - destruct (rebuild_ok s1 o (map fst rs) (map (mapped f) ts)) as (j & s2 & R1 & R2 & R3 & R4 & R5); [rewrite map_length; exact L1|exact Fnew|].
      exists (VRef j), s2. split; [exact R1|]. split; [exact R3|]. split; [exact R4|]. unfold t_good. cbn [is_ref fst snd mapped].
      destruct I1 as ([r E'] & _). assert (length h0 <= j) as Lj by (rewrite E', app_length in R2; lia).
      assert (id < length h0) as Lid by (apply nth_error_Some; congruence).
      assert ((id =? j) = false) as -> by (apply Nat.eqb_neq; lia).
      split; [exact R5|]. split; [|split; [discriminate|intros _ id' [= <-]; exists j; auto]]. split; [discriminate|]. intros Q. exfalso. apply Same in Q. discriminate. }
  rewrite E2. destruct S1 as [X1 (new & N1 & N2)].
  assert (t_inv s2) as I2.
  { destruct I1 as (A1 & A2 & A3). split; [eapply extends_trans; eauto|]. rewrite C2. split; [exact A2|]. intros i w Hi. destruct (A3 i w Hi) as (k & t & Q1 & Q2). exists k, t. split; [exact Q1|].
    eapply (t_good_step 0); [|exact Q2]. split; [exact X2|]. exists []. split; [exact C2|]. intros ? ? []. }
  destruct (cacheable o) eqn:Cb.
  - eexists _, _. split; [reflexivity|]. split; [|split].
    + destruct I2 as (A1 & A2 & A3). split; [exact A1|]. cbn [hp cache map fst]. split.
      * constructor; [|exact A2]. rewrite C2, N1, map_app. intros Q. apply in_app_or in Q. destruct Q as [Q|Q].
        -- apply in_map_iff in Q. destruct Q as ([i w] & Ei & Q). cbn in Ei. subst i. destruct (N2 _ _ Q) as (k & t & Q1 & Q2). rewrite <- (stands_fun' _ _ _ _ _ _ H Q1) in Q2. lia.
        -- revert Q. now apply cached_none.
      * intros i w [Hi|Hi].
        -- injection Hi as <- <-. exists (S n), (TNode (label_of o) ts). split; [exact H|exact G2].
        -- destruct (A3 i w Hi) as (k & t & Q1 & Q2). exists k, t. split; [exact Q1|exact Q2].
    + split; [cbn; eapply extends_trans; eauto|]. exists ((id, v') :: new). cbn [cache]. rewrite C2, N1. split; [reflexivity|]. intros i w [Hi|Hi].
      * injection Hi as <- <-. exists (S n), (TNode (label_of o) ts). split; [exact H|lia].
      * destruct (N2 i w Hi) as (k & t & Q1 & Q2). exists k, t. split; [exact Q1|lia].
    + exact G2.
  - eexists _, _. split; [reflexivity|]. split; [exact I2|]. split; [|exact G2].
    split; [eapply extends_trans; eauto|]. exists new. rewrite C2. split; [exact N1|]. intros i w Hi. destruct (N2 i w Hi) as (k & t & Q1 & Q2). exists k, t. split; [exact Q1|lia].
Qed.
End Tr.

(** Only proper trees are transformed. *)
Section Conv.
Variables (f : leaf -> option leaf) (h0 : list obj).
Hypothesis Hc : closed h0.
Definition c_inv (st : state val) : Prop := extends h0 (hp st) /\ forall id v', In (id, v') (cache st) -> proper h0 (VRef id).

Lemma each_proper (F : state val -> val -> option ((val * bool) * state val)) :
  (forall st v a st', c_inv st -> in_heap h0 v -> F st v = Some (a, st') -> c_inv st' /\ proper h0 v) ->
  forall vs st rs st', c_inv st -> (forall v, In v vs -> in_heap h0 v) -> each F st vs = Some (rs, st') -> c_inv st' /\ forall v, In v vs -> proper h0 v.
Proof.
  intros HF. induction vs as [|v vs IH]; intros st rs st' I V E; cbn [each] in E.
  - injection E as <- <-. split; [exact I|]. intros v [].
  - destruct (F st v) as [[a s1]|] eqn:E1; [|discriminate]. destruct (each F s1 vs) as [[bs s2]|] eqn:E2; [|discriminate]. injection E as <- <-.
    destruct (HF st v a s1 I (V v (or_introl eq_refl)) E1) as [I1 P1]. destruct (IH s1 bs s2 I1 (fun w Hw => V w (or_intror Hw)) E2) as [I2 P2].
    split; [exact I2|]. intros w [<-|Hw]; auto.
Qed.
Lemma proper_list h vs : (forall v, In v vs -> proper h v) -> exists m ts, Forall2 (stands h m) vs ts.
Proof.
  induction vs as [|v vs IH]; intros H; [exists 0, []; constructor|]. destruct (H v (or_introl eq_refl)) as (m & t & S1). destruct IH as (m' & ts & S2); [intros; apply H; now right|].
  exists (m + m'), (t :: ts). constructor; [eapply stands_more; [exact S1|lia|apply extends_refl]|]. eapply forall2_weaken; [exact S2|]. intros. eapply stands_more; [eassumption|lia|apply extends_refl].
Qed.
Lemma coerces_cache : forall l st vs st', each coerce st l = Some (vs, st') -> extends (hp st) (hp st') /\ cache st' = cache st.
Proof.
  induction l as [|[o v] l IH]; intros st vs st' E; cbn [each] in E.
  - injection E as <- <-. split; [apply extends_refl|reflexivity].
  - destruct (coerce st (o, v)) as [[a s1]|] eqn:E1; [|discriminate]. destruct (each coerce s1 l) as [[bs s2]|] eqn:E2; [|discriminate]. injection E as <- <-.
    destruct (IH _ _ _ E2) as [X C]. assert (extends (hp st) (hp s1) /\ cache s1 = cache st) as [X1 C1].
    { cbn [coerce] in E1. destruct v as [j|l0|]; [|injection E1 as <- <-; split; [apply extends_refl|reflexivity]..].
      destruct (nth_error (hp st) j) as [[?|[]|[]]|]; injection E1 as <- <-; split; try apply extends_refl; try reflexivity; apply extends_alloc. }
    split; [eapply extends_trans; eauto|congruence].
Qed.
Lemma rebuild_cache st o new v st' : rebuild st o new = Some (v, st') -> extends (hp st) (hp st') /\ cache st' = cache st.
Proof.
  destruct o as [cls fs|ty vs|ty kvs]; cbn [rebuild].
  - destruct (each coerce st (combine (map snd fs) new)) as [[vs s1]|] eqn:E; [|discriminate]. intros H. injection H as <- <-. destruct (coerces_cache _ _ _ _ E) as [X C].
    split; [|exact C]. eapply extends_trans; [exact X|]. now eexists.
  - intros [= <- <-]. split; [now eexists|reflexivity].
  - intros [= <- <-]. split; [now eexists|reflexivity].
Qed.

Lemma transform_proper n : forall v st a st', c_inv st -> in_heap h0 v -> transform f n st v = Some (a, st') -> c_inv st' /\ proper h0 v.
Proof.
  induction n as [|n IH]; intros [id|l|] st a st' I V E; cbn [transform] in E; try discriminate.
  - injection E as <- <-. split; [exact I|]. exists 0, (TLeaf l). constructor.
  - pose proof I as [X C]. specialize (V id eq_refl). destruct (nth_error h0 id) as [o|] eqn:Ho; [|apply nth_error_None in Ho; lia].
    rewrite (extends_nth _ _ _ _ X Ho) in E. destruct (if cacheable o then cached id (cache st) else None) as [v'|] eqn:Ca.
    { injection E as <- <-. split; [exact I|]. destruct (cacheable o); [|discriminate]. apply cached_in in Ca. eauto. }
    destruct (each (transform f n) st (kids o)) as [[rs s1]|] eqn:E1; [|discriminate].
    destruct (each_proper (transform f n)) with (vs := kids o) (st := st) (rs := rs) (st' := s1) as [I1 P1]; auto.
    { intros s v b s' Is Vv Es. eapply IH; eauto. }
    { intros v Hv i ->. eapply Hc; [eapply nth_error_In; eauto|exact Hv]. }
    assert (proper h0 (VRef id)) as Pr. { destruct (proper_list h0 (kids o) P1) as (m & ts & S1). exists (S m), (TNode (label_of o) ts). econstructor; eauto. }
    split; [|exact Pr]. destruct (if forallb snd rs then Some (VRef id, s1) else rebuild s1 o (map fst rs)) as [[v' s2]|] eqn:E2; [|discriminate].
    assert (extends (hp s1) (hp s2) /\ cache s2 = cache s1) as [X2 C2].
    { destruct (forallb snd rs); [injection E2 as <- <-; split; [apply extends_refl|reflexivity]|]. eapply rebuild_cache; eauto. }
    destruct I1 as [X1 C1]. injection E as <- <-. assert (c_inv s2) as I2 by (split; [eapply extends_trans; eauto|rewrite C2; exact C1]).
    destruct (cacheable o); [|exact I2]. split; [apply I2|]. cbn [cache]. intros i w [[= <- <-]|Hi]; [exact Pr|]. eapply I2; eauto.
  - injection E as <- <-. split; [exact I|]. exists 0, (TLeaf l). constructor.
Qed.
End Conv.

(** * Visitor *)
Section Vis.
Context {R : Type}.
Variables (g : leaf -> option R) (h0 : list obj).
Definition expected (v : val) (t : tree) : result R :=
  match v with VLeaf l => RLeaf (g l) | _ => RList (collected g t) end.
Definition v_inv (st : state (result R)) : Prop :=
  hp st = h0 /\ forall id r, In (id, r) (cache st) -> exists n t, stands h0 n (VRef id) t /\ r = RList (collected g t).

Lemma visit_ok n : forall v t st, stands h0 n v t -> v_inv st -> exists st', visit g n st v = Some (expected v t, st') /\ v_inv st'.
Proof.
  induction n as [|n IH]; intros v t st H I; inversion H as [? l|? id o ts Ho F]; subst; cbn [visit expected]; try (exists st; split; [reflexivity|exact I]).
  pose proof I as (E & C). rewrite E, Ho. destruct (if cacheable o then cached id (cache st) else None) as [r|] eqn:Ca.
  { exists st. split; [|exact I]. assert (cached id (cache st) = Some r) as Ca' by (destruct (cacheable o); congruence). apply cached_in in Ca'. destruct (C _ _ Ca') as (n' & t' & S' & ->).
    now rewrite (stands_fun' _ _ _ _ _ _ H S'). }
  assert (forall vs ts, Forall2 (stands h0 n) vs ts -> forall s, v_inv s -> exists rs s', each (visit g n) s vs = Some (rs, s') /\ v_inv s' /\ flatten rs = flat_map (collected g) ts) as Go.
  { induction 1 as [|v t vs ts' Hv Hvs IHl]; intros s Is; cbn [each].
    - exists [], s. split; [reflexivity|]. split; [exact Is|reflexivity].
    - destruct (IH v t s Hv Is) as (s1 & E1 & I1). destruct (IHl s1 I1) as (rs & s2 & E2 & I2 & F2). rewrite E1, E2. exists (expected v t :: rs), s2. split; [reflexivity|]. split; [exact I2|].
      change (flatten (expected v t :: rs)) with ((match expected v t with RLeaf None => [] | RLeaf (Some r) => [r] | RList l => l end) ++ flatten rs). rewrite F2. cbn [flat_map]. f_equal.
      inversion Hv; subst; cbn; [|reflexivity]. unfold collected. cbn. destruct (g l); reflexivity. }
  destruct (Go (kids o) ts F st I) as (rs & s1 & E1 & I1 & F1). rewrite E1, F1. eexists. split.
  - assert (collected g (TNode (label_of o) ts) = flat_map (collected g) ts) as ->; [|reflexivity].
    unfold collected. cbn [leaves]. clear. induction ts as [|t ts IHt]; [reflexivity|]. cbn. now rewrite flat_map_app, IHt.
  - destruct (cacheable o); [|exact I1]. destruct I1 as (A & B). split; [exact A|]. cbn [cache]. intros i r [[= <- <-]|Hi]; [|eauto].
    exists (S n), (TNode (label_of o) ts). split; [exact H|]. f_equal. unfold collected. cbn [leaves]. clear. induction ts as [|t ts IHt]; [reflexivity|]. cbn. now rewrite flat_map_app, IHt.
Qed.
End Vis.
