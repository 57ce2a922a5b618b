From Coq Require Import Relations.
From Verif Require Import Base.Prelude Model.UnionFind Spec.UnionFindSpec.

Lemma upd_length {A} (l : list A) i v : length (upd l i v) = length l.
Proof. revert i; induction l as [|a l IH]; intros [|i]; simpl; auto. Qed.

Lemma nth_upd_same {A} (l : list A) i v : i < length l -> nth_error (upd l i v) i = Some v.
Proof. revert i; induction l as [|a l IH]; intros [|i] H; simpl in *; try lia; [reflexivity|apply IH; lia]. Qed.

Lemma nth_upd_other {A} (l : list A) i j v : i <> j -> nth_error (upd l i v) j = nth_error l j.
Proof.
  revert i j; induction l as [|a l IH]; intros [|i] [|j] H; simpl; auto; try congruence.
Qed.

(** [path d x l r]: following dads from [x] visits the non-roots [l] and ends in root [r]. *)
Inductive path (d : heap) : nat -> list nat -> nat -> Prop :=
| p_root r : nth_error d r = Some r -> path d r [] r
| p_step x y l r : nth_error d x = Some y -> y <> x -> path d y l r -> path d x (x :: l) r.

Lemma path_det d x l r l' r' : path d x l r -> path d x l' r' -> l = l' /\ r = r'.
Proof.
  intros H; revert l' r'; induction H as [r H|x y l r H Hne Hp IH]; intros l' r' H';
    inversion H' as [r0 Hr|x0 y0 l0 r0 Hx0 Hne0 Hp0]; subst; auto.
  - congruence.
  - congruence.
  - assert (y0 = y) by congruence. subst y0. destruct (IH _ _ Hp0) as [-> ->]. auto.
Qed.

Lemma path_suffix d x l r z : path d x l r -> In z l -> exists l', path d z (z :: l') r /\ length (z :: l') <= length l.
Proof.
  induction 1 as [r H|x y l r H Hne Hp IH]; simpl; [tauto|].
  intros [<-|Hz].
  - exists l. split; [econstructor; eauto|simpl; lia].
  - destruct (IH Hz) as (l' & H1 & H2). exists l'. simpl in *. split; [assumption|lia].
Qed.

Lemma path_nodup d x l r : path d x l r -> NoDup l.
Proof.
  induction 1 as [r H|x y l r H Hne Hp IH]; constructor; [|assumption].
  intros Hin. destruct (path_suffix _ _ _ _ _ Hp Hin) as (l' & H1 & H2).
  assert (Hx : path d x (x :: l) r) by (econstructor; eauto).
  destruct (path_det _ _ _ _ _ _ H1 Hx) as [E _]. injection E as ->. simpl in H2. lia.
Qed.

Lemma path_bound d x l r : path d x l r -> Forall (fun z => z < length d) l.
Proof.
  induction 1; constructor; [|assumption]. now apply nth_error_Some_lt in H.
Qed.

Lemma path_length d x l r : path d x l r -> length l <= length d.
Proof.
  intros H. rewrite <- (seq_length (length d) 0). apply NoDup_incl_length; [eapply path_nodup; eauto|].
  intros z Hz. apply in_seq. pose proof (path_bound _ _ _ _ H) as HB. rewrite Forall_forall in HB.
  specialize (HB z Hz). lia.
Qed.

Lemma path_root_fix d x l r : path d x l r -> nth_error d r = Some r.
Proof. induction 1; auto. Qed.

Lemma path_not_in d x l r : path d x l r -> ~ In r l.
Proof.
  intros H. pose proof (path_root_fix _ _ _ _ H) as Hr. induction H; simpl; [tauto|].
  intros [->|Hin]; [congruence|]. now apply IHpath.
Qed.

Lemma root_loop_path d x l r fuel : path d x l r -> length l < fuel -> root_loop fuel d x = Some r.
Proof.
  intros H; revert fuel; induction H as [r H|x y l r H Hne Hp IH]; intros [|f] Hf; simpl in *; try lia.
  - rewrite H, Nat.eqb_refl. reflexivity.
  - rewrite H. apply Nat.eqb_neq in Hne. rewrite Hne. apply IH. lia.
Qed.

(** Redirecting a non-root [z] straight to its root keeps every element's root. *)
Lemma path_upd_keep d z lz r x l r' :
  path d z lz r -> z <> r -> path d x l r' -> exists l', path (upd d z r) x l' r' /\ length l' <= length l.
Proof.
  intros Hz Hne H. assert (Hzl : z < length d).
  { inversion Hz; subst; [congruence|]. eapply nth_error_Some_lt; eauto. }
  induction H as [r' H|x y l r' H Hxy Hp IH].
  - exists []. split; [|simpl; lia]. apply p_root.
    destruct (Nat.eq_dec z r') as [->|Hn].
    + inversion Hz; subst; congruence.
    + rewrite nth_upd_other by congruence. assumption.
  - destruct (Nat.eq_dec x z) as [->|Hn].
    + assert (Hz2 : path d z (z :: l) r') by (econstructor; eauto).
      destruct (path_det _ _ _ _ _ _ Hz Hz2) as [-> ->].
      exists [z]. split; [|simpl; lia]. eapply p_step with (y := r').
      * apply nth_upd_same. assumption.
      * congruence.
      * apply p_root. rewrite nth_upd_other by congruence. eapply path_root_fix; eauto.
    + destruct IH as (l' & H1 & H2). exists (x :: l'). split; [|simpl; lia].
      eapply p_step; [rewrite nth_upd_other by congruence; eassumption|assumption|assumption].
Qed.

Lemma path_upd_far d z r x l r' :
  path d x l r' -> ~ In z (x :: l) -> z <> r' -> path (upd d z r) x l r'.
Proof.
  induction 1 as [r' H|x y l r' H Hxy Hp IH]; intros Hz Hn.
  - apply p_root. rewrite nth_upd_other by assumption. assumption.
  - simpl in Hz. eapply p_step; [rewrite nth_upd_other by (intros ->; tauto); eassumption|assumption|].
    apply IH; [|assumption]. inversion Hp; subst; simpl in *; intuition congruence.
Qed.

Lemma compress_ok fuel : forall d x l r,
  path d x l r -> length l < fuel ->
  exists d', compress fuel d x r = Some d' /\ length d' = length d /\
             (forall z lz rz, path d z lz rz -> exists lz', path d' z lz' rz) /\
             (forall z, nth_error d z = Some z -> nth_error d' z = Some z).
Proof.
  induction fuel as [|f IH]; intros d x l r H Hf; [lia|]. simpl.
  inversion H as [r0 Hr|x0 y l0 r0 Hx Hne Hp]; subst.
  - rewrite Hr, Nat.eqb_refl. exists d. repeat split; eauto.
  - rewrite Hx. pose proof Hne as Hne'. apply Nat.eqb_neq in Hne. rewrite Hne.
    assert (Hxr : x <> r).
    { intros ->. apply (path_not_in _ _ _ _ H). now left. }
    assert (Hy : path (upd d x r) y l0 r).
    { apply path_upd_far; [assumption| |assumption].
      pose proof (path_nodup _ _ _ _ H) as Hnd. inversion Hnd; subst.
      simpl. intros [E|Hin]; congruence. }
    destruct (IH _ _ _ _ Hy) as (d' & H1 & H2 & H3 & H4); [simpl in Hf; lia|].
    exists d'. split; [assumption|]. rewrite upd_length in H2. split; [assumption|]. split.
    + intros z lz rz Hz. destruct (path_upd_keep _ _ _ _ _ _ _ H Hxr Hz) as (l' & Hl & _). eauto.
    + intros z Hz. apply H4. rewrite nth_upd_other; [assumption|]. congruence.
Qed.

(** [Inv d rep]: the heap is acyclic and [rep] is its root function. *)
Definition Inv (d : heap) (rep : nat -> nat) : Prop :=
  forall x, x < length d -> exists l, path d x l (rep x).

Lemma Inv_rep_fix d rep x : Inv d rep -> x < length d -> nth_error d (rep x) = Some (rep x).
Proof. intros HI Hx. destruct (HI x Hx) as [l Hl]. eapply path_root_fix; eauto. Qed.

Lemma Inv_rep_lt d rep x : Inv d rep -> x < length d -> rep x < length d.
Proof. intros HI Hx. eapply nth_error_Some_lt, Inv_rep_fix; eauto. Qed.

Lemma Inv_rep_idem d rep x : Inv d rep -> x < length d -> rep (rep x) = rep x.
Proof.
  intros HI Hx. pose proof (Inv_rep_fix _ _ _ HI Hx) as Hr.
  destruct (HI (rep x)) as [l Hl]; [eapply nth_error_Some_lt; eauto|].
  assert (P : path d (rep x) [] (rep x)) by now constructor.
  destruct (path_det _ _ _ _ _ _ Hl P). congruence.
Qed.

Lemma Inv_fix_root d rep x : Inv d rep -> nth_error d x = Some x -> rep x = x.
Proof.
  intros HI Hx. destruct (HI x) as [l Hl]; [eapply nth_error_Some_lt; eauto|].
  assert (P : path d x [] x) by now constructor.
  destruct (path_det _ _ _ _ _ _ Hl P). congruence.
Qed.

Lemma uf_root_ok d rep x :
  Inv d rep -> x < length d ->
  exists d', uf_root d x = Some (rep x, d') /\ length d' = length d /\ Inv d' rep.
Proof.
  intros HI Hx. destruct (HI x Hx) as [l Hl]. unfold uf_root.
  pose proof (path_length _ _ _ _ Hl) as Hlen.
  rewrite (root_loop_path _ _ _ _ _ Hl) by lia.
  destruct (compress_ok (S (length d)) _ _ _ _ Hl) as (d' & -> & H2 & H3 & H4); [lia|].
  exists d'. repeat split; auto. intros z Hz. rewrite H2 in Hz. destruct (HI z Hz) as [lz Hlz]. eauto.
Qed.

Lemma path_link d ra rb x l r :
  nth_error d ra = Some ra -> nth_error d rb = Some rb -> ra <> rb -> path d x l r ->
  exists l', path (upd d rb ra) x l' (if r =? rb then ra else r).
Proof.
  intros Ha Hb Hne H. assert (Hl : rb < length d) by (eapply nth_error_Some_lt; eauto).
  induction H as [r H|x y l r H Hxy Hp IH].
  - destruct (r =? rb) eqn:E.
    + apply Nat.eqb_eq in E as ->. exists [rb]. eapply p_step with (y := ra).
      * now apply nth_upd_same.
      * assumption.
      * apply p_root. rewrite nth_upd_other by congruence. assumption.
    + apply Nat.eqb_neq in E. exists []. apply p_root. rewrite nth_upd_other by congruence. assumption.
  - destruct IH as [l' IH]. exists (x :: l'). eapply p_step; [|eassumption|eassumption].
    rewrite nth_upd_other by (intros ->; congruence). assumption.
Qed.

Definition join (rep : nat -> nat) (a b : nat) : nat -> nat :=
  fun x => if rep x =? rep b then rep a else rep x.

Lemma uf_connect_ok d rep a b :
  Inv d rep -> a < length d -> b < length d ->
  exists d', uf_connect d a b = Some d' /\ length d' = length d /\ Inv d' (join rep a b).
Proof.
  intros HI Ha Hb. unfold uf_connect.
  destruct (uf_root_ok _ _ _ HI Ha) as (d1 & -> & L1 & I1).
  destruct (uf_root_ok d1 rep b I1) as (d2 & -> & L2 & I2); [lia|].
  exists (upd d2 (rep b) (rep a)). split; [reflexivity|]. rewrite upd_length. split; [lia|].
  intros x Hx. rewrite upd_length in Hx.
  assert (Fa : nth_error d2 (rep a) = Some (rep a)) by (apply Inv_rep_fix; [assumption|lia]).
  assert (Fb : nth_error d2 (rep b) = Some (rep b)) by (apply Inv_rep_fix; [assumption|lia]).
  unfold join. destruct (I2 x Hx) as [l Hl].
  destruct (Nat.eq_dec (rep a) (rep b)) as [E|Hne].
  - rewrite E in *. replace (if rep x =? rep b then rep b else rep x) with (rep x).
    + exists l. clear -Hl Fb. assert (U : upd d2 (rep b) (rep b) = d2).
      { clear Hl. revert Fb. generalize (rep b) at 1 3 as i. generalize (rep b) as v.
        induction d2 as [|y d IH]; intros v [|i]; simpl; intros H; try congruence.
        f_equal. auto. }
      rewrite U. assumption.
    + destruct (rep x =? rep b) eqn:E2; [apply Nat.eqb_eq in E2; congruence|reflexivity].
  - eapply path_link; eauto.
Qed.

Lemma path_new d x l r : path d x l r -> path (uf_new d) x l r.
Proof.
  unfold uf_new. induction 1.
  - apply p_root. rewrite nth_error_app1; [assumption|]. eapply nth_error_Some_lt; eauto.
  - eapply p_step; eauto. rewrite nth_error_app1; [assumption|]. eapply nth_error_Some_lt; eauto.
Qed.

Definition addrep (n : nat) (rep : nat -> nat) : nat -> nat := fun x => if x =? n then n else rep x.

Lemma uf_new_ok d rep : Inv d rep -> Inv (uf_new d) (addrep (length d) rep).
Proof.
  intros HI x Hx. unfold addrep. unfold uf_new in Hx. rewrite app_length in Hx. simpl in Hx.
  destruct (x =? length d) eqn:E.
  - apply Nat.eqb_eq in E as ->. exists []. apply p_root. unfold uf_new.
    rewrite nth_error_app2 by lia. now rewrite Nat.sub_diag.
  - apply Nat.eqb_neq in E. destruct (HI x) as [l Hl]; [lia|]. exists l. now apply path_new.
Qed.

(** [rep] is exactly the closure of a relation [R] on the first [n] objects. *)
Definition Closed (n : nat) (R : nat -> nat -> Prop) (rep : nat -> nat) : Prop :=
  (forall a b, R a b -> a < n /\ b < n) /\
  forall x y, x < n -> y < n -> (rep x = rep y <-> clos_refl_sym_trans nat R x y).

Lemma rst_mono (R R' : nat -> nat -> Prop) x y :
  (forall a b, R a b -> R' a b) -> clos_refl_sym_trans nat R x y -> clos_refl_sym_trans nat R' x y.
Proof.
  intros H. induction 1; [apply rst_step; auto|apply rst_refl|now apply rst_sym|eapply rst_trans; eauto].
Qed.

Lemma rst_bound (R : nat -> nat -> Prop) n x y :
  (forall a b, R a b -> a < n /\ b < n) -> clos_refl_sym_trans nat R x y -> x = y \/ (x < n /\ y < n).
Proof.
  intros HR. induction 1 as [x y H|x|x y H IH|x y z H1 IH1 H2 IH2].
  - right. auto.
  - now left.
  - destruct IH as [->|IH]; [now left|right; tauto].
  - destruct IH1 as [->|IH1]; [assumption|]. destruct IH2 as [->|IH2]; right; tauto.
Qed.

Lemma closed_new n R d rep : Inv d rep -> length d = n -> Closed n R rep -> Closed (S n) R (addrep n rep).
Proof.
  intros HI Hn [HR HC]. split.
  - intros a b H. destruct (HR _ _ H). lia.
  - intros x y Hx Hy. unfold addrep.
    assert (Hlt : forall z, z < n -> rep z < n) by (intros; subst n; eapply Inv_rep_lt; eauto).
    destruct (Nat.eqb_spec x n) as [Ex|Ex]; destruct (Nat.eqb_spec y n) as [Ey|Ey]; subst.
    + split; intros _; [apply rst_refl|reflexivity].
    + split.
      * intros E. specialize (Hlt y). lia.
      * intros H. destruct (rst_bound _ _ _ _ HR H); lia.
    + split.
      * intros E. specialize (Hlt x). lia.
      * intros H. destruct (rst_bound _ _ _ _ HR H); lia.
    + apply HC; lia.
Qed.

Lemma closed_connect n R d rep a b :
  Inv d rep -> length d = n -> a < n -> b < n -> Closed n R rep ->
  Closed n (fun x y => R x y \/ (x = a /\ y = b)) (join rep a b).
Proof.
  intros HI Hn Ha Hb [HR HC]. split.
  - intros x y [H|[-> ->]]; auto.
  - assert (Mono : forall x y, x < n -> y < n -> rep x = rep y ->
        clos_refl_sym_trans nat (fun x y => R x y \/ (x = a /\ y = b)) x y).
    { intros x y Hx Hy E. eapply rst_mono; [|apply HC; eauto]. intros; now left. }
    assert (Lab : clos_refl_sym_trans nat (fun x y => R x y \/ (x = a /\ y = b)) a b).
    { apply rst_step. now right. }
    intros x y Hx Hy. unfold join. split.
    + destruct (Nat.eqb_spec (rep x) (rep b)) as [Ex|Ex]; destruct (Nat.eqb_spec (rep y) (rep b)) as [Ey|Ey];
        intros E.
      * apply Mono; congruence.
      * apply rst_trans with b; [apply Mono; auto|]. apply rst_trans with a; [now apply rst_sym|].
        apply Mono; auto.
      * apply rst_sym. apply rst_trans with b; [apply Mono; auto|].
        apply rst_trans with a; [now apply rst_sym|]. apply Mono; auto.
      * apply Mono; auto.
    + intros H. clear Lab Mono.
      assert (G : (if rep x =? rep b then rep a else rep x) = (if rep y =? rep b then rep a else rep y)).
      { revert Hx Hy. induction H as [x y [H|[-> ->]]|x|x y H IH|x y z H1 IH1 H2 IH2]; intros Hx Hy.
        - assert (E : rep x = rep y) by (apply HC; auto; now apply rst_step). rewrite E. reflexivity.
        - rewrite Nat.eqb_refl. destruct (rep a =? rep b); reflexivity.
        - reflexivity.
        - symmetry. auto.
        - assert (HB : forall u v, R u v \/ (u = a /\ v = b) -> u < n /\ v < n)
            by (intros u v [Hu|[-> ->]]; auto).
          destruct (rst_bound _ n _ _ HB H1) as [->|[_ Hn']]; [auto|].
          rewrite IH1, IH2; auto. }
      exact G.
Qed.

Lemma clos_iff (R R' : nat -> nat -> Prop) x y :
  (forall a b, R a b <-> R' a b) -> clos_refl_sym_trans nat R x y <-> clos_refl_sym_trans nat R' x y.
Proof. intros H; split; apply rst_mono; intros a b; apply H. Qed.

Lemma closed_ext n R R' rep : (forall a b, R a b <-> R' a b) -> Closed n R rep -> Closed n R' rep.
Proof.
  intros H [H1 H2]. split.
  - intros a b Hab. apply H1. now apply H.
  - intros x y Hx Hy. rewrite H2 by assumption. now apply clos_iff.
Qed.

Lemma ufrun_ok ops : forall d rep R,
  Inv d rep -> Closed (length d) R rep -> ops_valid (length d) ops ->
  exists d' rep', ufrun d ops = Some d' /\ length d' = length d + count_new ops /\ Inv d' rep' /\
    Closed (length d') (fun x y => R x y \/ connected_pairs ops x y) rep'.
Proof.
  unfold connected_pairs, count_new.
  induction ops as [|o ops IH]; intros d rep R HI HC HV; simpl.
  - exists d, rep. repeat split; try lia; auto; try apply HC.
    + destruct H as [H|[]]. apply (proj1 HC) in H. tauto.
    + destruct H as [H|[]]. apply (proj1 HC) in H. tauto.
    + intros E. eapply rst_mono; [|apply HC; eauto]. intros; now left.
    + intros Hc. apply HC; auto. eapply rst_mono; [|eassumption]. intros ? ? [?|[]]; auto.
  - destruct o as [|x|a b]; simpl in *.
    + assert (L : length (uf_new d) = S (length d)) by (unfold uf_new; rewrite app_length; simpl; lia).
      destruct (IH (uf_new d) _ R (uf_new_ok _ _ HI)) as (d' & rep' & H1 & H2 & H3 & H4).
      * rewrite L. eapply closed_new; eauto.
      * now rewrite L.
      * exists d', rep'. split; [assumption|]. split; [lia|]. split; [assumption|].
        eapply closed_ext; [|eassumption]. intros u v. intuition congruence.
    + destruct HV as [Hx HV]. destruct (uf_root_ok _ _ _ HI Hx) as (d1 & -> & L1 & I1).
      destruct (IH d1 rep R I1) as (d' & rep' & H1 & H2 & H3 & H4); try (now rewrite L1).
      exists d', rep'. split; [assumption|]. split; [lia|]. split; [assumption|].
      eapply closed_ext; [|eassumption]. intros u v. intuition congruence.
    + destruct HV as (Ha & Hb & HV). destruct (uf_connect_ok _ _ _ _ HI Ha Hb) as (d1 & -> & L1 & I1).
      destruct (IH d1 _ (fun x y => R x y \/ (x = a /\ y = b)) I1) as (d' & rep' & H1 & H2 & H3 & H4).
      * rewrite L1. eapply closed_connect; eauto.
      * now rewrite L1.
      * exists d', rep'. split; [assumption|]. split; [lia|]. split; [assumption|].
        eapply closed_ext; [|eassumption]. intros u v. split.
        -- intros [[H|[-> ->]]|H]; auto.
        -- intros [H|[[= <- <-]|H]]; auto.
Qed.

Lemma ufrun_from_empty ops : ops_valid 0 ops ->
  exists d rep, ufrun [] ops = Some d /\ length d = count_new ops /\ Inv d rep /\
    Closed (length d) (connected_pairs ops) rep.
Proof.
  intros HV. destruct (ufrun_ok ops [] (fun x => x) (fun _ _ => False)) as (d & rep & H1 & H2 & H3 & H4).
  - intros x Hx. simpl in Hx. lia.
  - split; [tauto|]. intros x y Hx. simpl in Hx. lia.
  - assumption.
  - exists d, rep. split; [assumption|]. split; [assumption|]. split; [assumption|].
    eapply closed_ext; [|eassumption]. intros; tauto.
Qed.
