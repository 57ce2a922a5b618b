(** Every set of disjoint rectangles has a sequence pair. *)
From Coq Require Import ZArith ZifyBool.
From Verif Require Import Base.Prelude Model.SeqEnum Spec.SeqEnumSpec.
Local Open Scope Z_scope.

Lemma max_of (f : nat -> Z) l : l <> [] -> exists a, In a l /\ forall b, In b l -> f b <= f a.
Proof.
  induction l as [|x l IH]; [now intros []|]. intros _. destruct l as [|y l].
  - exists x. split; [now left|]. intros b [->|[]]. lia.
  - destruct IH as (a & Ha & Hm); [discriminate|]. destruct (Z_le_gt_dec (f x) (f a)).
    + exists a. split; [now right|]. intros b [<-|H]; [lia|auto].
    + exists x. split; [now left|]. intros b [<-|H]; [lia|]. specialize (Hm b H). lia.
Qed.

Lemma precedes_cons_inv a l x y : precedes (a :: l) x y -> (x = a /\ In y l) \/ precedes l x y.
Proof.
  intros ([|z l1] & l2 & l3 & E); cbn in E; injection E as -> E.
  - left. split; [reflexivity|]. rewrite E. apply in_or_app. right. now left.
  - right. now exists l1, l2, l3.
Qed.

Section Rects.
Variables x1 x2 y1 y2 : nat -> Z.
Definition disjoint a b : Prop := x2 a <= x1 b \/ x2 b <= x1 a \/ y2 a <= y1 b \/ y2 b <= y1 a.
(** [b] lies to the right of [a] or below it. *)
Definition after a b : Prop := x2 a <= x1 b \/ y2 b <= y1 a.
Definition afterb a b : bool := (x2 a <=? x1 b) || (y2 b <=? y1 a).
Lemma afterb_iff a b : afterb a b = true <-> after a b.
Proof. unfold afterb, after. lia. Qed.

Lemma source l : l <> [] -> (forall a, In a l -> x1 a < x2 a /\ y1 a < y2 a) ->
  (forall a b, In a l -> In b l -> a <> b -> disjoint a b) -> exists a, In a l /\ forall b, In b l -> b <> a -> after a b.
Proof.
  intros Hl Hs Hd. destruct (max_of (fun a => - x1 a) l Hl) as (m & Hm & Hmin).
  assert (forall k a, In a l -> x1 a - x1 m < Z.of_nat k -> (forall b, In b l -> b <> a -> after a b \/ x2 b <= x1 a) ->
          exists a, In a l /\ forall b, In b l -> b <> a -> after a b) as Go.
  { induction k as [|k IH]; intros a Ha Hk Hp. { specialize (Hmin a Ha). lia. }
    set (ps := filter (fun b => negb (b =? a)%nat && negb (afterb a b)) l).
    assert (forall b, In b ps <-> In b l /\ b <> a /\ ~ after a b) as Hps.
    { intros b. unfold ps. rewrite filter_In, <- afterb_iff. split; intros [H1 H2]; (split; [exact H1|]); destruct (afterb a b), (Nat.eqb_spec b a); cbn in *; intuition congruence. }
    destruct ps as [|p r] eqn:E; [|destruct (max_of y2 ps) as (c & Hc & Hmax); [rewrite E; discriminate|]].
    - exists a. split; [exact Ha|]. intros b Hb N. destruct (afterb a b) eqn:B; [now apply afterb_iff|]. exfalso.
      apply (Hps b). split; [exact Hb|]. split; [exact N|]. rewrite <- afterb_iff. congruence.
    - rewrite <- E in Hps. apply Hps in Hc. destruct Hc as (C1 & C2 & C3). destruct (Hp c C1 C2) as [|C4]; [contradiction|].
      pose proof (Hs c C1). pose proof (Hs a Ha). apply (IH c C1); [lia|]. intros b Hb N. destruct (Hd b c Hb C1 N) as [D|[D|[D|D]]].
      + now right.
      + left. now left.
      + left. now right.
      + destruct (Z_le_gt_dec (x2 c) (x1 b)) as [D'|D']; [left; now left|]. exfalso. pose proof (Hs b Hb). unfold after in C3.
        assert (b <> a) as Nb by (intros ->; lia). assert (~ after a b) as Q by (unfold after; lia).
        assert (In b ps) as Hin by (apply Hps; auto). specialize (Hmax b Hin). lia. }
  destruct (max_of y2 l Hl) as (a & Ha & Hmax). apply (Go (Z.to_nat (x1 a - x1 m + 1)) a Ha).
  - specialize (Hmin a Ha). lia.
  - intros b Hb N. destruct (Hd a b Ha Hb) as [D|[D|[D|D]]]; [congruence|left; now left|now right| |left; now right].
    specialize (Hmax b Hb). pose proof (Hs b Hb). lia.
Qed.

Lemma sorting k : forall l, length l = k -> NoDup l -> (forall a, In a l -> x1 a < x2 a /\ y1 a < y2 a) ->
  (forall a b, In a l -> In b l -> a <> b -> disjoint a b) -> exists s, Permutation l s /\ forall a b, precedes s a b -> after a b.
Proof.
  induction k as [|k IH]; intros l Hk N Hs Hd.
  - destruct l; [|discriminate]. exists []. split; [constructor|]. intros a b (l1 & l2 & l3 & E). destruct l1; discriminate.
  - destruct (source l) as (a & Ha & Hsrc); auto; [intros ->; discriminate|].
    destruct (in_split _ _ Ha) as (u & v & E). subst l. pose proof (NoDup_remove_1 _ _ _ N) as N1. pose proof (NoDup_remove_2 _ _ _ N) as N2.
    assert (forall b, In b (u ++ v) -> In b (u ++ a :: v)) as Sub by (intros b; rewrite !in_app_iff; cbn; tauto).
    destruct (IH (u ++ v)) as (s & Hp & Hb); auto; [rewrite app_length in *; cbn in Hk; lia|].
    exists (a :: s). split; [symmetry; etransitivity; [apply perm_skip; symmetry; exact Hp|apply Permutation_middle]|].
    intros x y Hxy. apply precedes_cons_inv in Hxy. destruct Hxy as [[-> Hy]|Hxy]; [|auto].
    apply (Permutation_in y (Permutation_sym Hp)) in Hy. apply Hsrc; [auto|]. intros ->. contradiction.
Qed.
End Rects.

Theorem sequence_pair n x1 x2 y1 y2 : (forall a, (a < n)%nat -> x1 a < x2 a /\ y1 a < y2 a) ->
  (forall a b, (a < n)%nat -> (b < n)%nat -> a <> b -> disjoint x1 x2 y1 y2 a b) ->
  exists pos neg, arrangement n pos /\ arrangement n neg /\
    (forall a b, left_of pos neg a b -> (a < n)%nat -> (b < n)%nat -> x2 a <= x1 b) /\ (forall a b, above pos neg a b -> (a < n)%nat -> (b < n)%nat -> y2 b <= y1 a).
Proof.
  intros Hs Hd. assert (forall a, In a (seq 0 n) -> (a < n)%nat) as L by (intros a; rewrite in_seq; lia).
  destruct (sorting x1 x2 y1 y2 n (seq 0 n)) as (pos & P1 & P2); auto using seq_length, seq_NoDup.
  destruct (sorting x1 x2 (fun a => - y2 a) (fun a => - y1 a) n (seq 0 n)) as (neg & Q1 & Q2); auto using seq_length, seq_NoDup.
  { intros a Ha. specialize (Hs a (L a Ha)). lia. }
  { intros a b Ha Hb N. specialize (Hd a b (L a Ha) (L b Hb) N). unfold disjoint in *. lia. }
  exists pos, neg. split; [exact P1|]. split; [exact Q1|]. split; intros a b [H1 H2] Ha Hb; apply P2 in H1; apply Q2 in H2; unfold after in *; pose proof (Hs a Ha); pose proof (Hs b Hb); lia.
Qed.
