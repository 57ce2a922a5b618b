(** The lines of Model/CapRoute.v. *)
From Coq Require Import ZArith ZifyBool.
From Verif Require Import Base.Prelude Model.CapPlace Model.CapRoute Spec.CapRouteSpec Proofs.CapGridP.
Local Open Scope Z_scope.

Lemma in_lines n l : In l (zrange n) <-> 0 <= l < n.
Proof. unfold zrange. rewrite in_map_iff. split; [intros (x & <- & H); apply in_seq in H; lia|intros H; exists (Z.to_nat l); split; [lia|apply in_seq; lia]]. Qed.
Lemma choose_fold (num : Z -> Z) (ok : Z -> bool) : forall ls b (o : option Z), let st := fold_left (fun st j => if ok j && (num j <=? fst st) then (num j, Some j) else st) ls (b, o) in
  (st = (b, o) /\ (forall k, In k ls -> ok k = true -> b < num k)) \/ (exists j, st = (num j, Some j) /\ In j ls /\ ok j = true /\ num j <= b /\ forall k, In k ls -> ok k = true -> num j <= num k).
Proof.
  induction ls as [|a ls IH]; intros b o; cbn [fold_left].
  - left. split; [reflexivity|intros k []].
  - cbn [fst]. destruct (ok a && (num a <=? b)) eqn:E.
    + right. apply andb_true_iff in E. destruct E as [E1 E2]. destruct (IH (num a) (Some a)) as [[-> H]|(j & -> & H1 & H2 & H3 & H4)].
      * exists a. repeat split; auto; [now left|lia|]. intros k [<-|Hk] Ok; [lia|]. specialize (H k Hk Ok). lia.
      * exists j. repeat split; auto; [now right|lia|]. intros k [<-|Hk] Ok; [lia|now apply H4].
    + destruct (IH b o) as [[-> H]|(j & -> & H1 & H2 & H3 & H4)].
      * left. split; [reflexivity|]. intros k [<-|Hk] Ok; [rewrite Ok in E; cbn in E; lia|now apply H].
      * right. exists j. repeat split; auto; [now right|]. intros k [<-|Hk] Ok; [rewrite Ok in E; cbn in E; lia|now apply H4].
Qed.
Lemma choose_some num ok b ls j : choose num ok b ls = Some j -> In j ls /\ ok j = true /\ forall k, In k ls -> ok k = true -> num j <= num k.
Proof. unfold choose. destruct (choose_fold num ok ls b None) as [[-> H]|(i & -> & H1 & H2 & H3 & H4)]; cbn; [discriminate|]. intros E. injection E as <-. auto. Qed.
Lemma choose_none num ok b ls k : choose num ok b ls = None -> In k ls -> ok k = true -> b < num k.
Proof. unfold choose. destruct (choose_fold num ok ls b None) as [[-> H]|(i & -> & H1 & H2 & H3 & H4)]; cbn; [auto|discriminate]. Qed.
Lemma half_touches xs l : half_line xs l = true <-> touches xs l.
Proof. unfold half_line, touches. rewrite existsb_exists. split; intros (x & H & E); exists x; split; auto; lia. Qed.
Lemma routable_fair r sets l : routable r sets l = true <-> forall xs, In xs sets -> touches xs l \/ touches xs (r - l).
Proof.
  unfold routable. rewrite forallb_forall. split; intros H xs Hx; specialize (H xs Hx).
  - unfold router_line in H. apply existsb_exists in H. destruct H as (x & I & E). rewrite !orb_true_iff, !Z.eqb_eq in E. destruct E as [[[E|E]|E]|E]; [left|left|right|right]; exists x; split; auto; lia.
  - unfold router_line. apply existsb_exists. destruct H as [(x & I & E)|(x & I & E)]; exists x; split; auto; lia.
Qed.
Lemma fair_dec r sets : existsb (routable r sets) (zrange (r + 1)) = true <-> exists l, fair r sets l.
Proof. rewrite existsb_exists. split; intros (l & A & B); exists l; [apply in_lines in A; split; [lia|now apply routable_fair]|destruct A as []; split; [apply in_lines; lia|now apply routable_fair]]. Qed.
(** There is a line on the left which is not its own opposite. *)
Lemma fair_left r sets l : 0 < r -> good r sets -> fair r sets l -> exists j, 0 <= j <= r / 2 /\ 2 * j <> r /\ routable r sets j = true.
Proof.
  intros Hr G [Hl F]. assert (forall j, 0 <= j <= r / 2 <-> 0 <= j /\ 2 * j <= r) as D by (intros j; split; intros [? ?]; split; auto; [pose proof (Z.mul_div_le r 2); lia|apply Z.div_le_lower_bound; lia]).
  assert (exists j, 0 <= j /\ 2 * j <= r /\ routable r sets j = true) as (j & J0 & J1 & J2).
  { destruct (Z_le_gt_dec (2 * l) r) as [L|L]; [exists l|exists (r - l)]; repeat split; try lia; apply routable_fair; auto. intros xs Hx. destruct (F xs Hx); [right|left]; auto. now replace (r - (r - l)) with l by lia. }
  destruct (Z.eq_dec (2 * j) r) as [M|M]; [|exists j; repeat split; auto; apply D; lia].
  exists (j - 1). split; [apply D; lia|]. split; [lia|]. rewrite routable_fair in *. intros xs Hx. specialize (J2 xs Hx). replace (r - j) with j in J2 by lia. assert (touches xs j) as (x & I & E) by tauto. destruct E as [E|E]; [right; exists x; split; auto; right; lia|left; exists x; split; auto; left; lia].
Qed.

(** One net. [num] counts, except in the middle, where a line and its opposite are the same. *)
Definition counted (r : Z) (num num' : Z -> Z) (lv : Z -> bool) : Prop := forall l, 2 * l <> r -> num' l = num l + (if lv l then 1 else 0).
Lemma sets_fold r n : forall sets lv num, good r sets -> (forall l, lv l = true -> 0 <= l <= r) ->
  match fold_left (route_set r n) sets (Some (lv, num)) with
  | Some (lv', num') => (forall l, lv l = true -> lv' l = true) /\ (forall l, lv' l = true -> 0 <= l <= r) /\ (forall xs, In xs sets -> exists l, lv' l = true /\ touches xs l) /\
      (forall num0, counted r num0 num lv -> counted r num0 num' lv')
  | None => exists num1 lv1 xs, In xs sets /\ (forall l, touches xs l -> n < num1 l) /\ (forall num0, counted r num0 num lv -> counted r num0 num1 lv1)
  end.
Proof.
  induction sets as [|xs sets IH]; intros lv num G B; cbn [fold_left].
  - repeat split; auto; try (intros xs []); apply B; auto.
  - assert (good r sets) as G' by (intros y Hy; apply G; now right). unfold route_set at 2. destruct (existsb (fun l => half_line xs l && lv l) (zrange (r + 1))) eqn:E.
    + specialize (IH lv num G' B). destruct (fold_left (route_set r n) sets (Some (lv, num))) as [[lv' num']|].
      * destruct IH as (A1 & A2 & A3 & A4). repeat split; auto; try (apply A2; auto). intros ys [<-|Hy]; [|now apply A3]. apply existsb_exists in E. destruct E as (l & _ & E). apply andb_true_iff in E. destruct E as [E1 E2]. exists l. split; [now apply A1|now apply half_touches].
      * destruct IH as (num1 & lv1 & ys & A1 & A2). exists num1, lv1, ys. split; [now right|exact A2].
    + destruct (choose num (half_line xs) n (zrange (r + 1))) as [k|] eqn:C.
      * apply choose_some in C. destruct C as (C1 & C2 & C3). apply in_lines in C1. assert (lv k = false) as Lk. { apply not_true_is_false. intros Lk. assert (existsb (fun l => half_line xs l && lv l) (zrange (r + 1)) = true) by (apply existsb_exists; exists k; split; [apply in_lines; lia|now rewrite C2, Lk]). congruence. }
        assert (forall num0, counted r num0 num lv -> counted r num0 (bump k num) (fun l => (l =? k) || lv l)) as Cn. { intros num0 Hn l Ml. specialize (Hn l Ml). unfold bump. destruct (Z.eqb_spec l k) as [->|]; [rewrite Lk in Hn; cbn; lia|exact Hn]. }
        specialize (IH (fun l => (l =? k) || lv l) (bump k num) G' ltac:(intros l Hl; apply orb_true_iff in Hl; destruct Hl as [Hl|Hl]; [lia|now apply B])).
        destruct (fold_left (route_set r n) sets (Some (fun l => (l =? k) || lv l, bump k num))) as [[lv' num']|].
        -- destruct IH as (A1 & A2 & A3 & A4). repeat split; auto; try (apply A2; auto).
           ++ intros l Hl. apply A1. now rewrite Hl, orb_true_r.
           ++ intros ys [<-|Hy]; [|now apply A3]. exists k. split; [apply A1; now rewrite Z.eqb_refl|now apply half_touches].
        -- destruct IH as (num1 & lv1 & ys & A1 & A2 & A3). exists num1, lv1, ys. split; [now right|split; auto].
      * assert (fold_left (route_set r n) sets None = None) as -> by (clear; induction sets; auto).
        exists num, lv, xs. split; [now left|]. split; auto. intros l T. apply (choose_none _ _ _ _ l C); [|now apply half_touches]. destruct (G xs (or_introl eq_refl)) as [_ Gx]. destruct T as (x & I & T). specialize (Gx x I). apply in_lines. lia.
Qed.
Lemma net_ok r n neg sets num lv num' : 0 < r -> good r sets -> route_net r n neg sets num = Some (lv, num') -> reached r sets lv /\ counted r num num' lv /\ ((exists l, fair r sets l) -> (exists j, fair r sets j /\ forall l, lv l = true <-> l = j \/ l = r - j)).
Proof.
  intros Hr G. unfold route_net. destruct (existsb (routable r sets) (zrange (r + 1))) eqn:E.
  - destruct (choose num (routable r sets) (if neg then 2 * n else n) (zrange (r / 2 + 1))) as [j|] eqn:C; [|discriminate]. intros Eq. injection Eq as <- <-. apply choose_some in C. destruct C as (C1 & C2 & _). apply in_lines in C1.
    assert (0 <= j /\ 2 * j <= r) as [J0 J1] by (pose proof (Z.mul_div_le r 2); lia). rewrite routable_fair in C2. split; [split|split].
    + intros xs Hx. destruct (C2 xs Hx); [exists j|exists (r - j)]; split; auto; lia.
    + intros l Hl. lia.
    + intros l Ml. unfold bump. destruct (Z.eqb_spec l (r - j)), (Z.eqb_spec l j); cbn; lia.
    + intros _. exists j. split; [split; [lia|exact C2]|]. intros l. lia.
  - intros Eq. pose proof (sets_fold r n sets (fun _ => false) num G ltac:(discriminate)) as H. rewrite Eq in H. destruct H as (_ & A2 & A3 & A4). split; [split; auto|]. split; [apply A4; intros l _; lia|]. intros F. apply fair_dec in F. congruence.
Qed.
Lemma net_some r n (neg : bool) sets num i : 0 < r -> good r sets -> (forall l, 2 * l <> r -> num l <= i) -> (if neg then i <= 2 * n /\ exists l, fair r sets l else i < n) -> exists x, route_net r n neg sets num = Some x.
Proof.
  intros Hr G B Hi. unfold route_net. destruct (existsb (routable r sets) (zrange (r + 1))) eqn:E.
  - destruct (choose num (routable r sets) (if neg then 2 * n else n) (zrange (r / 2 + 1))) as [j|] eqn:C; [eauto|]. exfalso. apply fair_dec in E. destruct E as (l & F). destruct (fair_left r sets l Hr G F) as (j & J1 & J2 & J3). pose proof (choose_none _ _ _ _ j C ltac:(apply in_lines; lia) J3). specialize (B j J2). destruct neg; lia.
  - destruct neg; [destruct Hi as [_ Hi]; apply fair_dec in Hi; congruence|]. pose proof (sets_fold r n sets (fun _ => false) num G ltac:(discriminate)) as H. destruct (fold_left (route_set r n) sets (Some (fun _ => false, num))) as [x|]; [eauto|]. exfalso. destruct H as (num1 & lv1 & xs & H1 & H2 & H3). specialize (H3 num ltac:(intros l _; lia)).
    destruct (G xs H1) as [N Gx]. destruct xs as [|x xs]; [congruence|]. assert (exists l, (l = x \/ l = x + 1) /\ 2 * l <> r) as (l & L1 & L2) by (destruct (Z.eq_dec (2 * x) r); [exists (x + 1)|exists x]; lia).
    specialize (H2 l ltac:(exists x; split; [now left|exact L1])). specialize (H3 l L2). specialize (B l L2). destruct (lv1 l); lia.
Qed.
Lemma nets_ok r n neg : 0 < r -> forall nets num ls num', Forall (good r) nets -> route_nets r n neg nets num = Some (ls, num') ->
  Forall2 (fun sets lv => reached r sets lv /\ ((exists l, fair r sets l) -> exists j, fair r sets j /\ forall l, lv l = true <-> l = j \/ l = r - j)) nets ls /\ (forall l, 2 * l <> r -> num' l <= num l + Z.of_nat (length nets)).
Proof.
  intros Hr. induction nets as [|sets nets IH]; intros num ls num' G; cbn [route_nets].
  - intros E. injection E as <- <-. split; [constructor|intros; cbn; lia].
  - inversion G as [|? ? G1 G2]; subst. destruct (route_net r n neg sets num) as [[lv num1]|] eqn:E1; [|discriminate]. destruct (route_nets r n neg nets num1) as [[ls' num2]|] eqn:E2; [|discriminate]. intros E. injection E as <- <-. destruct (net_ok _ _ _ _ _ _ _ Hr G1 E1) as (A1 & A2 & A3). destruct (IH _ _ _ G2 E2) as [B1 B2]. split; [now constructor|]. intros l Ml. specialize (A2 l Ml). specialize (B2 l Ml). cbn [length]. destruct (lv l); lia.
Qed.
Lemma nets_some r n (neg : bool) : 0 < r -> forall nets num i, Forall (good r) nets -> (forall l, 2 * l <> r -> num l <= i) -> (if neg then i + Z.of_nat (length nets) <= 2 * n /\ Forall (fun sets => exists l, fair r sets l) nets else i + Z.of_nat (length nets) <= n) -> exists x, route_nets r n neg nets num = Some x.
Proof.
  intros Hr. induction nets as [|sets nets IH]; intros num i G B Hi; cbn [route_nets]; [eauto|]. inversion G as [|? ? G1 G2]; subst. cbn [length] in Hi.
  assert (if neg then i <= 2 * n /\ (exists l, fair r sets l) else i < n) as H1 by (destruct neg; [destruct Hi as [Hi F]; inversion F; split; auto; lia|lia]).
  destruct (net_some r n neg sets num i Hr G1 B H1) as [[lv num1] E1]. rewrite E1. destruct (net_ok _ _ _ _ _ _ _ Hr G1 E1) as (_ & A2 & _).
  destruct (IH num1 (i + 1) G2) as [[ls num2] ->]; [|destruct neg; [destruct Hi as [Hi F]; inversion F; split; auto; lia|lia]|eauto]. intros l Ml. specialize (A2 l Ml). specialize (B l Ml). destruct (lv l); lia.
Qed.

(** Tracks. *)
Definition used_by (l : Z) (nb : bool * (Z -> bool)) : bool := fst nb && snd nb l.
Definition uses (l : Z) (nets : list (bool * (Z -> bool))) : Z := Z.of_nat (length (filter (used_by l) nets)).
Lemma trails_at : forall nets t i f l, nth_error (trails nets t) i = Some f -> exists nb, nth_error nets i = Some nb /\ f l = (if used_by l nb then Some (t l + uses l (firstn (S i) nets)) else None).
Proof.
  induction nets as [|[u lv] nets IH]; intros t i f l; [now destruct i|]. cbn [trails]. destruct i as [|i].
  - cbn [nth_error]. intros E. exists (u, lv). split; [reflexivity|]. cbn [firstn]. unfold uses. cbn [filter]. unfold used_by. cbn [fst snd]. destruct u; cbn [nth_error andb] in *; injection E as <-; [|reflexivity]. destruct (lv l); cbn; [f_equal; lia|reflexivity].
  - rewrite firstn_cons. unfold uses. cbn [filter]. change (used_by l (u, lv)) with (u && lv l). destruct u; cbn [nth_error andb]; intros E; apply (IH _ _ _ l) in E; destruct E as (nb & E1 & E2); exists nb; split; auto; rewrite E2; destruct (used_by l nb); auto; f_equal; unfold uses; cbn beta; try lia; destruct (lv l); cbn [length]; lia.
Qed.
Lemma trails_len : forall nets t, length (trails nets t) = length nets.
Proof. induction nets as [|[u lv] nets IH]; intros t; [reflexivity|]. cbn [trails]. destruct u; cbn; now rewrite IH. Qed.
Lemma uses_more l nets i nb : nth_error nets i = Some nb -> used_by l nb = true -> uses l (firstn (S i) nets) = uses l (firstn i nets) + 1.
Proof.
  revert i. unfold uses. induction nets as [|a nets IH]; intros [|i]; cbn [nth_error]; try discriminate.
  - intros E U. injection E as ->. cbn [firstn filter]. rewrite U. reflexivity.
  - intros E U. rewrite !firstn_cons. cbn [filter]. specialize (IH i E U). destruct (used_by l a); cbn [length]; lia.
Qed.
Lemma uses_mono l nets i j : (i <= j)%nat -> uses l (firstn i nets) <= uses l (firstn j nets).
Proof.
  unfold uses. revert i j. induction nets as [|a nets IH]; intros i j L; [now rewrite !firstn_nil|]. destruct i as [|i], j as [|j]; cbn [firstn filter length]; try lia. specialize (IH i j ltac:(lia)). destruct (used_by l a); cbn [length]; lia.
Qed.
Lemma uses_num l nets i : uses l (firstn i nets) <= num_line (map snd nets) l.
Proof.
  unfold uses, num_line. revert i. induction nets as [|[u lv] nets IH]; intros i; [rewrite firstn_nil; cbn; lia|]. cbn [map snd filter]. destruct i as [|i]; [cbn [firstn filter length]; lia|]. specialize (IH i). cbn [firstn filter]. unfold used_by at 1. cbn [fst snd]. destruct u, (lv l); cbn [andb length]; lia.
Qed.
Lemma max_ge : forall ls z, z <= fold_left Z.max ls z /\ forall a, In a ls -> a <= fold_left Z.max ls z.
Proof. induction ls as [|b ls IH]; intros z; cbn; [split; [lia|intros a []]|]. destruct (IH (Z.max z b)) as [A B]. split; [lia|]. intros a [<-|Ha]; [lia|auto]. Qed.
Lemma max_num_ge r lvs l : 0 <= l <= r -> num_line lvs l <= max_num r lvs.
Proof. intros H. unfold max_num. apply max_ge. apply in_map, in_lines. lia. Qed.
