(** The sets of Model/CapRoute.v. *)
From Coq Require Import ZArith ZifyBool Relations.
From Verif Require Import Base.Prelude Model.CapPlace Model.CapRoute Spec.CapRouteSpec.
Local Open Scope nat_scope.

Lemma existsb_in d (l : list nat) : existsb (Nat.eqb d) l = true <-> In d l.
Proof. rewrite existsb_exists. split; [intros (x & H & E); apply Nat.eqb_eq in E; now subst|intros H; exists d; split; auto; apply Nat.eqb_refl]. Qed.
Lemma beside_iff p q : beside p q = true <-> next_to p q.
Proof. unfold beside, next_to. cbn. lia. Qed.
Lemma next_sym p q : next_to p q -> next_to q p.
Proof. unfold next_to. lia. Qed.

Section Net.
Variables (P : nat -> Z * Z) (cells : list nat).
Hypothesis HN : NoDup cells.
Definition left (seen : list nat) : nat := length (filter (fun d => negb (existsb (Nat.eqb d) seen)) cells).
Lemma left_mono seen new : left (seen ++ new) <= left seen.
Proof.
  unfold left. generalize cells as l. induction l as [|a l IH]; [auto|]. cbn [filter]. rewrite existsb_app. destruct (existsb (Nat.eqb a) seen); cbn; [exact IH|]. destruct (existsb (Nat.eqb a) new); cbn; lia.
Qed.
Lemma left_less seen d : In d cells -> ~ In d seen -> left (seen ++ [d]) < left seen.
Proof.
  unfold left. clear HN. intros Hd Hs. induction cells as [|a l IH]; [destruct Hd|]. cbn [filter]. rewrite existsb_app. destruct (Nat.eq_dec a d) as [->|N].
  - assert (existsb (Nat.eqb d) seen = false) as -> by (apply not_true_is_false; now rewrite existsb_in). cbn [existsb]. rewrite Nat.eqb_refl. cbn.
    apply Nat.lt_succ_r. clear. induction l as [|a l IH]; [auto|]. cbn [filter]. rewrite existsb_app. destruct (existsb (Nat.eqb a) seen); cbn; [exact IH|]. destruct (Nat.eqb a d); cbn; lia.
  - destruct Hd as [Hd|Hd]; [congruence|]. specialize (IH Hd). cbn [existsb]. rewrite (proj2 (Nat.eqb_neq a d) N). cbn. rewrite !orb_false_r. destruct (existsb (Nat.eqb a) seen); cbn; [exact IH|]. cbn in IH. lia.
Qed.
Definition step a b := In a cells /\ In b cells /\ next_to (P a) (P b).
Lemma linked_step a b : step a b -> linked P cells a b.
Proof. intros H. now apply rt_step. Qed.
Lemma linked_trans a b c : linked P cells a b -> linked P cells b c -> linked P cells a c.
Proof. intros H1 H2. eapply rt_trans; eauto. Qed.
Lemma linked_sym a b : linked P cells a b -> linked P cells b a.
Proof. intros H. induction H as [a b (A & B & N)|a|a b c _ IH1 _ IH2]; [apply rt_step; repeat split; auto; now apply next_sym|apply rt_refl|eapply rt_trans; eauto]. Qed.
(** What a call adds. *)
Record added (seen : list nat) (c : nat) (seen' new : list nat) : Prop := Added {
  a_app : seen' = seen ++ new;
  a_in : forall d, In d new -> In d cells;
  a_nodup : NoDup seen';
  a_link : forall d, In d new -> linked P cells c d;
  a_new : forall e d, In e new -> step e d -> In d seen' }.
Lemma neighbours f : forall seen c, In c cells -> NoDup seen -> left seen < f -> exists seen' new, found_neighbor f P cells seen c = Some seen' /\ added seen c seen' new /\ (forall d, step c d -> In d seen').
Proof.
  induction f as [|f IH]; [lia|]. intros seen c Hc N L. cbn [found_neighbor].
  assert (forall todo seen, incl todo cells -> NoDup seen -> left seen < S f -> exists seen' new, fold_left (fun o d => match o with None => None | Some seen => if existsb (Nat.eqb d) seen then Some seen else if beside (P c) (P d) then found_neighbor f P cells (seen ++ [d]) d else Some seen end) todo (Some seen) = Some seen' /\ added seen c seen' new /\ (forall d, In d todo -> step c d -> In d seen')) as H.
  { clear seen N L. induction todo as [|d todo IHt]; intros seen I N L.
    - exists seen, []. split; [reflexivity|]. split; [|intros d []]. constructor; [now rewrite app_nil_r|intros d []|exact N|intros d []|intros e d []].
    - cbn [fold_left]. assert (In d cells) as Hd by (apply I; now left). assert (incl todo cells) as It by (intros x Hx; apply I; now right).
      destruct (existsb (Nat.eqb d) seen) eqn:E; [|destruct (beside (P c) (P d)) eqn:B].
      + destruct (IHt seen It N L) as (s' & new & F & A & T). exists s', new. split; [exact F|]. split; [exact A|]. intros e [<-|He] Se; [|now apply T]. apply existsb_in in E. rewrite (a_app _ _ _ _ A). apply in_or_app. now left.
      + assert (~ In d seen) as Nd by (rewrite <- existsb_in; now rewrite E). apply beside_iff in B.
        assert (NoDup (seen ++ [d])) as N1 by (apply NoDup_rev in N; rewrite <- (rev_involutive (seen ++ [d])), rev_app_distr; apply NoDup_rev; cbn; constructor; [now rewrite <- in_rev|exact N]).
        pose proof (left_less seen d Hd Nd) as Ll. destruct (IH (seen ++ [d]) d Hd N1 ltac:(lia)) as (s1 & n1 & -> & A1 & T1). destruct A1 as [E1 I1 D1 K1 W1].
        assert (left s1 < S f) as L1 by (rewrite E1; pose proof (left_mono (seen ++ [d]) n1); lia).
        destruct (IHt s1 It D1 L1) as (s2 & n2 & F & [E2 I2 D2 K2 W2] & T2). exists s2, (d :: n1 ++ n2). split; [exact F|].
        assert (forall x, In x s1 -> In x s2) as S12 by (intros x Hx; rewrite E2; apply in_or_app; now left). split.
        * constructor.
          -- rewrite E2, E1, <- !app_assoc. reflexivity.
          -- intros x [<-|Hx]; [exact Hd|]. apply in_app_or in Hx. destruct Hx; auto.
          -- exact D2.
          -- assert (linked P cells c d) as Kc by (apply linked_step; now repeat split). intros x [<-|Hx]; [exact Kc|]. apply in_app_or in Hx. destruct Hx as [Hx|Hx]; [|now apply K2]. eapply linked_trans; [exact Kc|now apply K1].
          -- intros e x [<-|He] Sx; [apply S12; now apply T1|]. apply in_app_or in He. destruct He as [He|He]; [apply S12; now apply (W1 e)|now apply (W2 e)].
        * intros x [<-|Hx] Sx; [|now apply T2]. apply S12. rewrite E1. apply in_or_app. left. apply in_or_app. right. now left.
      + destruct (IHt seen It N L) as (s' & new & F & A & T). exists s', new. split; [exact F|]. split; [exact A|]. intros e [<-|He] Se; [|now apply T]. destruct Se as (_ & _ & Se). apply beside_iff in Se. congruence. }
  destruct (H cells seen (incl_refl _) N L) as (s' & new & F & A & T). exists s', new. split; [exact F|]. split; [exact A|]. intros d Sd. apply T; auto. apply Sd.
Qed.
Definition closed (seen : list nat) : Prop := forall e d, In e seen -> step e d -> In d seen.
Lemma closed_linked seen e d : closed seen -> In e seen -> linked P cells e d -> In d seen.
Proof. intros C He H. induction H as [a b S|a|a b c _ IH1 _ IH2]; auto. now apply (C a). Qed.
Lemma sets_from_ok : forall todo seen, incl todo cells -> incl seen cells -> NoDup seen -> closed seen -> exists ss, sets_from (length cells) P cells todo seen = Some ss /\ NoDup (seen ++ concat ss) /\ incl (concat ss) cells /\ incl todo (seen ++ concat ss) /\ closed (seen ++ concat ss) /\
  forall t, In t ss -> exists c, In c t /\ forall d, In d t <-> In d cells /\ linked P cells c d.
Proof.
  induction todo as [|c todo IH]; intros seen It Is N C.
  - exists []. cbn. rewrite app_nil_r. repeat split; auto; try (intros x []).
  - assert (In c cells) as Hc by (apply It; now left). assert (incl todo cells) as It' by (intros x Hx; apply It; now right). cbn [sets_from]. destruct (existsb (Nat.eqb c) seen) eqn:E.
    + destruct (IH seen It' Is N C) as (ss & F & A1 & A2 & A3 & A4 & A5). exists ss. repeat split; auto. intros x [<-|Hx]; [apply existsb_in in E; apply in_or_app; now left|now apply A3].
    + assert (~ In c seen) as Nc by (rewrite <- existsb_in; now rewrite E).
      assert (NoDup (seen ++ [c])) as N1 by (apply NoDup_rev in N; rewrite <- (rev_involutive (seen ++ [c])), rev_app_distr; apply NoDup_rev; cbn; constructor; [now rewrite <- in_rev|exact N]).
      assert (left (seen ++ [c]) < length cells) as L. { pose proof (left_less seen c Hc Nc). assert (left seen <= length cells) by (unfold left; generalize (fun d => negb (existsb (Nat.eqb d) seen)); intros p; generalize cells as l; induction l as [|a l IHl]; cbn; [auto|destruct (p a); cbn; lia]). lia. }
      destruct (neighbours (length cells) (seen ++ [c]) c Hc N1 L) as (s' & new & -> & [E1 I1 D1 K1 W1] & T1).
      assert (s' = seen ++ c :: new) as E' by (rewrite E1, <- app_assoc; reflexivity). assert (skipn (length seen) s' = c :: new) as Sk by (rewrite E', skipn_app, skipn_all, Nat.sub_diag; reflexivity).
      assert (incl s' cells) as Is'. { rewrite E'. intros x Hx. apply in_app_or in Hx. destruct Hx as [Hx|[<-|Hx]]; auto. }
      assert (closed s') as C'. { intros e d He Sd. rewrite E' in He. apply in_app_or in He. destruct He as [He|[<-|He]]; [|now apply T1|now apply (W1 e)]. rewrite E'. apply in_or_app. left. now apply (C e). }
      destruct (IH s' It' Is' D1 C') as (ss & F & A1 & A2 & A3 & A4 & A5). rewrite F, Sk. cbn [option_map]. exists ((c :: new) :: ss). change (concat ((c :: new) :: ss)) with ((c :: new) ++ concat ss). rewrite !app_assoc. rewrite <- E'. split; [reflexivity|]. split; [exact A1|]. split; [|split; [|split; [exact A4|]]].
      * intros x Hx. apply in_app_or in Hx. destruct Hx as [[<-|Hx]|Hx]; auto.
      * intros x [<-|Hx]; [rewrite E'; apply in_or_app; left; apply in_or_app; right; now left|now apply A3].
      * intros t [<-|Ht]; [|now apply A5]. exists c. split; [now left|]. intros d. split.
        -- intros [<-|Hd]; [split; [exact Hc|apply rt_refl]|split; [now apply I1|now apply K1]].
        -- intros [Hd Ld]. assert (In d s') as Hs by (apply (closed_linked s' c); auto; rewrite E'; apply in_or_app; right; now left). rewrite E' in Hs. apply in_app_or in Hs. destruct Hs as [Hs|Hs]; [|exact Hs]. exfalso. apply Nc. apply (closed_linked seen d); auto. now apply linked_sym.
Qed.
End Net.
