(** The search: chains of parents, termination, soundness. *)
From Coq Require Import ZArith QArith Lqa ZifyBool.
From Verif Require Import Base.Prelude Model.AStar Spec.AStarSpec.
Local Open Scope Z_scope.

Lemma mem_spec i l : mem i l = true <-> In i l.
Proof. unfold mem. rewrite existsb_exists. split; [intros (x & H & E)|intros H; exists i]. - apply Nat.eqb_eq in E. now subst. - now rewrite Nat.eqb_refl. Qed.
Lemma mem_not i l : mem i l = false <-> ~ In i l.
Proof. rewrite <- mem_spec. now destruct (mem i l). Qed.
Lemma upd_same {A} (f : nat -> A) i a : upd f i a i = a.
Proof. unfold upd. now rewrite Nat.eqb_refl. Qed.
Lemma upd_other {A} (f : nat -> A) i a k : k <> i -> upd f i a k = f k.
Proof. intros H. unfold upd. apply Nat.eqb_neq in H. now rewrite H. Qed.
Lemma dist_sym j a b : dist j a b = dist j b a.
Proof. unfold dist. lia. Qed.
Lemma dist_nonneg j a b : 0 <= dist j a b.
Proof. unfold dist. lia. Qed.

Section Search.
Variable j : job.
Hypothesis W : wf j.
Notation N := (size j).
Notation src := (source j).

(** *** Lists of nodes in reverse, linked by their parents. *)
Fixpoint linked (par : nat -> option nat) (l : list nat) : Prop :=
  match l with [] => False | v :: r => match r with [] => par v = None | u :: _ => par v = Some u /\ linked par r end end.
Fixpoint start_of (l : list nat) : nat :=
  match l with [] => O | u :: r => match r with [] => u | w :: _ => if metal (at_ j w) =? metal (at_ j u) then start_of r else u end end.
Fixpoint before_of (l : list nat) : option nat :=
  match l with [] => None | u :: r => match r with [] => None | w :: _ => if metal (at_ j w) =? metal (at_ j u) then before_of r else Some w end end.
Lemma linked_tail par u r : r <> [] -> linked par (u :: r) -> linked par r.
Proof. destruct r; [congruence|]. cbn. intuition. Qed.
Lemma same_layer_ok par l : forall f c u r, l = u :: r -> linked par l -> NoDup l -> (forall w, In w l -> (w < N)%nat) -> ~ In c r -> (length l <= f)%nat ->
  same_layer f j par c u = Some (start_of l) /\ par (start_of l) = before_of l.
Proof.
  induction l as [|u0 l IH]; [discriminate|]. intros f c u r E L Nd B Hc Hf. injection E as -> ->. destruct f as [|f]; [cbn in Hf; lia|].
  destruct r as [|w r]; [cbn in *; now rewrite L|]. cbn [linked] in L. destruct L as [L1 L2].
  cbn [same_layer]. rewrite L1. replace (length (g j) <=? w)%nat with false by (specialize (B w); cbn in B; unfold size in B; lia).
  assert (w <> c) as Hw by (intros ->; apply Hc; now left). apply Nat.eqb_neq in Hw. rewrite Hw. cbn [negb]. rewrite !andb_true_r.
  cbn [start_of before_of]. destruct (metal (at_ j w) =? metal (at_ j u)) eqn:Em; cbn [negb].
  - inversion_clear Nd. destruct (IH f c w r eq_refl L2) as [I1 I2]; auto; [intros; apply B; now right|intros Hi; apply Hc; now right|cbn in *; lia].
  - auto.
Qed.

Definition ext (l : list nat) (v : nat) : bool :=
  let a := start_of l in let u := hd O l in
  if mem a src then true else
  let len := dist j u a in let m := minL (t j) (metal (at_ j u)) in let sp := via_space j (before_of l) u v in
  if (len - m <? 0) && (sp <=? len) then extendable j a u len m else sp <=? len.
Lemma fit l : NoDup l -> (forall w : nat, In w l -> (w < N)%nat) -> (length l <= N)%nat.
Proof. intros Nd B. rewrite <- (seq_length N 0). apply NoDup_incl_length; [exact Nd|]. intros w Hw. apply in_seq. specialize (B w Hw). lia. Qed.
Lemma prime_ok par u r v : linked par (u :: r) -> NoDup (u :: r) -> (forall w, In w (u :: r) -> (w < N)%nat) -> prime j par src u v = Some (ext (u :: r) v).
Proof.
  intros L Nd B. pose proof (fit _ Nd B) as F. unfold size in F. inversion Nd as [|? ? Hn ?]; subst. destruct (same_layer_ok par (u :: r) (S (length (g j))) u u r eq_refl L Nd B Hn ltac:(lia)) as [E1 E2].
  unfold prime. rewrite E1, E2. unfold ext. cbn [hd]. destruct (mem (start_of (u :: r)) src); [reflexivity|]. destruct (_ && _); reflexivity.
Qed.
Lemma check_ok tb v u r : linked tb (v :: u :: r) -> NoDup (v :: u :: r) -> (forall w, In w (v :: u :: r) -> (w < N)%nat) ->
  metal (at_ j u) = metal (at_ j v) \/ ext (u :: r) v = true -> Extention_check j tb src v = Some true.
Proof.
  intros L Nd B H. unfold Extention_check. cbn in L. destruct L as [L1 L2]. rewrite L1. replace (length (g j) <=? u)%nat with false by (specialize (B u); cbn in B; unfold size in B; lia).
  destruct (metal (at_ j v) =? metal (at_ j u)) eqn:Em; [reflexivity|]. destruct H as [H|H]; [lia|].
  inversion_clear Nd as [|? ? _ Nd']. inversion Nd' as [|? ? Hn ?]; subst.
  assert (forall w, In w (u :: r) -> (w < N)%nat) as B' by (intros w Hw; apply B; now right).
  pose proof (fit _ Nd' B') as F. unfold size in F.
  destruct (same_layer_ok tb (u :: r) (S (length (g j))) u u r eq_refl L2 Nd' B' Hn ltac:(lia)) as [E1 E2]. rewrite E1, E2.
  unfold ext in H. cbn [hd] in H. destruct (mem (start_of (u :: r)) src); [reflexivity|].
  destruct (_ && _); [now rewrite H|reflexivity].
Qed.

(** *** Single steps. *)
Lemma near_in u v : In v (near j u) <-> active (at_ j v) = true /\ (In v (sides j u) \/ via_up (at_ j u) = true /\ up (at_ j u) = Some v \/ via_down (at_ j u) = true /\ down (at_ j u) = Some v).
Proof.
  unfold near, sides. rewrite !in_app_iff, !filter_In.
  assert (forall (b : bool) o, In v (if b then ud j o else []) <-> active (at_ j v) = true /\ b = true /\ o = Some v) as U.
  { intros b o. destruct b; [|cbn; intuition discriminate]. unfold ud. destruct o as [w|]; [|cbn; intuition discriminate]. destruct (active (at_ j w)) eqn:A; cbn; split.
    - intros [<-|[]]. auto.
    - intros (_ & _ & E). injection E as ->. auto.
    - intros [].
    - intros (H & _ & E). injection E as ->. congruence. }
  rewrite !U. tauto.
Qed.
Lemma near_lt u v : (u < N)%nat -> In v (near j u) -> (v < N)%nat.
Proof.
  intros Hu H. apply near_in in H. destruct H as [_ [H|[[_ H]|[_ H]]]].
  - now apply (w_side j W u v Hu).
  - now apply (w_up j W u v Hu).
  - now apply (w_down j W u v Hu).
Qed.
Lemma next_node_ok u v dl : (u < N)%nat -> In v (near j u) -> u <> v /\
  next_node j u (Z.sgn (vx (at_ j v) - vx (at_ j u))) (Z.sgn (vy (at_ j v) - vy (at_ j u))) (Z.sgn (metal (at_ j v) - metal (at_ j u))) dl = Some v.
Proof.
  intros Hu H. pose proof (near_lt u v Hu H) as Hv. apply near_in in H. unfold size in *. destruct H as [_ [H|[[_ H]|[_ H]]]].
  - destruct (w_side j W u v Hu H) as (_ & Hm & H'). unfold next_node. destruct (horizontal (t j) (metal (at_ j u))).
    + destruct H' as (Ey & [[Hx ->]|[Hx ->]]); (split; [lia|]).
      * rewrite Z.sgn_pos by lia. cbn [negb Z.eqb]. replace ((_ <? 0) || _) with false by lia. f_equal. lia.
      * rewrite Z.sgn_neg by lia. cbn [negb Z.eqb]. replace ((_ <? 0) || _) with false by lia. f_equal. lia.
    + destruct H' as (Ey & [[Hx ->]|[Hx ->]]); (split; [lia|]).
      * rewrite (Z.sgn_pos (vy _ - _)) by lia. cbn [negb Z.eqb]. replace ((_ <? 0) || _) with false by lia. f_equal. lia.
      * rewrite (Z.sgn_neg (vy _ - _)) by lia. cbn [negb Z.eqb]. replace ((_ <? 0) || _) with false by lia. f_equal. lia.
  - destruct (w_up j W u v Hu H) as (_ & Hm & Ex & Ey). split; [intros ->; lia|]. unfold next_node. rewrite Ex, Ey, !Z.sub_diag, Hm. replace (Z.sgn (metal (at_ j u) + 1 - metal (at_ j u))) with 1 by lia.
    change (Z.sgn 0) with 0. destruct (horizontal _ _); cbn; rewrite H; replace (_ <=? _)%nat with false by lia; reflexivity.
  - destruct (w_down j W u v Hu H) as (_ & Hm & Ex & Ey). split; [intros ->; lia|]. unfold next_node. rewrite Ex, Ey, !Z.sub_diag, Hm. replace (Z.sgn (metal (at_ j u) - 1 - metal (at_ j u))) with (-1) by lia.
    change (Z.sgn 0) with 0. destruct (horizontal _ _); cbn; rewrite H; replace (_ <=? _)%nat with false by lia; reflexivity.
Qed.
Definition link (u v : nat) : bool := active (at_ j u) && pair_ok j u v.
Lemma l_shape_ok u v : (u < N)%nat -> In v (near j u) -> l_shape j u v = if link u v then Some [u; v] else None.
Proof.
  intros Hu H. assert (forall dl, l_walk (S (length (g j))) j v dl u [] = Some [v; u]) as E.
  { intros dl. destruct (next_node_ok u v dl Hu H) as [Hn E]. cbn [l_walk]. apply Nat.eqb_neq in Hn. rewrite Hn, E. cbn [mem existsb]. destruct (length (g j)); cbn [l_walk]; now rewrite Nat.eqb_refl. }
  unfold l_shape. rewrite !E. cbn [rev app check_active pairs_ok]. rewrite andb_true_r. unfold link. destruct (active (at_ j u) && pair_ok j u v); reflexivity.
Qed.
Lemma link_next u v : (u < N)%nat -> (In v (near j u) /\ link u v = true <-> next j u v).
Proof.
  intros Hu. rewrite near_in. unfold link, pair_ok, next. split.
  - intros ((Av & H) & L). apply andb_prop in L. destruct L as [Au L]. split; [exact Au|]. split; [exact Av|]. destruct H as [H|[[Hv H]|[Hv H]]]; [now left| |].
    + right. left. destruct (w_up j W u v Hu H) as (_ & Hm & _). apply andb_prop in L. destruct L as [_ L]. replace (metal (at_ j v) <? metal (at_ j u)) with false in L by lia. replace (metal (at_ j u) <? metal (at_ j v)) with true in L by lia. apply andb_prop in L. destruct L as [L L2]. apply andb_prop in L. destruct L as [L1 _]. auto.
    + right. right. destruct (w_down j W u v Hu H) as (_ & Hm & _). apply andb_prop in L. destruct L as [_ L]. replace (metal (at_ j v) <? metal (at_ j u)) with true in L by lia. apply andb_prop in L. destruct L as [L L2]. apply andb_prop in L. destruct L as [L1 _]. auto.
  - intros (Au & Av & H). rewrite Au, Av. split; [|].
    + split; [reflexivity|]. tauto.
    + assert ((v <? length (g j))%nat = true) as Hl. { apply Nat.ltb_lt. destruct H as [H|[[H _]|[H _]]]; [apply (w_side j W u v Hu H)|apply (w_up j W u v Hu H)|apply (w_down j W u v Hu H)]. }
      rewrite Hl. cbn [andb]. destruct H as [H|[(H & H1 & H2)|(H & H1 & H2)]].
      * destruct (w_side j W u v Hu H) as (_ & Hm & _). rewrite Hm, Z.ltb_irrefl. reflexivity.
      * destruct (w_up j W u v Hu H) as (_ & Hm & _). replace (metal (at_ j v) <? metal (at_ j u)) with false by lia. replace (metal (at_ j u) <? metal (at_ j v)) with true by lia. now rewrite H1, H2.
      * destruct (w_down j W u v Hu H) as (_ & Hm & _). replace (metal (at_ j v) <? metal (at_ j u)) with true by lia. now rewrite H1, H2.
Qed.

(** *** Chains: the way from a source to a node, in reverse. *)
Definition can_go (l : list nat) (v : nat) : bool := link (hd O l) v && ((metal (at_ j (hd O l)) =? metal (at_ j v)) || ext l v).
Inductive chain (par : nat -> option nat) : list nat -> Prop :=
| c_src u : In u src -> par u = None -> chain par [u]
| c_step v u r : chain par (u :: r) -> par v = Some u -> ~ In v src -> ~ In v (u :: r) -> ~ In u (dest j) -> In v (near j u) -> can_go (u :: r) v = true -> chain par (v :: u :: r).
Lemma chain_tail par u r : r <> [] -> chain par (u :: r) -> chain par r.
Proof. intros H C. inversion C; subst; [congruence|assumption]. Qed.
Lemma chain_lt par l : chain par l -> forall w, In w l -> (w < N)%nat.
Proof.
  induction 1 as [u H1 H2|v u r C IH H1 H2 H3 H4 H5 H6]; intros w Hw.
  - destruct Hw as [<-|[]]. now apply (w_source j W).
  - destruct Hw as [<-|Hw]; [|auto]. apply (near_lt u); [apply IH; now left|exact H5].
Qed.
Lemma chain_linked par l : chain par l -> linked par l.
Proof. induction 1; cbn; auto. Qed.
Lemma chain_nodup par l : chain par l -> NoDup l.
Proof. induction 1; constructor; auto; try (intros []); constructor. Qed.
Lemma chain_same par par' l : chain par l -> (forall w, In w l -> par' w = par w) -> chain par' l.
Proof.
  induction 1; intros E.
  - constructor; [assumption|]. rewrite E by now left. assumption.
  - constructor; auto. + apply IHchain. intros; apply E; now right. + rewrite E by now left. assumption.
Qed.
Lemma chain_det par l : forall l' u r r', chain par l -> chain par l' -> l = u :: r -> l' = u :: r' -> l = l'.
Proof.
  induction l as [|u0 l IH]; [discriminate|]. intros l' u r r' C C' E E'. subst l'. injection E as -> ->.
  inversion C as [? Hs Hp|v w q Cw Hp Hns Hni Hd Hne Hg]; subst; inversion C' as [? Hs' Hp'|v' w' q' Cw' Hp' Hns' Hni' Hd' Hne' Hg']; subst; try congruence.
  - rewrite Hp in Hp'. injection Hp' as <-. f_equal. eapply IH; eauto.
Qed.
Lemma parallel_ok par u r v : chain par (u :: r) -> In v (near j u) -> parallel j par src u v = Some (if can_go (u :: r) v then Some [u; v] else None).
Proof.
  intros C H. pose proof (chain_lt _ _ C) as B. unfold parallel, can_go. cbn [hd]. rewrite (l_shape_ok u v (B u (or_introl eq_refl)) H).
  destruct (metal (at_ j u) =? metal (at_ j v)); cbn [orb]; [rewrite andb_true_r; reflexivity|].
  rewrite (prime_ok par u r v (chain_linked _ _ C) (chain_nodup _ _ C) B). destruct (ext (u :: r) v); destruct (link u v); reflexivity.
Qed.
Lemma accepted_ok par u r vs : chain par (u :: r) -> (forall v, In v vs -> In v (near j u)) -> accepted j par u vs = Some (filter (can_go (u :: r)) vs).
Proof.
  intros C. induction vs as [|v vs IH]; intros H; [reflexivity|]. cbn [accepted filter]. rewrite (parallel_ok par u r v C) by (apply H; now left).
  rewrite IH by (intros; apply H; now right). destruct (can_go (u :: r) v); reflexivity.
Qed.

(** *** The list of open nodes. *)
Lemma insert_in p l x : In x (insert p l) -> x = p \/ In x l.
Proof. induction l as [|q l IH]; cbn [insert]; [intros [<-|[]]; auto|]. destruct (less p q); [intros [<-|H]; auto|]. destruct (less q p); [|auto]. intros [<-|H]; [right; now left|]. destruct (IH H); auto. right. now right. Qed.
Lemma insert_len p l : (length (insert p l) <= S (length l))%nat.
Proof. induction l as [|q l IH]; cbn [insert]; [cbn; lia|]. destruct (less p q); [cbn; lia|]. destruct (less q p); cbn; lia. Qed.
Lemma less_same a b : less a b = false -> less b a = false -> snd a = snd b.
Proof.
  unfold less. rewrite (Bool.eq_true_iff_eq (Qeq_bool (fst b) (fst a)) (Qeq_bool (fst a) (fst b))) by (rewrite !Qeq_bool_iff; split; intros; now symmetry).
  destruct (Qeq_bool (fst a) (fst b)) eqn:E; [lia|]. intros H1 H2. exfalso. destruct (Qlt_le_dec (fst a) (fst b)) as [H|H].
  - apply Qlt_le_weak, Qle_bool_iff in H. congruence.
  - apply Qle_bool_iff in H. congruence.
Qed.
Lemma insert_snd p l v : In v (map snd (insert p l)) <-> v = snd p \/ In v (map snd l).
Proof.
  induction l as [|q l IH]; cbn [insert]; [cbn; intuition|]. destruct (less p q) eqn:E1; [cbn; intuition|]. destruct (less q p) eqn:E2; [cbn [map In]; rewrite IH; cbn; intuition|].
  rewrite (less_same p q E1 E2). cbn. intuition.
Qed.
Lemma erase_snd p l v : In v (map snd l) -> v = snd p \/ In v (map snd (erase p l)).
Proof.
  rewrite !in_map_iff. intros (q & <- & H). destruct (less p q || less q p) eqn:E.
  - right. exists q. split; [reflexivity|]. unfold erase. apply filter_In. auto.
  - left. apply orb_false_elim in E. symmetry. now apply less_same.
Qed.
Lemma erase_len p l : (length (erase p l) <= length l)%nat.
Proof. unfold erase. induction l as [|q l IH]; cbn; [lia|]. destruct (_ || _); cbn; lia. Qed.
End Search.
