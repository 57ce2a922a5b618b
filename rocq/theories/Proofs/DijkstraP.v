(** Dijkstra's algorithm of the global router. *)
From Coq Require Import ZArith ZifyBool.
From Verif Require Import Base.Prelude Model.GlobalGraph Spec.GlobalGraphSpec.
Local Open Scope Z_scope.

Lemma upd_same {A} (f : nat -> A) v a : upd f v a v = a.
Proof. unfold upd. now rewrite Nat.eqb_refl. Qed.
Lemma upd_other {A} (f : nat -> A) v a w : w <> v -> upd f v a w = f w.
Proof. unfold upd. intros H. apply Nat.eqb_neq in H. now rewrite H. Qed.

(** The multimap. *)
Definition msorted := StronglySorted (fun a b : Z * nat => fst a <= fst b).
Lemma mm_insert_perm d v m : Permutation ((d, v) :: m) (mm_insert d v m).
Proof.
  induction m as [|[d' v'] m IH]; cbn; [reflexivity|]. destruct (d <? d'); [reflexivity|].
  eapply perm_trans; [apply perm_swap|]. now apply perm_skip.
Qed.
Lemma mm_insert_in d v m x : In x (mm_insert d v m) <-> x = (d, v) \/ In x m.
Proof.
  split; intros H.
  - apply (Permutation_in x (Permutation_sym (mm_insert_perm d v m))) in H. destruct H; auto.
  - apply (Permutation_in x (mm_insert_perm d v m)). destruct H; [left|right]; auto.
Qed.
Lemma mm_insert_sorted d v m : msorted m -> msorted (mm_insert d v m).
Proof.
  unfold msorted. induction 1 as [|[d' v'] m S IH F]; cbn; [repeat constructor|]. destruct (d <? d') eqn:E.
  - constructor; [now constructor|]. constructor; cbn; [lia|]. rewrite Forall_forall in *. intros x Hx. specialize (F x Hx). cbn in F. lia.
  - constructor; [exact IH|]. rewrite Forall_forall in *. intros x Hx. apply mm_insert_in in Hx. destruct Hx as [->|Hx]; [cbn; lia|auto].
Qed.
Lemma mm_remove_perm d v m : In (d, v) m -> Permutation m ((d, v) :: mm_remove d v m).
Proof.
  induction m as [|[d' v'] m IH]; [intros []|]. intros H. cbn. destruct ((d =? d') && (v =? v')%nat) eqn:E.
  - assert (d' = d /\ v' = v) as [-> ->] by lia. reflexivity.
  - destruct H as [H|H]; [injection H as -> ->; lia|]. eapply perm_trans; [apply perm_skip, IH, H|]. apply perm_swap.
Qed.
Lemma mm_remove_incl d v m x : In x (mm_remove d v m) -> In x m.
Proof. induction m as [|[d' v'] m IH]; cbn; [easy|]. destruct ((d =? d') && (v =? v')%nat); cbn; intuition. Qed.
Lemma mm_remove_sorted d v m : msorted m -> msorted (mm_remove d v m).
Proof.
  unfold msorted. induction 1 as [|[d' v'] m S IH F]; cbn; [constructor|]. destruct ((d =? d') && (v =? v')%nat); [exact S|].
  constructor; [exact IH|]. rewrite Forall_forall in *. intros x Hx. apply F. eapply mm_remove_incl; eauto.
Qed.

Section Dijkstra.
Variable g : graph.
Let ns := nodes g.
Let n := length ns.
Let s0 := g_source g.
Let t0 := g_dest g.
Hypothesis Hs : (s0 < n)%nat.
Hypothesis Ht : (t0 < n)%nat.
Hypothesis Hst : s0 <> t0.
Hypothesis He : forall a b w, edge_of ns a b w -> (b < n)%nat /\ 0 <= w.

(** The vertices that are done, the last one first: each but the source has its parent behind it. *)
Definition tight (s : dstate) (u v : nat) : Prop := exists w, edge_of ns u v w /\ dist s v = dist s u + w.
Inductive chain (s : dstate) : list nat -> Prop :=
| ch_source : parent s s0 = None -> dist s s0 = 0 -> chain s [s0]
| ch_more v u l : chain s l -> ~ In v l -> (v < n)%nat -> parent s v = Some u -> In u l -> tight s u v -> chain s (v :: l).

(** The invariant; [k] is the list of done vertices, [cur] the vertex whose edges are being followed and [es] those not yet followed. *)
Record inv (s : dstate) (k : list nat) (cur : option (nat * list edge)) : Prop := {
  i_chain : k = [] \/ chain s k;
  i_done : forall v, stat s v = Done <-> In v k;
  i_init : k = [] -> stat s s0 = Fringe /\ dist s s0 = 0 /\ parent s s0 = None /\ forall v, v <> s0 -> stat s v = Unseen;
  i_fringe : forall v, stat s v = Fringe -> (v < n)%nat /\ (k = [] \/ exists u, parent s v = Some u /\ In u k /\ tight s u v);
  i_map : forall d v, In (d, v) (dmap s) <-> stat s v = Fringe /\ d = dist s v;
  i_nodup : NoDup (dmap s);
  i_sorted : msorted (dmap s);
  i_unseen : forall v, stat s v = Unseen -> parent s v = None;
  i_edges : forall u v w, stat s u = Done -> edge_of ns u v w ->
              v = u \/ (stat s v <> Unseen /\ dist s v <= dist s u + w) \/ exists es, cur = Some (u, es) /\ In (Edge v w) es;
  i_order : forall u v, stat s u = Done -> stat s v = Fringe -> dist s u <= dist s v;
  i_cur : forall u es, cur = Some (u, es) -> stat s u = Done /\ (forall v, stat s v = Done -> dist s v <= dist s u) /\ forall e, In e es -> edge_of ns u (e_dest e) (e_weight e) }.

Lemma chain_in s k v : chain s k -> In v k -> (v < n)%nat.
Proof. induction 1; cbn; intros H'; [destruct H' as [<-|[]]; exact Hs|]. destruct H' as [<-|H']; auto. Qed.
Lemma chain_nodup s k : chain s k -> NoDup k.
Proof. induction 1; constructor; auto. constructor. Qed.
Lemma chain_source s k : chain s k -> In s0 k.
Proof. induction 1; cbn; auto. Qed.
Lemma tight_same s s' u v : dist s' u = dist s u -> dist s' v = dist s v -> tight s u v -> tight s' u v.
Proof. intros E1 E2 (w & H1 & H2). exists w. rewrite E1, E2. auto. Qed.
Lemma chain_same s s' k : (forall v, In v k -> dist s' v = dist s v /\ parent s' v = parent s v) -> chain s k -> chain s' k.
Proof.
  intros E H. induction H as [H1 H2|v u l C IH Hv Hn Hp Hu Ht'].
  - destruct (E s0 (or_introl eq_refl)) as [E1 E2]. constructor; congruence.
  - econstructor; [apply IH; intros x Hx; apply E; now right| | | | |]; eauto.
    + destruct (E v (or_introl eq_refl)) as [_ E2]. rewrite E2. exact Hp.
    + eapply tight_same; [apply E; now right|apply E; now left|exact Ht'].
Qed.

(** One edge. *)
Lemma relax_ok s k u e es : k <> [] -> inv s k (Some (u, e :: es)) -> exists s', relax n u e s = Some s' /\ inv s' k (Some (u, es)).
Proof.
  intros Hk I. destruct e as [v w]. pose proof I as I0. destruct I as [Ich Idone Iinit Ifr Imap Ind Iso Iun Ied Ior Icur].
  destruct (Icur u _ eq_refl) as (Hu & Hmax & Hes). pose proof (Hes (Edge v w) (or_introl eq_refl)) as Ev. cbn in Ev. destruct (He _ _ _ Ev) as [Hvn Hw].
  assert (chain s k) as Hch by (destruct Ich; [contradiction|assumption]).
  assert (forall s', stat s' u = Done -> (forall x, stat s' x = Done -> dist s' x <= dist s' u) -> forall u' es', Some (u, es) = Some (u', es') ->
          stat s' u' = Done /\ (forall x, stat s' x = Done -> dist s' x <= dist s' u') /\ forall e, In e es' -> edge_of ns u' (e_dest e) (e_weight e)) as Cur.
  { intros s' A B u' es' [= <- <-]. split; [exact A|]. split; [exact B|]. intros e He'. apply Hes. now right. }
  unfold relax. cbn [e_dest e_weight]. replace (v <? n)%nat with true by lia. cbn [negb]. destruct (Nat.eqb_spec v u) as [->|Hvu].
  { eexists. split; [reflexivity|]. constructor; auto. intros u' v' w' Hu' E'. destruct (Ied u' v' w' Hu' E') as [A|[A|(es' & [= <- <-] & [B|B])]]; auto.
    - injection B as <- <-. now left.
    - right; right; eauto. }
  cbn zeta. set (d := dist s u + w).
  assert (forall s', (forall x, x <> v -> dist s' x = dist s x /\ stat s' x = stat s x) -> stat s' v <> Unseen -> dist s' v <= d ->
            (stat s v <> Unseen -> dist s' v <= dist s v) -> (stat s' v = Done -> stat s v = Done) ->
            forall u' v' w', stat s' u' = Done -> edge_of ns u' v' w' -> (u' = v -> dist s' v = dist s v) ->
              v' = u' \/ (stat s' v' <> Unseen /\ dist s' v' <= dist s' u' + w') \/ exists es', Some (u, es) = Some (u', es') /\ In (Edge v' w') es') as Edg.
  { intros s' Hoth Hns Hd Hle Hdone u' v' w' Hu' E' Hk'.
    assert (dist s' u' = dist s u' /\ stat s u' = Done) as [Du Su].
    { destruct (Nat.eq_dec u' v) as [->|N]; [auto|]. destruct (Hoth u' N) as [A B]. split; congruence. }
    destruct (Nat.eq_dec v' v) as [->|N].
    - destruct (Ied u' v w' Su E') as [A|[[A1 A2]|(es' & [= <- <-] & [B|B])]]; [now left| | |].
      + right; left. split; [exact Hns|]. rewrite Du. specialize (Hle A1). lia.
      + injection B as <-. right; left. split; [exact Hns|]. rewrite Du. exact Hd.
      + right; right; eauto.
    - destruct (Hoth v' N) as [A B]. destruct (Ied u' v' w' Su E') as [X|[[A1 A2]|(es' & [= <- <-] & [C|C])]]; [now left| | |].
      + right; left. rewrite A, B, Du. auto.
      + injection C as <- <-. congruence.
      + right; right; eauto. }
  destruct (stat s v) eqn:Sv.
  - (* Unseen *)
    assert (~ In v k) as Hvk by (intros X; apply Idone in X; congruence).
    set (s' := D (upd (dist s) v d) (upd (parent s) v (Some u)) (upd (stat s) v Fringe) (mm_insert d v (dmap s))).
    assert (forall x, x <> v -> dist s' x = dist s x /\ stat s' x = stat s x /\ parent s' x = parent s x) as Hoth.
    { intros x N. unfold s'. cbn. rewrite !upd_other by exact N. auto. }
    assert (dist s' v = d /\ stat s' v = Fringe /\ parent s' v = Some u) as (Dv & Sv' & Pv) by (unfold s'; cbn; rewrite !upd_same; auto).
    destruct (Hoth u (fun X => Hvu (eq_sym X))) as (Du & Su & _).
    exists s'. split; [reflexivity|]. constructor.
    + right. apply (chain_same s); [|exact Hch]. intros x Hx. assert (x <> v) as N by congruence. destruct (Hoth x N) as (A & _ & B). auto.
    + intros x. destruct (Nat.eq_dec x v) as [->|N]; [rewrite Sv'; split; [discriminate|contradiction]|]. destruct (Hoth x N) as (_ & -> & _). apply Idone.
    + intros X; contradiction.
    + intros x Hx. destruct (Nat.eq_dec x v) as [->|N].
      * split; [exact Hvn|]. right. exists u. split; [exact Pv|]. split; [apply Idone, Hu|]. exists w. split; [exact Ev|]. rewrite Dv, Du. reflexivity.
      * destruct (Hoth x N) as (A & B & C). rewrite B in Hx. destruct (Ifr x Hx) as [X1 [X2|(y & Y1 & Y2 & Y3)]]; [contradiction|]. split; [exact X1|]. right. exists y. rewrite C.
        split; [exact Y1|]. split; [exact Y2|]. eapply tight_same; [|exact A|exact Y3]. apply Hoth. congruence.
    + intros d' x. change (dmap s') with (mm_insert d v (dmap s)). rewrite mm_insert_in, Imap. destruct (Nat.eq_dec x v) as [->|N].
      * rewrite Sv', Dv, Sv. split; [intros [[= ->]|[X _]]; [auto|discriminate]|intros [_ ->]; now left].
      * destruct (Hoth x N) as (A & B & _). rewrite A, B. split; [intros [[= _ ->]|]; [contradiction|auto]|auto].
    + change (dmap s') with (mm_insert d v (dmap s)). eapply Permutation_NoDup; [apply mm_insert_perm|]. constructor; [|exact Ind]. intros X. apply Imap in X. destruct X as [X _]. congruence.
    + apply mm_insert_sorted, Iso.
    + intros x Hx. destruct (Nat.eq_dec x v) as [->|N]; [congruence|]. destruct (Hoth x N) as (_ & B & C). rewrite B in Hx. rewrite C. auto.
    + intros u' v' w' Hu' E'. apply (Edg s'); auto; try (intros x N; destruct (Hoth x N) as (A & B & _); auto); try congruence; lia || idtac. 
    + intros x y Hx Hy. assert (x <> v) as Nx by congruence. destruct (Hoth x Nx) as (A & B & _). rewrite B in Hx. destruct (Nat.eq_dec y v) as [->|N].
      * rewrite A, Dv. unfold d. specialize (Hmax x Hx). lia.
      * destruct (Hoth y N) as (A2 & B2 & _). rewrite A, A2. apply Ior; [exact Hx|congruence].
    + apply Cur; [congruence|]. intros x Hx. assert (x <> v) as Nx by congruence. destruct (Hoth x Nx) as (A & B & _). rewrite A, Du. apply Hmax. congruence.
  - (* Fringe *)
    destruct (d <? dist s v) eqn:L.
    2:{ exists s. split; [reflexivity|]. constructor; auto. intros u' v' w' Hu' E'. apply (Edg s); auto; try congruence; lia. }
    assert (~ In v k) as Hvk by (intros X; apply Idone in X; congruence).
    set (s' := D (upd (dist s) v d) (upd (parent s) v (Some u)) (stat s) (mm_insert d v (mm_remove (dist s v) v (dmap s)))).
    assert (forall x, x <> v -> dist s' x = dist s x /\ stat s' x = stat s x /\ parent s' x = parent s x) as Hoth.
    { intros x N. unfold s'. cbn. rewrite !upd_other by exact N. auto. }
    assert (dist s' v = d /\ stat s' v = Fringe /\ parent s' v = Some u) as (Dv & Sv' & Pv) by (unfold s'; cbn; rewrite !upd_same; auto).
    destruct (Hoth u (fun X => Hvu (eq_sym X))) as (Du & Su & _).
    assert (In (dist s v, v) (dmap s)) as Hin by (apply Imap; auto). pose proof (mm_remove_perm _ _ _ Hin) as Pm.
    assert (NoDup ((dist s v, v) :: mm_remove (dist s v) v (dmap s))) as ND by (eapply Permutation_NoDup; eauto). inversion ND as [|? ? ND1 ND2]; subst.
    assert (forall d' x, In (d', x) (mm_remove (dist s v) v (dmap s)) <-> x <> v /\ stat s x = Fringe /\ d' = dist s x) as Rm.
    { intros d' x. split.
      - intros X. pose proof (mm_remove_incl _ _ _ _ X) as Y. apply Imap in Y. destruct Y as [Y ->]. split; [intros ->; contradiction|auto].
      - intros (A & B & ->). assert (In (dist s x, x) (dmap s)) as Y by (apply Imap; auto). apply (Permutation_in _ Pm) in Y. destruct Y as [Y|Y]; [injection Y as _ ->; congruence|exact Y]. }
    exists s'. split; [reflexivity|]. constructor.
    + right. apply (chain_same s); [|exact Hch]. intros x Hx. assert (x <> v) as N by congruence. destruct (Hoth x N) as (A & _ & B). auto.
    + intros x. change (stat s' x) with (stat s x). apply Idone.
    + intros X; contradiction.
    + intros x Hx. destruct (Nat.eq_dec x v) as [->|N].
      * split; [exact Hvn|]. right. exists u. split; [exact Pv|]. split; [apply Idone, Hu|]. exists w. split; [exact Ev|]. rewrite Dv, Du. reflexivity.
      * destruct (Hoth x N) as (A & B & C). rewrite B in Hx. destruct (Ifr x Hx) as [X1 [X2|(y & Y1 & Y2 & Y3)]]; [contradiction|]. split; [exact X1|]. right. exists y. rewrite C.
        split; [exact Y1|]. split; [exact Y2|]. eapply tight_same; [|exact A|exact Y3]. apply Hoth. congruence.
    + intros d' x. change (dmap s') with (mm_insert d v (mm_remove (dist s v) v (dmap s))). rewrite mm_insert_in, Rm. change (stat s' x) with (stat s x). destruct (Nat.eq_dec x v) as [->|N].
      * rewrite Dv, Sv. split; [intros [[= ->]|[X _]]; [auto|contradiction]|intros [_ ->]; now left].
      * destruct (Hoth x N) as (A & B & _). rewrite A. split; [intros [[= _ ->]|(_ & X)]; [contradiction|auto]|auto].
    + change (dmap s') with (mm_insert d v (mm_remove (dist s v) v (dmap s))). eapply Permutation_NoDup; [apply mm_insert_perm|]. constructor; [|exact ND2]. intros X. apply Rm in X. destruct X as [X _]. congruence.
    + apply mm_insert_sorted, mm_remove_sorted, Iso.
    + intros x Hx. change (stat s' x) with (stat s x) in Hx. assert (x <> v) as N by congruence. destruct (Hoth x N) as (_ & B & C). rewrite C. auto.
    + intros u' v' w' Hu' E'. apply (Edg s'); auto; try (intros x N; destruct (Hoth x N) as (A & B & _); auto); try congruence; try lia.
    + intros x y Hx Hy. assert (x <> v) as Nx by congruence. destruct (Hoth x Nx) as (A & B & _). rewrite B in Hx. destruct (Nat.eq_dec y v) as [->|N].
      * rewrite A, Dv. unfold d. specialize (Hmax x Hx). lia.
      * destruct (Hoth y N) as (A2 & B2 & _). rewrite A, A2. apply Ior; [exact Hx|congruence].
    + apply Cur; [congruence|]. intros x Hx. assert (x <> v) as Nx by congruence. destruct (Hoth x Nx) as (A & B & _). rewrite A, Du. apply Hmax. congruence.
  - (* Done *)
    exists s. split; [reflexivity|]. constructor; auto. intros u' v' w' Hu' E'. apply (Edg s); auto; try congruence; try lia.
    specialize (Hmax v Sv). unfold d. lia.
Qed.
Lemma relax_all es : forall s k u, k <> [] -> inv s k (Some (u, es)) -> exists s', fold_opt (relax n u) es s = Some s' /\ inv s' k None.
Proof.
  induction es as [|e es IH]; intros s k u Hk I; cbn.
  - exists s. split; [reflexivity|]. destruct I. constructor; auto.
    + intros u' v w Hu E. destruct (i_edges0 u' v w Hu E) as [A|[A|(es & [= <- <-] & [])]]; auto.
    + intros; discriminate.
  - destruct (relax_ok s k u e es Hk I) as (s' & -> & I'). apply IH; auto.
Qed.

(** One round. *)
Lemma round_ok s k d u m nd : inv s k None -> dmap s = (d, u) :: m -> nth_error ns u = Some nd ->
  exists s', fold_opt (relax n u) (n_list nd) (D (dist s) (parent s) (upd (stat s) u Done) (mm_remove (dist s u) u (dmap s))) = Some s' /\ inv s' (u :: k) None.
Proof.
  intros I Em Hn. destruct I as [Ich Idone Iinit Ifr Imap Ind Iso Iun Ied Ior Icur].
  assert (In (d, u) (dmap s)) as Hin by (rewrite Em; now left). pose proof (proj1 (Imap d u) Hin) as [Su ->].
  set (s1 := D (dist s) (parent s) (upd (stat s) u Done) (mm_remove (dist s u) u (dmap s))).
  assert (mm_remove (dist s u) u (dmap s) = m) as Er by (rewrite Em; cbn; rewrite Z.eqb_refl, Nat.eqb_refl; reflexivity).
  assert (forall x, x <> u -> stat s1 x = stat s x) as Hoth by (intros x N; unfold s1; cbn; now rewrite upd_other).
  assert (stat s1 u = Done) as Su1 by (unfold s1; cbn; now rewrite upd_same).
  assert (~ In u k) as Huk by (intros X; apply Idone in X; congruence).
  assert (forall x, stat s x = Fringe -> dist s u <= dist s x) as Hmin.
  { intros x Hx. assert (In (dist s x, x) (dmap s)) as Y by (apply Imap; auto). rewrite Em in Y, Iso. destruct Y as [Y|Y]; [injection Y as -> _; lia|].
    inversion Iso as [|? ? _ F]; subst. rewrite Forall_forall in F. apply (F _ Y). }
  apply relax_all; [discriminate|]. fold s1. rewrite Em in Ind. apply NoDup_cons_iff in Ind. destruct Ind as [Nu Nm]. constructor.
  - right. destruct (Ifr u Su) as [Hun [->|(y & Y1 & Y2 & Y3)]].
    + destruct (Iinit eq_refl) as (A & B & C & E). assert (u = s0) as ->. { destruct (Nat.eq_dec u s0); [assumption|]. specialize (E u n0). congruence. }
      apply ch_source; auto.
    + destruct Ich as [->|Ich]; [destruct Y2|]. econstructor; eauto. apply (chain_same s); auto.
  - intros x. destruct (Nat.eq_dec x u) as [->|N]; [rewrite Su1; split; [now left|auto]|]. rewrite (Hoth x N), Idone. split; [now right|intros [X|X]; [congruence|exact X]].
  - discriminate.
  - intros x Hx. assert (x <> u) as N by congruence. rewrite (Hoth x N) in Hx. destruct (Ifr x Hx) as [X1 [->|(y & Y1 & Y2 & Y3)]].
    + destruct (Iinit eq_refl) as (A & B & C & E). exfalso. assert (u = s0). { destruct (Nat.eq_dec u s0); [assumption|]. specialize (E u n0). congruence. }
      subst u. specialize (E x N). congruence.
    + split; [exact X1|]. right. exists y. split; [exact Y1|]. split; [now right|exact Y3].
  - intros d' x. change (dmap s1) with (mm_remove (dist s u) u (dmap s)). rewrite Er. change (dist s1 x) with (dist s x).
    assert (In (d', x) (dmap s) <-> (d', x) = (dist s u, u) \/ In (d', x) m) as Q by (rewrite Em; cbn; intuition).
    destruct (Nat.eq_dec x u) as [->|N].
    + rewrite Su1. split; [|intros [X _]; discriminate]. intros X. assert (In (d', u) (dmap s)) as Y by (apply Q; auto). apply Imap in Y. destruct Y as [_ ->]. contradiction.
    + rewrite (Hoth x N), <- Imap, Q. split; [auto|]. intros [X|X]; [injection X as _ ->; congruence|exact X].
  - change (dmap s1) with (mm_remove (dist s u) u (dmap s)). now rewrite Er.
  - change (dmap s1) with (mm_remove (dist s u) u (dmap s)). now apply mm_remove_sorted.
  - intros x Hx. assert (x <> u) as N by congruence. rewrite (Hoth x N) in Hx. apply Iun, Hx.
  - intros x y w Hx E. destruct (Nat.eq_dec x u) as [->|N].
    + right; right. exists (n_list nd). split; [reflexivity|]. destruct E as (nd' & E1 & E2). congruence.
    + rewrite (Hoth x N) in Hx. destruct (Ied x y w Hx E) as [A|[[A1 A2]|(es & X & _)]]; [auto| |discriminate]. right; left. split; [|exact A2].
      destruct (Nat.eq_dec y u) as [->|N2]; [congruence|]. now rewrite (Hoth y N2).
  - intros x y Hx Hy. assert (y <> u) as N by congruence. rewrite (Hoth y N) in Hy. destruct (Nat.eq_dec x u) as [->|N2]; [apply Hmin, Hy|]. rewrite (Hoth x N2) in Hx. apply Ior; auto.
  - intros u' es [= <- <-]. split; [exact Su1|]. split.
    + intros x Hx. destruct (Nat.eq_dec x u) as [->|N2]; [lia|]. rewrite (Hoth x N2) in Hx. apply Ior; auto.
    + intros e He'. exists nd. split; [exact Hn|]. destruct e; exact He'.
Qed.

(** Distances are lower bounds. *)
Inductive rwalk : nat -> Z -> Prop :=
| rw_one : rwalk s0 0
| rw_step a b w w' : rwalk a w -> edge_of ns a b w' -> rwalk b (w + w').
Lemma lower s k : inv s k None -> forall v w, rwalk v w -> (stat s v = Done /\ dist s v <= w) \/ exists y, stat s y = Fringe /\ dist s y <= w.
Proof.
  intros I v w H. induction H as [|a b w w' H IH E].
  - destruct I as [Ich Idone Iinit Ifr Imap Ind Iso Iun Ied Ior Icur]. destruct k as [|x k].
    + destruct (Iinit eq_refl) as (A & B & _). right. exists s0. split; [exact A|lia].
    + destruct Ich as [|Ich]; [discriminate|]. left. split; [apply Idone, (chain_source s), Ich|]. clear - Ich. remember (x :: k) as l. clear Heql. induction Ich; [lia|auto].
  - destruct (He _ _ _ E) as [_ Hw]. destruct IH as [[A B]|(y & A & B)]; [|right; exists y; split; [exact A|lia]].
    destruct (i_edges s k None I a b w' A E) as [->|[[C1 C2]|(es & X & _)]]; [left; split; [exact A|lia]| |discriminate].
    destruct (stat s b) eqn:Sb; [congruence|right; exists b; split; [exact Sb|lia]|left; split; [reflexivity|lia]].
Qed.

(** The loop. *)
Inductive outcome (s : dstate) (k : list nat) : Prop :=
| o_done : stat s t0 = Done -> outcome s k
| o_full : stat s t0 <> Done -> (n - 1 <= length k)%nat -> outcome s k.
Lemma dloop_ok fuel : forall s k, inv s k None -> (length k + fuel = n - 1)%nat ->
  (dloop g fuel s = None /\ ~ exists w, rwalk t0 w) \/ exists s' k', dloop g fuel s = Some s' /\ inv s' k' None /\ outcome s' k'.
Proof.
  induction fuel as [|fuel IH]; intros s k I L; cbn [dloop]; fold t0.
  - right. exists s, k. split; [destruct (stat s t0); reflexivity|]. split; [exact I|]. destruct (stat s t0) eqn:E; [right; [congruence|lia]|right; [congruence|lia]|now left].
  - destruct (stat s t0) eqn:E.
    3:{ right. exists s, k. split; [reflexivity|]. split; [exact I|now left]. }
    all: destruct (dmap s) as [|[d u] m] eqn:Em.
    1, 3: left; split; [reflexivity|]; intros [w Hw]; destruct (lower s k I t0 w Hw) as [[A _]|(y & A & _)]; [congruence|];
      assert (In (dist s y, y) (dmap s)) as X by (apply (i_map s k None I); auto); rewrite Em in X; destruct X.
    all: assert (stat s u = Fringe) as Su by (apply (proj1 (i_map s k None I d u)); rewrite Em; now left);
      destruct (i_fringe s k None I u Su) as [Hun _]; destruct (nth_error (nodes g) u) as [nd|] eqn:En; [|apply nth_error_None in En; unfold n, ns in Hun; lia];
      destruct (round_ok s k d u m nd I Em En) as (s' & Es & I'); rewrite Em in Es; cbn zeta; fold n; change (length (nodes g)) with n; rewrite Es;
      apply (IH s' (u :: k) I'); cbn [length]; lia.
Qed.

(** The path. *)
Definition init := D (upd (fun _ => 2147483647) s0 0) (fun _ => None) (upd (fun _ => Unseen) s0 Fringe) [(0, s0)].
Lemma init_inv : inv init [] None.
Proof.
  constructor; cbn; auto.
  - intros v. split; [|intros []]. unfold upd. destruct (v =? s0)%nat; discriminate.
  - intros _. rewrite !upd_same. repeat split. intros v N. now rewrite upd_other.
  - intros v H. destruct (Nat.eq_dec v s0) as [->|N]; [auto|]. rewrite upd_other in H by exact N. discriminate.
  - intros d v. destruct (Nat.eq_dec v s0) as [->|N].
    + rewrite !upd_same. split; [intros [[= <-]|[]]; auto|intros [_ ->]; now left].
    + rewrite !upd_other by exact N. split; [intros [[= _ ->]|[]]; contradiction|intros [X _]; discriminate].
  - repeat constructor. intros [].
  - repeat constructor.
  - intros u v w H. exfalso. revert H. unfold upd. destruct (u =? s0)%nat; discriminate.
  - intros u v H. exfalso. revert H. unfold upd. destruct (u =? s0)%nat; discriminate.
  - intros; discriminate.
Qed.
(** A walk from the source along the vertices [p], written with the last vertex first. *)
Inductive trail : list nat -> Z -> Prop :=
| tr_one : trail [s0] 0
| tr_step v u p w w' : trail (u :: p) w -> edge_of ns u v w' -> trail (v :: u :: p) (w + w').
Definition keep (j : nat) : bool := negb (Nat.eqb j s0 || Nat.eqb j t0).
Lemma print_chain s k : chain s k -> forall v fuel, In v k -> (length k <= fuel)%nat ->
  exists p, trail (v :: p) (dist s v) /\ NoDup (v :: p) /\ incl (v :: p) k /\ printPath g fuel (parent s) v = Some (rev (filter keep (v :: p))).
Proof.
  assert (forall v p, filter keep (v :: p) = (if keep v then [v] else []) ++ filter keep p) as Fc by (intros v p; cbn; destruct (keep v); reflexivity).
  assert (forall v, (if (v =? g_source g)%nat || (v =? g_dest g)%nat then [] else [v]) = rev (if keep v then [v] else [])) as Fr.
  { intros v. unfold keep. fold s0 t0. destruct ((v =? s0)%nat || (v =? t0)%nat); reflexivity. }
  induction 1 as [P Dz|x u l C IH Hx Hn Hp Hu (w & Hw & Hd)]; intros v fuel Hv Hf.
  - destruct Hv as [<-|[]]. destruct fuel as [|fuel]; [cbn in Hf; lia|]. exists []. rewrite Dz. split; [constructor|]. split; [repeat constructor; intros []|].
    split; [apply incl_refl|]. cbn [printPath]. rewrite P, Fc, Fr. now rewrite app_nil_r.
  - destruct Hv as [<-|Hv].
    + destruct fuel as [|fuel]; [cbn in Hf; lia|]. cbn in Hf. destruct (IH u fuel Hu) as (p & T & N & Inc & E); [lia|]. exists (u :: p).
      split; [rewrite Hd; now constructor|]. split; [constructor; [intros X; apply Hx, Inc, X|exact N]|].
      split; [intros y [<-|Hy]; [now left|right; now apply Inc]|]. cbn [printPath]. rewrite Hp, E, Fr, (Fc x), rev_app_distr. reflexivity.
    + destruct (IH v fuel Hv) as (p & T & N & Inc & E); [cbn in Hf; lia|]. exists p. split; [exact T|]. split; [exact N|]. split; [|exact E]. intros y Hy. right. now apply Inc.
Qed.
Lemma trail_rwalk p w : trail p w -> forall v q, p = v :: q -> rwalk v w.
Proof. induction 1 as [|v u p w w' H IH E]; intros x q [= <- <-]; [constructor|]. econstructor; [eapply IH; reflexivity|exact E]. Qed.

(** The result: a path without repetition of least weight, or none if there is no walk. *)
Theorem dijkstra_ok :
  ((dijkstra g = None \/ dijkstra g = Some []) /\ ~ exists w, rwalk t0 w) \/
  exists p w, trail (t0 :: p) w /\ NoDup (t0 :: p) /\ dijkstra g = Some (rev (filter keep (t0 :: p))) /\ forall w', rwalk t0 w' -> w <= w'.
Proof.
  unfold dijkstra. change (length (nodes g)) with n. fold s0 t0. change (D _ _ _ _) with init.
  destruct (dloop_ok (n - 1) init [] init_inv eq_refl) as [[-> H]|(s & k & -> & I & O)]; [left; auto|].
  pose proof (i_chain s k None I) as Ich.
  assert (k = [] \/ (length k <= n)%nat) as Lk.
  { destruct Ich as [|Ich]; [auto|]. right. pose proof (chain_nodup s k Ich) as ND. pose proof (NoDup_incl_length ND (l' := seq 0 n)) as Q. rewrite seq_length in Q. apply Q.
    intros v Hv. apply in_seq. pose proof (chain_in s k v Ich Hv). lia. }
  destruct O as [Sd|Sd L].
  - right. pose proof (proj1 (i_done s k None I t0) Sd) as Hin. destruct Ich as [->|Ich]; [destruct Hin|].
    destruct (print_chain s k Ich t0 (S n) Hin) as (p & T & N & _ & E); [destruct Lk; [subst; cbn|]; lia|]. exists p, (dist s t0). split; [exact T|]. split; [exact N|]. split; [exact E|].
    intros w' W. destruct (lower s k I t0 w' W) as [[_ X]|(y & Y1 & Y2)]; [exact X|]. pose proof (i_order s k None I t0 y Sd Y1). lia.
  - assert (k <> []) as Kn by (intros ->; cbn in L; lia). destruct Ich as [->|Ich]; [contradiction|].
    assert (forall y, (y < n)%nat -> y <> t0 -> stat s y = Done) as All.
    { intros y Hy Ny. apply (i_done s k None I). destruct (in_dec Nat.eq_dec y k) as [|X]; [assumption|]. exfalso.
      assert (~ In t0 k) as Td by (intros Z; apply (i_done s k None I) in Z; contradiction).
      assert (NoDup (y :: t0 :: k)) as ND by (constructor; [intros [Z|Z]; [congruence|contradiction]|constructor; [exact Td|eapply chain_nodup, Ich]]).
      pose proof (NoDup_incl_length ND (l' := seq 0 n)) as Q. rewrite seq_length in Q. cbn in Q. assert (S (S (length k)) <= n)%nat; [|lia]. apply Q.
      intros v [<-|[<-|Hv]]; apply in_seq; [lia|lia|]. pose proof (chain_in s k v Ich Hv). lia. }
    assert (forall y, stat s y = Fringe -> y = t0) as Only.
    { intros y Hy. destruct (Nat.eq_dec y t0) as [|N]; [assumption|]. destruct (i_fringe s k None I y Hy) as [Hyn _]. rewrite (All y Hyn N) in Hy. discriminate. }
    destruct (stat s t0) eqn:St; [| |contradiction].
    + left. split.
      * right. cbn [printPath]. rewrite (i_unseen s k None I t0 St). fold s0 t0. rewrite Nat.eqb_refl, orb_true_r. reflexivity.
      * intros [w W]. destruct (lower s k I t0 w W) as [[X _]|(y & Y1 & _)]; [congruence|]. rewrite (Only y Y1) in Y1. congruence.
    + right. destruct (i_fringe s k None I t0 St) as [_ [X|(u & U1 & U2 & w & U3 & U4)]]; [contradiction|].
      destruct (print_chain s k Ich u n U2) as (p & T & N & Inc & E); [destruct Lk; [subst; cbn|]; lia|]. exists (u :: p), (dist s t0).
      split; [rewrite U4; now constructor|]. split. { constructor; [|exact N]. intros X. apply Inc, (i_done s k None I) in X. congruence. }
      split.
      * cbn [printPath]. rewrite U1, E. fold s0 t0. rewrite Nat.eqb_refl, orb_true_r, app_nil_r. f_equal. f_equal. cbn [filter]. replace (keep t0) with false by (unfold keep; rewrite Nat.eqb_refl, orb_true_r; reflexivity). reflexivity.
      * intros w' W. destruct (lower s k I t0 w' W) as [[X _]|(y & Y1 & Y2)]; [congruence|]. rewrite (Only y Y1) in Y2. exact Y2.
Qed.
End Dijkstra.
