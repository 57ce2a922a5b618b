(** The search ends, and with a chain from a source to a destination if it finds one. *)
From Coq Require Import ZArith QArith Lqa ZifyBool.
From Verif Require Import Base.Prelude Model.AStar Spec.AStarSpec Proofs.AStarP.
Local Open Scope Z_scope.

Section Run.
Variable j : job.
Hypothesis W : wf j.
Hypothesis HV : has_vias j.
Notation N := (size j).
Notation src := (source j).
Notation chain := (chain j).
Notation can_go := (can_go j).

Definition better (s : state) (u v : nat) : Prop := exists cv inc tc, cost s v = Some cv /\ costs j s u v = Some (inc, tc) /\ (cv <= tc)%Q.
Record inv (s : state) (l : list (Q * nat)) (closed E : list nat) (B : nat -> nat -> Prop) : Prop := {
  i_chain : forall v, cost s v <> None -> exists r, chain (parent s) (v :: r) /\ incl r closed;
  i_closed : forall v, In v closed -> cost s v <> None;
  i_open : forall v, In v (map snd l) -> cost s v <> None;
  i_exp : incl E closed;
  i_not : forall u, In u E -> ~ In u (dest j);
  i_better : forall u v, B u v -> In u E -> forall r, chain (parent s) (u :: r) -> In v (near j u) -> can_go (u :: r) v = true -> ~ In v closed -> better s u v;
  i_done : forall v, cost s v <> None -> In v E \/ In v (map snd l);
  i_src : incl src closed }.
Lemma costs_some s u v : (u < N)%nat -> (v < N)%nat -> exists inc tc, costs j s u v = Some (inc, tc).
Proof.
  intros Hu Hv. unfold costs. destruct (via_R (t j) (Z.min (metal (at_ j v)) (metal (at_ j u)))) eqn:E; [eauto|]. exfalso.
  destruct (Z.min_spec (metal (at_ j v)) (metal (at_ j u))) as [[_ H]|[_ H]]; rewrite H in E; [apply (HV v Hv E)|apply (HV u Hu E)].
Qed.
Lemma relax_ok s l closed E B u r v : inv s l closed E B -> chain (parent s) (u :: r) -> In u E -> incl (u :: r) closed -> In v (near j u) -> can_go (u :: r) v = true -> ~ In v closed ->
  exists s' l', relax j u (s, l) v = Some (s', l') /\ inv s' l' closed E (fun a b => B a b \/ a = u /\ b = v) /\ (length l' <= S (length l))%nat /\ chain (parent s') (u :: r).
Proof.
  intros I C Hu Hr Hn Hg Hv. pose proof (chain_lt j W _ _ C) as Blt. assert (u < N)%nat as Lu by (apply Blt; now left). pose proof (near_lt j W u v Lu Hn) as Lv.
  destruct (costs_some s u v Lu Lv) as (inc & c & Ec). unfold relax. rewrite Ec. destruct (lower c (cost s v)) eqn:Lo.
  - eexists _, _. split; [reflexivity|].
    set (key := ((c + (2 # 10) * inject_Z (sym_cost j v))%Q, v)).
    assert (forall q, incl q closed -> forall w, In w q -> upd (parent s) v (Some u) w = parent s w) as Same.
    { intros q Hq w Hw. apply upd_other. intros ->. apply Hv. now apply Hq. }
    assert (chain (upd (parent s) v (Some u)) (u :: r)) as C' by (apply (chain_same j (parent s)); [exact C|now apply Same]).
    assert (forall w q, w <> v -> chain (parent s) (w :: q) -> incl q closed -> chain (upd (parent s) v (Some u)) (w :: q)) as Keep.
    { intros w q Hw Cw Hq. apply (chain_same j (parent s)); [exact Cw|]. intros x [<-|Hx]; [now apply upd_other|now apply (Same q)]. }
    split; [|split; [|exact C']].
    + destruct I as [I1 I2 I3 I4 I5 I6 I7 I8]. constructor; cbn [cost c2s parent tback].
      * intros w Hw. destruct (Nat.eq_dec w v) as [->|Hne].
        { exists (u :: r). split; [|exact Hr]. apply c_step; [exact C'|apply upd_same|intros H; apply Hv; now apply I8|intros H; apply Hv; now apply Hr|now apply I5|exact Hn|exact Hg]. }
        { rewrite upd_other in Hw by exact Hne. destruct (I1 w Hw) as (q & Cw & Hq). exists q. auto. }
      * intros w Hw. destruct (Nat.eq_dec w v) as [->|Hne]; [rewrite upd_same; discriminate|]. rewrite upd_other by exact Hne. auto.
      * intros w Hw. destruct (Nat.eq_dec w v) as [->|Hne]; [rewrite upd_same; discriminate|]. rewrite upd_other by exact Hne. apply I3. apply insert_snd in Hw. destruct Hw as [Hw|Hw]; [cbn in Hw; congruence|].
        apply in_map_iff in Hw. destruct Hw as (q & <- & Hq). unfold erase in Hq. apply filter_In in Hq. apply in_map. tauto.
      * exact I4.
      * exact I5.
      * intros a b HB Ha q Cq Hb Hgo Hnb. assert (a <> v) as Hav by (intros ->; apply Hv; now apply I4).
        assert (chain (parent s) (a :: q)) as Cs.
        { destruct (I1 a (I2 a (I4 a Ha))) as (q0 & C0 & H0). pose proof (chain_det j _ _ _ a q q0 Cq (Keep a q0 Hav C0 H0) eq_refl eq_refl) as Eq. injection Eq as ->. exact C0. }
        assert (forall x y, costs j (St (upd (cost s) v (Some c)) (upd (c2s s) v (c2s s u + inc)%Q) (upd (parent s) v (Some u)) (tback s)) x y = if (x =? v)%nat then costs j (St (upd (cost s) v (Some c)) (upd (c2s s) v (c2s s u + inc)%Q) (upd (parent s) v (Some u)) (tback s)) x y else costs j s x y) as Cst.
        { intros x y. destruct (x =? v)%nat eqn:Ex; [reflexivity|]. unfold costs. cbn [c2s]. apply Nat.eqb_neq in Ex. rewrite upd_other by exact Ex. reflexivity. }
        unfold better. cbn [cost]. rewrite Cst. apply Nat.eqb_neq in Hav. rewrite Hav.
        destruct HB as [HB|[-> ->]].
        { destruct (I6 a b HB Ha q Cs Hb Hgo Hnb) as (cb & i' & tc & E1 & E2 & E3). destruct (Nat.eq_dec b v) as [->|Hne].
          - rewrite upd_same. exists c, i', tc. split; [reflexivity|]. split; [exact E2|]. rewrite E1 in Lo. cbn in Lo. destruct (Qlt_le_dec c cb) as [Hl|Hl]; [lra|]. apply Qle_bool_iff in Hl. rewrite Hl in Lo. discriminate.
          - rewrite upd_other by exact Hne. eauto 10. }
        { rewrite upd_same. exists c, inc, c. split; [reflexivity|]. split; [exact Ec|lra]. }
      * intros w Hw. destruct (Nat.eq_dec w v) as [->|Hne]; [right; apply insert_snd; now left|]. rewrite upd_other in Hw by exact Hne. destruct (I7 w Hw) as [H|H]; [now left|right]. apply insert_snd. right.
        destruct (erase_snd key l w H) as [H'|H']; [cbn in H'; congruence|exact H'].
      * exact I8.
    + eapply Nat.le_trans; [apply insert_len|]. apply le_n_S, erase_len.
  - exists s, l. split; [reflexivity|]. split; [|split; [lia|exact C]]. destruct I as [I1 I2 I3 I4 I5 I6 I7 I8]. constructor; auto.
    intros a b [HB|[-> ->]] Ha q Cq Hb Hgo Hnb; [eauto|]. unfold lower in Lo. destruct (cost s v) as [cv|] eqn:Ev; [|discriminate]. exists cv, inc, c. split; [exact Ev|]. split; [exact Ec|]. apply Qle_bool_iff. now destruct (Qle_bool cv c).
Qed.
Lemma inv_weaken s l closed E (B B' : nat -> nat -> Prop) : (forall a b, B' a b -> B a b) -> inv s l closed E B -> inv s l closed E B'.
Proof. intros H [I1 I2 I3 I4 I5 I6 I7 I8]. constructor; auto. intros a b HB. apply I6. auto. Qed.
Lemma relax_all_ok u r vs : forall s l closed E B, inv s l closed E B -> chain (parent s) (u :: r) -> In u E -> incl (u :: r) closed ->
  (forall v, In v vs -> In v (near j u) /\ can_go (u :: r) v = true /\ ~ In v closed) ->
  exists s' l', relax_all j u (s, l) vs = Some (s', l') /\ inv s' l' closed E (fun a b => B a b \/ a = u /\ In b vs) /\ (length l' <= length vs + length l)%nat /\ chain (parent s') (u :: r).
Proof.
  induction vs as [|v vs IH]; intros s l closed E B I C Hu Hr Hvs.
  - exists s, l. split; [reflexivity|]. split; [|split; [cbn; lia|exact C]]. apply (inv_weaken s l closed E B); [|exact I]. intros a b [H|[_ []]]. exact H.
  - destruct (Hvs v (or_introl eq_refl)) as (H1 & H2 & H3). destruct (relax_ok s l closed E B u r v I C Hu Hr H1 H2 H3) as (s1 & l1 & E1 & I1 & L1 & C1).
    cbn [relax_all]. rewrite E1. destruct (IH s1 l1 closed E _ I1 C1 Hu Hr) as (s2 & l2 & E2 & I2 & L2 & C2); [intros; apply Hvs; now right|].
    exists s2, l2. split; [exact E2|]. split; [|split; [cbn; lia|exact C2]]. eapply inv_weaken; [|exact I2]. intros a b [H|[-> [<-|H]]]; auto.
Qed.
Lemma relax_all_same u vs : forall s l, (forall v, In v vs -> better s u v) -> relax_all j u (s, l) vs = Some (s, l).
Proof.
  induction vs as [|v vs IH]; intros s l H; [reflexivity|]. cbn [relax_all]. unfold relax. destruct (H v (or_introl eq_refl)) as (cv & inc & tc & E1 & E2 & E3). rewrite E2, E1. cbn [lower].
  apply Qle_bool_iff in E3. rewrite E3. cbn [negb]. apply IH. intros; apply H. now right.
Qed.

Definition cands (closed : list nat) (u : nat) (r : list nat) : list nat := filter (can_go (u :: r)) (filter (fun v => negb (mem v closed)) (near j u)).
Lemma cands_in closed u r v : In v (cands closed u r) <-> In v (near j u) /\ can_go (u :: r) v = true /\ ~ In v closed.
Proof. unfold cands. rewrite !filter_In, negb_true_iff, mem_not. tauto. Qed.
Lemma cands_len closed u r : (length (cands closed u r) <= length (near j u))%nat.
Proof. unfold cands. assert (forall (f : nat -> bool) l, (length (filter f l) <= length l)%nat) as F. { intros f l. induction l as [|x l IH]; cbn; [lia|]. destruct (f x); cbn; lia. } eapply Nat.le_trans; apply F. Qed.
Lemma expand_eq s closed u r l : chain (parent s) (u :: r) -> expand j u closed s l = relax_all j u (s, l) (cands closed u r).
Proof. intros C. unfold expand. rewrite (accepted_ok j W (parent s) u r); [reflexivity|exact C|]. intros v Hv. apply filter_In in Hv. tauto. Qed.
Notation all := (fun _ _ => True).
(** A node that is expanded for the first time. *)
Lemma expand_new s k u l closed E : inv s ((k, u) :: l) closed E all -> ~ In u (dest j) -> exists s' l', expand j u (u :: closed) s l = Some (s', l') /\ inv s' l' (u :: closed) (u :: E) all /\ (length l' <= length (near j u) + length l)%nat.
Proof.
  intros I Hd. destruct (i_chain _ _ _ _ _ I u (i_open _ _ _ _ _ I u (or_introl eq_refl))) as (r & C & Hr).
  assert (inv s l (u :: closed) (u :: E) (fun a b => In a E)) as I0.
  { pose proof I as [I1 I2 I3 I4 I5 I6 I7 I8]. constructor.
    - intros v Hv. destruct (I1 v Hv) as (q & Cq & Hq). exists q. split; [exact Cq|]. intros x Hx. right. auto.
    - intros v [<-|Hv]; [apply I3; now left|auto].
    - intros v Hv. apply I3. now right.
    - intros x [<-|Hx]; [now left|right; auto].
    - intros x [<-|Hx]; auto.
    - intros a b Ha _ q Cq Hb Hgo Hnb. apply (I6 a b Logic.I Ha q Cq Hb Hgo). intros H. apply Hnb. now right.
    - intros v Hv. destruct (I7 v Hv) as [H|[<-|H]]; [left; now right|left; now left|now right].
    - intros x Hx. right. auto. }
  rewrite (expand_eq s (u :: closed) u r l C).
  destruct (relax_all_ok u r (cands (u :: closed) u r) s l (u :: closed) (u :: E) _ I0 C (or_introl eq_refl)) as (s' & l' & E1 & I1 & L1 & C1).
  - intros x [<-|Hx]; [now left|right; auto].
  - intros v Hv. now apply cands_in.
  - exists s', l'. split; [exact E1|]. split; [|pose proof (cands_len (u :: closed) u r); lia].
    destruct I1 as [J1 J2 J3 J4 J5 J6 J7 J8]. constructor; auto. intros a b _ Ha q Cq Hb Hgo Hnb.
    destruct Ha as [<-|Ha]; [|apply (J6 a b) with (r := q); auto; now right].
    apply (J6 u b) with (r := q); auto; [|now left]. right. split; [reflexivity|]. apply cands_in. split; [exact Hb|]. split; [|exact Hnb].
    pose proof (chain_det j _ _ _ u q r Cq C1 eq_refl eq_refl) as Eq. injection Eq as ->. exact Hgo.
Qed.
(** A node that is popped again. *)
Lemma expand_old s k u l closed E : inv s ((k, u) :: l) closed E all -> In u E -> expand j u (u :: closed) s l = Some (s, l) /\ inv s l (u :: closed) E all.
Proof.
  intros I Hu. destruct (i_chain _ _ _ _ _ I u (i_open _ _ _ _ _ I u (or_introl eq_refl))) as (r & C & Hr). pose proof I as [I1 I2 I3 I4 I5 I6 I7 I8]. split.
  - rewrite (expand_eq s (u :: closed) u r l C). apply relax_all_same. intros v Hv. apply cands_in in Hv. destruct Hv as (H1 & H2 & H3). apply (I6 u v Logic.I Hu r C H1 H2). intros H. apply H3. now right.
  - constructor.
    + intros v Hv. destruct (I1 v Hv) as (q & Cq & Hq). exists q. split; [exact Cq|]. intros x Hx. right. auto.
    + intros v [<-|Hv]; [apply I3; now left|auto].
    + intros v Hv. apply I3. now right.
    + intros x Hx. right. auto.
    + exact I5.
    + intros a b _ Ha q Cq Hb Hgo Hnb. apply (I6 a b Logic.I Ha q Cq Hb Hgo). intros H. apply Hnb. now right.
    + intros v Hv. destruct (I7 v Hv) as [H|[<-|H]]; auto.
    + intros x Hx. right. auto.
Qed.

(** *** From the chain to the path. *)
Lemma chain_sources par l : chain par l -> forall a w b, l = a ++ w :: b -> (In w src <-> b = []).
Proof.
  induction 1 as [u H1 H2|v u r C IH H1 H2 H3 H4 H5 H6]; intros a w b E.
  - destruct a as [|x [|y a]]; try discriminate. injection E as <- <-. tauto.
  - destruct a as [|x a].
    + injection E as <- <-. split; [tauto|discriminate].
    + injection E as <- E. eauto.
Qed.
Lemma trace_ok par tb l : chain par l -> linked tb l -> forall f u r, l = u :: r -> (length r <= f)%nat -> trace f tb src u = Some l.
Proof.
  induction 1 as [u H1 H2|v u r C IH H1 H2 H3 H4 H5 H6]; intros L f w q E Hf.
  - injection E as <- <-. destruct f; cbn [trace]; (apply mem_spec in H1; now rewrite H1).
  - injection E as <- <-. cbn [linked] in L. destruct L as [L1 L2]. destruct f as [|f]; [cbn in Hf; lia|]. cbn [trace]. apply mem_not in H2. rewrite H2, L1. rewrite (IH L2 f u r eq_refl); [reflexivity|cbn in Hf; lia].
Qed.
Fixpoint doubled (l : list nat) : list nat := match l with u :: r => match r with [] => [] | v :: _ => u :: v :: doubled r end | [] => [] end.
Lemma doubled_eq u v r : doubled (u :: v :: r) = u :: v :: doubled (v :: r).
Proof. reflexivity. Qed.
Lemma compact_doubled r : forall u v, NoDup (u :: v :: r) -> compact (doubled (u :: v :: r)) = u :: v :: r.
Proof.
  induction r as [|w r IH]; intros u v Nd.
  - cbn [doubled compact]. inversion_clear Nd as [|? ? H _]. replace (u =? v)%nat with false; [reflexivity|]. symmetry. apply Nat.eqb_neq. intros ->. apply H. now left.
  - inversion Nd as [|? ? H Nd']; subst. specialize (IH v w Nd').
    assert ((u =? v)%nat = false) as Huv. { apply Nat.eqb_neq. intros ->. apply H. now left. }
    assert (forall x, compact (u :: v :: v :: x) = u :: compact (v :: x)) as K. { intros x. cbn. now rewrite Huv, Nat.eqb_refl. }
    assert (doubled (u :: v :: w :: r) = u :: v :: doubled (v :: w :: r)) as E1 by reflexivity.
    assert (doubled (v :: w :: r) = v :: w :: doubled (w :: r)) as E2 by reflexivity.
    rewrite E1. rewrite E2 in *. rewrite K. now rewrite IH.
Qed.
Lemma rm_cycle_ok d l : compact d = l -> NoDup l -> rm_cycle d = l.
Proof.
  intros E Nd. unfold rm_cycle. rewrite E. assert (repeated l = []) as R.
  { unfold repeated. assert (forall q, (forall w, In w q -> In w l) -> filter (fun w => (1 <? count_occ Nat.eq_dec l w)%nat) q = []) as H; [|now apply H].
    induction q as [|w q IH]; intros Hq; [reflexivity|]. cbn [filter]. pose proof (proj1 (NoDup_count_occ Nat.eq_dec l) Nd w) as H1. replace (1 <? count_occ Nat.eq_dec l w)%nat with false by lia. apply IH. intros; apply Hq. now right. }
  assert (forall i, flagged l i = false) as Fl by (intros i; unfold flagged; now rewrite R).
  assert (forall (q : list nat) n, map snd (filter (fun ia => negb (flagged l (fst ia))) (combine (seq n (length q)) q)) = q) as H.
  { induction q as [|x q IH]; intros n; [reflexivity|]. cbn [length seq combine filter fst]. rewrite Fl. cbn [negb map snd]. now rewrite IH. }
  apply H.
Qed.
Lemma label_from_other l : forall p tb w, ~ In w l -> label_from p l tb w = tb w.
Proof. induction l as [|v l IH]; intros p tb w H; [reflexivity|]. cbn [label_from]. rewrite IH by (intros ?; apply H; now right). apply upd_other. intros ->. apply H. now left. Qed.
Lemma label_from_linked l : forall p r tb, NoDup (rev l ++ p :: r) -> linked tb (p :: r) -> linked (label_from p l tb) (rev l ++ p :: r).
Proof.
  induction l as [|v l IH]; intros p r tb Nd L; [exact L|]. cbn [label_from rev]. rewrite <- app_assoc in *. cbn [rev app] in *. rewrite <- app_assoc in Nd. cbn [app] in Nd. apply IH; [exact Nd|].
  apply NoDup_remove in Nd. assert (~ In v (p :: r)) as Hv. { destruct Nd as [_ Nd]. intros H. apply Nd. apply in_or_app. now right. }
  change (upd tb v (Some p) v = Some p /\ linked (upd tb v (Some p)) (p :: r)). split; [apply upd_same|].
  assert (forall q, ~ In v q -> linked tb q -> linked (upd tb v (Some p)) q) as K.
  { induction q as [|a q IHq]; intros Hq Hl; [exact Hl|]. cbn [linked] in *. destruct q as [|b q].
    - rewrite upd_other; [exact Hl|]. intros ->. apply Hq. now left.
    - destruct Hl as [H1 H2]. split; [rewrite upd_other; [exact H1|]; intros ->; apply Hq; now left|]. apply IHq; [|exact H2]. intros H. apply Hq. now right. }
  now apply K.
Qed.
Lemma label_linked l tb : l <> [] -> NoDup l -> linked (label l tb) (rev l).
Proof.
  destruct l as [|u l]; [congruence|]. intros _ Nd. cbn [label rev]. apply label_from_linked.
  - apply (Permutation_NoDup (l := u :: l)); [|exact Nd]. change (rev l ++ [u]) with (rev (u :: l)). apply Permutation_rev.
  - cbn. apply upd_same.
Qed.
Lemma doubled_snoc r : forall u v, doubled (r ++ [u; v]) = doubled (r ++ [u]) ++ [u; v].
Proof. induction r as [|a r IH]; intros u v; [reflexivity|]. destruct r as [|b r]; [reflexivity|]. cbn [app] in *. rewrite !doubled_eq, IH. reflexivity. Qed.
Lemma strands_eq par u v r : strands j par (u :: v :: r) =
      if negb (metal (at_ j u) =? metal (at_ j v)) && match prime j par src u v with Some true => false | _ => true end then None else
      match strands j par (v :: r) with None => None | Some l => Some (match l_shape j u v with Some w => w | None => [] end ++ l) end.
Proof. reflexivity. Qed.
Lemma strands_snoc par r : forall u v d, strands j par (r ++ [u]) = Some d ->
  parallel j par src u v = Some (Some [u; v]) -> l_shape j u v = Some [u; v] -> strands j par (r ++ [u; v]) = Some (d ++ [u; v]).
Proof.
  induction r as [|a r IH]; intros u v d E P L.
  - injection E as <-. cbn [app strands]. rewrite L. unfold parallel in P. destruct (metal (at_ j u) =? metal (at_ j v)); cbn [negb andb]; [reflexivity|]. destruct (prime j par src u v) as [[|]|]; try discriminate. reflexivity.
  - assert (exists c q q', r ++ [u] = c :: q /\ r ++ [u; v] = c :: q') as (c & q & q' & E1 & E2) by (destruct r; cbn; eauto).
    cbn [app] in *. specialize (IH u v). rewrite E1 in *. rewrite E2 in *. rewrite strands_eq in *.
    destruct (_ && _); [discriminate|]. destruct (strands j par (c :: q)) as [d'|] eqn:Ed; [|discriminate]. injection E as <-. rewrite (IH d' eq_refl P L). f_equal. now rewrite <- app_assoc.
Qed.
Lemma strands_ok par l : chain par l -> strands j par (rev l) = Some (doubled (rev l)).
Proof.
  induction 1 as [u H1 H2|v u r C IH H1 H2 H3 H4 H5 H6]; [reflexivity|]. cbn [rev] in *. rewrite <- app_assoc. cbn [app]. rewrite doubled_snoc.
  pose proof (parallel_ok j W par u r v C H5) as P. rewrite H6 in P. apply strands_snoc; [exact IH|exact P|]. rewrite (l_shape_ok j W u v); [|apply (chain_lt j W par _ C); now left|exact H5].
  unfold AStarP.can_go in H6. cbn [hd] in H6. apply andb_prop in H6. destruct H6 as [H6 _]. now rewrite H6.
Qed.
Lemma checks_ok par tb l : chain par l -> linked tb l -> forall w, In w l -> Extention_check j tb src w = Some true.
Proof.
  induction 1 as [u H1 H2|v u r C IH H1 H2 H3 H4 H5 H6]; intros L w Hw.
  - destruct Hw as [<-|[]]. cbn in L. unfold Extention_check. now rewrite L.
  - destruct Hw as [<-|Hw]; [|apply IH; [apply L|exact Hw]].
    assert (chain par (v :: u :: r)) as C' by (now constructor).
    apply (check_ok j tb v u r L (chain_nodup j _ _ C') (chain_lt j W _ _ C')). unfold AStarP.can_go in H6. cbn [hd] in H6. apply andb_prop in H6. destruct H6 as [_ H6]. apply orb_prop in H6. destruct H6 as [H6|H6]; [left; lia|now right].
Qed.
Lemma pre_trace_ok s u r : chain (parent s) (u :: r) -> In u (dest j) -> exists s', pre_trace j s u = Some (s', true) /\ trace (length (g j)) (tback s') src u = Some (u :: r).
Proof.
  intros C Hd. pose proof (chain_nodup j _ _ C) as Nd. pose proof (fit j _ Nd (chain_lt j W _ _ C)) as F. unfold size in F. cbn [length] in F.
  unfold pre_trace. rewrite (trace_ok _ (parent s) _ C (chain_linked j _ _ C) (length (g j)) u r eq_refl) by lia.
  destruct (mem u src) eqn:Hs.
  - exists s. split; [reflexivity|]. apply mem_spec in Hs. pose proof (chain_sources _ _ C [] u r eq_refl) as E. apply E in Hs. subst r. destruct (length (g j)); cbn [trace]; (destruct (mem u src) eqn:Hs'; [reflexivity|]); apply mem_not in Hs'; tauto.
  - rewrite (strands_ok _ _ C). 
    assert (exists a b q, rev (u :: r) = a :: b :: q) as (a & b & q & Eq).
    { destruct (rev (u :: r)) as [|a [|b q]] eqn:Er; [| |eauto].
      - apply (f_equal (@length nat)) in Er. rewrite rev_length in Er. discriminate.
      - apply (f_equal (@length nat)) in Er. rewrite rev_length in Er. cbn in Er. destruct r; [|discriminate]. apply mem_not in Hs. pose proof (chain_sources _ _ C [] u [] eq_refl) as E. tauto. }
    assert (NoDup (rev (u :: r))) as Nr by (apply (Permutation_NoDup (Permutation_rev (u :: r)) Nd)).
    rewrite Eq in *. assert (rm_cycle (doubled (a :: b :: q)) = a :: b :: q) as Rm by (apply rm_cycle_ok; [now apply compact_doubled|exact Nr]).
    assert (linked (label (a :: b :: q) (tback s)) (u :: r)) as Ll. { rewrite <- (rev_involutive (u :: r)), Eq. apply label_linked; [discriminate|exact Nr]. }
    assert (checks j (label (a :: b :: q) (tback s)) (a :: b :: q) = Some true) as Ck.
    { assert (forall l', (forall w, In w l' -> In w (u :: r)) -> checks j (label (a :: b :: q) (tback s)) l' = Some true) as K.
      { induction l' as [|w l' IH]; intros H; [reflexivity|]. cbn [checks]. rewrite (checks_ok _ _ _ C Ll w) by (apply H; now left). apply IH. intros; apply H. now right. }
      apply K. intros w Hw. rewrite <- Eq in Hw. now apply in_rev in Hw. }
    eexists. destruct (doubled (a :: b :: q)) eqn:Ed; [discriminate|]. rewrite Rm, Ck. split; [reflexivity|]. cbn [tback]. apply (trace_ok _ _ _ C Ll (length (g j)) u r eq_refl). lia.
Qed.

(** *** The loop. *)
Definition wt (E : list nat) (u : nat) : nat := if mem u E then O else S (length (near j u)).
Definition weight (E : list nat) : nat := list_sum (map (wt E) (seq 0 N)).
Lemma weight_less u E : (u < N)%nat -> ~ In u E -> (weight (u :: E) + S (length (near j u)) <= weight E)%nat.
Proof.
  intros Hu Hn. unfold weight.
  assert (forall w, (wt (u :: E) w + (if (u =? w)%nat then S (length (near j u)) else 0) <= wt E w)%nat) as H0.
  { intros w. unfold wt. destruct (u =? w)%nat eqn:Ew.
    - apply Nat.eqb_eq in Ew. subst w. apply mem_not in Hn. rewrite Hn. cbn [mem existsb]. rewrite Nat.eqb_refl. cbn. lia.
    - destruct (mem w E) eqn:M; [|destruct (mem w (u :: E)); lia]. replace (mem w (u :: E)) with true; [lia|]. symmetry. apply mem_spec. right. now apply mem_spec. }
  assert (forall q, (list_sum (map (wt (u :: E)) q) + (if mem u q then S (length (near j u)) else 0) <= list_sum (map (wt E) q))%nat) as H.
  { induction q as [|w q IH]; [cbn; lia|]. specialize (H0 w). change (mem u (w :: q)) with ((u =? w)%nat || mem u q). unfold list_sum in *. cbn [map fold_right]. destruct (u =? w)%nat, (mem u q); cbn [orb]; lia. }
  specialize (H (seq 0 N)). destruct (mem u (seq 0 N)) eqn:M; [exact H|]. apply mem_not in M. exfalso. apply M. apply in_seq. lia.
Qed.
Definition ends (o : outcome) : Prop :=
  (exists s par u r, o = Found s u /\ chain par (u :: r) /\ In u (dest j) /\ trace (length (g j)) (tback s) src u = Some (u :: r)) \/
  (exists s closed E, o = Fails s /\ inv s [] closed E all).
Theorem search_ok f : forall s l closed E, inv s l closed E all -> (weight E + length l < f)%nat -> ends (search f j closed s l).
Proof.
  induction f as [|f IH]; intros s l closed E I Hf; [lia|]. cbn [search]. destruct l as [|[k u] l]; [right; eauto|].
  destruct (i_chain _ _ _ _ _ I u (i_open _ _ _ _ _ I u (or_introl eq_refl))) as (r & C & Hr).
  destruct (mem u (dest j)) eqn:Hd.
  - apply mem_spec in Hd. destruct (pre_trace_ok s u r C Hd) as (s' & E1 & E2). rewrite E1. left. exists s', (parent s), u, r. auto.
  - apply mem_not in Hd. destruct (in_dec Nat.eq_dec u E) as [Hu|Hu].
    + destruct (expand_old s k u l closed E I Hu) as [E1 I1]. rewrite E1. apply (IH s l (u :: closed) E I1). cbn in Hf. lia.
    + destruct (expand_new s k u l closed E I Hd) as (s' & l' & E1 & I1 & L1). rewrite E1. apply (IH s' l' (u :: closed) (u :: E) I1).
      pose proof (weight_less u E (chain_lt j W _ _ C u (or_introl eq_refl)) Hu). cbn in Hf. lia.
Qed.
Lemma initial_ok s : clean s -> let '(s1, l) := initial_source j s in inv s1 l src [] all /\ (length l <= length src)%nat.
Proof.
  intros Cl. unfold initial_source.
  assert (forall q s0 l0, (forall w, parent s0 w = None) -> (forall w, cost s0 w <> None <-> In w (map snd l0)) ->
    let '(s1, l) := fold_left (fun sl u => (St (upd (cost (fst sl)) u (Some 0%Q)) (upd (c2s (fst sl)) u 0%Q) (parent (fst sl)) (tback (fst sl)),
      insert (0 + inject_Z (to_dest j u) * unit_R (t j) (metal (at_ j u)) + off_center j u, u)%Q (snd sl))) q (s0, l0) in
    (forall w, parent s1 w = None) /\ (forall w, cost s1 w <> None <-> In w (map snd l)) /\ (forall w, In w (map snd l) <-> In w q \/ In w (map snd l0)) /\ (length l <= length q + length l0)%nat) as H.
  { induction q as [|u q IH]; intros s0 l0 Hp Hc; [cbn [fold_left]; split; [exact Hp|]; split; [exact Hc|]; split; [intros w; cbn; tauto|cbn; lia]|]. cbn [fold_left fst snd].
    specialize (IH (St (upd (cost s0) u (Some 0%Q)) (upd (c2s s0) u 0%Q) (parent s0) (tback s0)) (insert (0 + inject_Z (to_dest j u) * unit_R (t j) (metal (at_ j u)) + off_center j u, u)%Q l0)).
    destruct (fold_left _ q _) as [s1 l1]. destruct IH as (J1 & J2 & J3 & J4).
    - exact Hp.
    - intros w. cbn [cost]. rewrite insert_snd. cbn [snd]. destruct (Nat.eq_dec w u) as [->|Hne]; [rewrite upd_same; split; [auto|discriminate]|]. rewrite upd_other by exact Hne. rewrite Hc. tauto.
    - split; [exact J1|]. split; [exact J2|]. split; [|pose proof (insert_len (0 + inject_Z (to_dest j u) * unit_R (t j) (metal (at_ j u)) + off_center j u, u)%Q l0); cbn [length]; lia].
      intros w. rewrite J3, insert_snd. cbn. intuition. }
  specialize (H src s []). destruct (fold_left _ src (s, [])) as [s1 l]. destruct H as (J1 & J2 & J3 & J4); [intros; apply Cl|intros w; cbn; destruct (Cl w) as [-> _]; intuition|].
  assert (forall w, cost s1 w <> None <-> In w src) as K by (intros w; rewrite J2, J3; cbn; tauto). split; [|cbn in J4; lia]. constructor.
  - intros v Hv. exists []. split; [constructor; [now apply K|apply J1]|intros x []].
  - intros v Hv. now apply K.
  - intros v Hv. now apply J2.
  - intros x [].
  - intros x [].
  - intros a b _ [].
  - intros v Hv. right. now apply J2.
  - intros x Hx; exact Hx.
Qed.
Definition fuel : nat := S (weight [] + length src).
Theorem run_ok f s : clean s -> (fuel <= f)%nat -> let '(s1, l) := initial_source j s in ends (search f j src s1 l).
Proof. intros Cl Hf. pose proof (initial_ok s Cl) as H. destruct (initial_source j s) as [s1 l]. destruct H as [I L]. apply (search_ok f s1 l src [] I). unfold fuel in Hf. lia. Qed.
End Run.
