(** C103: the common-centroid placement of unit capacitors. *)
From Coq Require Import ZArith ZifyBool.
From Verif Require Import Base.Prelude Model.CapPlace Spec.CapPlaceSpec Proofs.CapGridP Proofs.CapSeqP Proofs.CapNetP Proofs.CapAssignP.
Local Open Scope Z_scope.

(** The capacitors are the points of the grid, each once. *)
Theorem C103_caps r s : 0 < r -> 0 < s -> NoDup (caps r s) /\ forall p, In p (caps r s) <-> in_grid r s p.
Proof. intros Hr Hs. split; [now apply caps_nodup|apply in_caps]. Qed.

Section Placed.
Variables (ki : list Z) (r s : Z) (dummy : bool).
Hypotheses (Hr : 0 < r) (Hs : 0 < s) (Hk : Forall (fun z => 0 <= z) ki).
Let R := full dummy r. Let S := full dummy s.
Let n := length (caps R S).
Lemma RS : 0 < R /\ 0 < S.
Proof. unfold R, S, full. destruct dummy; lia. Qed.

(** There is a placement exactly if all unit capacitors have room. *)
Theorem C103_room : (exists ev, place ki r s dummy = Some ev) <-> zsum ki <= r * s.
Proof.
  unfold place. fold R S. destruct (sequence_ok r s dummy Hr Hs) as (cs & mid & ps & E & Q & L). fold R S in E, Q. rewrite E. destruct (nets_are ki Hk) as (lone & mixed & same & T). rewrite <- (t_sum _ _ _ _ _ T), <- L. destruct T, Q.
  assert (Forall two (mixed ++ same)) as F1. { apply Forall_forall. intros p Hp. apply in_app_or in Hp. destruct Hp as [Hp|Hp]; [destruct (t_mixed p Hp) as (a & b & ->)|destruct (t_same p Hp) as (b & ->)]; now exists b. }
  assert (Forall two ps) as F2. { rewrite Forall_forall in *. intros p Hp. destruct (q_faced p Hp) as (_ & F & _). now exists (opp R S (fst p)). }
  assert (mid = [] \/ exists c, mid = [(c, None)]) as F3 by (destruct q_mid as [->|(c & -> & _)]; eauto).
  pose proof (assign_main _ _ _ _ _ _ t_app t_lone F1 q_app F3 F2) as M. pose proof (fun ev => assign_most _ _ _ _ _ _ t_app t_lone F1 q_app F3 F2 ev) as M'. split.
  - intros (ev & Ev). specialize (M' _ Ev). rewrite t_app, q_app, !all_app, !app_length. assert (length (all_cells lone) = length lone) as -> by (destruct t_lone as [->|(a & ->)]; reflexivity). assert (length (all_cells mid) = length mid) as -> by (destruct F3 as [->|(a & ->)]; reflexivity).
    rewrite <- app_length, <- all_app, !two_len by assumption. lia.
  - intros Le. destruct (assign (net_sequence ki) cs) as [ev|]; [now exists ev|]. lia.
Qed.

Variable ev : list (nat * nat).
Hypothesis (Hp : place ki r s dummy = Some ev).
Lemma taken : exists cs mid ps lone mixed same U skip rest, seq_ok R S (fun c => dummy = true -> inside_border R S (pos R S c)) cs mid ps /\ nets_ok ki (net_sequence ki) lone mixed same /\ share (net_sequence ki) cs mid lone ev U skip rest /\ Z.of_nat (length (all_cells cs)) = r * s.
Proof.
  unfold place in Hp. fold R S in Hp. destruct (sequence_ok r s dummy Hr Hs) as (cs & mid & ps & E & Q & L). fold R S in E, Q. rewrite E in Hp. destruct (nets_are ki Hk) as (lone & mixed & same & T). exists cs, mid, ps, lone, mixed, same.
  pose proof Q as Q'. pose proof T as T'. destruct T', Q'.
  assert (Forall two (mixed ++ same)) as F1. { apply Forall_forall. intros p Hp'. apply in_app_or in Hp'. destruct Hp' as [Hp'|Hp']; [destruct (t_mixed p Hp') as (a & b & ->)|destruct (t_same p Hp') as (b & ->)]; now exists b. }
  assert (Forall two ps) as F2. { rewrite Forall_forall in *. intros p Hp'. destruct (q_faced p Hp') as (_ & F & _). now exists (opp R S (fst p)). }
  assert (mid = [] \/ exists c, mid = [(c, None)]) as F3 by (destruct q_mid as [->|(c & -> & _)]; eauto).
  pose proof (assign_main _ _ _ _ _ _ t_app t_lone F1 q_app F3 F2) as M. rewrite Hp in M. destruct M as (U & skip & rest & M). exists U, skip, rest. auto.
Qed.
Lemma in_index c k : In c (cap_index ev k) <-> In (c, k) ev.
Proof. unfold cap_index. rewrite in_map_iff. split; [intros ([c' k'] & E & H); apply filter_In in H; cbn in *; destruct H as [H B]; apply Nat.eqb_eq in B; now subst|intros H; exists (c, k); split; auto; apply filter_In; split; auto; apply Nat.eqb_refl]. Qed.
Lemma ev_nodup : NoDup (map fst ev).
Proof.
  destruct taken as (cs & mid & ps & lone & mixed & same & U & skip & rest & Q & T & (E1 & E2 & E3 & _) & _). rewrite E1. apply given_nodup. pose proof (q_nodup _ _ _ _ _ _ Q) as N. rewrite E3, !all_app, !nodup_app_iff in N. tauto.
Qed.
Lemma one_net c k k' : In (c, k) ev -> In (c, k') ev -> k = k'.
Proof.
  pose proof ev_nodup as N. revert N. generalize ev as l. induction l as [|[d m] l IH]; intros N A B; [destruct A|]. cbn in N. inversion N as [|? ? Nd Nl]; subst. destruct A as [A|A], B as [B|B]; try congruence.
  - injection A as -> ->. exfalso. apply Nd. apply in_map_iff. now exists (c, k').
  - injection B as -> ->. exfalso. apply Nd. apply in_map_iff. now exists (c, k).
  - now apply IH.
Qed.
Lemma index_nodup k : NoDup (cap_index ev k).
Proof.
  pose proof ev_nodup as N. unfold cap_index. revert N. generalize ev as l. induction l as [|[d m] l IH]; intros N; [constructor|]. cbn in N. inversion N as [|? ? Nd Nl]; subst. cbn [filter snd]. destruct (Nat.eqb m k); [|auto]. cbn [map fst]. constructor; [|auto]. intros H. apply Nd. apply in_map_iff in H. destruct H as (x & E & Hx). apply filter_In in Hx. apply in_map_iff. exists x. tauto.
Qed.

Lemma one_pair (U : list (pair * pair)) u v c : NoDup (all_cells (map fst U)) -> In u U -> In v U -> In c (cells_of (fst u)) -> In c (cells_of (fst v)) -> u = v.
Proof.
  induction U as [|w U IH]; [intros _ []|]. change (all_cells (map fst (w :: U))) with (cells_of (fst w) ++ all_cells (map fst U)). rewrite nodup_app_iff. intros (N1 & N2 & N3) Hu Hv Cu Cv.
  destruct Hu as [<-|Hu], Hv as [<-|Hv]; auto; exfalso; [apply (N3 c Cu), (in_all_cells c (fst v)); auto; now apply in_map|apply (N3 c Cv), (in_all_cells c (fst u)); auto; now apply in_map].
Qed.

(** Each net gets as many cells as it has unit capacitors, no cell goes to two nets, and the dummy net gets all the others. *)
Theorem C103_counts : (forall k, (k < length ki)%nat -> Z.of_nat (length (cap_index ev k)) = size ki k) /\ NoDup (map fst ev) /\
  (forall c k, In (c, k) ev -> (k < length ki)%nat /\ in_grid R S (pos R S c) /\ (dummy = true -> inside_border R S (pos R S c))) /\
  Permutation (map fst ev ++ dummies R S ev) (seq 0 (length (caps R S))).
Proof.
  destruct taken as (cs & mid & ps & lone & mixed & same & U & skip & rest & Q & T & (E1 & E2 & E3 & E4 & E5) & _).
  assert (map snd ev = all_cells (net_sequence ki)) as Es by (rewrite E1, given_snd by exact E5; now rewrite E2).
  assert (forall c, In c (map fst ev) -> In c (all_cells cs)) as Ic. { intros c Hc. rewrite E3, !all_app. apply in_app_iff. right. apply in_app_iff. left. rewrite E1 in Hc. now apply given_fst. }
  split; [|split; [apply ev_nodup|split]].
  - intros k Lk. rewrite <- (t_count _ _ _ _ _ T k Lk), <- Es. f_equal. unfold cap_index. rewrite map_length. generalize ev as l. clear. induction l as [|[c m] l IH]; [reflexivity|]. cbn [filter map snd]. unfold count in *. cbn [count_occ]. destruct (Nat.eqb_spec m k), (Nat.eq_dec m k); try congruence; cbn; now rewrite IH.
  - intros c k H. split; [apply (t_in _ _ _ _ _ T); rewrite <- Es; apply in_map_iff; now exists (c, k)|]. assert (In c (all_cells cs)) as I by (apply Ic, in_map_iff; now exists (c, k)). apply (q_in _ _ _ _ _ _ Q) in I. destruct I as [L B]. split; [|exact B]. destruct RS. now apply pos_split.
  - apply NoDup_Permutation; [|apply seq_NoDup|].
    + apply nodup_app_iff. split; [apply ev_nodup|]. split; [apply NoDup_filter, seq_NoDup|]. intros c Hc Hd. unfold dummies in Hd. apply filter_In in Hd. destruct Hd as [_ Hd]. apply in_map_iff in Hc. destruct Hc as (e & <- & He). rewrite negb_true_iff in Hd. pose proof (proj1 (existsb_false_iff _ _) Hd e He) as F. cbn in F. now rewrite Nat.eqb_refl in F.
    + intros c. rewrite in_app_iff. unfold dummies. rewrite filter_In, in_seq. split.
      * intros [H|[H _]]; [|lia]. apply Ic in H. apply (q_in _ _ _ _ _ _ Q) in H. lia.
      * intros H. destruct (existsb (fun e => Nat.eqb (fst e) c) ev) eqn:B; [left|right; split; auto]. apply existsb_exists in B. destruct B as (e & He & B). apply Nat.eqb_eq in B. apply in_map_iff. now exists e.
Qed.

Lemma parts : exists mixed same U1 U2 skip rest, ev = flat_map given U1 ++ flat_map given U2 /\ map snd U1 = mixed /\ map snd U2 = same /\
  (forall u, In u (U1 ++ U2) -> (forall c, In c (cells_of (fst u)) -> (c < n)%nat /\ dis R S c = dis R S (fst (fst u))) /\ (forall y, snd (fst u) = Some y -> y = opp R S (fst (fst u)) /\ y <> fst (fst u)) /\ (two (snd u) -> two (fst u))) /\
  (forall p, In p same -> exists k, p = (k, Some k)) /\ NoDup (all_cells mixed) /\ (forall k, In k (all_cells mixed) <-> (k < length ki)%nat /\ Z.odd (size ki k) = true) /\
  (forall u v, In u U1 -> In v U2 -> dis R S (fst (fst u)) <= dis R S (fst (fst v))) /\
  (forall u p, In u (U1 ++ U2) -> In p rest -> dis R S (fst (fst u)) <= dis R S (fst p)) /\
  (forall c, In c (all_cells skip) -> opp R S c = c) /\
  NoDup (all_cells (skip ++ map fst (U1 ++ U2) ++ rest)) /\ (forall c, In c (all_cells (skip ++ map fst (U1 ++ U2) ++ rest)) <-> (c < n)%nat /\ (dummy = true -> inside_border R S (pos R S c))) /\
  (forall p c, In p (skip ++ map fst (U1 ++ U2) ++ rest) -> In c (cells_of p) -> In (opp R S c) (cells_of p) /\ dis R S c = dis R S (fst p)).
Proof.
  destruct RS as [HR HS]. destruct taken as (cs & mid & ps & lone & mixed & same & U & skip & rest & Q & T & (E1 & E2 & E3 & E4 & E5) & _). destruct Q, T.
  rewrite t_app in E2. rewrite app_assoc in E2. apply map_eq_app in E2. destruct E2 as (U1 & U2 & -> & M1 & M2). exists (lone ++ mixed), same, U1, U2, skip, rest.
  assert (forall p c, In p cs -> In c (cells_of p) -> (c < n)%nat /\ In (opp R S c) (cells_of p) /\ dis R S c = dis R S (fst p) /\ forall y, snd p = Some y -> y = opp R S (fst p) /\ y <> fst p) as Fp.
  { intros p c Hp' Hc. rewrite q_app in Hp'. apply in_app_or in Hp'. destruct Hp' as [Hp'|Hp'].
    - destruct q_mid as [->|(m & -> & Lm & Om)]; [destruct Hp'|]. destruct Hp' as [<-|[]]. destruct Hc as [<-|[]]. cbn. rewrite Om. repeat split; auto; discriminate.
    - rewrite Forall_forall in q_faced. destruct (q_faced p Hp') as (F1 & F2 & F3). unfold cells_of in *. rewrite F2 in *. assert (forall y, Some (opp R S (fst p)) = Some y -> y = opp R S (fst p) /\ y <> fst p) as Y by (intros y Ey; injection Ey as <-; split; [reflexivity|lia]). destruct Hc as [<-|[<-|[]]].
      + repeat split; auto; [now right; left| |]; apply Y; auto.
      + split; [now apply opp_lt|]. split; [left; symmetry; now apply opp_opp|]. split; [now apply dis_opp|exact Y]. }
  assert (StronglySorted (nearer R S) cs) as Sc. { rewrite q_app. apply ssorted_app. split; [|split; [exact q_sorted|]]. - destruct q_mid as [->|(m & -> & _)]; repeat constructor. - intros p q Hp' Hq. destruct q_mid as [->|(m & -> & Lm & Om)]; [destruct Hp'|]. destruct Hp' as [<-|[]]. unfold nearer. cbn. apply (dis_zero R S HR HS m Lm) in Om. rewrite Om. apply (dis_pos R S HS). }
  rewrite E3 in Sc. apply ssorted_app in Sc. destruct Sc as (_ & Sc & _). apply ssorted_app in Sc. destruct Sc as (Sc & _ & S2). rewrite map_app in Sc, S2. apply ssorted_app in Sc. destruct Sc as (_ & _ & S1).
  assert (forall u, In u (U1 ++ U2) -> In (fst u) cs) as Iu by (intros u Hu; rewrite E3; apply in_app_iff; right; apply in_app_iff; left; now apply in_map).
  split; [now rewrite E1, flat_map_app|]. split; [exact M1|]. split; [exact M2|]. split.
  { intros u Hu. assert (In (fst (fst u)) (cells_of (fst u))) as I by (unfold cells_of; destruct (snd (fst u)); now left). split; [|split; [|now apply E5]].
    - intros c Hc. destruct (Fp (fst u) c (Iu u Hu) Hc) as (A1 & A2 & A3 & A4). auto.
    - destruct (Fp (fst u) _ (Iu u Hu) I) as (_ & _ & _ & A). exact A. }
  split; [exact t_same|]. split; [exact t_nodup|]. split; [exact t_odd|]. split; [intros u v Hu Hv; apply S1; now apply in_map|]. split; [intros u p Hu Hp'; apply S2; [rewrite <- map_app; now apply in_map|exact Hp']|]. split.
  { intros c Hc. destruct E4 as [->|[-> _]]; [destruct Hc|]. destruct q_mid as [->|(m & -> & _ & Om)]; [destruct Hc|]. destruct Hc as [<-|[]]. exact Om. }
  rewrite <- E3. split; [exact q_nodup|]. split; [exact q_in|]. intros p c Hp' Hc. destruct (Fp p c Hp' Hc) as (_ & A & B & _). auto.
Qed.
Lemma same_closed u c k : two (snd u) -> two (fst u) -> (forall y, snd (fst u) = Some y -> y = opp R S (fst (fst u)) /\ y <> fst (fst u)) -> (forall c, In c (cells_of (fst u)) -> (c < n)%nat) -> (exists m, snd u = (m, Some m)) ->
  In (c, k) (given u) -> In (opp R S c, k) (given u) /\ opp R S c <> c.
Proof.
  destruct RS as [HR HS]. destruct u as [[x y] q]. cbn. intros _ [y' Ey] Y L (m & ->). cbn in Ey. subst y. unfold given. cbn. destruct (Y y' eq_refl) as [-> Ne]. assert (x < n)%nat as Lx by (apply L; now left). pose proof (opp_opp R S HS x Lx) as Oo. intros [E|[E|[]]]; injection E as <- <-.
  - split; [now right; left|exact Ne].
  - split; [left; now rewrite Oo|congruence].
Qed.
(** A net with an even number of unit capacitors: its cells face each other, and their centroid is the middle of the grid. *)
Theorem C103_even k : Z.even (size ki k) = true -> (forall c, In c (cap_index ev k) -> exists c', In c' (cap_index ev k) /\ c' <> c /\ facing R S (pos R S c) (pos R S c')) /\ centred R S (map (pos R S) (cap_index ev k)).
Proof.
  intros Ek. destruct RS as [HR HS]. destruct parts as (mixed & same & U1 & U2 & skip & rest & E & M1 & M2 & Hu & Hs' & Nm & Im & _).
  assert (forall c, In (c, k) ev -> (c < n)%nat /\ In (opp R S c, k) ev /\ opp R S c <> c) as C.
  { intros c Hc. rewrite E in Hc. apply in_app_or in Hc. destruct Hc as [Hc|Hc]; apply in_flat_map in Hc; destruct Hc as (u & Iu & Hc).
    - exfalso. apply in_given in Hc. destruct Hc as [_ Hc]. assert (In k (all_cells mixed)) as I. { rewrite <- M1. apply (in_all_cells k (snd u)); [now apply in_map|exact Hc]. } apply Im in I. rewrite <- Z.negb_even, Ek in I. destruct I as [_ I]. discriminate.
    - assert (In u (U1 ++ U2)) as Iu' by (apply in_app_iff; auto). destruct (Hu u Iu') as (A & B & D). assert (exists m, snd u = (m, Some m)) as (m & Em) by (apply Hs'; rewrite <- M2; now apply in_map). assert (two (snd u)) as Tu by (rewrite Em; now exists m).
      destruct (same_closed u c k Tu (D Tu) B (fun c Hc => proj1 (A c Hc)) (ex_intro _ m Em) Hc) as [F1 F2]. apply in_given in Hc. split; [apply A; tauto|]. split; [|exact F2]. rewrite E. apply in_app_iff. right. apply in_flat_map. now exists u. }
  split.
  - intros c Hc. apply in_index in Hc. destruct (C c Hc) as (A & B & D). exists (opp R S c). split; [now apply in_index|]. split; [exact D|]. now apply opp_facing.
  - apply closed_centred; auto; [apply index_nodup|]. intros c Hc. apply in_index in Hc. destruct (C c Hc) as (A & B & _). split; [exact A|now apply in_index].
Qed.
(** A net with an odd number: so without one of its cells, which is not further from the middle than the others. *)
Theorem C103_odd k : (k < length ki)%nat -> Z.odd (size ki k) = true -> exists c l, Permutation (cap_index ev k) (c :: l) /\
  (forall d, In d l -> exists d', In d' l /\ d' <> d /\ facing R S (pos R S d) (pos R S d')) /\ centred R S (map (pos R S) l) /\
  forall d, In d l -> from_middle R S (pos R S c) <= from_middle R S (pos R S d).
Proof.
  intros Lk Ok. destruct RS as [HR HS]. destruct parts as (mixed & same & U1 & U2 & skip & rest & E & M1 & M2 & Hu & Hs' & Nm & Im & Hn & _).
  assert (map snd (flat_map given U1) = all_cells mixed) as Es. { rewrite given_snd; [now rewrite M1|]. intros u Iu. destruct (Hu u) as (_ & _ & D); [apply in_app_iff; auto|exact D]. }
  assert (In k (all_cells mixed)) as Ik by (apply Im; auto). rewrite <- Es in Ik. apply in_map_iff in Ik. destruct Ik as ([c k'] & Ek & Hc). cbn in Ek. subst k'.
  assert (In (c, k) ev) as Hce by (rewrite E; apply in_app_iff; auto). pose proof (proj2 (in_index c k) Hce) as Ic. destruct (in_split _ _ Ic) as (l1 & l2 & El). pose proof (index_nodup k) as Ni. exists c, (l1 ++ l2).
  assert (Permutation (cap_index ev k) (c :: l1 ++ l2)) as P by (rewrite El; symmetry; apply Permutation_middle). pose proof (Permutation_NoDup P Ni) as Nc. inversion Nc as [|? ? Cl Nl]; subst x l. 
  assert (forall d, In d (l1 ++ l2) <-> In (d, k) ev /\ d <> c) as Il. { intros d. rewrite <- in_index. split; [intros Hd; split; [apply (Permutation_in _ (Permutation_sym P)); now right|intros ->; contradiction]|]. intros [Hd Ne]. apply (Permutation_in _ P) in Hd. destruct Hd; [congruence|assumption]. }
  assert (forall d, In (d, k) (flat_map given U1) -> d = c) as Uq. { rewrite <- Es in Nm. revert Nm Hc. generalize (flat_map given U1) as l. induction l as [|[a m] l IH]; intros N Hc d Hd; [destruct Hd|]. cbn in N. inversion N as [|? ? Na Nl']; subst. destruct Hc as [Hc|Hc], Hd as [Hd|Hd]; try congruence; [injection Hc as -> ->; exfalso; apply Na, in_map_iff; now exists (d, k)|injection Hd as -> ->; exfalso; apply Na, in_map_iff; now exists (c, k)|now apply IH]. }
  assert (forall d, In d (l1 ++ l2) -> exists u, In u U2 /\ In (d, k) (given u)) as I2. { intros d Hd. apply Il in Hd. destruct Hd as [Hd Ne]. rewrite E in Hd. apply in_app_or in Hd. destruct Hd as [Hd|Hd]; [exfalso; apply Ne; now apply Uq|]. now apply in_flat_map in Hd. }
  apply in_flat_map in Hc. destruct Hc as (v & Iv & Hc). assert (In v (U1 ++ U2)) as Iv' by (apply in_app_iff; auto). pose proof (proj1 (in_given _ _ _ Hc)) as Cv. destruct (proj1 (Hu v Iv') c Cv) as [Lc Dc].
  assert (forall d, In d (l1 ++ l2) -> (d < n)%nat /\ In (opp R S d) (l1 ++ l2) /\ opp R S d <> d /\ dis R S c <= dis R S d) as C.
  { intros d Hd. destruct (I2 d Hd) as (u & Iu & Hg). assert (In u (U1 ++ U2)) as Iu' by (apply in_app_iff; auto). destruct (Hu u Iu') as (A & B & D). assert (exists m, snd u = (m, Some m)) as (m & Em) by (apply Hs'; rewrite <- M2; now apply in_map). assert (two (snd u)) as Tu by (rewrite Em; now exists m).
    destruct (same_closed u d k Tu (D Tu) B (fun c Hc => proj1 (A c Hc)) (ex_intro _ m Em) Hg) as [F1 F2]. pose proof (proj1 (in_given _ _ _ Hg)) as Cd. destruct (A d Cd) as [Ld Dd]. split; [exact Ld|]. split; [|split; [exact F2|rewrite Dc, Dd; now apply Hn]].
    apply Il. split; [rewrite E; apply in_app_iff; right; apply in_flat_map; now exists u|]. intros Eq. 
    (* then d faces c, and both are of one pair *)
    pose proof ev_nodup as Ne. rewrite E, map_app, nodup_app_iff in Ne. destruct Ne as (_ & _ & Ne). apply (Ne c); [apply in_map_iff; exists (c, k); split; [reflexivity|apply in_flat_map; now exists v]|]. apply in_map_iff. exists (opp R S d, k). split; [exact Eq|]. apply in_flat_map. now exists u. }
  split; [exact P|]. split; [|split].
  - intros d Hd. destruct (C d Hd) as (A & B & D & _). exists (opp R S d). split; [exact B|]. split; [exact D|]. now apply opp_facing.
  - apply closed_centred; auto. intros d Hd. destruct (C d Hd) as (A & B & _). auto.
  - intros d Hd. rewrite <- !dis_middle. now apply C.
Qed.
(** Cells that do not face one of their own net are not further from the middle than those that do ... *)
Theorem C103_near c k d m : In (c, k) ev -> In (d, m) ev ->
  (forall c', In (c', k) ev -> c' <> c -> ~ facing R S (pos R S c) (pos R S c')) -> (exists d', In (d', m) ev /\ d' <> d /\ facing R S (pos R S d) (pos R S d')) ->
  from_middle R S (pos R S c) <= from_middle R S (pos R S d).
Proof.
  intros Hc Hd Nc (d' & Hd' & Ne & Fd). destruct RS as [HR HS]. destruct parts as (mixed & same & U1 & U2 & skip & rest & E & M1 & M2 & Hu & Hs' & Nm & Im & Hn & _ & _ & Na & _ & Ho). rewrite <- !dis_middle.
  assert (exists u, In u U1 /\ In (c, k) (given u)) as (u & Iu & Gu).
  { rewrite E in Hc. apply in_app_or in Hc. destruct Hc as [Hc|Hc]; apply in_flat_map in Hc; [exact Hc|]. exfalso. destruct Hc as (u & Iu & Hg). assert (In u (U1 ++ U2)) as Iu' by (apply in_app_iff; auto). destruct (Hu u Iu') as (A & B & D). assert (exists m, snd u = (m, Some m)) as (m' & Em) by (apply Hs'; rewrite <- M2; now apply in_map). assert (two (snd u)) as Tu by (rewrite Em; now exists m').
    destruct (same_closed u c k Tu (D Tu) B (fun c Hc => proj1 (A c Hc)) (ex_intro _ m' Em) Hg) as [F1 F2]. apply (Nc (opp R S c)); auto; [rewrite E; apply in_app_iff; right; apply in_flat_map; now exists u|]. apply opp_facing; auto. apply A. now apply in_given in Hg. }
  assert (exists v, In v U2 /\ In (d, m) (given v)) as (v & Iv & Gv).
  { pose proof Hd as Hde. rewrite E in Hd. apply in_app_or in Hd. destruct Hd as [Hd|Hd]; apply in_flat_map in Hd; [|exact Hd]. exfalso. destruct Hd as (v & Iv & Hg). assert (In v (U1 ++ U2)) as Iv' by (apply in_app_iff; auto). destruct (Hu v Iv') as (A & B & D). pose proof (proj1 (in_given _ _ _ Hg)) as Cd. destruct (A d Cd) as [Ld _].
    assert (In d' (map fst ev)) as Id' by (apply in_map_iff; now exists (d', m)).
    assert (d' < n)%nat as Ld'. { pose proof C103_counts as (_ & _ & _ & P). assert (In d' (seq 0 (length (caps R S)))) as Q by (apply (Permutation_in _ P), in_app_iff; auto). apply in_seq in Q. unfold n. lia. }
    apply facing_opp in Fd; auto. subst d'.
    assert (In (snd v) mixed) as Iq by (rewrite <- M1; now apply in_map). assert (NoDup (cells_of (snd v))) as Nq. { destruct (in_split _ _ Iq) as (q1 & q2 & Eq). rewrite Eq, all_app in Nm. apply nodup_app_iff in Nm. destruct Nm as (_ & Nm & _). change (all_cells (snd v :: q2)) with (cells_of (snd v) ++ all_cells q2) in Nm. apply nodup_app_iff in Nm. tauto. }
    destruct v as [[x y] [a b]]. cbn in *. unfold given in Hg. cbn in Hg. destruct b as [b|].
    - destruct D as [y' Ey]; [now exists b|]. cbn in Ey. subst y. destruct (B y' eq_refl) as [-> Nx]. assert (x < n)%nat as Lx by (apply A; now left). unfold cells_of in Nq. cbn in Nq. assert (a <> b) as Nab by (inversion Nq; subst; intros ->; apply H1; now left).
      assert (In (x, a) ev /\ In (opp R S x, b) ev) as [X1 X2] by (rewrite E; split; apply in_app_iff; left; apply in_flat_map; exists ((x, Some (opp R S x)), (a, Some b)); (split; [exact Iv|unfold given; cbn; auto])).
      destruct Hg as [Hg|[Hg|[]]]; injection Hg as <- <-; [apply Nab, (one_net (opp R S x) a b Hd' X2)|]. rewrite (opp_opp R S HS x Lx) in Hd'. apply Nab, (one_net x a b X1 Hd').
    - assert (In (d, m) [(x, a)]) as Hg' by (destruct y; exact Hg). destruct Hg' as [Hg'|[]]. injection Hg' as <- <-. destruct y as [y|].
      + destruct (B y eq_refl) as [-> Nx]. rewrite E, <- flat_map_app in Hd'. apply in_flat_map in Hd'. destruct Hd' as (w & Iw & Gw).
        assert (w = ((x, Some (opp R S x)), (a, None))) as ->. { apply (one_pair (U1 ++ U2) w _ (opp R S x)); auto; [|now apply in_given in Gw|now right; left]. rewrite all_app in Na. apply nodup_app_iff in Na. destruct Na as (_ & Na & _). rewrite all_app in Na. apply nodup_app_iff in Na. tauto. }
        destruct Gw as [Gw|[]]. injection Gw as Gw. now symmetry in Gw.
      + apply Ne. destruct (Ho (x, None) x) as [[Ho'|[]] _]; auto. apply in_app_iff. right. apply in_app_iff. left. apply in_map_iff. exists ((x, None), (a, None)). auto. }
  destruct (Hu u) as (A & _); [apply in_app_iff; auto|]. destruct (Hu v) as (B & _); [apply in_app_iff; auto|]. destruct (A c (proj1 (in_given _ _ _ Gu))) as [_ ->]. destruct (B d (proj1 (in_given _ _ _ Gv))) as [_ ->]. now apply Hn.
Qed.
(** ... and cells of nets are not further from the middle than two facing dummies that a net could have. *)
Theorem C103_spare c k d d' : In (c, k) ev -> In d (dummies R S ev) -> In d' (dummies R S ev) -> d <> d' -> facing R S (pos R S d) (pos R S d') -> (dummy = true -> inside_border R S (pos R S d)) ->
  from_middle R S (pos R S c) <= from_middle R S (pos R S d).
Proof.
  intros Hc Hd Hd' Ne Fd Bd. destruct RS as [HR HS]. destruct parts as (mixed & same & U1 & U2 & skip & rest & E & M1 & M2 & Hu & Hs' & Nm & Im & Hn & Hrest & Hskip & Na & Ia & Ho). rewrite <- !dis_middle.
  unfold dummies in Hd, Hd'. apply filter_In in Hd, Hd'. destruct Hd as [Ld Gd], Hd' as [Ld' Gd']. apply in_seq in Ld, Ld'. assert (d < n)%nat as Ld2 by (unfold n; lia). assert (d' < n)%nat as Ld2' by (unfold n; lia). apply facing_opp in Fd; auto.
  assert (forall x m, In (x, m) ev -> x <> d /\ x <> d') as No. { intros x m Hx. rewrite negb_true_iff in Gd, Gd'. pose proof (proj1 (existsb_false_iff _ _) Gd _ Hx) as A. pose proof (proj1 (existsb_false_iff _ _) Gd' _ Hx) as B. cbn in A, B. apply Nat.eqb_neq in A, B. auto. }
  assert (In d (all_cells (skip ++ map fst (U1 ++ U2) ++ rest))) as I by (apply Ia; auto). apply in_flat_map in I. destruct I as (p & Ip & Cp).
  assert (In p rest) as Ir.
  { apply in_app_or in Ip. destruct Ip as [Ip|Ip]; [exfalso; apply Ne; rewrite Fd; symmetry; apply Hskip; now apply (in_all_cells d p)|]. apply in_app_or in Ip. destruct Ip as [Ip|Ip]; [exfalso|exact Ip].
    apply in_map_iff in Ip. destruct Ip as (u & <- & Iu). assert (In (fst (fst u), fst (snd u)) ev) as Gu. { rewrite E, <- flat_map_app. apply in_flat_map. exists u. split; [exact Iu|]. unfold given. destruct (snd (snd u)), (snd (fst u)); now left. }
    destruct (No _ _ Gu) as [N1 N2]. destruct (Hu u Iu) as (_ & B & _). unfold cells_of in Cp. destruct (snd (fst u)) as [y|] eqn:Ey; [|destruct Cp as [Cp|[]]; contradiction]. destruct Cp as [Cp|[Cp|[]]]; [contradiction|]. subst y. destruct (B d eq_refl) as [Ed _]. apply N2. rewrite Fd, Ed. symmetry. apply (opp_opp R S HS).
    destruct (Hu u Iu) as (A & _). apply A. unfold cells_of. rewrite Ey. now left. }
  rewrite E, <- flat_map_app in Hc. apply in_flat_map in Hc. destruct Hc as (u & Iu & Gu). destruct (Hu u Iu) as (A & _). destruct (A c (proj1 (in_given _ _ _ Gu))) as [_ ->]. destruct (Ho p d) as [_ ->]; [rewrite app_assoc; apply in_app_iff; auto|exact Cp|]. now apply Hrest.
Qed.
(** The middle of the grid goes to a net exactly if there is one and the number of all unit capacitors is odd; that net is then centred. *)
Theorem C103_middle : ((exists c k, In (c, k) ev /\ from_middle R S (pos R S c) = 0) <-> Z.odd (r * s) = true /\ Z.odd (zsum ki) = true) /\
  forall c k, In (c, k) ev -> from_middle R S (pos R S c) = 0 -> Z.odd (size ki k) = true /\ centred R S (map (pos R S) (cap_index ev k)).
Proof.
  destruct RS as [HR HS]. pose proof C103_counts as (_ & _ & Cg & Cp). assert (forall c k, In (c, k) ev -> (c < n)%nat) as Lt. { intros c k H. assert (In c (seq 0 (length (caps R S)))) as Q by (apply (Permutation_in _ Cp), in_app_iff; left; apply in_map_iff; now exists (c, k)). apply in_seq in Q. unfold n. lia. }
  split; [split|].
  - intros (c & k & Hc & Mc). destruct taken as (cs & mid & ps & lone & mixed & same & U & skip & rest & Q & T & (E1 & E2 & E3 & E4 & E5) & L). destruct Q, T. pose proof (Lt c k Hc) as Lc. rewrite <- dis_middle in Mc. apply dis_zero in Mc; auto.
    rewrite E1 in Hc. apply in_flat_map in Hc. destruct Hc as (u & Iu & Gu). assert (In (fst u) cs) as Iq by (rewrite E3; apply in_app_iff; right; apply in_app_iff; left; now apply in_map). pose proof (proj1 (in_given _ _ _ Gu)) as Cu.
    assert (fst u = (c, None) /\ mid = [(c, None)]) as [Fu Em]. { rewrite q_app in Iq. apply in_app_or in Iq. destruct Iq as [Iq|Iq]; [destruct q_mid as [->|(m & -> & _)]; [destruct Iq|]; destruct Iq as [Iq|[]]; rewrite <- Iq in *; destruct Cu as [<-|[]]; auto|].
      exfalso. rewrite Forall_forall in q_faced. destruct (q_faced _ Iq) as (F1 & F2 & F3). unfold cells_of in Cu. rewrite F2 in Cu. destruct Cu as [Cu|[Cu|[]]]; subst c; [lia|]. rewrite (opp_opp R S HS) in Mc by exact F1. lia. }
    assert (forall l, Forall (faced R S) l -> Forall two l) as Ft by (intros l F; eapply Forall_impl; [|exact F]; intros p (_ & Fp & _); now exists (opp R S (fst p))). split.
    + rewrite <- L, q_app, all_app, app_length, (two_len ps) by (now apply Ft). rewrite Em. cbn [all_cells flat_map cells_of snd fst app length]. rewrite Nat2Z.inj_add, Nat2Z.inj_mul. change (Z.of_nat 1) with 1. change (Z.of_nat 2) with 2. now rewrite Z.odd_add_mul_2.
    + assert (lone <> []) as Nl. { intros El. assert (two (snd u)) as Tu. { assert (In (snd u) (net_sequence ki)) as I by (rewrite <- E2; now apply in_map). rewrite t_app, El in I. cbn in I. apply in_app_or in I. destruct I as [I|I]; [destruct (t_mixed _ I) as (a & b & ->)|destruct (t_same _ I) as (b & ->)]; now exists b. } destruct (E5 u Iu Tu) as [y Ey]. rewrite Fu in Ey. discriminate. }
      destruct t_lone as [|(a & Ea)]; [contradiction|]. rewrite <- t_sum, t_app, all_app, app_length, Ea, (two_len (mixed ++ same)) by (apply Forall_forall; intros p Ip; apply in_app_or in Ip; destruct Ip as [Ip|Ip]; [destruct (t_mixed _ Ip) as (? & b & ->)|destruct (t_same _ Ip) as (b & ->)]; now exists b). cbn [all_cells flat_map cells_of snd fst app length]. rewrite Nat2Z.inj_add, Nat2Z.inj_mul. change (Z.of_nat 1) with 1. change (Z.of_nat 2) with 2. now rewrite Z.odd_add_mul_2.
  - intros [Or Os]. destruct taken as (cs & mid & ps & lone & mixed & same & U & skip & rest & Q & T & (E1 & E2 & E3 & E4 & E5) & L). destruct Q, T.
    assert (Forall two ps) as F2 by (eapply Forall_impl; [|exact q_faced]; intros p (_ & Fp & _); now exists (opp R S (fst p))).
    assert (Forall two (mixed ++ same)) as F1 by (apply Forall_forall; intros p Ip; apply in_app_or in Ip; destruct Ip as [Ip|Ip]; [destruct (t_mixed _ Ip) as (? & b & ->)|destruct (t_same _ Ip) as (b & ->)]; now exists b).
    destruct q_mid as [Em|(c & Em & Lc & Oc)]; [exfalso; rewrite <- L, q_app, Em in Or; cbn [app] in Or; rewrite (two_len ps F2) in Or; rewrite Nat2Z.inj_mul in Or; change (Z.of_nat 2) with 2 in Or; now rewrite Z.odd_mul in Or|].
    destruct t_lone as [El|(a & El)]; [exfalso; rewrite <- t_sum, t_app, El in Os; cbn [app] in Os; rewrite (two_len _ F1) in Os; rewrite Nat2Z.inj_mul in Os; change (Z.of_nat 2) with 2 in Os; now rewrite Z.odd_mul in Os|].
    destruct E4 as [->|[_ E4]]; [|rewrite E4 in El; discriminate]. rewrite t_app, El in E2. rewrite q_app, Em in E3. destruct U as [|u U]; [discriminate|]. cbn in E2, E3. injection E2 as Su _. injection E3 as Fu _. exists c, a. split; [rewrite E1; cbn [flat_map]; apply in_app_iff; left; unfold given; rewrite Su, <- Fu; now left|]. rewrite <- dis_middle. now apply dis_zero.
  - intros c k Hc Mc. pose proof (Lt c k Hc) as Lc. destruct (Cg c k Hc) as [Lk _]. rewrite <- dis_middle in Mc. apply dis_zero in Mc; auto. pose proof (proj2 (in_index c k) Hc) as Ic.
    destruct (Z.odd (size ki k)) eqn:Ok.
    + split; [reflexivity|]. destruct (C103_odd k Lk Ok) as (c0 & l & P & F & Cl & _). assert (c0 = c) as ->. { apply (Permutation_in _ P) in Ic. destruct Ic as [Ic|Ic]; [exact Ic|]. exfalso. destruct (F c Ic) as (d' & Hd' & Ne & Fd). assert (In (d', k) ev) as Hd2 by (apply in_index, (Permutation_in _ (Permutation_sym P)); now right). apply facing_opp in Fd; auto; [congruence|]. now apply (Lt d' k). }
      pose proof (opp_facing R S HR HS c Lc) as [X Y]. rewrite Mc in X, Y. destruct Cl as [C1 C2]. pose proof (Permutation_map (pos R S) P) as P'. unfold centred. rewrite (zsum_perm _ _ (Permutation_map fst P')), (zsum_perm _ _ (Permutation_map snd P')), (Permutation_length P'). cbn [map zsum fold_right length]. fold (zsum (map fst (map (pos R S) l))) (zsum (map snd (map (pos R S) l))). nia.
    + exfalso. rewrite <- Z.negb_even in Ok. apply negb_false_iff in Ok. destruct (C103_even k Ok) as [F _]. destruct (F c Ic) as (d' & Hd' & Ne & Fd). apply in_index in Hd'. apply facing_opp in Fd; auto; [congruence|]. now apply (Lt d' k).
Qed.
End Placed.

Lemma ceil_bounds a b : 0 < b -> b * (ceil_div a b - 1) < a <= b * ceil_div a b.
Proof. intros H. unfold ceil_div. pose proof (Z.mul_div_le (- a) b H). pose proof (Z.mul_succ_div_gt (- a) b H). set (q := - a / b) in *. clearbody q. nia. Qed.
(** All grids that are tried have room, and there is one. *)
Theorem C103_grids sum num : 0 < sum -> (forall a b, In (a, b) (grids None true sum num) -> 0 < a /\ 0 < b /\ sum <= a * b) /\ (0 < num -> grids None true sum num <> []).
Proof.
  intros Hs. assert (0 < temp_r sum) as Hr by (apply Z.sqrt_up_pos; exact Hs). assert (0 < temp_s sum) as Ht by (unfold temp_s; pose proof (ceil_bounds sum (temp_r sum) Hr); nia).
  assert (forall fuel want num r s a b, 0 < s -> In (a, b) (ratios fuel want sum num r s) -> 0 < a /\ 0 < b /\ sum <= a * b) as G.
  { induction fuel as [|f IH]; intros want nm r s a b Ps H; [destruct H|]. cbn [ratios] in H. destruct ((0 <? nm) && (0 <? r)) eqn:C; [|destruct H]. assert (0 < r) as Pr by lia. destruct (Bool.eqb (full_r sum r) want && Bool.eqb (full_s sum s) want).
    - pose proof (ceil_bounds sum r Pr). pose proof (ceil_bounds sum s Ps). destruct H as [H|[H|H]]; [injection H as <- <-; repeat split; nia|injection H as <- <-; repeat split; nia|]. apply (IH _ _ _ _ a b) in H; auto. lia.
    - apply (IH _ _ _ _ a b) in H; auto. lia. }
  unfold grids. cbn [app]. split.
  - intros a b. destruct (ratios (Z.to_nat (temp_r sum)) false sum num (temp_r sum) (temp_s sum)) as [|p l] eqn:E; [now apply G|]. rewrite <- E. now apply G.
  - intros Hn. assert (full_r sum (temp_r sum) = full_s sum (temp_s sum)) as Eq.
    { unfold full_r, full_s. fold (temp_s sum). pose proof (Z.sqrt_up_spec sum Hs) as Sq. fold (temp_r sum) in Sq. set (r0 := temp_r sum) in *. pose proof (ceil_bounds sum r0 Hr) as B1. fold (temp_s sum) in B1. change (ceil_div sum r0) with (temp_s sum) in B1. set (s0 := temp_s sum) in *. pose proof (ceil_bounds sum s0 Ht) as B2. set (q := ceil_div sum s0) in *. assert (r0 * s0 = sum <-> q * s0 = sum) as I; [|change (ceil_div sum r0) with s0; destruct (Z.eqb_spec (r0 * s0) sum), (Z.eqb_spec (q * s0) sum); tauto].
      clearbody s0 q r0. clear - Hs Hr Ht Sq B1 B2. split; intros E; [assert (r0 <= q) by nia; assert (q - 1 < r0) by nia; replace q with r0 by lia; exact E|]. assert (q - 1 < r0) by nia. assert (q <= r0) by lia. destruct (Z.eq_dec q r0) as [->|N]; [exact E|]. exfalso. assert (q <= r0 - 1) by lia. assert (s0 <= r0) by nia. assert (r0 - 1 < s0) by nia. assert (s0 = r0) by lia. subst s0. nia. }
    destruct (Z.to_nat (temp_r sum)) as [|f] eqn:Ef; [lia|]. cbn [ratios]. replace ((0 <? num) && (0 <? temp_r sum)) with true by lia. rewrite Eq. destruct (full_s sum (temp_s sum)); cbn [Bool.eqb andb]; [|discriminate]. destruct (ratios f false _ _ _ _); discriminate.
Qed.

(** A single capacitor of nine units is centred in a grid of three by three, but not in any of the grids that are tried. *)
Theorem C103_square_refuted : exists ki, (exists ev, place ki 3 3 false = Some ev /\ centred 3 3 (map (pos 3 3) (cap_index ev 0))) /\
  forall a b, In (a, b) (grids None true (zsum ki) 6) -> exists ev, place ki a b false = Some ev /\ ~ centred a b (map (pos a b) (cap_index ev 0)).
Proof.
  exists [9]. split; [eexists; split; [vm_compute; reflexivity|vm_compute; auto]|]. intros a b H. vm_compute in H. destruct H as [H|[H|[]]]; injection H as <- <-; (eexists; split; [vm_compute; reflexivity|]); vm_compute; intuition discriminate.
Qed.
(** The same grid is tried twice. *)
Theorem C103_twice_refuted : exists sum, ~ NoDup (grids None true sum 6).
Proof. exists 3. vm_compute. intros H. inversion H; subst. apply H2. now left. Qed.
(** A grid given by the user is tried without looking at its size: the units do not fit. *)
Theorem C103_user_refuted : exists ki a b, In (a, b) (grids (Some (a, b)) true (zsum ki) 6) /\ place ki a b false = None.
Proof. exists [5], 2, 2. split; [now left|reflexivity]. Qed.

Example C103_nonvacuous : exists ev, place [3; 3; 2; 1] 3 3 true = Some ev /\ map (cap_index ev) [0; 1; 2; 3]%nat = [[13; 6; 18]; [11; 8; 16]; [7; 17]; [12]]%nat /\
  length (dummies 5 5 ev) = 16%nat /\ centred 5 5 (map (pos 5 5) [7; 17]%nat) /\ ~ centred 5 5 (map (pos 5 5) [13; 6; 18]%nat).
Proof. eexists. split; [vm_compute; reflexivity|]. vm_compute. intuition discriminate. Qed.

Print Assumptions C103_caps.
Print Assumptions C103_room.
Print Assumptions C103_counts.
Print Assumptions C103_even.
Print Assumptions C103_odd.
Print Assumptions C103_near.
Print Assumptions C103_spare.
Print Assumptions C103_middle.
Print Assumptions C103_grids.
Print Assumptions C103_square_refuted.
Print Assumptions C103_twice_refuted.
Print Assumptions C103_user_refuted.
