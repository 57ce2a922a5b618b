(** The sequence of pairs of cells. *)
From Coq Require Import ZArith ZifyBool.
From Verif Require Import Base.Prelude Model.CapPlace Spec.CapPlaceSpec Proofs.CapGridP.
Local Open Scope Z_scope.

Lemma nodup_map_in {A B} (f : A -> B) l : NoDup l -> (forall x y, In x l -> In y l -> f x = f y -> x = y) -> NoDup (map f l).
Proof.
  induction l as [|a l IH]; intros N I; [constructor|]. inversion N; subst. cbn. constructor.
  - intros H. apply in_map_iff in H. destruct H as (b & E & Hb). assert (b = a) by (apply I; [now right|now left|exact E]). now subst b.
  - apply IH; auto. intros x y Hx Hy. apply I; now right.
Qed.
Lemma filter_all_cells (f : pair -> bool) (g : nat -> bool) l : (forall p c, In p l -> In c (cells_of p) -> g c = f p) -> all_cells (filter f l) = filter g (all_cells l).
Proof.
  induction l as [|p l IH]; intros H; [reflexivity|]. cbn [filter]. change (all_cells (p :: l)) with (cells_of p ++ all_cells l). rewrite filter_app, <- (IH (fun q c Hq => H q c (or_intror Hq))). specialize (H p).
  assert (filter g (cells_of p) = if f p then cells_of p else []) as ->.
  { assert (forall c, In c (cells_of p) -> g c = f p) as H' by (intros c Hc; apply H; [now left|exact Hc]). clear - H'. induction (cells_of p) as [|c t IH]; [now destruct (f p)|]. cbn. rewrite (H' c) by now left. rewrite IH by (intros d Hd; apply H'; now right). now destruct (f p). }
  now destruct (f p).
Qed.
Lemma sorted_filter {A} (R : A -> A -> Prop) f l : StronglySorted R l -> StronglySorted R (filter f l).
Proof.
  induction l as [|a l IH]; intros S; [constructor|]. inversion S; subst. cbn. destruct (f a); [|auto]. constructor; auto. rewrite Forall_forall in *. intros b Hb. apply filter_In in Hb. now apply H2.
Qed.
Lemma perm_filter {A} (f : A -> bool) l l' : Permutation l l' -> Permutation (filter f l) (filter f l').
Proof.
  induction 1 as [|x l l' P IH|x y l|l l' l'' P IH P' IH']; cbn.
  - constructor.
  - destruct (f x); auto.
  - destruct (f x), (f y); auto. apply perm_swap.
  - now transitivity (filter f l').
Qed.
Lemma in_caps r s p : In p (caps r s) <-> in_grid r s p.
Proof.
  unfold caps, zrange, in_grid. destruct p as [x y]. rewrite in_flat_map. cbn. split.
  - intros (i & Hi & Hp). apply in_map_iff in Hi, Hp. destruct Hi as (a & <- & Ha), Hp as (j & E & Hj). apply in_map_iff in Hj. destruct Hj as (b & <- & Hb). injection E as <- <-. apply in_seq in Ha, Hb. lia.
  - intros [Hx Hy]. exists x. split; [apply in_map_iff; exists (Z.to_nat x); split; [lia|apply in_seq; lia]|]. apply in_map_iff. exists y. split; [reflexivity|]. apply in_map_iff. exists (Z.to_nat y). split; [lia|apply in_seq; lia].
Qed.
Lemma caps_map r s : caps r s = map (pos r s) (seq 0 (length (caps r s))).
Proof.
  apply (nth_ext _ _ (0, 0) (0, 0)); [now rewrite map_length, seq_length|]. intros k Hk. rewrite (nth_indep (map _ _) (0, 0) (pos r s 0)) by (rewrite map_length, seq_length; lia). rewrite map_nth, seq_nth by lia. reflexivity.
Qed.
Lemma caps_nodup r s : 0 < r -> 0 < s -> NoDup (caps r s).
Proof. intros Hr Hs. rewrite caps_map. apply nodup_map_in; [apply seq_NoDup|]. intros x y Hx Hy. apply in_seq in Hx, Hy. apply pos_inj; auto; lia. Qed.
Lemma inner_count r s : 0 < r -> 0 < s -> Z.of_nat (length (filter (not_on_border (r + 2) (s + 2)) (seq 0 (length (caps (r + 2) (s + 2)))))) = r * s.
Proof.
  intros Hr Hs. set (A := filter _ _). rewrite <- (map_length (pos (r + 2) (s + 2)) A). rewrite (Permutation_length (l' := map (fun p => (fst p + 1, snd p + 1)) (caps r s))).
  - rewrite map_length. apply n_is; auto.
  - apply NoDup_Permutation.
    + apply nodup_map_in; [apply NoDup_filter, seq_NoDup|]. intros x y Hx Hy. apply filter_In in Hx, Hy. destruct Hx as [Hx _], Hy as [Hy _]. apply in_seq in Hx, Hy. apply pos_inj; lia.
    + apply nodup_map_in; [now apply caps_nodup|]. intros [a b] [c d] _ _ E. cbn in E. injection E as E1 E2. f_equal; lia.
    + intros [x y]. rewrite !in_map_iff. split.
      * intros (c & E & Hc). unfold A in Hc. apply filter_In in Hc. destruct Hc as [Hc Hb]. apply in_seq in Hc. apply border_is in Hb; [|lia|lia|lia]. rewrite E in Hb. unfold inside_border in Hb. cbn in Hb. exists (x - 1, y - 1). cbn. split; [f_equal; lia|]. apply in_caps. unfold in_grid. cbn. lia.
      * intros ([a b] & E & Hc). injection E as <- <-. apply in_caps in Hc. unfold in_grid in Hc. cbn in Hc. destruct (pos_onto (r + 2) (s + 2) ltac:(lia) ltac:(lia) (a + 1, b + 1)) as (c & Lc & Ec); [unfold in_grid; cbn; lia|]. exists c. split; [exact Ec|]. unfold A. apply filter_In. split; [apply in_seq; lia|]. apply border_is; [lia|lia|exact Lc|]. rewrite Ec. unfold inside_border. cbn. lia.
Qed.

Record seq_ok (r s : Z) (dom : nat -> Prop) (cs mid ps : list pair) : Prop := {
  q_app : cs = mid ++ ps;
  q_mid : mid = [] \/ exists c, mid = [(c, None)] /\ (c < length (caps r s))%nat /\ opp r s c = c;
  q_faced : Forall (faced r s) ps;
  q_nodup : NoDup (all_cells cs);
  q_in : forall z, In z (all_cells cs) <-> (z < length (caps r s))%nat /\ dom z;
  q_sorted : StronglySorted (nearer r s) ps
}.
Section Seq.
Variables r s : Z.
Hypotheses (Hr : 0 < r) (Hs : 0 < s).
Let n := length (caps r s).
Lemma pairs_ok l : Permutation (seq 0 n) l -> sorted r s l -> exists cs mid ps, pairs_of r s l = Some cs /\ seq_ok r s (fun _ => True) cs mid ps.
Proof.
  intros P S. assert (forall z, In z l <-> (z < n)%nat) as Il. { intros z. split; intros H; [apply (Permutation_in _ (Permutation_sym P)) in H; apply in_seq in H; lia|apply (Permutation_in _ P), in_seq; lia]. }
  assert (NoDup l) as N by (apply (Permutation_NoDup P), seq_NoDup). assert (Forall (fun y => (y < n)%nat) l) as F by (apply Forall_forall; intros z; apply Il). pose proof (n_pos r s Hr Hs) as Np. fold n in Np.
  destruct l as [|x [|y t]].
  - apply Permutation_sym, Permutation_nil in P. apply (f_equal (@length nat)) in P. rewrite seq_length in P. cbn in P. lia.
  - apply Permutation_length in P. rewrite seq_length in P. cbn in P. assert (x = 0)%nat by (pose proof (proj1 (Il x) (or_introl eq_refl)); lia). subst x. exists [(0%nat, None)], [(0%nat, None)], []. split; [reflexivity|]. constructor; cbn; auto.
    + right. exists 0%nat. unfold opp. fold n. split; [reflexivity|]. lia.
    + intros z. fold n. clear - P. split; [intros [<-|[]]; split; auto; lia|]. intros [H _]. left. lia.
    + constructor.
  - assert (forall z, opp r s z = (n - 1 - z)%nat) as Op by reflexivity. assert (x < n)%nat as Lx by (apply Il; now left). assert (y < n)%nat as Ly by (apply Il; right; now left). inversion N as [|? ? Nx Nt]; subst. inversion S as [|? ? Sl Sx]; subst. inversion F as [|? ? _ Fl]; subst. rewrite Forall_forall in Sx.
    assert (forall z, In z (y :: t) -> dis r s y <= dis r s z) as Sy. { inversion Sl as [|? ? _ Q]; subst. rewrite Forall_forall in Q. intros z [<-|Hz]; [lia|auto]. }
    cbn [pairs_of]. destruct (dis r s x <? dis r s y) eqn:L.
    + assert (opp r s x = x) as Ox. { destruct (Nat.eq_dec (opp r s x) x) as [E|E]; [exact E|]. assert (In (opp r s x) (x :: y :: t)) as [Q|Q] by (apply Il; now apply opp_lt); [congruence|]. apply Sy in Q. rewrite dis_opp in Q by auto. lia. }
      destruct (mates_ok r s Hr Hs (y :: t) Fl Sl Nt) as (I1 & I2 & I3 & I4). set (ps := mates r s (y :: t)) in *. exists ((x, None) :: ps), [(x, None)], ps. split; [reflexivity|].
      assert (forall z, In z (all_cells ((x, None) :: ps)) <-> (z < n)%nat) as Iz. { intros z. cbn [all_cells flat_map cells_of fst snd app]. fold (all_cells ps). cbn [In]. rewrite I1, <- Il. cbn [In]. split; [intuition|]. intros H. destruct (Nat.eq_dec x z) as [E|E]; [now left|right]. assert (In z (y :: t)) as Q by (cbn; intuition). assert (z < n)%nat as Lz by (apply Il; now right). split; [exact Q|].
        assert (opp r s z <> x) as Nz by (rewrite Op in *; lia). assert (In (opp r s z) (x :: y :: t)) as [W|W] by (apply Il; now apply opp_lt); [congruence|]. split; [exact W|]. rewrite Op in *. lia. }
      constructor; auto.
      * right. exists x. auto.
      * cbn [all_cells flat_map cells_of fst snd app]. fold (all_cells ps). constructor; [rewrite I1; tauto|exact I2].
      * intros z. rewrite Iz. tauto.
    + destruct (mates_ok r s Hr Hs (x :: y :: t) F S N) as (I1 & I2 & I3 & I4). set (ps := mates r s (x :: y :: t)) in *. exists ps, [], ps. split; [reflexivity|]. constructor; auto. intros z. rewrite I1, Il. split; [tauto|]. intros [Lz _]. split; [exact Lz|]. split; [apply Il; now apply opp_lt|].
      intros E. apply dis_zero in E; auto. pose proof (dis_pos r s Hs x) as Px. assert (dis r s x <= 0) as Q. { assert (In z (x :: y :: t)) as [<-|H] by (now apply Il); [lia|]. apply Sx in H. lia. }
      pose proof (dis_pos r s Hs y) as Py. assert (opp r s x = x) by (apply dis_zero; auto; lia). assert (opp r s y = y) by (apply dis_zero; auto; lia). assert (x = y) by (rewrite Op in *; lia). subst y. apply Nx. now left.
Qed.
End Seq.
Lemma in_all_cells c p l : In p l -> In c (cells_of p) -> In c (all_cells l).
Proof. intros Hp Hc. apply in_flat_map. now exists p. Qed.
Theorem sequence_ok r s dummy : 0 < r -> 0 < s -> let R := full dummy r in let S := full dummy s in
  exists cs mid ps, cap_pair_sequence R S dummy = Some cs /\ seq_ok R S (fun c => dummy = true -> inside_border R S (pos R S c)) cs mid ps /\ Z.of_nat (length (all_cells cs)) = r * s.
Proof.
  intros Hr Hs R S. assert (0 < R /\ 0 < S) as [HR HS] by (unfold R, S, full; destruct dummy; lia). set (n := length (caps R S)).
  destruct (exchange_ok R S HS n (seq 0 n)) as [P So]; [rewrite seq_length; lia|]. destruct (pairs_ok R S HR HS _ P So) as (cs & mid & ps & E & Q). unfold cap_pair_sequence. fold n. rewrite E. destruct Q as [Qa Qm Qf Qn Qi Qs].
  assert (Permutation (all_cells cs) (seq 0 n)) as Pc. { apply NoDup_Permutation; [exact Qn|apply seq_NoDup|]. intros z. rewrite Qi, in_seq. fold n. lia. }
  destruct dummy.
  - assert (forall p c, In p cs -> In c (cells_of p) -> not_on_border R S c = inner R S p) as G.
    { intros p c Hp Hc. rewrite Qa in Hp. apply in_app_or in Hp. unfold inner. destruct Hp as [Hp|Hp].
      - destruct Qm as [->|(m & -> & _)]; [destruct Hp|]. destruct Hp as [<-|[]]. destruct Hc as [<-|[]]. cbn. now rewrite andb_true_r.
      - rewrite Forall_forall in Qf. destruct (Qf p Hp) as (F1 & F2 & F3). rewrite F2. unfold cells_of in Hc. rewrite F2 in Hc. rewrite border_opp by auto. rewrite andb_diag. destruct Hc as [<-|[<-|[]]]; [reflexivity|]. now apply border_opp. }
    exists (filter (inner R S) cs), (filter (inner R S) mid), (filter (inner R S) ps). split; [reflexivity|]. split; [constructor|].
    + now rewrite Qa, filter_app.
    + destruct Qm as [->|(c & -> & Hc & Ho)]; [now left|]. cbn [filter]. destruct (inner R S (c, None)); [right; now exists c|now left].
    + rewrite Forall_forall in *. intros p Hp. apply filter_In in Hp. now apply Qf.
    + rewrite (filter_all_cells _ _ _ G). now apply NoDup_filter.
    + intros z. rewrite (filter_all_cells _ _ _ G), filter_In, Qi. split.
      * intros [[H _] B]. split; [exact H|]. intros _. now apply border_is.
      * intros [H B]. split; [now split|]. apply border_is; auto.
    + now apply sorted_filter.
    + rewrite (filter_all_cells _ _ _ G). assert (Permutation (filter (not_on_border R S) (all_cells cs)) (filter (not_on_border R S) (seq 0 n))) as Pf.
      { now apply perm_filter. }
      rewrite (Permutation_length Pf). now apply inner_count.
  - exists cs, mid, ps. split; [reflexivity|]. split; [constructor; auto; intros z; rewrite Qi; intuition discriminate|]. rewrite (Permutation_length Pc), seq_length. now apply n_is.
Qed.
