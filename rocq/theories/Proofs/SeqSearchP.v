(** Proofs about the walk through all sequence pairs and variants, and about the search. *)
From Coq Require Import ZifyBool.
From Verif Require Import Base.Prelude Model.SeqEnum Spec.SeqEnumSpec Proofs.SeqEnumP.
Local Open Scope Z_scope.

(** * Counters *)

Fixpoint digits (ls : list nat) : list (list nat) :=
  match ls with
  | [] => [[]]
  | l :: t => flat_map (fun d => map (cons d) (digits t)) (seq 0 l)
  end.
Definition zeros (ls : list nat) : list nat := map (fun _ => 0%nat) ls.

Lemma digits_spec ls :
  Forall (fun l => (0 < l)%nat) ls ->
  steps (fun a b => bump ls a = (b, false)) (digits ls) /\
  (exists t, digits ls = zeros ls :: t) /\
  (exists t z, digits ls = t ++ [z] /\ bump ls z = (zeros ls, true)).
Proof.
  induction 1 as [|l ls Hl _ (IH1 & (t1 & IH2) & (t2 & z & IH3 & IH4))].
  - cbn. repeat split; [now exists []|now exists [], []].
  - cbn [digits]. split; [|split].
    + apply steps_flat.
      * intros d _. split.
        -- apply steps_map. eapply steps_impl; [|exact IH1]. intros a b _ _ E. cbn [bump]. now rewrite E.
        -- rewrite IH2. discriminate.
      * apply steps_seq. intros d _ Hd p1 a b p2 E1 E2.
        rewrite IH3, map_app in E1. cbn in E1. apply app_last in E1. subst a.
        rewrite IH2 in E2. cbn in E2. injection E2 as <- _.
        cbn [bump]. rewrite IH4. cbn in Hd. destruct (l <=? d + 1)%nat eqn:E; [lia|].
        now rewrite Nat.add_1_r.
    + destruct l as [|l]; [lia|]. cbn [seq flat_map]. rewrite IH2. cbn. now eexists.
    + destruct l as [|l]; [lia|]. rewrite seq_S, flat_map_app. cbn [flat_map]. rewrite app_nil_r, IH3, map_app, app_assoc.
      cbn [map Nat.add]. eexists _, _. split; [reflexivity|]. cbn [bump]. rewrite IH4.
      destruct (S l <=? l + 1)%nat eqn:E; [reflexivity|lia].
Qed.

Lemma digits_in ls c : In c (digits ls) <-> Forall2 lt c ls.
Proof.
  revert c. induction ls as [|l ls IH]; intros c; cbn [digits].
  - split; [intros [<-|[]]; constructor|]. intros H. inversion H. now left.
  - rewrite in_flat_map. split.
    + intros (d & Hd & Hc). apply in_seq in Hd. apply in_map_iff in Hc as (c' & <- & Hc). constructor; [lia|now apply IH].
    + intros H. inversion H as [|d ? c' ? Hd Hc]; subst. exists d. split; [apply in_seq; lia|].
      apply in_map. now apply IH.
Qed.

Lemma digits_nodup ls : NoDup (digits ls).
Proof.
  induction ls as [|l ls IH]; cbn [digits]; [repeat constructor; intros []|].
  apply nodup_flat; [apply seq_NoDup| |].
  - intros d _. apply FinFun.Injective_map_NoDup; auto. intros a b E. now injection E.
  - intros x y a _ _ Hx Hy. apply in_map_iff in Hx as (? & <- & _). apply in_map_iff in Hy as (? & E & _). now injection E.
Qed.

Fixpoint product (ls : list nat) : nat := match ls with [] => 1%nat | l :: t => (l * product t)%nat end.
Lemma digits_len ls : length (digits ls) = product ls.
Proof.
  induction ls as [|l ls IH]; [reflexivity|]. cbn [digits product].
  rewrite (flat_len _ _ _ _ (product ls)); [now rewrite seq_length|]. intros; rewrite map_length; exact IH.
Qed.

(** * The walk *)

Lemma map_flat A B X (f : A -> B) (g : X -> list A) xs : map f (flat_map g xs) = flat_map (fun x => map f (g x)) xs.
Proof. induction xs as [|x xs IH]; [reflexivity|]. cbn. now rewrite map_app, IH. Qed.

Section Walk.
Context (s : setup) (M : nat) (P Q : nat -> list nat).
Hypothesis Hmax : s_max s = Z.of_nat M.
Hypothesis HM : (0 < M)%nat.
Hypothesis Hlim : Forall (fun l => (0 < l)%nat) (s_limits s).
Hypothesis Hsize : Forall (fun l => Z.of_nat l <= s_maxsize s) (s_limits s).
Hypothesis Hpos : forall i, (S i < M)%nat ->
  (if is_ordered s then pick (s_pos s) (Z.of_nat i + 1) else next_permutation (P i)) = P (S i).
Hypothesis Hneg0 : forall j, (j < M)%nat ->
  (if is_ordered s then pick (s_neg s) 0 else sorted (Q j)) = Q 0%nat.
Hypothesis Hneg : forall j, (S j < M)%nat ->
  (if is_ordered s then pick (s_neg s) (Z.of_nat j + 1) else next_permutation (Q j)) = Q (S j).

Definition st (i j : nat) (c : list nat) : enum :=
  Enum (P i) (Q j) (view_sel s c) c (Z.of_nat i) (Z.of_nat j) false.
Definition walk : list enum :=
  flat_map (fun i => flat_map (fun j => map (st i j) (digits (s_limits s))) (seq 0 M)) (seq 0 M).

Lemma bump_ones ls c :
  Forall (fun l => (0 < l)%nat) ls -> Forall (fun l => Z.of_nat l <= 1) ls -> Forall2 lt c ls ->
  c = zeros ls /\ bump ls c = (zeros ls, true).
Proof.
  intros H1 H2 H3. revert H1 H2. induction H3 as [|d l c ls Hd _ IH]; intros H1 H2; [auto|].
  inversion H1; inversion H2; subst. destruct IH as [-> E]; auto. cbn [bump zeros map]. rewrite E.
  replace d with 0%nat by lia. split; [reflexivity|]. cbn [Nat.add]. destruct (l <=? 1)%nat eqn:E1; [reflexivity|lia].
Qed.

Lemma increment_st i j c :
  In c (digits (s_limits s)) ->
  increment s (st i j c) = (let (c', carry) := bump (s_limits s) c in (st i j c', negb carry)).
Proof.
  intros Hc. apply digits_in in Hc. unfold increment.
  destruct (s_maxsize s <=? 1) eqn:E1; cbn [orb].
  - destruct (bump_ones (s_limits s) c) as [-> ->]; auto.
    apply Forall_forall. intros l Hl. rewrite Forall_forall in Hsize. apply Hsize in Hl. lia.
  - destruct (s_limits s) as [|l ls] eqn:El.
    + inversion Hc; subst. reflexivity.
    + cbn [e_cnt st e_pos e_neg e_i e_j e_out]. destruct (bump (l :: ls) c) as [c' carry]. reflexivity.
Qed.

Lemma permute_more i j c c' :
  (i < M)%nat -> In c (digits (s_limits s)) -> bump (s_limits s) c = (c', false) -> permute s (st i j c) = st i j c'.
Proof.
  intros Hi Hc E. unfold permute. cbn [st e_out]. rewrite (increment_st i j c Hc), E. cbn [negb].
  cbn [st e_i]. rewrite Hmax. destruct (Z.of_nat M <=? Z.of_nat i) eqn:E2; [lia|reflexivity].
Qed.

Lemma permute_neg i j c :
  (i < M)%nat -> (S j < M)%nat -> In c (digits (s_limits s)) -> bump (s_limits s) c = (zeros (s_limits s), true) ->
  permute s (st i j c) = st i (S j) (zeros (s_limits s)).
Proof.
  intros Hi Hj Hc E. unfold permute. cbn [st e_out]. rewrite (increment_st i j c Hc), E. cbn [negb].
  cbn [st e_i e_j e_pos e_neg e_sel e_cnt e_out]. rewrite Hmax.
  destruct (Z.of_nat M - 1 <=? Z.of_nat j) eqn:E1; [lia|].
  pose proof (Hneg j Hj) as HQ. destruct (is_ordered s); rewrite HQ; cbn [e_i e_pos e_neg e_sel e_cnt e_j];
    (destruct (Z.of_nat M <=? Z.of_nat i) eqn:E2; [lia|]); unfold st; f_equal; lia.
Qed.

Lemma permute_pos i j c :
  (S i < M)%nat -> S j = M -> In c (digits (s_limits s)) -> bump (s_limits s) c = (zeros (s_limits s), true) ->
  permute s (st i j c) = st (S i) 0 (zeros (s_limits s)).
Proof.
  intros Hi Hj Hc E. unfold permute. cbn [st e_out]. rewrite (increment_st i j c Hc), E. cbn [negb].
  cbn [st e_i e_j e_pos e_neg e_sel e_cnt e_out]. rewrite Hmax.
  destruct (Z.of_nat M - 1 <=? Z.of_nat j) eqn:E1; [|lia].
  pose proof (Hpos i Hi) as HP. pose proof (Hneg0 j ltac:(lia)) as HQ.
  destruct (is_ordered s); rewrite HP, HQ; cbn [e_i e_pos e_neg e_sel e_cnt e_j];
    (destruct (Z.of_nat M <=? Z.of_nat i + 1) eqn:E2; [lia|]); unfold st; f_equal; lia.
Qed.

Lemma permute_end i j c :
  S i = M -> S j = M -> In c (digits (s_limits s)) -> bump (s_limits s) c = (zeros (s_limits s), true) ->
  e_out (permute s (st i j c)) = true.
Proof.
  intros Hi Hj Hc E. unfold permute. cbn [st e_out]. rewrite (increment_st i j c Hc), E. cbn [negb].
  cbn [st e_i e_j e_pos e_neg e_sel e_cnt e_out]. rewrite Hmax.
  destruct (Z.of_nat M - 1 <=? Z.of_nat j) eqn:E1; [|lia].
  destruct (is_ordered s); cbn [e_i];
    (destruct (Z.of_nat M <=? Z.of_nat i + 1) eqn:E2; [reflexivity|lia]).
Qed.

Lemma walk_steps : steps (fun a b => permute s a = b) walk.
Proof.
  destruct (digits_spec _ Hlim) as (D1 & (t1 & D2) & (t2 & z & D3 & D4)).
  assert (In z (digits (s_limits s))) as Hz by (rewrite D3; apply in_elt).
  unfold walk. apply steps_flat.
  - intros i Hi. apply in_seq in Hi. split.
    + apply steps_flat.
      * intros j Hj. split.
        -- apply steps_map. eapply steps_impl; [|exact D1]. intros a b Ha _ E. apply permute_more; auto. lia.
        -- rewrite D2. discriminate.
      * apply steps_seq. intros j _ Hj p1 a b p2 E1 E2.
        rewrite D3, map_app in E1. cbn in E1. apply app_last in E1. subst a.
        rewrite D2 in E2. cbn in E2. injection E2 as <- _. apply permute_neg; auto; lia.
    + destruct M as [|m]; [lia|]. cbn [seq flat_map]. rewrite D2. discriminate.
  - apply steps_seq. intros i _ Hi p1 a b p2 E1 E2.
    destruct M as [|m] eqn:EM; [lia|].
    rewrite seq_S, flat_map_app in E1. cbn [flat_map] in E1. rewrite app_nil_r, D3, map_app, app_assoc in E1.
    cbn [map Nat.add] in E1. apply app_last in E1. subst a.
    cbn [seq flat_map] in E2. rewrite D2 in E2. cbn in E2. injection E2 as <- _.
    rewrite <- EM in *. apply permute_pos; auto; lia.
Qed.

Lemma walk_first : exists t, walk = st 0 0 (zeros (s_limits s)) :: t.
Proof.
  destruct (digits_spec _ Hlim) as (_ & (t1 & D2) & _).
  unfold walk. destruct M as [|m]; [lia|]. cbn [seq flat_map]. rewrite D2. cbn. now eexists.
Qed.

Lemma walk_last : exists t e, walk = t ++ [e] /\ e_out (permute s e) = true.
Proof.
  destruct (digits_spec _ Hlim) as (_ & _ & (t2 & z & D3 & D4)).
  assert (In z (digits (s_limits s))) as Hz by (rewrite D3; apply in_elt).
  destruct (Nat.lt_exists_pred 0 M HM) as (m & EM & _).
  unfold walk. rewrite EM. rewrite seq_S, !flat_map_app. cbn [flat_map]. rewrite !app_nil_r, flat_map_app. cbn [flat_map].
  rewrite app_nil_r, D3, map_app, !app_assoc. cbn [map Nat.add].
  eexists _, _. split; [reflexivity|]. apply permute_end; auto; lia.
Qed.

Lemma walk_in e : In e walk <-> exists i j c, (i < M)%nat /\ (j < M)%nat /\ In c (digits (s_limits s)) /\ e = st i j c.
Proof. clear Hmax HM Hlim Hsize Hpos Hneg0 Hneg.
  unfold walk. rewrite in_flat_map. split.
  - intros (i & Hi & H). apply in_flat_map in H as (j & Hj & H). apply in_map_iff in H as (c & <- & Hc).
    apply in_seq in Hi, Hj. exists i, j, c. repeat split; auto; lia.
  - intros (i & j & c & Hi & Hj & Hc & ->). exists i. split; [apply in_seq; lia|].
    apply in_flat_map. exists j. split; [apply in_seq; lia|]. now apply in_map.
Qed.

Lemma walk_len : length walk = (M * M * product (s_limits s))%nat.
Proof. clear Hmax HM Hlim Hsize Hpos Hneg0 Hneg.
  unfold walk. rewrite (flat_len _ _ _ _ (M * product (s_limits s))%nat).
  - rewrite seq_length. lia.
  - intros i _. rewrite (flat_len _ _ _ _ (product (s_limits s))).
    + now rewrite seq_length.
    + intros j _. now rewrite map_length, digits_len.
Qed.

Lemma visits_walk fuel : visits fuel s (st 0 0 (zeros (s_limits s))) = firstn fuel (map view walk).
Proof.
  pose proof walk_steps as Hs. destruct walk_first as (t & E). destruct walk_last as (t' & e & El & Ho).
  assert (forall e, In e walk -> e_out e = false) as Hout.
  { intros x Hx. apply walk_in in Hx as (i & j & c & _ & _ & _ & ->). reflexivity. }
  enough (forall l x, (exists l1, walk = l1 ++ x :: l) -> forall f, visits f s x = firstn f (map view (x :: l))) as H.
  { rewrite E. apply H. exists []. exact E. }
  induction l as [|y l IH]; intros x (l1 & Ew) f.
  - assert (x = e) as -> by (rewrite El in Ew; now apply app_last in Ew).
    destruct f as [|f]; cbn [visits firstn map].
    + destruct (e_out e); reflexivity.
    + rewrite (Hout e) by (rewrite El; apply in_elt).
      f_equal. destruct f; cbn [visits]; rewrite Ho; reflexivity.
  - destruct f as [|f].
    + cbn [visits firstn]. destruct (e_out x); reflexivity.
    + cbn [visits]. rewrite (Hout x) by (rewrite Ew; apply in_elt).
      change (firstn (S f) (map view (x :: y :: l))) with (view x :: firstn f (map view (y :: l))).
      f_equal. assert (permute s x = y) as ->.
      { rewrite Ew in Hs. clear -Hs. induction l1 as [|a l1 IHl]; cbn in Hs; [tauto|].
        apply IHl. destruct (l1 ++ x :: y :: l) eqn:E; [destruct l1; discriminate|]. apply Hs. }
      apply IH. exists (l1 ++ [x]). now rewrite <- app_assoc.
Qed.

(** The search over all of the walk. *)
Definition note_cost (cost : candidate -> Z) (size : nat) (o : list (Z * candidate)) (x : candidate) :=
  if 0 <=? cost x then firstn size (put_cost (cost x) x o) else o.

Lemma search_walk cost size fuel o :
  search fuel cost size s (st 0 0 (zeros (s_limits s))) o =
  if (length walk <=? fuel)%nat then Some (fold_left (note_cost cost size) (map view walk) o) else None.
Proof.
  pose proof walk_steps as Hs. destruct walk_first as (t & E). destruct walk_last as (t' & e & El & Ho).
  assert (forall e, In e walk -> e_out e = false) as Hout.
  { intros x Hx. apply walk_in in Hx as (i & j & c & _ & _ & _ & ->). reflexivity. }
  enough (forall l x, (exists l1, walk = l1 ++ x :: l) -> forall f o,
     search f cost size s x o =
     if (length (x :: l) <=? f)%nat then Some (fold_left (note_cost cost size) (map view (x :: l)) o) else None) as H.
  { rewrite E. apply H. exists []. exact E. }
  induction l as [|y l IH]; intros x (l1 & Ew) f o0.
  - assert (x = e) as -> by (rewrite El in Ew; now apply app_last in Ew).
    destruct f as [|f]; cbn [search].
    + rewrite (Hout e) by (rewrite El; apply in_elt). reflexivity.
    + rewrite (Hout e) by (rewrite El; apply in_elt).
      destruct f; cbn [search length Nat.leb]; rewrite Ho; reflexivity.
  - destruct f as [|f]; cbn [search]; rewrite (Hout x) by (rewrite Ew; apply in_elt).
    + reflexivity.
    + assert (permute s x = y) as ->.
      { rewrite Ew in Hs. clear -Hs. induction l1 as [|a l1 IHl]; cbn in Hs; [tauto|].
        apply IHl. destruct (l1 ++ x :: y :: l) eqn:E; [destruct l1; discriminate|]. apply Hs. }
      rewrite IH by (exists (l1 ++ [x]); now rewrite <- app_assoc).
      reflexivity.
Qed.

Lemma views_in p q sl :
  In (p, q, sl) (map view walk) <->
  exists i j c, (i < M)%nat /\ (j < M)%nat /\ Forall2 lt c (s_limits s) /\ p = P i /\ q = Q j /\ sl = view_sel s c.
Proof. clear Hmax HM Hlim Hsize Hpos Hneg0 Hneg.
  rewrite in_map_iff. split.
  - intros (e & Ev & He). apply walk_in in He as (i & j & c & Hi & Hj & Hc & ->).
    cbn in Ev. injection Ev as <- <- <-. exists i, j, c. rewrite <- digits_in. auto 10.
  - intros (i & j & c & Hi & Hj & Hc & -> & -> & ->). exists (st i j c). split; [reflexivity|].
    apply walk_in. exists i, j, c. rewrite digits_in. auto 10.
Qed.

Lemma views_nodup :
  (forall i j, (i < M)%nat -> (j < M)%nat -> P i = P j -> i = j) ->
  (forall i j, (i < M)%nat -> (j < M)%nat -> Q i = Q j -> i = j) ->
  (forall c c', Forall2 lt c (s_limits s) -> Forall2 lt c' (s_limits s) -> view_sel s c = view_sel s c' -> c = c') ->
  NoDup (map view walk).
Proof. clear Hmax HM Hlim Hsize Hpos Hneg0 Hneg.
  intros HP HQ HV. unfold walk.
  replace (map view (flat_map (fun i => flat_map (fun j => map (st i j) (digits (s_limits s))) (seq 0 M)) (seq 0 M)))
    with (flat_map (fun i => flat_map (fun j => map (fun c => (P i, Q j, view_sel s c)) (digits (s_limits s))) (seq 0 M)) (seq 0 M)).
  - apply nodup_flat; [apply seq_NoDup| |].
    + intros i _. apply nodup_flat; [apply seq_NoDup| |].
      * intros j _. assert (forall l, incl l (digits (s_limits s)) -> NoDup l ->
          NoDup (map (fun c => (P i, Q j, view_sel s c)) l)) as Hm.
        { induction l as [|c l IH]; intros Hi Hn; cbn; constructor; inversion Hn; subst.
          - intros Hx. apply in_map_iff in Hx as (c' & Ec & Hc'). injection Ec as Ec.
            assert (c' = c); [|congruence].
            apply HV; auto; apply digits_in, Hi; [now right|now left].
          - apply IH; auto. intros x Hx. apply Hi. now right. }
        apply Hm; [apply incl_refl|apply digits_nodup].
      * intros x y a Hx Hy H1 H2. apply in_seq in Hx, Hy.
        apply in_map_iff in H1 as (c & <- & _). apply in_map_iff in H2 as (c' & Ec & _). injection Ec as Ec _.
        symmetry. apply HQ; auto; lia.
    + intros x y a Hx Hy H1 H2. apply in_seq in Hx, Hy.
      apply in_flat_map in H1 as (? & _ & H1). apply in_flat_map in H2 as (? & _ & H2).
      apply in_map_iff in H1 as (c & <- & _). apply in_map_iff in H2 as (c' & Ec & _). injection Ec as Ec _ _.
      symmetry. apply HP; auto; lia.
  - rewrite map_flat. apply flat_map_ext. intros i. rewrite map_flat. apply flat_map_ext. intros j.
    rewrite map_map. reflexivity.
Qed.
End Walk.

(** * The counters of the blocks *)

Lemma fold_map_last (ks : list (nat * list nat)) m i :
  fold_left (fun m kg => fun i => if has i (snd kg) then Some (fst kg) else m i) ks m i =
  match find (fun kg => has i (snd kg)) (rev ks) with Some kg => Some (fst kg) | None => m i end.
Proof.
  revert m. induction ks as [|kg ks IH]; intros m; [reflexivity|].
  cbn [fold_left rev]. rewrite IH.
  assert (forall l x, find (fun kg : nat * list nat => has i (snd kg)) (l ++ [x]) =
     match find (fun kg => has i (snd kg)) l with Some y => Some y | None => if has i (snd x) then Some x else None end) as Hf.
  { intros l x. induction l as [|y l IHl]; [reflexivity|]. cbn. destruct (has i (snd y)); auto. }
  rewrite Hf. destruct (find _ (rev ks)); auto. destruct (has i (snd kg)); auto.
Qed.

Lemma in_combine_seq A (l : list A) k x n : In (k, x) (combine (seq n (length l)) l) -> (n <= k)%nat /\ nth_error l (k - n) = Some x.
Proof.
  revert n. induction l as [|a l IH]; intros n; cbn; [intros []|].
  intros [E|H].
  - injection E as <- <-. split; [lia|]. now rewrite Nat.sub_diag.
  - apply IH in H as [H1 H2]. split; [lia|]. replace (k - n)%nat with (S (k - S n)) by lia. exact H2.
Qed.
Lemma combine_seq_in A (l : list A) k x n : nth_error l k = Some x -> In ((n + k)%nat, x) (combine (seq n (length l)) l).
Proof.
  revert n k. induction l as [|a l IH]; intros n k; [destruct k; discriminate|].
  destruct k as [|k]; cbn.
  - intros H. injection H as ->. left. f_equal. lia.
  - intros H. right. apply (IH (S n)) in H. now replace (n + S k)%nat with (S n + k)%nat by lia.
Qed.

Section Owners.
Context (d : design).
Hypothesis Hok : groups_ok d.
Hypothesis Hvar : variants_ok d.
Let G := length (d_groups d).
Let n := length (d_sizes d).

Lemma group_map_some i k :
  group_map d i = Some k <-> exists g, nth_error (d_groups d) k = Some g /\ In i g.
Proof.
  unfold group_map. rewrite fold_map_last. split.
  - destruct (find _ _) as [[k' g]|] eqn:E; [|discriminate]. intros H. injection H as <-. cbn.
    apply find_some in E as [E1 E2]. apply in_rev in E1. apply in_combine_seq in E1 as [_ E1].
    rewrite Nat.sub_0_r in E1. exists g. split; auto. now apply has_iff.
  - intros (g & Hg & Hi). destruct (find _ _) as [[k' g']|] eqn:E.
    + apply find_some in E as [E1 E2]. apply in_rev in E1. apply in_combine_seq in E1 as [_ E1].
      rewrite Nat.sub_0_r in E1. apply has_iff in E2. cbn in *. f_equal.
      destruct Hok as (_ & _ & Hd). exact (Hd k' k g' g i E1 Hg E2 Hi).
    + exfalso. pose proof (find_none _ _ E (k, g)) as H. cbn in H.
      rewrite (proj2 (has_iff i g) Hi) in H. discriminate H.
      apply -> in_rev. exact (combine_seq_in _ _ k g 0 Hg).
Qed.

Definition is_free (i : nat) : bool := match group_map d i with None => true | Some _ => false end.
Definition free (m : nat) : list nat := filter is_free (seq 0 m).
Definition owner (i : nat) : nat := match group_map d i with Some k => k | None => (G + length (free i))%nat end.

Lemma free_S m : free (S m) = free m ++ (if is_free m then [m] else []).
Proof. unfold free. rewrite seq_S, filter_app. cbn. destruct (is_free m); reflexivity. Qed.

Lemma counters_map_eq m :
  fold_left (fun (st : list nat * list nat) i =>
               let '(limits, owners) := st in
               match group_map d i with
               | Some k => (limits, owners ++ [k])
               | None => (limits ++ [nth i (d_sizes d) 0%nat], owners ++ [length limits])
               end) (seq 0 m) (group_counters d, []) =
  (group_counters d ++ map (fun i => nth i (d_sizes d) 0%nat) (free m), map owner (seq 0 m)).
Proof.
  induction m as [|m IH]; [cbn; now rewrite app_nil_r|].
  rewrite seq_S, fold_left_app, IH. cbn [fold_left Nat.add]. rewrite free_S, map_app, map_app. unfold is_free.
  unfold owner at 2 4. destruct (group_map d m) as [k|] eqn:E; cbn [map]; rewrite ?app_nil_r.
  - unfold owner. rewrite E. reflexivity.
  - unfold owner. rewrite E. rewrite <- app_assoc. f_equal. f_equal. f_equal.
    rewrite app_length, map_length. unfold group_counters. now rewrite map_length.
Qed.

Lemma limits_eq : limits d = group_counters d ++ map (fun i => nth i (d_sizes d) 0%nat) (free n).
Proof. unfold limits, counters_map. now rewrite counters_map_eq. Qed.
Lemma owners_eq : owners d = map owner (seq 0 n).
Proof. unfold owners, counters_map. now rewrite counters_map_eq. Qed.

(** A block that owns a counter. *)
Definition rep (k : nat) : nat :=
  if (k <? G)%nat then hd 0%nat (nth k (d_groups d) []) else nth (k - G) (free n) 0%nat.

Lemma free_at i m : (i < m)%nat -> is_free i = true -> exists t, free m = free i ++ i :: t.
Proof.
  intros Hi Hf. unfold free. replace m with (i + S (m - S i))%nat by lia.
  rewrite seq_app, filter_app. cbn [seq filter Nat.add]. rewrite Hf. now eexists.
Qed.

Lemma group_nth k : (k < G)%nat -> exists g, nth_error (d_groups d) k = Some g /\ nth k (d_groups d) [] = g /\ In (hd 0%nat g) g /\ In g (d_groups d).
Proof.
  intros Hk. destruct (nth_error (d_groups d) k) as [g|] eqn:E; [|apply nth_error_None in E; subst G; lia].
  exists g. pose proof (nth_error_In _ _ E) as Hg. split; [reflexivity|]. split; [now apply nth_error_nth|]. split; auto.
  destruct Hok as (H1 & _). destruct (H1 g Hg) as [Hne _]. destruct g; [congruence|now left].
Qed.

Lemma limits_len : length (limits d) = (G + length (free n))%nat.
Proof. rewrite limits_eq, app_length, map_length. unfold group_counters. now rewrite map_length. Qed.

Lemma rep_ok k : (k < length (limits d))%nat -> (rep k < n)%nat /\ owner (rep k) = k /\ nth k (limits d) 0%nat = nth (rep k) (d_sizes d) 0%nat.
Proof.
  rewrite limits_len. intros Hk. unfold rep. destruct (k <? G)%nat eqn:E.
  - apply Nat.ltb_lt in E. destruct (group_nth k E) as (g & Hg & Hn & Hh & Hin). rewrite Hn.
    destruct Hok as (H1 & _). destruct (H1 g Hin) as [_ Hb]. split; [now apply Hb|]. split.
    + unfold owner. rewrite (proj2 (group_map_some (hd 0%nat g) k)); [reflexivity|]. exists g. auto.
    + rewrite limits_eq, app_nth1 by (unfold group_counters; rewrite map_length; exact E).
      unfold group_counters. rewrite (nth_indep _ _ (nth (hd 0%nat []) (d_sizes d) 0%nat)) by (rewrite map_length; exact E).
      rewrite (map_nth (fun g => nth (hd 0%nat g) (d_sizes d) 0%nat)). now rewrite Hn.
  - apply Nat.ltb_ge in E. set (i := nth (k - G) (free n) 0%nat).
    assert (k - G < length (free n))%nat as Hl by lia.
    assert (In i (free n)) as Hi by now apply nth_In.
    pose proof Hi as Hi'. apply filter_In in Hi' as [Hs Hf]. apply in_seq in Hs.
    split; [lia|]. split.
    + unfold owner. unfold is_free in Hf. destruct (group_map d i) eqn:Eg; [discriminate|].
      destruct (free_at i n) as [t Ht]; [lia|unfold is_free; now rewrite Eg|].
      assert (NoDup (free n)) as Hnd by (apply NoDup_filter, seq_NoDup).
      enough (length (free i) = k - G)%nat by lia.
      eapply (proj1 (NoDup_nth (free n) 0%nat) Hnd).
      * rewrite Ht, app_length. cbn. lia.
      * exact Hl.
      * fold i. rewrite Ht. rewrite app_nth2 by lia. now rewrite Nat.sub_diag.
    + rewrite limits_eq, app_nth2 by (unfold group_counters; rewrite map_length; exact E).
      unfold group_counters. rewrite map_length. fold G.
      rewrite (nth_indep _ _ (nth 0 (d_sizes d) 0%nat)) by (rewrite map_length; lia).
      rewrite (map_nth (fun i => nth i (d_sizes d) 0%nat)). reflexivity.
Qed.

Lemma owner_ok i : (i < n)%nat ->
  (owner i < length (limits d))%nat /\ nth (owner i) (limits d) 0%nat = nth i (d_sizes d) 0%nat /\
  (rep (owner i) = i \/ exists g, In g (d_groups d) /\ In i g /\ In (rep (owner i)) g).
Proof.
  intros Hi. unfold owner. destruct (group_map d i) as [k|] eqn:E.
  - pose proof E as E'. apply group_map_some in E' as (g & Hg & Hin).
    assert (k < G)%nat as Hk by (apply nth_error_Some; congruence).
    assert (k < length (limits d))%nat as Hkl by (rewrite limits_len; lia).
    destruct (rep_ok k Hkl) as (_ & _ & Hr).
    destruct (group_nth k Hk) as (g' & Hg' & Hn & Hh & Hgi). rewrite Hg in Hg'. injection Hg' as <-.
    assert (rep k = hd 0%nat g) as Er by (unfold rep; rewrite (proj2 (Nat.ltb_lt k G) Hk), Hn; reflexivity).
    split; auto. split.
    + rewrite Hr, Er. destruct Hok as (_ & H2 & _). exact (H2 g _ _ Hgi Hh Hin).
    + right. exists g. rewrite Er. auto.
  - destruct (free_at i n Hi) as [t Ht]; [unfold is_free; now rewrite E|].
    assert (G + length (free i) < length (limits d))%nat as Hl by (rewrite limits_len, Ht, app_length; cbn; lia).
    assert (rep (G + length (free i)) = i) as Er.
    { unfold rep. destruct (G + length (free i) <? G)%nat eqn:E1; [apply Nat.ltb_lt in E1; lia|].
      replace (G + length (free i) - G)%nat with (length (free i)) by lia.
      rewrite Ht, app_nth2 by lia. now rewrite Nat.sub_diag. }
    split; auto. split; auto. destruct (rep_ok _ Hl) as (_ & _ & Hr). rewrite Hr, Er. reflexivity.
Qed.

Lemma limits_bound l : In l (limits d) -> In l (d_sizes d).
Proof.
  intros H. apply (In_nth _ _ 0%nat) in H as (k & Hk & <-).
  destruct (rep_ok k Hk) as (H1 & _ & ->). apply nth_In. exact H1.
Qed.

(** The selection that counters stand for. *)
Definition selection (c : list nat) : list nat := map (fun k => nth k c 0%nat) (owners d).

Lemma selection_nth c i : (i < n)%nat -> nth i (selection c) 0%nat = nth (owner i) c 0%nat.
Proof.
  intros Hi. unfold selection. rewrite owners_eq, map_map.
  rewrite (nth_indep _ _ (nth (owner 0) c 0%nat)) by (rewrite map_length, seq_length; exact Hi).
  rewrite (map_nth (fun x => nth (owner x) c 0%nat)). now rewrite seq_nth.
Qed.
Lemma selection_len c : length (selection c) = n.
Proof. unfold selection. rewrite owners_eq, !map_length, seq_length. reflexivity. Qed.

Lemma F2_lt_nth c l : Forall2 lt c l <-> length c = length l /\ forall k, (k < length l)%nat -> (nth k c 0 < nth k l 0)%nat.
Proof.
  split.
  - induction 1 as [|a b c l H _ [IH1 IH2]]; cbn; [split; [reflexivity|lia]|]. split; [lia|].
    intros [|k] Hk; auto. apply IH2. lia.
  - revert l. induction c as [|a c IH]; intros [|b l] [H1 H2]; cbn in *; try discriminate; constructor.
    + apply (H2 0%nat). lia.
    + apply IH. split; [lia|]. intros k Hk. apply (H2 (S k)). lia.
Qed.

Lemma nth_map_seq (f : nat -> nat) m k : (k < m)%nat -> nth k (map f (seq 0 m)) 0%nat = f k.
Proof.
  intros H. rewrite (nth_indep _ _ (f 0%nat)) by (rewrite map_length, seq_length; exact H).
  rewrite (map_nth f). now rewrite seq_nth.
Qed.

Lemma selection_choice sl :
  choice (d_sizes d) (d_groups d) sl <-> exists c, Forall2 lt c (limits d) /\ sl = selection c.
Proof.
  split.
  - intros (Hl & Hlt & Hg). exists (map (fun k => nth (rep k) sl 0%nat) (seq 0 (length (limits d)))). split.
    + apply F2_lt_nth. rewrite map_length, seq_length. split; [reflexivity|]. intros k Hk.
      rewrite (nth_map_seq (fun k => nth (rep k) sl 0%nat)) by exact Hk.
      destruct (rep_ok k Hk) as (H1 & _ & ->). now apply Hlt.
    + apply (nth_ext _ _ 0%nat 0%nat); [now rewrite selection_len|].
      intros i Hi. rewrite Hl in Hi. rewrite selection_nth by exact Hi.
      destruct (owner_ok i Hi) as (Ho & _ & Hr).
      rewrite (nth_map_seq (fun k => nth (rep k) sl 0%nat)) by exact Ho.
      destruct Hr as [->|(g & Hg1 & Hg2 & Hg3)]; [reflexivity|]. exact (Hg g _ _ Hg1 Hg2 Hg3).
  - intros (c & Hc & ->). apply F2_lt_nth in Hc as [Hc1 Hc2]. split; [apply selection_len|]. split.
    + intros i Hi. rewrite selection_nth by exact Hi. destruct (owner_ok i Hi) as (Ho & <- & _). now apply Hc2.
    + intros g a b Hg Ha Hb. destruct Hok as (H1 & _). destruct (H1 g Hg) as [_ Hin].
      rewrite !selection_nth by (apply Hin; assumption).
      apply In_nth_error in Hg as [k Hk].
      unfold owner. rewrite (proj2 (group_map_some a k)), (proj2 (group_map_some b k)); [reflexivity|eauto|eauto].
Qed.

Lemma selection_inj c c' : Forall2 lt c (limits d) -> Forall2 lt c' (limits d) -> selection c = selection c' -> c = c'.
Proof.
  intros H1 H2 E. apply F2_lt_nth in H1 as [H1 _]. apply F2_lt_nth in H2 as [H2 _].
  apply (nth_ext _ _ 0%nat 0%nat); [congruence|].
  intros k Hk. rewrite H1 in Hk. destruct (rep_ok k Hk) as (Hr & <- & _).
  rewrite <- !selection_nth by exact Hr. now rewrite E.
Qed.
End Owners.
