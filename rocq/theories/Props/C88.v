(** C88: the enumerated search of the placer visits every sequence pair and choice of variants
    exactly once and returns the best ones. *)
From Coq Require Import ZifyBool.
From Verif Require Import Base.Prelude Model.SeqEnum Spec.SeqEnumSpec Proofs.SeqEnumP Proofs.SeqSearchP Proofs.SeqBestP.
Local Open Scope Z_scope.

(** Without ordering constraints (or when they are not used): each candidate once, and then the
    search ends. *)
Theorem C88_plain : forall d maxiter junk s e fuel,
  groups_ok d -> variants_ok d -> start d maxiter junk = Some (s, e) -> is_ordered s = false ->
  (fact (length (d_sizes d)) * fact (length (d_sizes d)) * product (limits d) <= fuel)%nat ->
  each_once (candidate_ok d) (visits fuel s e) /\
  length (visits fuel s e) = (fact (length (d_sizes d)) * fact (length (d_sizes d)) * product (limits d))%nat.
Proof.
  intros d maxiter junk s e fuel H1 H2 H3 H4 H5.
  rewrite (plain_visits d maxiter junk s e H1 H2 H3 H4), firstn_all2.
  - split; [eapply plain_once; eauto|]. rewrite map_length. eapply plain_len; eauto.
  - rewrite map_length, (plain_len d maxiter junk s e H1 H3). exact H5.
Qed.
Print Assumptions C88_plain.

(** With constraints, nothing else is visited. *)
Theorem C88_kept : forall d maxiter junk s e fuel x,
  groups_ok d -> variants_ok d -> orders_ok d -> start d maxiter junk = Some (s, e) -> is_ordered s = true ->
  In x (visits fuel s e) -> candidate_ok d x /\ keeps_all d x.
Proof.
  intros d maxiter junk s e fuel x H1 H2 H3 H4 H5 Hx.
  rewrite (ord_visits d maxiter junk s e H1 H2 H4 H5) in Hx.
  eapply ord_kept; eauto. rewrite <- (firstn_skipn fuel). apply in_or_app. now left.
Qed.
Print Assumptions C88_kept.

(** All candidates that keep the constraints are visited if and only if there are at least as many
    positive as negative sequences. *)
Theorem C88_covers : forall d maxiter junk s e fuel,
  groups_ok d -> variants_ok d -> orders_ok d -> start d maxiter junk = Some (s, e) -> is_ordered s = true ->
  (length (s_pos s) * length (s_pos s) * product (limits d) <= fuel)%nat ->
  ((forall x, candidate_ok d x -> keeps_all d x -> In x (visits fuel s e)) <->
   (length (s_neg s) <= length (s_pos s))%nat).
Proof.
  intros d maxiter junk s e fuel H1 H2 H3 H4 H5 H6.
  rewrite (ord_visits d maxiter junk s e H1 H2 H4 H5), firstn_all2.
  - split.
    + intros H. destruct (Nat.le_gt_cases (length (s_neg s)) (length (s_pos s))) as [Hl|Hl]; auto.
      destruct (ord_short d maxiter junk s e H1 H2 H4 H3 H5 Hl) as (x & A & B & C). destruct C. auto.
    + intros Hl x A B. eapply ord_all; eauto.
  - rewrite map_length, (ord_len d maxiter junk s e H1 H4). exact H6.
Qed.
Print Assumptions C88_covers.

(** Each once if the numbers are equal. *)
Theorem C88_ordered : forall d maxiter junk s e fuel,
  groups_ok d -> variants_ok d -> orders_ok d -> start d maxiter junk = Some (s, e) -> is_ordered s = true ->
  (length (s_pos s) * length (s_pos s) * product (limits d) <= fuel)%nat ->
  length (s_neg s) = length (s_pos s) ->
  each_once (fun x => candidate_ok d x /\ keeps_all d x) (visits fuel s e).
Proof.
  intros d maxiter junk s e fuel H1 H2 H3 H4 H5 H6 H7.
  rewrite (ord_visits d maxiter junk s e H1 H2 H4 H5), firstn_all2.
  - split; [eapply ord_nodup; eauto|]. intros x. split; [eapply ord_kept; eauto|].
    intros [A B]. eapply ord_all; eauto. lia.
  - rewrite map_length, (ord_len d maxiter junk s e H1 H4). exact H6.
Qed.
Print Assumptions C88_ordered.

(** They are, if all constraints have one direction. *)
Theorem C88_one_direction : forall d maxiter junk s e t,
  groups_ok d -> variants_ok d -> orders_ok d -> start d maxiter junk = Some (s, e) -> is_ordered s = true ->
  (forall c, In c (d_orders d) -> snd c = t) ->
  length (s_neg s) = length (s_pos s).
Proof.
  intros d maxiter junk s e t H1 H2 H3 H4 H5 H6.
  destruct (is_ordered_exts d maxiter junk s e H1 H4 H5) as (-> & -> & _).
  symmetry. eapply same_dir; eauto.
Qed.
Print Assumptions C88_one_direction.

(** The sequences that the two enumerators hold: all those that the constraints allow. *)
Theorem C88_sequences : forall d maxiter junk s e,
  groups_ok d -> variants_ok d -> orders_ok d -> start d maxiter junk = Some (s, e) -> is_ordered s = true ->
  each_once (fun p => arrangement (length (d_sizes d)) p /\
     forall a b t, In ((a, b), t) (d_orders d) -> precedes p a b) (s_pos s) /\
  each_once (fun q => arrangement (length (d_sizes d)) q /\
     forall a b t, In ((a, b), t) (d_orders d) -> match t with DirH => precedes q a b | DirV => precedes q b a end) (s_neg s).
Proof.
  intros d maxiter junk s e H1 H2 H3 H4 H5.
  destruct (is_ordered_exts d maxiter junk s e H1 H4 H5) as (-> & -> & _).
  destruct (exts_of_all d H3 true) as [A1 A2]. destruct (exts_of_all d H3 false) as [B1 B2].
  split; (split; [assumption|]); intros l; [rewrite A2|rewrite B2]; unfold extension, arrangement.
  - split; intros [H H']; (split; [exact H|]).
    + intros a b t Hc. apply H'. apply in_map_iff. exists ((a, b), t). split; auto. destruct t; reflexivity.
    + intros a b Hc. apply in_map_iff in Hc as ([[x y] t] & E & Hc). apply H' in Hc. destruct t; cbn in E; injection E as <- <-; exact Hc.
  - split; intros [H H']; (split; [exact H|]).
    + intros a b t Hc. apply (in_map (edge_of false)) in Hc. destruct t; cbn in Hc; now apply H'.
    + intros a b Hc. apply in_map_iff in Hc as ([[x y] t] & E & Hc). apply H' in Hc. destruct t; cbn in E; injection E as <- <-; exact Hc.
Qed.
Print Assumptions C88_sequences.

(** The constraints are left out only if no pair of sequences keeps them. *)
Theorem C88_left_out : forall d maxiter junk s e,
  groups_ok d -> orders_ok d -> start d maxiter junk = Some (s, e) -> is_ordered s = false ->
  maxiter <= 2 ^ 20 -> d_orders d <> [] ->
  forall x, candidate_ok d x -> ~ keeps_all d x.
Proof. intros d maxiter junk s e H1 H2 H3 H4 H5 H6. eapply plain_contradictory; eauto. Qed.
Print Assumptions C88_left_out.

(** The result: the best of what was visited, if the iterations suffice. *)
Theorem C88_best : forall d maxiter junk s e cost size iters,
  groups_ok d -> variants_ok d -> orders_ok d -> start d maxiter junk = Some (s, e) ->
  let total := ((if is_ordered s then length (s_pos s) * length (s_pos s)
                 else fact (length (d_sizes d)) * fact (length (d_sizes d))) * product (limits d))%nat in
  match enumerated cost size iters s e with
  | Some o => (total <= Nat.max 1 iters)%nat /\ best cost size (visits total s e) o
  | None => (Nat.max 1 iters < total)%nat
  end.
Proof.
  intros d maxiter junk s e cost size iters H1 H2 H3 H4 total. unfold enumerated. subst total.
  destruct (is_ordered s) eqn:E.
  - rewrite (ord_search d maxiter junk s e H1 H2 H4 E).
    pose proof (ord_len d maxiter junk s e H1 H4) as Hl. rewrite Hl.
    match goal with |- context [(?a <=? ?b)%nat] => destruct (Nat.leb_spec a b) as [H|H] end; [|exact H].
    split; [exact H|]. rewrite (ord_visits d maxiter junk s e H1 H2 H4 E), firstn_all2 by (rewrite map_length, Hl; lia).
    apply note_best.
  - rewrite (plain_search d maxiter junk s e H1 H2 H4 E).
    pose proof (plain_len d maxiter junk s e H1 H4) as Hl. rewrite Hl.
    match goal with |- context [(?a <=? ?b)%nat] => destruct (Nat.leb_spec a b) as [H|H] end; [|exact H].
    split; [exact H|]. rewrite (plain_visits d maxiter junk s e H1 H2 H4 E), firstn_all2 by (rewrite map_length, Hl; lia).
    apply note_best.
Qed.
Print Assumptions C88_best.

(** Without constraints the iterations do suffice, if there are as many as were promised to the
    constructor and the number of candidates does not overflow. *)
Lemma tot_sel_product ls a : 0 <= a -> a * Z.of_nat (product ls) < 2 ^ 64 -> Forall (fun l => (0 < l)%nat) ls ->
  fold_left (fun a l => w64 (a * Z.of_nat l)) ls a = a * Z.of_nat (product ls).
Proof.
  intros Ha H Hp. revert a Ha H. induction Hp as [|l ls Hl Hp IH]; intros a Ha H; cbn [fold_left product] in *; [lia|].
  assert (0 < product ls)%nat as Hpp by (clear -Hp; induction Hp; cbn; nia).
  assert (0 <= a * Z.of_nat l < 2 ^ 64) as Hw by nia.
  unfold w64 at 2. rewrite Z.mod_small by exact Hw.
  rewrite IH; nia.
Qed.
Theorem C88_enough : forall d maxiter junk s e cost size iters,
  groups_ok d -> variants_ok d -> orders_ok d -> start d maxiter junk = Some (s, e) -> is_ordered s = false ->
  maxiter <= 2 ^ 20 -> maxiter <= Z.of_nat iters ->
  Z.of_nat (fact (length (d_sizes d)) * fact (length (d_sizes d)) * product (limits d)) < 2 ^ 64 ->
  exists o, enumerated cost size iters s e = Some o.
Proof.
  intros d maxiter junk s e cost size iters H1 H2 H3 H4 H5 H6 H7 H8.
  destruct (enumerated cost size iters s e) as [o|] eqn:E; [eauto|exfalso].
  pose proof (C88_best d maxiter junk s e cost size iters H1 H2 H3 H4) as H. rewrite E, H5 in H. cbn zeta in H.
  destruct (start_shape d maxiter junk s e H1 H4) as (_ & _ & El & _ & _ & _ & _ & _ & _ & _ & Hs). rewrite H5 in Hs.
  destruct Hs as (_ & _ & _ & H16 & Hlt & Hle). rewrite (fact_square _ _ H16 H6 Hlt) in Hle.
  pose proof (limits_pos d maxiter junk s e H1 H2 H4) as Hp. rewrite El in Hp.
  pose proof (lt_O_fact (length (d_sizes d))) as Hf.
  set (F := fact (length (d_sizes d))) in *. clearbody F.
  assert (0 < product (limits d))%nat as Hpp by (clear -Hp; induction Hp; cbn; nia).
  unfold tot_sel in Hle. rewrite tot_sel_product in Hle by (auto; nia).
  unfold w64 in Hle. rewrite Z.mod_small in Hle by nia. lia.
Qed.
Print Assumptions C88_enough.

(** * Findings *)

(** Constraints in both directions: the number of positive sequences bounds the negative ones as
    well (SeqPair.cpp:131), so a pair that keeps the constraints may never be looked at. *)
Theorem C88_mixed_refuted :
  ~ (forall d maxiter junk s e, groups_ok d -> variants_ok d -> orders_ok d ->
       start d maxiter junk = Some (s, e) -> is_ordered s = true ->
       forall x, candidate_ok d x -> keeps_all d x -> exists fuel, In x (visits fuel s e)).
Proof.
  intros H. set (d := Design [1%nat; 1%nat; 1%nat] [] [((0%nat, 1%nat), DirH); ((1%nat, 2%nat), DirV)]).
  assert (groups_ok d) as H1.
  { split; [intros g []|]. split; [intros g a b []|]. intros [|k]; discriminate. }
  assert (variants_ok d) as H2 by (intros x [<-|[<-|[<-|[]]]]; lia).
  assert (orders_ok d) as H3 by (intros x [<-|[<-|[]]]; cbn; lia).
  destruct (start d 10000 0) as [[s e]|] eqn:E; [|vm_compute in E; discriminate].
  assert (is_ordered s = true /\ length (s_pos s) = 1%nat /\ length (s_neg s) = 2%nat) as (E1 & E2 & E3)
    by (vm_compute in E; injection E as <- <-; auto).
  specialize (H d 10000 0 s e H1 H2 H3 E E1).
  assert (forall x, candidate_ok d x -> keeps_all d x -> In x (visits 1 s e)) as H'.
  { intros x A B. destruct (H x A B) as (fuel & Hf).
    rewrite (ord_visits d 10000 0 s e H1 H2 E E1) in *.
    assert (length (ord_walk s) = 1%nat) as Hl by (rewrite (ord_len d 10000 0 s e H1 E), E2; reflexivity).
    rewrite firstn_all2 by (rewrite map_length; lia).
    rewrite <- (firstn_skipn fuel). apply in_or_app. now left. }
  apply (C88_covers d 10000 0 s e 1 H1 H2 H3 E E1) in H'; [lia|]. rewrite E2. cbn. lia.
Qed.
Print Assumptions C88_mixed_refuted.

(** The number of iterations promised to the constructor counts one sequence per candidate
    (SeqPair.cpp:131-138), the loop goes through both: with the default numbers, five blocks of
    two variants each and a single constraint end in [assert(0)]. *)
Theorem C88_assert_refuted :
  ~ (forall d junk s e cost size, groups_ok d -> variants_ok d -> orders_ok d ->
       start d 10000 junk = Some (s, e) -> enumerated cost size 10000 s e <> None).
Proof.
  intros H. set (d := Design [2%nat; 2%nat; 2%nat; 2%nat; 2%nat] [] [((0%nat, 1%nat), DirH)]).
  assert (groups_ok d) as H1.
  { split; [intros g []|]. split; [intros g a b []|]. intros [|k]; discriminate. }
  assert (variants_ok d) as H2 by (intros x Hx; cbn in Hx; lia).
  assert (orders_ok d) as H3 by (intros x [<-|[]]; cbn; lia).
  destruct (start d 10000 0) as [[s e]|] eqn:E; [|vm_compute in E; discriminate].
  assert (option_map (fun x => (is_ordered (fst x), length (s_pos (fst x)))) (start d 10000 0) = Some (true, 60%nat)) as E1
    by (vm_compute; reflexivity).
  rewrite E in E1. cbn in E1. injection E1 as E1 E2.
  specialize (H d 0 s e (fun _ => 0) 1%nat H1 H2 H3 E).
  pose proof (C88_best d 10000 0 s e (fun _ => 0) 1%nat 10000 H1 H2 H3 E) as B.
  destruct (enumerated (fun _ => 0) 1 10000 s e) as [o|]; [|now apply H].
  destruct B as [B _]. rewrite E1, E2 in B. apply Nat.leb_le in B. vm_compute in B. discriminate.
Qed.
Print Assumptions C88_assert_refuted.

(** The loop ends after SA_MAX_ITER rounds but the constructor is given at least 10000
    (align/pnr/placer.py:31): two blocks and one iteration end in [assert(0)]. *)
Theorem C88_iterations_refuted :
  exists d s e, groups_ok d /\ variants_ok d /\ d_orders d = [] /\
    start d (Z.max 1 10000) 0 = Some (s, e) /\ forall cost size, enumerated cost size 1 s e = None.
Proof.
  exists (Design [1%nat; 1%nat] [] []). eexists _, _.
  split; [split; [intros g []|split; [intros g a b []|intros [|k]; discriminate]]|].
  split; [intros x [<-|[<-|[]]]; lia|]. split; [reflexivity|].
  split; [vm_compute; reflexivity|]. intros cost size. reflexivity.
Qed.
Print Assumptions C88_iterations_refuted.

(** Contradictory constraints are ignored: every pair is offered. *)
Theorem C88_cycle_refuted :
  exists d s e x, groups_ok d /\ variants_ok d /\ orders_ok d /\ start d 10000 0 = Some (s, e) /\
    In x (visits 1 s e) /\ ~ keeps_all d x.
Proof.
  set (d := Design [1%nat; 1%nat] [] [((0%nat, 1%nat), DirH); ((1%nat, 0%nat), DirH)]).
  assert (groups_ok d) as H1 by (split; [intros g []|split; [intros g a b []|intros [|k]; discriminate]]).
  assert (orders_ok d) as H3 by (intros x [<-|[<-|[]]]; cbn; lia).
  exists d, (Setup 2 [] [] 1 [1%nat; 1%nat] [0%nat; 1%nat]),
    (Enum [0%nat; 1%nat] [0%nat; 1%nat] [0%nat; 0%nat] [0%nat; 0%nat] 0 0 false),
    ([0%nat; 1%nat], [0%nat; 1%nat], [0%nat; 0%nat]).
  assert (start d 10000 0 = Some (Setup 2 [] [] 1 [1%nat; 1%nat] [0%nat; 1%nat],
     Enum [0%nat; 1%nat] [0%nat; 1%nat] [0%nat; 0%nat] [0%nat; 0%nat] 0 0 false)) as E by (vm_compute; reflexivity).
  split; [exact H1|]. split; [intros x [<-|[<-|[]]]; lia|]. split; [exact H3|]. split; [exact E|].
  split; [left; reflexivity|].
  refine (C88_left_out d 10000 0 _ _ H1 H3 E eq_refl ltac:(lia) ltac:(discriminate) _ _).
  split; [|split].
  - apply Permutation_refl.
  - apply Permutation_refl.
  - split; [reflexivity|]. split; [|intros g a b []].
    intros i Hi. cbn in Hi. destruct i as [|[|i]]; cbn; lia.
Qed.
Print Assumptions C88_cycle_refuted.

(** The number of choices overflows: 16 ordered blocks with 16 variants each have 2^64 choices,
    the product is 0 and the enumeration is taken to be short. *)
Theorem C88_overflow_refuted :
  exists d s e, groups_ok d /\ variants_ok d /\ orders_ok d /\ start d 10000 0 = Some (s, e) /\
    tot_sel d = 0 /\ 10000 < Z.of_nat 16 ^ Z.of_nat (length (limits d)).
Proof.
  set (d := Design (repeat 16%nat 16) [] (map (fun i => ((i, Datatypes.S i), DirH)) (seq 0 15))).
  exists d. destruct (start d 10000 0) as [[s e]|] eqn:E; [|vm_compute in E; discriminate].
  exists s, e. split; [split; [intros g []|split; [intros g a b []|intros [|k]; discriminate]]|].
  split; [intros x Hx; apply repeat_spec in Hx; lia|].
  split. { intros c Hc. apply in_map_iff in Hc as (i & <- & Hi). apply in_seq in Hi. cbn [fst snd d d_sizes]. rewrite repeat_length. lia. }
  split; [reflexivity|]. split; vm_compute; reflexivity.
Qed.
Print Assumptions C88_overflow_refuted.

(** * Non-vacuity *)

(** Two blocks, the first with two variants: 8 candidates, the two cheapest costs returned. *)
Example C88_plain_nonvacuous :
  exists s e, start (Design [2%nat; 1%nat] [] []) 10000 0 = Some (s, e) /\ is_ordered s = false /\
    length (visits 10 s e) = 8%nat /\
    enumerated (fun x => match x with (a :: _, _, sl) => Z.of_nat (a + hd 0%nat sl) | _ => 0 end) 2 10000 s e =
      Some [(0, ([0%nat; 1%nat], [1%nat; 0%nat], [0%nat; 0%nat])); (1, ([1%nat; 0%nat], [1%nat; 0%nat], [0%nat; 0%nat]))].
Proof.
  eexists _, _. split; [vm_compute; reflexivity|]. split; [reflexivity|]. split; vm_compute; reflexivity.
Qed.

(** Three blocks in a group of two and a vertical constraint: 3 positive and 3 negative
    sequences, 2 choices. *)
Example C88_ordered_nonvacuous :
  let d := Design [2%nat; 1%nat; 2%nat] [[0%nat; 2%nat]] [((0%nat, 1%nat), DirV)] in
  exists s e, start d 10000 0 = Some (s, e) /\ is_ordered s = true /\
    s_pos s = [[0%nat; 1%nat; 2%nat]; [0%nat; 2%nat; 1%nat]; [2%nat; 0%nat; 1%nat]] /\
    s_neg s = [[1%nat; 0%nat; 2%nat]; [1%nat; 2%nat; 0%nat]; [2%nat; 1%nat; 0%nat]] /\
    length (visits 100 s e) = 18%nat /\ groups_ok d /\ variants_ok d /\ orders_ok d.
Proof.
  eexists _, _. split; [vm_compute; reflexivity|]. split; [reflexivity|]. split; [reflexivity|]. split; [reflexivity|].
  split; [vm_compute; reflexivity|]. split; [|split].
  - split; [|split].
    + intros g [<-|[]]. split; [discriminate|]. intros i Hi. cbn in *. lia.
    + intros g a b [<-|[]] Ha Hb. cbn in Ha, Hb. destruct Ha as [<-|[<-|[]]], Hb as [<-|[<-|[]]]; reflexivity.
    + intros [|[|k1]] [|[|k2]] g1 g2 i E1 E2; try discriminate; reflexivity.
  - intros x Hx. cbn in Hx. lia.
  - intros c [<-|[]]. cbn. lia.
Qed.
