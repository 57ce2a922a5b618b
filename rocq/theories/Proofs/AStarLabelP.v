(** The meaning of the labels of a path. *)
From Coq Require Import ZArith QArith ZifyBool.
From Verif Require Import Base.Prelude Model.AStar Spec.AStarSpec Spec.AStarLabel Proofs.AStarP Proofs.AStarPathP.
Local Open Scope Z_scope.

Section Label.
Variable j : job.
Lemma dir_cases a b : dir_first a b = -1 /\ Nat.min a b = a /\ Nat.max a b = b \/ dir_first a b = 1 /\ Nat.min a b = b /\ Nat.max a b = a.
Proof. unfold dir_first. destruct (a <=? b)%nat eqn:E; lia. Qed.
Lemma stretch_label_tells a b : label_tells j True a b (stretch_label j a b).
Proof.
  unfold label_tells, stretch_label. set (len := dist j a b). set (m := minL (t j) (metal (at_ j a))). split; [tauto|]. intros _.
  destruct (m <=? len) eqn:Em; [repeat split; intros; lia|].
  destruct (half j a b len m) eqn:Eh.
  { repeat split; intros; try lia. apply andb_prop in Eh. destruct Eh as [H1 H2]. apply reaches_room in H1, H2. exists (half_up (m - len)). split; [unfold half_up; pose proof (Z.mul_div_le (- (m - len)) 2 ltac:(lia)); lia|].
    destruct (dir_cases a b) as [(D & -> & ->)|(D & -> & ->)]; rewrite D in *; auto. }
  destruct (head_extend j a b len m) eqn:E1.
  { apply reaches_room in E1. destruct (dir_cases a b) as [(D & -> & ->)|(D & -> & ->)]; rewrite D in *; unfold side; cbn; repeat split; intros; try lia; exact E1. }
  destruct (tail_extend j a b len m) eqn:E2; [|repeat split; intros; lia].
  apply reaches_room in E2. destruct (dir_cases a b) as [(D & -> & ->)|(D & -> & ->)]; rewrite D in *; unfold side; cbn in *; repeat split; intros; try lia; exact E2.
Qed.
Lemma combine_nth {A} (q : list A) : forall n i, nth_error (combine (seq n (length q)) q) i = option_map (fun a => ((n + i)%nat, a)) (nth_error q i).
Proof. induction q as [|x q IH]; intros n [|i]; cbn [length seq combine nth_error option_map]; [reflexivity|reflexivity|now rewrite Nat.add_0_r|]. rewrite IH. destruct (nth_error q i); cbn; [|reflexivity]. do 3 f_equal. lia. Qed.
Lemma labels_tell p i r z : nth_error (runs j p) i = Some r -> nth_error (labels j p) i = Some z -> label_tells j (0 < i /\ S i < length (runs j p))%nat (hd O r) (last r O) z.
Proof.
  intros Hr Hz. unfold labels in Hz. rewrite stretches_ok, nth_error_map, combine_nth, nth_error_map, Hr in Hz. cbn [option_map fst snd ends_of Nat.add] in Hz. rewrite map_length in Hz. injection Hz as <-.
  assert (i < length (runs j p))%nat as Li by (apply nth_error_Some; congruence).
  destruct ((i =? 0)%nat || (i =? length (runs j p) - 1)%nat) eqn:E.
  - split; [reflexivity|]. intros. exfalso. lia.
  - destruct (stretch_label_tells (hd O r) (last r O)) as [_ H]. split; [intros; exfalso; lia|intros _; now apply H].
Qed.
End Label.
