(** Proofs about the enumerated search of the placer. *)
From Coq Require Import ZifyBool.
From Verif Require Import Base.Prelude Model.SeqEnum Spec.SeqEnumSpec.
Local Open Scope Z_scope.

(** * Lists in which every element is followed by its successor *)

Fixpoint steps {A} (R : A -> A -> Prop) (l : list A) : Prop :=
  match l with
  | a :: ((b :: _) as t) => R a b /\ steps R t
  | _ => True
  end.

Lemma steps_app A (R : A -> A -> Prop) l1 l2 :
  steps R l1 -> steps R l2 ->
  (forall l1' a b l2', l1 = l1' ++ [a] -> l2 = b :: l2' -> R a b) -> steps R (l1 ++ l2).
Proof.
  induction l1 as [|a l1 IH]; intros H1 H2 H; [exact H2|].
  destruct l1 as [|b l1]; cbn [app].
  - destruct l2 as [|c l2]; cbn; auto. split; auto. exact (H [] a c l2 eq_refl eq_refl).
  - destruct H1 as [H1 H1']. split; auto. apply IH; auto.
    intros l1' x y l2' E1 E2. apply (H (a :: l1') x y l2'); auto. now rewrite E1.
Qed.

Lemma steps_flat A X (R : A -> A -> Prop) (f : X -> list A) xs :
  (forall x, In x xs -> steps R (f x) /\ f x <> []) ->
  steps (fun x y => forall l1 a b l2, f x = l1 ++ [a] -> f y = b :: l2 -> R a b) xs ->
  steps R (flat_map f xs).
Proof.
  induction xs as [|x xs IH]; intros Hf Hs; [exact I|].
  cbn. apply steps_app.
  - apply Hf; now left.
  - apply IH; [intros y Hy; apply Hf; now right|]. destruct xs; [exact I|apply Hs].
  - intros l1 a b l2 E1 E2. destruct xs as [|y xs]; [discriminate|].
    destruct Hs as [Hs _]. cbn in E2.
    destruct (f y) as [|c t] eqn:Ey.
    { exfalso. apply (proj2 (Hf y (or_intror (or_introl eq_refl)))); auto. }
    injection E2 as -> E2. eapply Hs; eauto.
Qed.

Lemma steps_map A B (R : A -> A -> Prop) (f : B -> A) l :
  steps (fun x y => R (f x) (f y)) l -> steps R (map f l).
Proof.
  induction l as [|a l IH]; [auto|]. destruct l as [|b l]; [auto|].
  intros [H1 H2]. split; [exact H1|]. exact (IH H2).
Qed.

Lemma steps_seq (R : nat -> nat -> Prop) n m :
  (forall i, (n <= i)%nat -> (S i < n + m)%nat -> R i (S i)) -> steps R (seq n m).
Proof.
  revert n. induction m as [|m IH]; intros n H; [exact I|].
  cbn. destruct m as [|m]; cbn; auto. split.
  - apply H; lia.
  - apply (IH (S n)). intros i H1 H2. apply H; lia.
Qed.

Lemma steps_impl A (R R' : A -> A -> Prop) l :
  (forall a b, In a l -> In b l -> R a b -> R' a b) -> steps R l -> steps R' l.
Proof.
  induction l as [|a l IH]; [auto|]. destruct l as [|b l]; [auto|]. intros H [H1 H2]. split.
  - apply H; [now left|right; now left|exact H1].
  - apply IH; [|exact H2]. intros x y Hx Hy. apply H; now right.
Qed.

Lemma steps_nth A (R : A -> A -> Prop) l d i :
  steps R l -> (S i < length l)%nat -> R (nth i l d) (nth (S i) l d).
Proof.
  revert i. induction l as [|a l IH]; cbn [length]; intros i H Hi; try lia.
  destruct l as [|b l]; cbn [length] in Hi; try lia.
  destruct H as [H1 H2]. destruct i as [|i]; [exact H1|].
  apply (IH i); auto. cbn [length]. lia.
Qed.

Lemma last_flat A X (f : X -> list A) xs x l1 a :
  f x = l1 ++ [a] -> exists l2, flat_map f (xs ++ [x]) = l2 ++ [a].
Proof.
  intros E. exists (flat_map f xs ++ l1). rewrite flat_map_app. cbn. rewrite app_nil_r, E. now rewrite app_assoc.
Qed.

Lemma app_last A (l1 l2 : list A) a b : l1 ++ [a] = l2 ++ [b] -> a = b.
Proof. intros E. apply app_inj_tail in E. tauto. Qed.

Lemma nodup_flat A X (f : X -> list A) xs :
  NoDup xs -> (forall x, In x xs -> NoDup (f x)) ->
  (forall x y a, In x xs -> In y xs -> In a (f x) -> In a (f y) -> x = y) -> NoDup (flat_map f xs).
Proof.
  induction xs as [|x xs IH]; intros Hn Hf Hd; [constructor|].
  cbn. inversion Hn as [|? ? Hx Hn']; subst.
  assert (NoDup (flat_map f xs)) as H0.
  { apply IH; auto. - intros; apply Hf; now right. - intros; eapply Hd; eauto; now right. }
  assert (NoDup (f x)) as H1 by (apply Hf; now left).
  assert (forall a, In a (f x) -> ~ In a (flat_map f xs)) as H2.
  { intros a Ha Hb. apply in_flat_map in Hb as (y & Hy & Hb).
    assert (x = y) by (eapply Hd; eauto; [now left|now right]). subst. auto. }
  clear -H0 H1 H2. induction (f x) as [|a l IHl]; [exact H0|].
  cbn. inversion H1; subst. constructor.
  - intros Hi. apply in_app_iff in Hi as [Hi|Hi]; auto. apply (H2 a); auto. now left.
  - apply IHl; auto. intros b Hb. apply H2. now right.
Qed.

(** * Topological orders *)

Lemma has_iff x l : has x l = true <-> In x l.
Proof.
  induction l as [|y l IH]; cbn; [split; [discriminate|tauto]|].
  rewrite orb_true_iff, IH, Nat.eqb_eq. split; intros [H|H]; auto.
Qed.
Lemma has_false x l : has x l = false <-> ~ In x l.
Proof. rewrite <- has_iff. destruct (has x l); split; congruence. Qed.

Section Topo.
Context (sq : list nat) (edges : list (nat * nat)) (maxseq : Z).

Definition open_ (indeg : nat -> Z) (res : list nat) (it : nat) : bool := (indeg it =? 0) && negb (has it res).
Definition leaf (res : list nat) : list (list nat) := if (length res =? length sq)%nat then [res] else [].

Fixpoint exts (fuel : nat) (indeg : nat -> Z) (res : list nat) : list (list nat) :=
  match fuel with
  | O => leaf res
  | S f => match filter (open_ indeg res) sq with
           | [] => leaf res
           | cand => flat_map (fun it => exts f (lower indeg (succs edges it)) (res ++ [it])) cand
           end
  end.

Definition cut (l : list (list nat)) : list (list nat) * bool :=
  if Z.of_nat (length l) <=? maxseq then (l, true) else (firstn (S (Z.to_nat maxseq)) l, false).

Lemma cut_leaf out res :
  0 <= maxseq -> Z.of_nat (length out) <= maxseq ->
  (let out' := if (length res =? length sq)%nat then out ++ [res] else out in
   (out', Z.of_nat (length out') <=? maxseq)) = cut (out ++ leaf res).
Proof.
  intros H0 H. unfold cut, leaf. destruct (length res =? length sq)%nat; cbn zeta.
  - destruct (Z.of_nat (length (out ++ [res])) <=? maxseq) eqn:E; [reflexivity|].
    f_equal. rewrite firstn_all2; auto. rewrite app_length in *. cbn in *. lia.
  - rewrite app_nil_r. destruct (Z.of_nat (length out) <=? maxseq) eqn:E; [reflexivity|lia].
Qed.

Lemma cut_app out e r l f :
  0 <= maxseq -> cut (out ++ e) = (l, f) ->
  if f then l = out ++ e /\ Z.of_nat (length l) <= maxseq else cut (out ++ e ++ r) = (l, false).
Proof.
  intros H0. unfold cut. destruct (Z.of_nat (length (out ++ e)) <=? maxseq) eqn:E; intros H; injection H as <- <-.
  - split; auto. lia.
  - rewrite app_assoc.
    destruct (Z.of_nat (length ((out ++ e) ++ r)) <=? maxseq) eqn:E2.
    { rewrite (app_length (out ++ e)) in E2. lia. }
    f_equal. rewrite firstn_app.
    replace (S (Z.to_nat maxseq) - length (out ++ e))%nat with 0%nat by lia.
    cbn. now rewrite app_nil_r.
Qed.

Lemma topo_exts fuel indeg res out :
  0 <= maxseq -> Z.of_nat (length out) <= maxseq ->
  topo fuel sq edges maxseq indeg res out = cut (out ++ exts fuel indeg res).
Proof.
  intros H0. revert indeg res out. induction fuel as [|fuel IH]; intros indeg res out H.
  - cbn [topo]. destruct (maxseq <? Z.of_nat (length out)) eqn:E; [lia|]. apply cut_leaf; auto.
  - cbn [topo]. destruct (maxseq <? Z.of_nat (length out)) eqn:E; [lia|]. clear E.
    set (g := fun it => exts fuel (lower indeg (succs edges it)) (res ++ [it])).
    match goal with |- ?F sq out false = _ => set (each := F) end.
    assert (forall l out flag, Z.of_nat (length out) <= maxseq ->
              each l out flag =
              cut (out ++ match filter (open_ indeg res) l with
                          | [] => if flag then [] else leaf res
                          | c => flat_map g c end)) as He.
    { clear out H. induction l as [|it l IHl]; intros out flag H.
      - cbn [filter]. subst each. cbn beta iota fix. destruct flag; cbn [negb andb].
        + rewrite app_nil_r. unfold cut. destruct (Z.of_nat (length out) <=? maxseq) eqn:E; [reflexivity|lia].
        + apply cut_leaf; auto.
      - cbn [filter]. change (each (it :: l) out flag) with
          (if open_ indeg res it then
             match topo fuel sq edges maxseq (lower indeg (succs edges it)) (res ++ [it]) out with
             | (out', false) => (out', false)
             | (out', true) => each l out' true
             end
           else each l out flag).
        destruct (open_ indeg res it) eqn:Ho.
        + rewrite IH by exact H. fold (g it).
          destruct (cut (out ++ g it)) as [o f] eqn:Ec.
          pose proof (cut_app out (g it) (flat_map g (filter (open_ indeg res) l)) o f H0 Ec) as Hc.
          destruct f.
          * destruct Hc as [-> Hc]. rewrite IHl by exact Hc. rewrite <- app_assoc.
            cbn [flat_map]. destruct (filter (open_ indeg res) l); reflexivity.
          * cbn [flat_map]. symmetry. exact Hc.
        + apply IHl. exact H. }
    rewrite He by exact H. cbn [exts]. fold g.
    destruct (filter (open_ indeg res) sq); reflexivity.
Qed.

(** The number of edges into [x] from vertices that are not in [res]. *)
Definition waiting (res : list nat) (x : nat) : Z :=
  Z.of_nat (length (filter (fun e => (snd e =? x)%nat && negb (has (fst e) res)) edges)).

Lemma lower_count ts indeg x :
  lower indeg ts x = indeg x - Z.of_nat (length (filter (Nat.eqb x) ts)).
Proof.
  revert indeg. unfold lower. induction ts as [|t ts IH]; intros indeg; [cbn; lia|].
  cbn [fold_left]. rewrite IH. cbn [filter]. destruct (x =? t)%nat; cbn [length]; lia.
Qed.

Lemma has_app x a b : has x (a ++ b) = has x a || has x b.
Proof. induction a as [|y a IH]; cbn; auto. rewrite IH. now rewrite orb_assoc. Qed.

Lemma waiting_step res it x :
  has it res = false ->
  waiting (res ++ [it]) x = waiting res x - Z.of_nat (length (filter (Nat.eqb x) (succs edges it))).
Proof.
  intros Hi. unfold waiting, succs. induction edges as [|[a b] es IH]; [cbn; lia|].
  cbn [filter fst snd]. rewrite has_app. cbn [has]. rewrite orb_false_r.
  destruct (a =? it)%nat eqn:Ea; cbn [map filter snd].
  - apply Nat.eqb_eq in Ea. subst a. rewrite Hi. cbn [orb negb]. rewrite andb_false_r.
    destruct (b =? x)%nat eqn:Eb; cbn [andb].
    + apply Nat.eqb_eq in Eb. subst b. rewrite Nat.eqb_refl. cbn [length] in *. lia.
    + rewrite Nat.eqb_sym in Eb. rewrite Eb. exact IH.
  - rewrite orb_false_r. destruct ((b =? x)%nat && negb (has a res)); cbn [length] in *; lia.
Qed.

Lemma indegrees_count es f x :
  fold_left (fun f (e : nat * nat) => fun x => if (x =? snd e)%nat then f x + 1 else f x) es f x
  = f x + Z.of_nat (length (filter (fun e => (snd e =? x)%nat) es)).
Proof.
  revert f. induction es as [|[a b] es IH]; intros f; [cbn; lia|].
  cbn [fold_left]. rewrite IH. cbn [filter snd]. rewrite (Nat.eqb_sym x b). destruct (b =? x)%nat; cbn [length]; lia.
Qed.

Lemma waiting_zero res x : waiting res x = 0 <-> forall a, In (a, x) edges -> In a res.
Proof.
  unfold waiting. split.
  - intros H a Ha. destruct (has a res) eqn:E; [now apply has_iff|].
    assert (In (a, x) (filter (fun e : nat * nat => (snd e =? x)%nat && negb (has (fst e) res)) edges)) as Hi.
    { apply filter_In. split; auto. cbn. rewrite E, Nat.eqb_refl. reflexivity. }
    destruct (filter _ edges); [destruct Hi|cbn in H; lia].
  - intros H. destruct (filter _ edges) as [|[a b] t] eqn:E; [reflexivity|].
    assert (In (a, b) (filter (fun e : nat * nat => (snd e =? x)%nat && negb (has (fst e) res)) edges)) as Hi
      by (rewrite E; now left).
    apply filter_In in Hi as [Hi Hb]. cbn in Hb. apply andb_true_iff in Hb as [Hb1 Hb2].
    apply Nat.eqb_eq in Hb1. subst b. apply H in Hi. apply has_iff in Hi. rewrite Hi in Hb2. discriminate.
Qed.

(** [rest] continues [res]: every element comes after its predecessors. *)
Definition continues (res rest : list nat) : Prop :=
  forall r1 x r2, rest = r1 ++ x :: r2 -> forall a, In (a, x) edges -> In a (res ++ r1).

Lemma exts_iff fuel indeg res :
  NoDup sq -> (forall x, indeg x = waiting res x) -> NoDup res -> incl res sq -> (fuel + length res = length sq)%nat ->
  forall l, In l (exts fuel indeg res) <-> exists rest, l = res ++ rest /\ Permutation sq l /\ continues res rest.
Proof.
  intros Hsq. revert indeg res. induction fuel as [|fuel IH]; intros indeg res Hw Hn Hi Hl l.
  - assert (Permutation res sq) as Hp.
    { apply NoDup_Permutation_bis; auto. lia. }
    cbn [exts]. unfold leaf. replace (length res =? length sq)%nat with true by (symmetry; apply Nat.eqb_eq; lia).
    split.
    + intros [<-|[]]. exists []. rewrite app_nil_r. split; [reflexivity|]. split; [now symmetry|].
      intros [|? ?] x r2 E; discriminate.
    + intros (rest & -> & Hp2 & _). left.
      assert (length rest = 0)%nat as H0.
      { apply Permutation_length in Hp2. rewrite app_length in Hp2. lia. }
      destruct rest; [now rewrite app_nil_r|discriminate].
  - cbn [exts].
    assert (forall it, In it sq -> open_ indeg res it = true -> 
       forall l, In l (exts fuel (lower indeg (succs edges it)) (res ++ [it])) <->
         exists rest, l = (res ++ [it]) ++ rest /\ Permutation sq l /\ continues (res ++ [it]) rest) as Hstep.
    { intros it Hin Ho. apply andb_true_iff in Ho as [Ho1 Ho2]. apply negb_true_iff in Ho2.
      apply IH.
      - intros x. rewrite lower_count, Hw, waiting_step by exact Ho2. reflexivity.
      - apply has_false in Ho2. clear -Hn Ho2. induction res as [|a r IHr]; cbn.
        + repeat constructor. intros [].
        + inversion Hn; subst. constructor.
          * rewrite in_app_iff. intros [Hx|[<-|[]]]; auto. apply Ho2. now left.
          * apply IHr; auto. intros Hx. apply Ho2. now right.
      - intros x Hx. apply in_app_iff in Hx as [Hx|[<-|[]]]; auto.
      - rewrite app_length. cbn. lia. }
    assert (forall l, In l (match filter (open_ indeg res) sq with
                            | [] => leaf res
                            | c => flat_map (fun it => exts fuel (lower indeg (succs edges it)) (res ++ [it])) c end)
             <-> In l (flat_map (fun it => exts fuel (lower indeg (succs edges it)) (res ++ [it]))
                        (filter (open_ indeg res) sq))) as Hflat.
    { intros l'. destruct (filter (open_ indeg res) sq); [|tauto].
      unfold leaf. replace (length res =? length sq)%nat with false by (symmetry; apply Nat.eqb_neq; lia). tauto. }
    rewrite Hflat, in_flat_map. split.
    + intros (it & Hit & Hl'). apply filter_In in Hit as [Hit Ho].
      pose proof Ho as Ho'. apply andb_true_iff in Ho' as [Ho1 Ho2].
      apply (Hstep it Hit Ho) in Hl' as (rest & -> & Hp & Hc).
      exists (it :: rest). rewrite <- app_assoc in *. split; [reflexivity|]. split; auto.
      intros r1 x r2 E a Ha. destruct r1 as [|y r1]; injection E as <- E.
      * rewrite app_nil_r. apply (proj1 (waiting_zero res it)); auto. rewrite <- Hw. lia.
      * subst rest. specialize (Hc r1 x r2 eq_refl a Ha). now rewrite <- app_assoc in Hc.
    + intros (rest & -> & Hp & Hc).
      destruct rest as [|it rest].
      { apply Permutation_length in Hp. rewrite app_nil_r in Hp. lia. }
      assert (In it sq) as Hit. { eapply Permutation_in; [symmetry; exact Hp|]. apply in_elt. }
      assert (~ In it res) as Hnr.
      { assert (NoDup (res ++ it :: rest)) as Hnd by (eapply Permutation_NoDup; eauto).
        apply NoDup_remove_2 in Hnd. rewrite in_app_iff in Hnd. tauto. }
      assert (open_ indeg res it = true) as Ho.
      { unfold open_. apply andb_true_iff. split.
        - apply Z.eqb_eq. rewrite Hw. apply waiting_zero. intros a Ha.
          specialize (Hc [] it rest eq_refl a Ha). now rewrite app_nil_r in Hc.
        - apply negb_true_iff. now apply has_false. }
      exists it. split; [apply filter_In; auto|]. apply Hstep; auto.
      exists rest. rewrite <- app_assoc. split; [reflexivity|]. split; auto.
      intros r1 x r2 E a Ha. rewrite <- app_assoc. apply (Hc (it :: r1) x r2); auto. now rewrite E.
Qed.

Lemma exts_nodup fuel indeg res : NoDup sq -> NoDup (exts fuel indeg res).
Proof.
  intros Hsq. revert indeg res. induction fuel as [|fuel IH]; intros indeg res; cbn [exts].
  - unfold leaf. destruct (length res =? length sq)%nat; repeat constructor. intros [].
  - assert (NoDup (leaf res)) as Hlf.
    { unfold leaf. destruct (length res =? length sq)%nat; repeat constructor. intros []. }
    assert (NoDup (flat_map (fun it => exts fuel (lower indeg (succs edges it)) (res ++ [it])) (filter (open_ indeg res) sq))) as H.
    { apply nodup_flat; [now apply NoDup_filter|auto|].
      intros x y a _ _ Hx Hy.
      assert (forall f i r l, In l (exts f i r) -> exists t, l = r ++ t) as Hpre.
      { clear. induction f as [|f IH]; intros i r l; cbn [exts].
        - unfold leaf. destruct (length r =? length sq)%nat; [|intros []]. intros [<-|[]]. exists []. now rewrite app_nil_r.
        - assert (In l (leaf r) -> exists t, l = r ++ t) as Hl.
          { unfold leaf. destruct (length r =? length sq)%nat; [|intros []]. intros [<-|[]]. exists []. now rewrite app_nil_r. }
          intros H. assert (In l (leaf r) \/ In l (flat_map (fun it => exts f (lower i (succs edges it)) (r ++ [it])) (filter (open_ i r) sq))) as [H'|H'].
          { destruct (filter (open_ i r) sq); auto. }
          + auto.
          + apply in_flat_map in H' as (it & _ & H'). apply IH in H' as [t ->]. exists (it :: t). now rewrite <- app_assoc. }
      apply Hpre in Hx as [t1 E1]. apply Hpre in Hy as [t2 E2]. subst a.
      rewrite <- !app_assoc in E2. apply app_inv_head in E2. now injection E2. }
    destruct (filter (open_ indeg res) sq); auto.
Qed.

(** A topological order of the blocks. *)
Definition extension (l : list nat) : Prop :=
  Permutation sq l /\ forall a b, In (a, b) edges -> precedes l a b.

Lemma nodup_split (l : list nat) l1 l2 l1' l2' x :
  NoDup l -> l = l1 ++ x :: l2 -> l = l1' ++ x :: l2' -> l1 = l1' /\ l2 = l2'.
Proof.
  revert l1 l1'. induction l as [|a l IH]; intros l1 l1' Hn E1 E2.
  - destruct l1; discriminate.
  - inversion Hn as [|? ? Ha Hn']; subst.
    destruct l1 as [|b l1], l1' as [|b' l1']; cbn in E1, E2; injection E1 as E1a E1; injection E2 as E2a E2.
    + subst. split; congruence.
    + subst. exfalso. apply Ha. apply in_elt.
    + subst. exfalso. apply Ha. apply in_elt.
    + subst. destruct (IH l1 l1' Hn' eq_refl E2) as [-> ->]. auto.
Qed.

Lemma continues_extension l :
  NoDup sq -> (forall a b, In (a, b) edges -> In b sq) -> Permutation sq l ->
  (continues [] l <-> forall a b, In (a, b) edges -> precedes l a b).
Proof.
  intros Hsq Hb Hp. assert (NoDup l) as Hn by (eapply Permutation_NoDup; eauto). split.
  - intros Hc a b Hab. assert (In b l) as Hi by (eapply Permutation_in; eauto).
    apply in_split in Hi as (r1 & r2 & E). specialize (Hc r1 b r2 E a Hab). cbn in Hc.
    apply in_split in Hc as (x & y & ->). exists x, y, r2. rewrite E, <- app_assoc. reflexivity.
  - intros H r1 x r2 E a Ha. destruct (H a x Ha) as (l1 & l2 & l3 & E2). cbn.
    assert (l = (l1 ++ a :: l2) ++ x :: l3) as E3 by (rewrite E2, <- app_assoc; reflexivity).
    destruct (nodup_split l _ _ _ _ x Hn E E3) as [-> _]. apply in_elt.
Qed.

Lemma topo_all :
  NoDup sq -> (forall a b, In (a, b) edges -> In b sq) ->
  each_once extension (exts (length sq) (indegrees edges) []).
Proof.
  intros Hsq Hb. split; [now apply exts_nodup|].
  intros l. rewrite exts_iff; auto.
  - unfold extension. split.
    + intros (rest & -> & Hp & Hc). cbn in *. split; auto. apply continues_extension; auto.
    + intros [Hp H]. exists l. split; [reflexivity|]. split; auto. apply continues_extension; auto.
  - intros x. unfold indegrees, waiting. rewrite indegrees_count. cbn [has negb].
    rewrite Z.add_0_l. do 2 f_equal. apply filter_ext. intros e. now rewrite andb_true_r.
  - constructor.
  - intros x [].
Qed.
End Topo.

(** * Permutations in lexicographic order *)

Fixpoint perms (n : nat) (l : list nat) : list (list nat) :=
  match n with
  | O => [[]]
  | S k => flat_map (fun x => map (cons x) (perms k (remove Nat.eq_dec x l))) l
  end.

Lemma sorted_nodup l : StronglySorted lt l -> NoDup l.
Proof.
  induction 1 as [|a l Hs IH Hf]; constructor; auto.
  intros Hi. rewrite Forall_forall in Hf. apply Hf in Hi. lia.
Qed.

Lemma sorted_mid l1 x l2 :
  StronglySorted lt (l1 ++ x :: l2) ->
  Forall (fun y => (y < x)%nat) l1 /\ Forall (fun y => (x < y)%nat) l2 /\ StronglySorted lt (l1 ++ l2).
Proof.
  induction l1 as [|a l1 IH]; cbn; intros H; inversion H as [|? ? Hs Hf]; subst.
  - auto.
  - apply IH in Hs as (H1 & H2 & H3).
    apply Forall_app in Hf as [Hf1 Hf2]. inversion Hf2; subst.
    repeat split; auto. constructor; auto. apply Forall_app; auto.
Qed.

Lemma remove_mid l1 x l2 : NoDup (l1 ++ x :: l2) -> remove Nat.eq_dec x (l1 ++ x :: l2) = l1 ++ l2.
Proof.
  intros H. apply NoDup_remove_2 in H. rewrite remove_app. cbn.
  destruct (Nat.eq_dec x x); [|congruence].
  rewrite in_app_iff in H. rewrite !notin_remove; tauto.
Qed.

Lemma swap_last_none x l : Forall (fun y => (y <= x)%nat) l -> swap_last x l = None.
Proof.
  induction 1 as [|y l Hy _ IH]; [reflexivity|]. cbn [swap_last]. rewrite IH.
  destruct (x <? y)%nat eqn:E; [lia|reflexivity].
Qed.

Lemma swap_last_at x l1 y l2 :
  (x < y)%nat -> Forall (fun z => (z <= x)%nat) l2 -> swap_last x (l1 ++ y :: l2) = Some (y, l1 ++ x :: l2).
Proof.
  intros Hxy H2. induction l1 as [|a l1 IH]; cbn [app swap_last].
  - rewrite swap_last_none by exact H2. destruct (x <? y)%nat eqn:E; [reflexivity|lia].
  - rewrite IH. reflexivity.
Qed.

Lemma next_perm_last l : StronglySorted lt l -> next_perm (rev l) = None.
Proof.
  rewrite <- (rev_involutive l) at 1. generalize (rev l). clear l.
  induction l as [|x t IH]; intros H; [reflexivity|]. cbn in *.
  apply sorted_mid in H as (H1 & _ & H3). rewrite app_nil_r in H3.
  rewrite IH by exact H3. rewrite swap_last_none; auto.
  apply Forall_forall. intros y Hy. rewrite Forall_forall in H1. apply Nat.lt_le_incl, H1. now apply -> in_rev.
Qed.

Lemma steps_pairs A (R : A -> A -> Prop) l :
  (forall l1 a b l2, l = l1 ++ a :: b :: l2 -> R a b) -> steps R l.
Proof.
  induction l as [|a l IH]; intros H; [exact I|]. destruct l as [|b l]; [exact I|].
  split; [exact (H [] a b l eq_refl)|]. apply IH. intros l1 x y l2 E. apply (H (a :: l1) x y l2). now rewrite E.
Qed.

Lemma remove_len x l : NoDup l -> In x l -> S (length (remove Nat.eq_dec x l)) = length l.
Proof.
  intros Hn Hi. apply in_split in Hi as (l1 & l2 & ->). rewrite remove_mid by exact Hn.
  rewrite !app_length. cbn. lia.
Qed.

Lemma perms_spec n l :
  StronglySorted lt l -> length l = n ->
  steps (fun a b => next_perm a = Some b) (perms n l) /\
  (exists t, perms n l = l :: t) /\ (exists t, perms n l = t ++ [rev l]).
Proof.
  revert l. induction n as [|n IH]; intros l Hs Hl.
  - destruct l; [|discriminate]. cbn. repeat split; [now exists []|now exists []].
  - cbn [perms]. assert (NoDup l) as Hn by now apply sorted_nodup.
    assert (forall x, In x l -> StronglySorted lt (remove Nat.eq_dec x l) /\ length (remove Nat.eq_dec x l) = n) as Hr.
    { intros x Hx. pose proof (remove_len x l Hn Hx). split; [|lia].
      apply in_split in Hx as (l1 & l2 & ->). rewrite remove_mid by exact Hn. now apply sorted_mid in Hs. }
    split; [|split].
    + apply steps_flat.
      * intros x Hx. destruct (Hr x Hx) as [Hr1 Hr2]. destruct (IH _ Hr1 Hr2) as (H1 & (t & H2) & _). split.
        -- apply steps_map. eapply steps_impl; [|exact H1]. intros a b _ _ E. cbn. now rewrite E.
        -- rewrite H2. discriminate.
      * apply steps_pairs. intros l1 x y l2 E p1 a b p2 E1 E2.
        assert (In x l /\ In y l) as [Hx Hy] by (subst l; split; apply in_app_iff; right; [now left|right; now left]).
        destruct (Hr x Hx) as [Hx1 Hx2], (Hr y Hy) as [Hy1 Hy2].
        destruct (IH _ Hx1 Hx2) as (_ & _ & (t1 & H1)). destruct (IH _ Hy1 Hy2) as (_ & (t2 & H2) & _).
        rewrite H1, map_app in E1. cbn in E1. apply app_last in E1. subst a.
        rewrite H2 in E2. cbn in E2. injection E2 as <- _.
        subst l. rewrite (remove_mid l1 x (y :: l2)) by exact Hn.
        assert (l1 ++ x :: y :: l2 = (l1 ++ [x]) ++ y :: l2) as Es by now rewrite <- app_assoc.
        assert (remove Nat.eq_dec y (l1 ++ x :: y :: l2) = l1 ++ x :: l2) as Ey.
        { rewrite Es, remove_mid; [now rewrite <- app_assoc|now rewrite <- Es]. }
        rewrite Ey. cbn [next_perm].
        rewrite next_perm_last by (apply sorted_mid in Hs; tauto).
        destruct (sorted_mid _ _ _ Hs) as (Ha & Hb & _). inversion Hb; subst.
        rewrite rev_app_distr. cbn [rev]. rewrite <- app_assoc. cbn [app].
        rewrite swap_last_at; auto.
        -- rewrite rev_app_distr. cbn [rev]. rewrite !rev_involutive, <- app_assoc. reflexivity.
        -- apply Forall_forall. intros z Hz. apply in_rev in Hz. rewrite Forall_forall in Ha. apply Ha in Hz. lia.
    + destruct l as [|x l]; [discriminate|]. cbn [flat_map].
      destruct (Hr x (or_introl eq_refl)) as [Hr1 Hr2]. destruct (IH _ Hr1 Hr2) as (_ & (t & H2) & _).
      pose proof (remove_mid [] x l Hn) as Er. cbn [app] in Er. rewrite H2, Er. cbn. eexists. reflexivity.
    + destruct (@exists_last _ l) as (l' & x & El). { intros ->. discriminate. }
      rewrite El. rewrite flat_map_app. cbn [flat_map]. rewrite app_nil_r.
      assert (In x l) as Hx by (rewrite El; apply in_elt).
      destruct (Hr x Hx) as [Hr1 Hr2]. destruct (IH _ Hr1 Hr2) as (_ & _ & (t & H2)).
      rewrite El in H2, Hn. rewrite H2, remove_mid, map_app by exact Hn. rewrite app_nil_r. cbn.
      eexists. rewrite app_assoc. f_equal. now rewrite rev_app_distr.
Qed.

Lemma perms_in n l p : NoDup l -> length l = n -> (In p (perms n l) <-> Permutation l p).
Proof.
  revert l p. induction n as [|n IH]; intros l p Hn Hl.
  - destruct l; [|discriminate]. cbn. split.
    + intros [<-|[]]. constructor.
    + intros H. apply Permutation_nil in H. auto.
  - cbn [perms]. rewrite in_flat_map. split.
    + intros (x & Hx & Hp). apply in_map_iff in Hp as (q & <- & Hq).
      pose proof (remove_len x l Hn Hx).
      apply in_split in Hx as (l1 & l2 & ->). rewrite remove_mid in * by exact Hn.
      apply IH in Hq; [|now apply NoDup_remove_1 in Hn|lia].
      transitivity (x :: l1 ++ l2); [symmetry; apply Permutation_middle|]. now constructor.
    + intros Hp. destruct p as [|x p].
      { apply Permutation_length in Hp. cbn in Hp. lia. }
      assert (In x l) as Hx by (eapply Permutation_in; [symmetry; exact Hp|now left]).
      exists x. split; auto. apply in_map. pose proof (remove_len x l Hn Hx).
      apply in_split in Hx as (l1 & l2 & ->). rewrite remove_mid in * by exact Hn.
      apply IH; [now apply NoDup_remove_1 in Hn|lia|].
      apply (Permutation_cons_inv (a := x)). transitivity (l1 ++ x :: l2); auto. apply Permutation_middle.
Qed.

Lemma perms_nodup n l : NoDup l -> length l = n -> NoDup (perms n l).
Proof.
  revert l. induction n as [|n IH]; intros l Hn Hl; cbn [perms].
  - repeat constructor. intros [].
  - apply nodup_flat; auto.
    + intros x Hx. pose proof (remove_len x l Hn Hx). apply FinFun.Injective_map_NoDup.
      * intros a b E. now injection E.
      * apply IH; [|lia]. apply in_split in Hx as (l1 & l2 & ->). rewrite remove_mid by exact Hn. now apply NoDup_remove_1 in Hn.
    + intros x y a _ _ Hx Hy. apply in_map_iff in Hx as (? & <- & _). apply in_map_iff in Hy as (? & E & _). now injection E.
Qed.

Lemma flat_len A X (f : X -> list A) xs k :
  (forall x, In x xs -> length (f x) = k) -> length (flat_map f xs) = (length xs * k)%nat.
Proof.
  induction xs as [|x xs IH]; intros H; [reflexivity|]. cbn. rewrite app_length, IH by (intros; apply H; now right).
  rewrite (H x) by now left. reflexivity.
Qed.

Lemma perms_len n l : NoDup l -> length l = n -> length (perms n l) = fact n.
Proof.
  revert l. induction n as [|n IH]; intros l Hn Hl; [reflexivity|]. cbn [perms].
  rewrite (flat_len _ _ _ _ (fact n)).
  - rewrite Hl. reflexivity.
  - intros x Hx. rewrite map_length. pose proof (remove_len x l Hn Hx). apply IH; [|lia].
    apply in_split in Hx as (l1 & l2 & ->). rewrite remove_mid by exact Hn. now apply NoDup_remove_1 in Hn.
Qed.

Lemma seq_sorted n m : StronglySorted lt (seq n m).
Proof.
  revert n. induction m as [|m IH]; intros n; cbn; constructor; auto.
  apply Forall_forall. intros x Hx. apply in_seq in Hx. lia.
Qed.

Lemma insert_perm x l : Permutation (x :: l) (insert x l).
Proof.
  induction l as [|y l IH]; cbn; [reflexivity|]. destruct (x <=? y)%nat; [reflexivity|].
  transitivity (y :: x :: l); [constructor|]. now constructor.
Qed.
Lemma insert_le x l : StronglySorted le l -> StronglySorted le (insert x l).
Proof.
  induction 1 as [|y l Hs IH Hf]; cbn; [repeat constructor|].
  destruct (x <=? y)%nat eqn:E.
  - constructor; [constructor; auto|]. constructor; [lia|].
    apply Forall_forall. intros z Hz. rewrite Forall_forall in Hf. apply Hf in Hz. lia.
  - constructor; auto. apply Forall_forall. intros z Hz.
    apply (Permutation_in _ (Permutation_sym (insert_perm x l))) in Hz as [<-|Hz]; [lia|].
    rewrite Forall_forall in Hf. now apply Hf.
Qed.
Lemma sorted_perm l : Permutation l (sorted l).
Proof. induction l as [|x l IH]; cbn; [constructor|]. transitivity (x :: sorted l); [now constructor|apply insert_perm]. Qed.
Lemma sorted_le l : StronglySorted le (sorted l).
Proof. induction l as [|x l IH]; cbn; [constructor|now apply insert_le]. Qed.

Lemma sorted_unique l1 l2 : StronglySorted le l1 -> StronglySorted le l2 -> Permutation l1 l2 -> l1 = l2.
Proof.
  revert l2. induction l1 as [|a l1 IH]; intros l2 H1 H2 Hp.
  - apply Permutation_nil in Hp. auto.
  - destruct l2 as [|b l2]; [apply Permutation_sym, Permutation_nil in Hp; discriminate|].
    inversion H1 as [|? ? Hs1 Hf1]; inversion H2 as [|? ? Hs2 Hf2]; subst.
    rewrite Forall_forall in Hf1, Hf2.
    assert (a = b) as ->.
    { assert (In a (b :: l2)) as Ha by (eapply Permutation_in; [exact Hp|now left]).
      assert (In b (a :: l1)) as Hb by (eapply Permutation_in; [symmetry; exact Hp|now left]).
      destruct Ha as [->|Ha]; auto. destruct Hb as [->|Hb]; auto. apply Hf1 in Hb. apply Hf2 in Ha. lia. }
    f_equal. apply IH; auto. now apply Permutation_cons_inv in Hp.
Qed.

Lemma lt_le_sorted l : StronglySorted lt l -> StronglySorted le l.
Proof.
  induction 1 as [|a t Hs IH Hf]; constructor; auto.
  apply Forall_forall. intros x Hx. rewrite Forall_forall in Hf. apply Hf in Hx. lia.
Qed.
Lemma sorted_seq n l : Permutation (seq 0 n) l -> sorted l = seq 0 n.
Proof.
  intros Hp. apply sorted_unique; [apply sorted_le|apply lt_le_sorted, seq_sorted|].
  transitivity l; [symmetry; apply sorted_perm|now symmetry].
Qed.
