From Coq Require Import ZArith ZifyBool.
From Verif Require Import Base.Prelude Model.HananGeom Model.HananNet Spec.HananNetSpec.
Local Open Scope Z_scope.

Definition edge (es : list (nat * nat)) u v := In (u, v) es \/ In (v, u) es.
Lemma linked_trans es u v w : linked es u v -> linked es v w -> linked es u w.
Proof. intros h. revert w. induction h; intros z hz; [exact hz|]. eapply l_step; [eassumption|auto]. Qed.
Lemma linked_edge es u v : edge es u v -> linked es u v.
Proof. intros h. eapply l_step; [exact h|constructor]. Qed.
Lemma linked_sym es u v : linked es u v -> linked es v u.
Proof. induction 1; [constructor|]. eapply linked_trans; [eassumption|]. apply linked_edge. unfold edge. tauto. Qed.
Lemma linked_sub es fs u v : (forall a b, In (a, b) es -> linked fs a b) -> linked es u v -> linked fs u v.
Proof. intros H. induction 1 as [|u v z h _ IH]; [constructor|]. eapply linked_trans; [|exact IH]. destruct h as [h|h]; [auto|apply linked_sym; auto]. Qed.
Lemma linked_incl es fs u v : incl es fs -> linked es u v -> linked fs u v.
Proof. intros h. apply linked_sub. intros. apply linked_edge. left. auto. Qed.

(** The last crossing of a path out of a set. *)
Definition outer (sel : list nat) (es : list (nat * nat)) := filter (fun e => negb (memb (fst e) sel) && negb (memb (snd e) sel)) es.
Lemma memb_in k l : memb k l = true <-> In k l.
Proof. unfold memb. rewrite existsb_exists. split; [intros (x & i & e); apply Nat.eqb_eq in e; subst; exact i|intros; exists k; split; [assumption|apply Nat.eqb_refl]]. Qed.
Lemma memb_out k l : memb k l = false <-> ~ In k l.
Proof. rewrite <- memb_in. destruct (memb k l); split; congruence. Qed.
Lemma crossing sel es u v : linked es u v -> ~ In v sel ->
  (exists a b, edge es a b /\ In a sel /\ ~ In b sel /\ linked (outer sel es) b v) \/ (~ In u sel /\ linked (outer sel es) u v).
Proof.
  induction 1 as [u|u v z h hl IH]; intros hv; [right; split; [exact hv|constructor]|]. destruct (IH hv) as [c|[c1 c2]]; [left; exact c|].
  destruct (memb u sel) eqn:m; [apply memb_in in m; left; exists u, v; unfold edge; auto|].
  right. split; [apply memb_out; exact m|]. apply memb_out in c1. eapply l_step; [|exact c2]. unfold outer. rewrite !filter_In. cbn [fst snd]. rewrite m, c1. cbn. tauto.
Qed.

Lemma total_app w a b : total w (a ++ b) = total w a + total w b.
Proof. unfold total. rewrite map_app. induction (map (fun e => w (fst e) (snd e)) a); cbn; lia. Qed.
Lemma total_cons w e b : total w (e :: b) = w (fst e) (snd e) + total w b. Proof. reflexivity. Qed.
Lemma total_nonneg w n es : (forall u v, (u < n)%nat -> (v < n)%nat -> 0 <= w u v) -> among n es -> 0 <= total w es.
Proof.
  intros hw ha. induction es as [|[u v] es IH]; [cbn; lia|]. rewrite total_cons. cbn [fst snd]. destruct (ha u v (or_introl eq_refl)) as (? & ? & ?). specialize (hw u v ltac:(assumption) ltac:(assumption)).
  assert (among n es) by (intros ? ? ?; apply ha; right; assumption). specialize (IH ltac:(assumption)). lia.
Qed.
Lemma up_to_in w m es u v : In (u, v) (up_to w m es) <-> In (u, v) es /\ w u v <= m.
Proof. unfold up_to. rewrite filter_In. cbn [fst snd]. rewrite Z.leb_le. tauto. Qed.
Lemma all_in n u v : In (u, v) (all_pairs n) <-> (u < n)%nat /\ (v < n)%nat /\ u <> v.
Proof. unfold all_pairs. rewrite filter_In, in_prod_iff, !in_seq. cbn [fst snd]. destruct (Nat.eqb_spec u v); cbn [negb]; split; intros H; try lia; (split; [lia|reflexivity]). Qed.

Section Tree.
Variables (n : nat) (w : nat -> nat -> Z).
Hypothesis wsym : forall u v, w u v = w v u.

Record inv (sel : list nat) (es : list (nat * nat)) : Prop := {
  i_nd : NoDup sel; i_lt : forall k, In k sel -> (k < n)%nat; i_len : length sel = S (length es);
  i_am : among n es; i_in : forall u v, In (u, v) es -> In u sel /\ In v sel;
  i_link : forall u v, In u sel -> In v sel -> linked es u v;
  i_bot : forall m u v, In u sel -> In v sel -> linked (up_to w m (all_pairs n)) u v -> linked (up_to w m es) u v;
  i_ex : forall E, spans n E -> among n E -> exists R, spans n (es ++ R) /\ incl R E /\ total w es + total w R <= total w E /\ (length es + length R = length E)%nat }.

Lemma inv_start i : (i < n)%nat -> inv [i] [].
Proof.
  clear wsym. intros hi. constructor.
  - repeat constructor. intros [].
  - intros k [<-|[]]. exact hi.
  - reflexivity.
  - intros ? ? [].
  - intros ? ? [].
  - intros ? ? [<-|[]] [<-|[]]. constructor.
  - intros ? ? ? [<-|[]] [<-|[]] _. constructor.
  - intros E h1 h2. exists E. repeat split; [exact h1|apply incl_refl|cbn; lia].
Qed.

Lemma inv_step sel es x y : inv sel es -> In x sel -> ~ In y sel -> (y < n)%nat -> (forall a b, In a sel -> ~ In b sel -> (b < n)%nat -> w x y <= w a b) -> inv (y :: sel) (es ++ [(x, y)]).
Proof.
  intros I hx hy hyn hmin. pose proof (i_lt _ _ I) as hlt.
  assert (sub : forall u v, linked es u v -> linked (es ++ [(x, y)]) u v) by (intros; eapply linked_incl; [|eassumption]; apply incl_appl, incl_refl).
  assert (xy : linked (es ++ [(x, y)]) x y) by (apply linked_edge; left; apply in_or_app; right; left; reflexivity).
  constructor.
  - constructor; [exact hy|exact (i_nd _ _ I)].
  - intros k [<-|h]; auto.
  - rewrite app_length. cbn [length]. rewrite (i_len _ _ I). lia.
  - intros u v h. apply in_app_or in h. destruct h as [h|[[= <- <-]|[]]]; [exact (i_am _ _ I _ _ h)|]. split; [auto|split; [exact hyn|]]. intros ->. auto.
  - intros u v h. apply in_app_or in h. destruct h as [h|[[= <- <-]|[]]]; [destruct (i_in _ _ I _ _ h); split; right; assumption|]. split; [right; exact hx|left; reflexivity].
  - assert (one : forall u, In u sel -> linked (es ++ [(x, y)]) u y) by (intros u hu; eapply linked_trans; [apply sub, (i_link _ _ I u x); assumption|exact xy]).
    intros u v [<-|hu] [<-|hv]; [constructor|apply linked_sym; auto|auto|apply sub, (i_link _ _ I); assumption].
  - intros m. assert (subm : forall u v, linked (up_to w m es) u v -> linked (up_to w m (es ++ [(x, y)])) u v).
    { intros u v. apply linked_incl. intros [a b] h. apply up_to_in in h. apply up_to_in. split; [apply in_or_app; left|]; tauto. }
    assert (one : forall u, In u sel -> linked (up_to w m (all_pairs n)) u y -> linked (up_to w m (es ++ [(x, y)])) u y).
    { intros u hu h. assert (le : w x y <= m).
      { destruct (crossing sel _ _ _ h hy) as [(a & b & e & ha & hb & _)|[c _]]; [|contradiction].
        assert ((b < n)%nat /\ w a b <= m) as [q1 q2]; [|specialize (hmin a b ha hb q1); lia].
        destruct e as [e|e]; apply up_to_in in e; destruct e as [e1 e2]; apply all_in in e1; [tauto|rewrite wsym; tauto]. }
      assert (k : linked (up_to w m (all_pairs n)) x y).
      { apply linked_edge. left. apply up_to_in. split; [apply all_in; repeat split; [auto|exact hyn|intros ->; auto]|exact le]. }
      eapply linked_trans; [apply subm, (i_bot _ _ I m u x hu hx); eapply linked_trans; [exact h|apply linked_sym; exact k]|].
      apply linked_edge. left. apply up_to_in. split; [apply in_or_app; right; left; reflexivity|exact le]. }
    intros u v [<-|hu] [<-|hv] h; [constructor|apply linked_sym, one; [assumption|apply linked_sym; exact h]|auto|apply subm, (i_bot _ _ I); assumption].
  - intros E hE aE. destruct (i_ex _ _ I E hE aE) as (R & sR & iR & tR & lR).
    destruct (crossing sel (es ++ R) x y) as [(a & b & e & ha & hb & ob)|[c _]]; [apply sR; auto|exact hy| |contradiction].
    assert (F : exists f, In f R /\ (f = (a, b) \/ f = (b, a))).
    { destruct e as [e|e]; apply in_app_or in e; destruct e as [e|e]; try (destruct (i_in _ _ I _ _ e); contradiction); eauto. }
    destruct F as (f & hf & ef). destruct (in_split _ _ hf) as (R1 & R2 & ->).
    assert (wf : w (fst f) (snd f) = w a b) by (destruct ef as [->| ->]; cbn [fst snd]; [reflexivity|apply wsym]).
    assert (bn : (b < n)%nat) by (destruct ef as [->| ->]; destruct (aE _ _ (iR _ hf)) as (? & ? & ?); assumption).
    exists (R1 ++ R2).
    set (T := (es ++ [(x, y)]) ++ R1 ++ R2).
    assert (keep : forall g, In g (es ++ R1 ++ f :: R2) -> g = f \/ In g T).
    { intros g. unfold T. rewrite !in_app_iff. cbn [In]. intros [h|[h|[h|h]]]; auto 6. }
    assert (sT : forall u v, linked es u v -> linked T u v) by (intros u v; apply linked_incl; intros g hg; unfold T; rewrite !in_app_iff; auto).
    assert (ab : linked T a b).
    { eapply linked_trans; [apply sT, (i_link _ _ I a x); assumption|]. eapply linked_trans; [apply linked_edge; left; unfold T; rewrite !in_app_iff; cbn [In]; eauto|].
      apply linked_sym. eapply linked_sub; [|exact ob]. intros p q h. unfold outer in h. apply filter_In in h. destruct h as [h1 h2]. cbn [fst snd] in h2. apply andb_prop in h2. destruct h2 as [h2 h3].
      apply negb_true_iff, memb_out in h2. apply negb_true_iff, memb_out in h3. destruct (keep _ h1) as [k|k]; [|apply linked_edge; left; exact k]. subst f. destruct ef as [[= -> ->]|[= -> ->]]; contradiction. }
    split; [|split; [|split]].
    + intros u v hu hv. eapply linked_sub; [|exact (sR u v hu hv)]. intros p q h. destruct (keep _ h) as [k|k]; [|apply linked_edge; left; exact k].
      subst f. destruct ef as [[= -> ->]|[= -> ->]]; [exact ab|apply linked_sym; exact ab].
    + intros g hg. apply iR. rewrite in_app_iff in *. cbn [In]. tauto.
    + rewrite !total_app, !total_cons in *. cbn [fst snd]. replace (total w []) with 0 by reflexivity. specialize (hmin a b ha hb bn). lia.
    + rewrite !app_length in *. cbn [length] in *. lia.
Qed.

Lemma inv_missing sel es : inv sel es -> (length sel < n)%nat -> exists j, (j < n)%nat /\ ~ In j sel.
Proof.
  clear wsym. intros I hl. destruct (existsb (fun j => negb (memb j sel)) (seq 0 n)) eqn:e.
  - apply existsb_exists in e. destruct e as (j & hj & e). apply in_seq in hj. apply negb_true_iff, memb_out in e. exists j. split; [lia|exact e].
  - exfalso. assert (incl (seq 0 n) sel).
    { intros j hj. destruct (memb j sel) eqn:m; [apply memb_in; exact m|]. exfalso. assert (existsb (fun j => negb (memb j sel)) (seq 0 n) = true); [|congruence]. apply existsb_exists. exists j. rewrite m. auto. }
    apply NoDup_incl_length in H; [|apply seq_NoDup]. rewrite seq_length in H. lia.
Qed.
Lemma inv_full sel es : inv sel es -> length sel = n -> forall k, (k < n)%nat -> In k sel.
Proof.
  clear wsym. intros I hl k hk. assert (h : incl sel (seq 0 n)) by (intros j hj; apply in_seq; pose proof (i_lt _ _ I j hj); lia).
  apply (NoDup_length_incl (i_nd _ _ I)) in h; [|rewrite seq_length; lia]. apply h, in_seq. lia.
Qed.
End Tree.

(** Folds that look for the smallest distance. *)
Lemma less_trans a b c : less a b = true -> less c b = false -> less c a = false.
Proof. destruct a, b, c; cbn; intros; try congruence; lia. Qed.
Lemma less_irrefl a : less a a = false. Proof. destruct a; cbn; [lia|reflexivity]. Qed.
Section Fold.
Variables (d : nat -> nat -> option Z) (G : nat -> nat -> Prop).
Definition ok (acc : choice) : Prop := match acc with (None, None) => True | (Some x, Some (i, j)) => G i j /\ d i j = Some x | _ => False end.
Lemma fold_best {B} (f : choice -> B -> choice) (covers : B -> nat -> Prop * (nat * nat)) (l : list B) :
  (forall acc b, In b l -> ok acc -> ok (f acc b)) -> (forall acc b o, less o (fst acc) = false -> less o (fst (f acc b)) = false) ->
  (forall acc b k, fst (covers b k) -> less (d (fst (snd (covers b k))) (snd (snd (covers b k)))) (fst (f acc b)) = false) ->
  forall acc, (ok acc -> ok (fold_left f l acc)) /\ (forall o, less o (fst acc) = false -> less o (fst (fold_left f l acc)) = false) /\
    (forall b k, In b l -> fst (covers b k) -> less (d (fst (snd (covers b k))) (snd (snd (covers b k)))) (fst (fold_left f l acc)) = false).
Proof.
  intros H1 H2 H3. induction l as [|b l IH]; intros acc; cbn [fold_left]; [repeat split; auto; intros ? ? []|].
  destruct (IH ltac:(intros; apply H1; [right; assumption|assumption]) (f acc b)) as (h1 & h2 & h3). split; [intros; apply h1, H1; [left; reflexivity|assumption]|].
  split; [auto|]. intros c k [<-|hc] hk; [apply h2, H3, hk|apply h3; assumption].
Qed.
End Fold.

Lemma next_ok n d sel : (forall k, In k sel -> (k < n)%nat) -> (exists i j, In i sel /\ ~ In j sel /\ (j < n)%nat /\ d i j <> None) ->
  exists x y z, next_pair n d sel = Some (x, y) /\ In x sel /\ ~ In y sel /\ (y < n)%nat /\ d x y = Some z /\ forall a b, In a sel -> ~ In b sel -> (b < n)%nat -> less (d a b) (Some z) = false.
Proof.
  intros hs (i0 & j0 & a1 & a2 & a3 & a4). unfold next_pair.
  set (G := fun i j : nat => In i sel /\ ~ In j sel /\ (j < n)%nat).
  assert (inner : forall i acc, In i sel -> (ok d G acc -> ok d G (fold_left (next_step d sel i) (seq 0 n) acc)) /\ (forall o, less o (fst acc) = false -> less o (fst (fold_left (next_step d sel i) (seq 0 n) acc)) = false) /\
    (forall j, (j < n)%nat -> ~ In j sel -> less (d i j) (fst (fold_left (next_step d sel i) (seq 0 n) acc)) = false)).
  { intros i acc hi. destruct (fold_best d G (next_step d sel i) (fun j _ => (~ In j sel, (i, j))) (seq 0 n)) with (acc := acc) as (h1 & h2 & h3).
    - intros c j hj hc. unfold next_step. destruct (memb j sel) eqn:m; cbn [negb andb]; [exact hc|]. apply memb_out in m. apply in_seq in hj.
      destruct (less (d i j) (fst c)) eqn:l; [|exact hc]. cbn. destruct (d i j) eqn:e; [|discriminate]. unfold G. repeat split; auto; lia.
    - intros c j o ho. unfold next_step. destruct (negb (memb j sel) && less (d i j) (fst c)) eqn:l; [|exact ho]. apply andb_prop in l. cbn [fst]. eapply less_trans; [apply l|exact ho].
    - intros c j _ hj. cbn [fst snd] in *. unfold next_step. apply memb_out in hj. rewrite hj. cbn [negb andb]. destruct (less (d i j) (fst c)) eqn:l; [apply less_irrefl|exact l].
    - split; [exact h1|split; [exact h2|]]. intros j hj hn. apply (h3 j O); [apply in_seq; lia|exact hn]. }
  set (f := fun acc i => if memb i sel then fold_left (next_step d sel i) (seq 0 n) acc else acc).
  destruct (fold_best d G f (fun i j => (In i sel /\ (j < n)%nat /\ ~ In j sel, (i, j))) (seq 0 n)) with (acc := (@None Z, @None (nat * nat))) as (h1 & _ & h3).
  - intros c i _ hc. unfold f. destruct (memb i sel) eqn:m; [|exact hc]. apply inner; [apply memb_in; exact m|exact hc].
  - intros c i o ho. unfold f. destruct (memb i sel) eqn:m; [|exact ho]. apply inner; [apply memb_in; exact m|exact ho].
  - intros c i j (q1 & q2 & q3). cbn [fst snd]. unfold f. pose proof (proj2 (memb_in i sel) q1) as m. rewrite m. apply inner; assumption.
  - assert (all : forall a b, In a sel -> ~ In b sel -> (b < n)%nat -> less (d a b) (fst (fold_left f (seq 0 n) (None, None))) = false).
    { intros a b q1 q2 q3. apply (h3 a b); [apply in_seq; pose proof (hs a q1); lia|cbn; auto]. }
    clear h3. specialize (h1 I). pose proof (all i0 j0 a1 a2 a3) as ne. destruct (fold_left f (seq 0 n) (None, None)) as [[z|] [[x y]|]]; cbn [ok] in h1; try contradiction.
    + destruct h1 as ((g1 & g2 & g3) & g4). exists x, y, z. auto 7.
    + cbn [fst] in ne. destruct (d i0 j0); [discriminate|contradiction].
Qed.

Lemma first_ok n d : (exists i j, (i < j < n)%nat /\ d i j <> None) ->
  exists x y z, snd (first_pair n d) = Some (x, y) /\ (x < y < n)%nat /\ d x y = Some z /\ forall a b, (a < b < n)%nat -> less (d a b) (Some z) = false.
Proof.
  intros (i0 & j0 & a1 & a2). unfold first_pair. set (G := fun i j : nat => (i < j < n)%nat).
  assert (bnd : forall i c j o, less o (fst c) = false -> less o (fst (first_step d i c j)) = false).
  { intros i c j o ho. unfold first_step. destruct (less (d i j) (fst c)) eqn:l; [eapply less_trans; eassumption|]. destruct (same (fst c) (d i j)); [|exact ho]. destruct (snd c) as [ij|]; [|exact ho]. destruct (i <? fst ij)%nat; exact ho. }
  assert (inner : forall i acc, (i < n)%nat -> (ok d G acc -> ok d G (fold_left (first_step d i) (seq (S i) (n - S i)) acc)) /\ (forall j, (i < j < n)%nat -> less (d i j) (fst (fold_left (first_step d i) (seq (S i) (n - S i)) acc)) = false)).
  { intros i acc hi. destruct (fold_best d G (first_step d i) (fun j _ => (True, (i, j))) (seq (S i) (n - S i))) with (acc := acc) as (h1 & h2 & h3).
    - intros c j hj hc. apply in_seq in hj. assert (g : G i j) by (unfold G; lia). assert (em : Nat.min i j = i) by lia. assert (eM : Nat.max i j = j) by lia. unfold first_step. rewrite em, eM.
      destruct (less (d i j) (fst c)) eqn:l; [cbn; destruct (d i j) eqn:e; [auto|discriminate]|]. destruct (same (fst c) (d i j)) eqn:s; [|exact hc]. destruct c as [[z|] [[x y]|]]; cbn [ok fst snd] in *; try contradiction; try discriminate.
      destruct (i <? x)%nat; [|exact hc]. cbn. destruct (d i j) eqn:e; [|discriminate]. cbn in s. apply Z.eqb_eq in s. subst. auto.
    - apply bnd.
    - intros c j _ _. cbn [fst snd]. unfold first_step. destruct (less (d i j) (fst c)) eqn:l; [apply less_irrefl|]. destruct (same (fst c) (d i j)); [|exact l]. destruct (snd c) as [ij|]; [|exact l]. destruct (i <? fst ij)%nat; exact l.
    - split; [exact h1|]. intros j hj. apply (h3 j O); [apply in_seq; lia|exact I]. }
  set (f := fun acc i => fold_left (first_step d i) (seq (S i) (n - S i)) acc).
  destruct (fold_best d G f (fun i j => ((i < j < n)%nat, (i, j))) (seq 0 n)) with (acc := (@None Z, @None (nat * nat))) as (h1 & _ & h3).
  - intros c i hi hc. apply in_seq in hi. apply inner; [lia|exact hc].
  - intros c i o ho. unfold f. generalize (seq (S i) (n - S i)). intros l. revert c ho. induction l as [|j l IH]; intros c ho; [exact ho|]. cbn [fold_left]. apply IH, bnd, ho.
  - intros c i j hij. cbn [fst snd] in *. apply inner; lia.
  - assert (all : forall a b, (a < b < n)%nat -> less (d a b) (fst (fold_left f (seq 0 n) (None, None))) = false).
    { intros a b q. apply (h3 a b); [apply in_seq; lia|exact q]. }
    clear h3. specialize (h1 I). pose proof (all i0 j0 a1) as ne. destruct (fold_left f (seq 0 n) (None, None)) as [[z|] [[x y]|]]; cbn [ok] in h1; try contradiction.
    + destruct h1 as (g1 & g2). exists x, y, z. auto.
    + cbn [fst] in ne. destruct (d i0 j0); [discriminate|contradiction].
Qed.

(** Sorting. *)
Lemma insert_perm {A} lt (x : A) l : Permutation (x :: l) (insert_by lt x l).
Proof. induction l as [|y l IH]; cbn; [constructor; constructor|]. destruct (lt x y); [reflexivity|]. etransitivity; [apply perm_swap|]. constructor. exact IH. Qed.
Lemma sort_perm {A} lt (l : list A) : Permutation l (sort_by lt l).
Proof.
  unfold sort_by. cut (forall s, Permutation (s ++ l) (fold_left (fun s x => insert_by lt x s) l s)); [intros h; exact (h [])|]. induction l as [|x l IH]; intros s; cbn [fold_left]; [rewrite app_nil_r; reflexivity|].
  etransitivity; [|apply IH]. etransitivity; [symmetry; apply Permutation_middle|]. change (x :: s ++ l) with ((x :: s) ++ l). apply Permutation_app_tail, insert_perm.
Qed.
Lemma sort_sorted {A} (lt : A -> A -> bool) (l : list A) : (forall a b, lt a b = true -> lt b a = false) -> (forall a b c, lt b a = false -> lt c b = false -> lt c a = false) -> StronglySorted (fun a b => lt b a = false) (sort_by lt l).
Proof.
  intros asym tr. unfold sort_by. cut (forall s, StronglySorted (fun a b => lt b a = false) s -> StronglySorted (fun a b => lt b a = false) (fold_left (fun s x => insert_by lt x s) l s)); [intros h; apply h; constructor|].
  induction l as [|x l IH]; intros s hs; cbn [fold_left]; [exact hs|]. apply IH. clear IH l. induction hs as [|y s hs IH hy]; cbn; [repeat constructor|].
  destruct (lt x y) eqn:e; [constructor; [constructor; assumption|]; constructor; [auto|]; eapply Forall_impl; [|exact hy]; intros z hz; cbv beta in *; eapply tr; [apply asym; exact e|exact hz]|].
  constructor; [exact IH|]. apply Forall_forall. intros z hz. apply (Permutation_in z (Permutation_sym (insert_perm lt x s))) in hz. destruct hz as [<-|hz]; [exact e|rewrite Forall_forall in hy; auto].
Qed.

(** Prim's loop. *)
Section Loop.
Variables (n : nat) (d : nat -> nat -> option Z) (w : nat -> nat -> Z).
Hypothesis wsym : forall u v, w u v = w v u.
Hypothesis hd : forall u v, (u < n)%nat -> (v < n)%nat -> u <> v -> d u v = Some (w u v).
Lemma loop_inv k : forall sel es, inv n w sel es -> sel <> [] -> (length sel + k = n)%nat -> exists sel' es', prim_loop k n d sel es = Some es' /\ inv n w sel' es' /\ length sel' = n.
Proof.
  induction k as [|k IH]; intros sel es I ne hl; [exists sel, es; split; [reflexivity|split; [exact I|lia]]|]. cbn [prim_loop].
  assert (hs := i_lt _ _ _ _ I). destruct (inv_missing n w sel es I ltac:(lia)) as (j & j1 & j2). destruct sel as [|i sel]; [contradiction|].
  assert (dif : forall a b, In a (i :: sel) -> ~ In b (i :: sel) -> (b < n)%nat -> d a b = Some (w a b)) by (intros a b q1 q2 q3; apply hd; [auto|exact q3|intros ->; auto]).
  destruct (next_ok n d (i :: sel) hs) as (x & y & z & e & hx & hy & hyn & ez & hm).
  { exists i, j. repeat split; [left; reflexivity|exact j2|exact j1|]. rewrite dif; [discriminate|left; reflexivity|exact j2|exact j1]. }
  rewrite e. cbn [snd]. apply IH; [|discriminate|cbn [length] in *; lia]. apply inv_step; auto. intros a b q1 q2 q3. specialize (hm a b q1 q2 q3). rewrite dif in hm, ez by assumption. injection ez as <-. cbn in hm. lia.
Qed.
Lemma prim_inv : (2 <= n)%nat -> exists sel es, prim n d = Some es /\ inv n w sel es /\ length sel = n.
Proof.
  intros hn. unfold prim. destruct (first_ok n d) as (x & y & z & e & hxy & ez & hm); [exists 0%nat, 1%nat; split; [lia|]; rewrite hd by lia; discriminate|].
  rewrite e. cbn [fst snd]. rewrite hd in ez by lia. injection ez as <-. change [(x, y)] with ([] ++ [(x, y)]).
  apply loop_inv; [|discriminate|cbn [length]; lia]. apply inv_step; [exact wsym|apply inv_start; lia|left; reflexivity|intros [q|[]]; lia|lia|].
  intros a b [<-|[]] hb hbn. assert (x <> b) by (intros ->; apply hb; left; reflexivity).
  destruct (Nat.lt_ge_cases x b) as [q|q]; [specialize (hm x b ltac:(lia))|specialize (hm b x ltac:(lia))]; rewrite hd in hm by lia; cbn in hm; [lia|rewrite (wsym x b); lia].
Qed.
End Loop.
