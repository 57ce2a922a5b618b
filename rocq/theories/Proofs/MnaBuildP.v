(** The devices of the IR-drop simulator make a good system; its entries fit into their places. *)
From Coq Require Import ZArith QArith Qcanon ZifyBool.
From Verif Require Import Base.Prelude Model.CapPlace Model.Mna Spec.MnaSpec Proofs.MnaP.
Local Open Scope Z_scope.
Local Notation Qz := (0%Qc).

(** ** The highest node *)
Definition nstep (n : Z) (d : device) : Z := let n := if n <? d_start d then d_start d else n in if n <? d_end d then d_end d else n.
Lemma nstep_spec n d : n <= nstep n d /\ d_start d <= nstep n d /\ d_end d <= nstep n d /\ (nstep n d = n \/ nstep n d = d_start d \/ nstep n d = d_end d).
Proof. unfold nstep. destruct (n <? d_start d) eqn:e1; [destruct (d_start d <? d_end d) eqn:e2|destruct (n <? d_end d) eqn:e2]; lia. Qed.
Lemma nodenum_from l : forall n, n <= fold_left nstep l n /\ (forall d, In d l -> d_start d <= fold_left nstep l n /\ d_end d <= fold_left nstep l n) /\
  (fold_left nstep l n = n \/ exists d, In d l /\ (d_start d = fold_left nstep l n \/ d_end d = fold_left nstep l n)).
Proof.
  induction l as [|d l IH]; intros n; [cbn [fold_left]; split; [lia|]; split; [intros d []|left; reflexivity]|].
  cbn [fold_left]. assert (h := nstep_spec n d). destruct (IH (nstep n d)) as (h1 & h2 & h3). set (r := fold_left nstep l (nstep n d)) in *. clearbody r. split; [lia|]. split.
  - intros e [<-|I]; [lia|exact (h2 e I)].
  - destruct h3 as [h3|(e & I & h3)].
    + destruct h as (_ & _ & _ & [h|[h|h]]); [left; lia|right; exists d; split; [left; reflexivity|lia]..].
    + right. exists e. split; [right; exact I|exact h3].
Qed.
Lemma nodenum_highest ds : highest ds (nodenum ds).
Proof. destruct (nodenum_from ds 0) as (h1 & h2 & h3). split; [exact h1|]. split; [exact h2|exact h3]. Qed.

(** ** Kinds *)
Lemma filter_none {A} (p : A -> bool) l : (forall a, In a l -> p a = false) -> filter p l = [].
Proof. induction l as [|a l IH]; intros H; [reflexivity|]. cbn. rewrite (H a (or_introl eq_refl)). apply IH. intros b hb. apply H. right. exact hb. Qed.
Lemma filter_all {A} (p : A -> bool) l : (forall a, In a l -> p a = true) -> filter p l = l.
Proof. induction l as [|a l IH]; intros H; [reflexivity|]. cbn. rewrite (H a (or_introl eq_refl)). f_equal. apply IH. intros b hb. apply H. right. exact hb. Qed.
Lemma flat_none {A B} (f : A -> list B) l : (forall a, In a l -> f a = []) -> flat_map f l = [].
Proof. induction l as [|a l IH]; intros H; [reflexivity|]. cbn. rewrite (H a (or_introl eq_refl)). apply IH. intros b hb. apply H. right. exact hb. Qed.
Lemma AddingPower_in nodes q d : In d (AddingPower nodes q) -> d_kind d = KV /\ In (d_start d) nodes /\ d_value d = q /\ exists k, 0 <= k < Z.of_nat (length nodes) /\ d_end d = - (k + 1).
Proof.
  unfold AddingPower. rewrite in_map_iff. intros ([k n] & <- & h). cbn [fst snd d_kind d_start d_end d_value]. split; [reflexivity|]. split; [exact (in_combine_r _ _ _ _ h)|]. split; [reflexivity|].
  apply in_combine_l, in_seq in h. exists (Z.of_nat k). lia.
Qed.
Lemma AddingPower_length nodes q : length (AddingPower nodes q) = length nodes.
Proof. unfold AddingPower. rewrite map_length, combine_length, seq_length. lia. Qed.
Lemma AddingPower_places N P nodes q : flat_map (v_place N P) (AddingPower nodes q) =
  map (fun k => (if is_zero q then N + P / 2 else N) + Z.of_nat k) (seq 0 (length nodes)).
Proof.
  unfold AddingPower. generalize 0%nat at 1 2. induction nodes as [|x l IH]; intros a; [reflexivity|]. cbn [length seq combine map flat_map fst snd]. rewrite IH. cbn [v_place d_kind d_value d_end app].
  f_equal. destruct (is_zero q); lia.
Qed.
Lemma Map_new_in m0 ls : (forall l, In l ls -> 1 <= l_s l <= m0 /\ 1 <= l_e l <= m0 /\ l_r1 l <> Qz /\ l_r2 l <> Qz) -> forall seen m d, m0 <= m -> In d (Map_new seen m ls) ->
  match d_kind d with KR => 1 <= d_start d /\ 1 <= d_end d /\ d_start d <> d_end d /\ d_value d <> Qz | KI => m < d_start d /\ d_end d = d_start d + 1 | KV => False end.
Proof.
  induction ls as [|l ls IH]; intros H seen m d hm I; [destruct I|].
  assert (H' : forall l, In l ls -> 1 <= l_s l <= m0 /\ 1 <= l_e l <= m0 /\ l_r1 l <> Qz /\ l_r2 l <> Qz) by (intros k hk; apply H; right; exact hk).
  destruct (H l (or_introl eq_refl)) as (h1 & h2 & h3 & h4). cbn [Map_new] in I. destruct (existsb _ _); [exact (IH H' seen m d hm I)|].
  destruct I as [<-|[<-|[<-|I]]]; cbn [d_kind d_start d_end d_value]; try (repeat split; (lia || assumption)).
  assert (r := IH H' (l_at l :: seen) (m + 2) d ltac:(lia) I). destruct (d_kind d); [exact r|lia|exact r].
Qed.
Lemma Map_new_nodes m0 ls : 0 <= m0 -> (forall l, In l ls -> 1 <= l_s l <= m0 /\ 1 <= l_e l <= m0 /\ l_r1 l <> Qz /\ l_r2 l <> Qz) -> forall seen m, m0 <= m -> NoDup (flat_map i_nodes (Map_new seen m ls)).
Proof.
  intros p. induction ls as [|l ls IH]; intros H seen m hm; [constructor|].
  assert (H' : forall l, In l ls -> 1 <= l_s l <= m0 /\ 1 <= l_e l <= m0 /\ l_r1 l <> Qz /\ l_r2 l <> Qz) by (intros k hk; apply H; right; exact hk).
  cbn [Map_new]. destruct (existsb _ _); [exact (IH H' seen m hm)|]. cbn [flat_map i_nodes d_kind d_start d_end app]. replace (0 <? m + 2) with true by lia. cbn [app].
  assert (F : forall z, In z (flat_map i_nodes (Map_new (l_at l :: seen) (m + 2) ls)) -> m + 2 < z).
  { intros z hz. apply in_flat_map in hz. destruct hz as (d & I & hz). assert (r := Map_new_in m0 ls H' (l_at l :: seen) (m + 2) d ltac:(lia) I). unfold i_nodes in hz. destruct (d_kind d); [destruct hz| |destruct hz].
    destruct hz as [<-|hz]; [lia|]. destruct (0 <? d_end d); [|destruct hz]. destruct hz as [<-|[]]. lia. }
  constructor; [intros [h|h]; [lia|apply F in h; lia]|]. constructor; [intros h; apply F in h; lia|]. apply IH; [exact H'|lia].
Qed.
Lemma nodup_map_inj {A B} (f : A -> B) l : (forall a b, f a = f b -> a = b) -> NoDup l -> NoDup (map f l).
Proof. intros H. apply FinFun.Injective_map_NoDup. intros a b. apply H. Qed.
Lemma nodup_two {A} (l1 l2 : list A) : NoDup l1 -> NoDup l2 -> (forall x, In x l1 -> In x l2 -> False) -> NoDup (l1 ++ l2).
Proof.
  induction l1 as [|a l IH]; intros N1 N2 H; [exact N2|]. apply NoDup_cons_iff in N1. destruct N1 as [n1 n2]. cbn. constructor.
  - intros h. apply in_app_or in h. destruct h as [h|h]; [contradiction|]. exact (H a (or_introl eq_refl) h).
  - apply IH; [exact n2|exact N2|]. intros x h1 h2. exact (H x (or_intror h1) h2).
Qed.

(** ** Entries and places *)
Definition zs {A} (f : A -> Z) (l : list A) : Z := fold_right Z.add 0 (map f l).
Lemma zs_cons {A} (f : A -> Z) a l : zs f (a :: l) = f a + zs f l.
Proof. reflexivity. Qed.
Lemma zs_le {A} (f g : A -> Z) l : (forall a, In a l -> f a <= g a) -> zs f l <= zs g l.
Proof.
  induction l as [|a l IH]; intros H; [cbn; lia|]. rewrite !zs_cons. assert (h := H a (or_introl eq_refl)).
  assert (h' : zs f l <= zs g l) by (apply IH; intros b hb; apply H; right; exact hb). lia.
Qed.
Lemma zs_add {A} (f g : A -> Z) l : zs (fun a => f a + g a) l = zs f l + zs g l.
Proof. induction l as [|a l IH]; [reflexivity|]. rewrite !zs_cons, IH. lia. Qed.
Lemma zs_zero {A} (l : list A) : zs (fun _ => 0) l = 0.
Proof. induction l as [|a l IH]; [reflexivity|]. rewrite zs_cons, IH. reflexivity. Qed.
Lemma zs_swap {A B} (f : A -> B -> Z) l m : zs (fun a => zs (f a) m) l = zs (fun b => zs (fun a => f a b) l) m.
Proof.
  induction l as [|a l IH]; [cbn; symmetry; apply zs_zero|]. rewrite zs_cons, IH, <- zs_add. unfold zs at 1 3. f_equal.
Qed.
Lemma zs_once k l : NoDup l -> zs (fun i => if i =? k then 1 else 0) l <= 1.
Proof.
  intros N. assert (h : zs (fun i => if i =? k then 1 else 0) l <= 1 /\ (~ In k l -> zs (fun i => if i =? k then 1 else 0) l = 0)); [|lia].
  induction l as [|a l IH]; [cbn; split; [lia|reflexivity]|]. apply NoDup_cons_iff in N. destruct N as [n1 n2]. destruct (IH n2) as [h1 h2]. rewrite zs_cons. split.
  - destruct (a =? k) eqn:e; [|lia]. assert (a = k) by lia. subst a. rewrite (h2 n1). lia.
  - intros h. cbn in h. replace (a =? k) with false by (destruct (a =? k) eqn:e; [exfalso; apply h; left; lia|reflexivity]). rewrite h2 by tauto. reflexivity.
Qed.
Lemma zs_low N n : 0 <= N -> zs (fun i => if i <? N then 1 else 0) (zrange n) <= N.
Proof.
  intros h. replace (zs _ _) with (Z.of_nat (length (filter (fun i => i <? N) (zrange n)))).
  - assert (l : (length (filter (fun i => (i <? N)%Z) (zrange n)) <= length (zrange N))%nat).
    { apply NoDup_incl_length; [apply NoDup_filter, zrange_nodup|]. intros x hx. apply filter_In in hx. destruct hx as [h1 h2]. apply zrange_in in h1. apply zrange_in. lia. }
    unfold zrange at 2 in l. rewrite map_length, seq_length in l. lia.
  - induction (zrange n) as [|a l IH]; [reflexivity|]. rewrite zs_cons, <- IH. cbn [filter]. destruct (a <? N); cbn [length]; lia.
Qed.
Lemma set_entries n p q t : entries_of n (set p q t) <= entries_of n t + 1.
Proof.
  unfold entries_of. set (l := zrange n). assert (h : (length (filter (fun j => negb (is_zero (set p q t j))) l) <= length (p :: filter (fun j => negb (is_zero (t j))) l))%nat).
  { apply NoDup_incl_length; [apply NoDup_filter, zrange_nodup|]. intros x hx. apply filter_In in hx. destruct hx as [h1 h2]. destruct (x =? p) eqn:e; [left; lia|]. right. apply filter_In.
    split; [exact h1|]. unfold set in h2. rewrite e in h2. exact h2. }
  cbn [length] in h. lia.
Qed.
Definition b2z (b : bool) : Z := if b then 1 else 0.
Definition touch (d : device) (i : Z) : Z :=
  match d_kind d with KR => b2z (i =? d_start d - 1) + b2z (i =? d_end d - 1) | KV => b2z (i =? d_start d - 1) | KI => 0 end.
Definition stouch (N P : Z) (d : device) (i : Z) : Z :=
  match d_kind d with KV => b2z (i =? (if is_zero (d_value d) then N - 1 - d_end d + P / 2 else N - 1 - d_end d)) | _ => 0 end.
Lemma node_entries N P n i l : forall ts, entries_of n (fst (fold_left (node_step N P i) l ts)) <= entries_of n (fst ts) + zs (fun d => touch d i) l.
Proof.
  induction l as [|d l IH]; intros ts; [cbn; lia|]. cbn [fold_left]. rewrite zs_cons. specialize (IH (node_step N P i ts d)).
  assert (h : entries_of n (fst (node_step N P i ts d)) <= entries_of n (fst ts) + touch d i); [|lia]. clear IH.
  unfold node_step, touch, b2z. destruct (d_kind d); [|lia|].
  - set (g := (1 / d_value d)%Qc). clearbody g. destruct (d_start d =? i + 1) eqn:e1; destruct (d_end d =? i + 1) eqn:e2; cbn [fst snd];
    destruct (i =? d_start d - 1) eqn:e3; try (exfalso; lia); destruct (i =? d_end d - 1) eqn:e4; try (exfalso; lia); try lia;
    match goal with |- entries_of n (set ?p ?q (set ?p' ?q' ?t)) <= _ => pose proof (set_entries n p q (set p' q' t)); pose proof (set_entries n p' q' t); lia
    | |- entries_of n (set ?p ?q ?t) <= _ => pose proof (set_entries n p q t); lia end.
  - destruct (d_start d =? i + 1) eqn:e1, (i =? d_start d - 1) eqn:e3; try (exfalso; lia); cbn [fst snd]; [|lia]. apply set_entries.
Qed.
Lemma source_entries N P n i l : forall t, entries_of n (fold_left (source_step N P i) l t) <= entries_of n t + zs (fun d => stouch N P d i) l.
Proof.
  induction l as [|d l IH]; intros t; [cbn; lia|]. cbn [fold_left]. rewrite zs_cons. specialize (IH (source_step N P i t d)).
  assert (h : entries_of n (source_step N P i t d) <= entries_of n t + stouch N P d i); [|lia]. clear IH.
  unfold source_step, stouch, b2z. destruct (d_kind d); [lia..|]. destruct (is_zero (d_value d)); cbn [negb].
  - destruct (2 * - d_end d =? 2 * (i + 1 - N) - P) eqn:e1; [|destruct (i =? _); lia]. pose proof (Z.div_mod P 2 ltac:(lia)). pose proof (Z.mod_pos_bound P 2 ltac:(lia)).
    replace (i =? N - 1 - d_end d + P / 2) with true by lia. apply set_entries.
  - destruct (- d_end d =? i + 1 - N) eqn:e1; [|destruct (i =? _); lia]. replace (i =? N - 1 - d_end d) with true by lia. apply set_entries.
Qed.
Lemma entries_none n : entries_of n (fun _ => Qz) = 0.
Proof. unfold entries_of. rewrite filter_none; [reflexivity|]. intros; reflexivity. Qed.
Lemma entries_fit ds : entries ds <= places ds.
Proof.
  unfold entries, places. set (N := nodenum ds). set (P := powerdev ds). assert (N0 : 0 <= N) by exact (proj1 (nodenum_highest ds)).
  change (zs (fun i => entries_of (N + P) (column N P ds i)) (zrange (N + P)) <= 2 * (Z.of_nat (length ds) - currentdev ds) + N).
  transitivity (zs (fun i => b2z (i <? N) + zs (fun d => touch d i + stouch N P d i) ds) (zrange (N + P))).
  - apply zs_le. intros i hi. rewrite zs_add. unfold column.
    assert (p1 : 0 <= zs (fun d => touch d i) ds). { rewrite <- (zs_zero ds). apply zs_le. intros d _. unfold touch, b2z. destruct (d_kind d); [destruct (_ =? _), (_ =? _)| |destruct (_ =? _)]; lia. }
    assert (p2 : 0 <= zs (fun d => stouch N P d i) ds). { rewrite <- (zs_zero ds). apply zs_le. intros d _. unfold stouch, b2z. destruct (d_kind d); [..|destruct (_ =? _)]; lia. }
    destruct (i <? N); cbn [b2z].
    + unfold node_column. set (ts := fold_left _ _ _). pose proof (set_entries (N + P) i (snd ts) (fst ts)).
      pose proof (node_entries N P (N + P) i ds (fun _ => Qz, Qz)) as h. fold ts in h. cbn [fst] in h. rewrite entries_none in h. lia.
    + pose proof (source_entries N P (N + P) i ds (fun _ => Qz)) as h. rewrite entries_none in h. lia.
  - rewrite zs_add, zs_swap. pose proof (zs_low N (N + P) N0) as h. unfold b2z at 1.
    assert (h2 : zs (fun d => zs (fun i => touch d i + stouch N P d i) (zrange (N + P))) ds <= 2 * (Z.of_nat (length ds) - currentdev ds)); [|lia].
    clear h. clearbody N P. unfold currentdev. induction ds as [|d l IH]; [cbn; lia|]. rewrite zs_cons. cbn [length filter].
    assert (h : zs (fun i => touch d i + stouch N P d i) (zrange (N + P)) <= 2 * (1 - b2z (is_kind KI d))).
    { rewrite zs_add. unfold touch, stouch, is_kind. destruct (d_kind d); cbn [b2z].
      - rewrite zs_add, zs_zero. pose proof (zs_once (d_start d - 1) _ (zrange_nodup (N + P))). pose proof (zs_once (d_end d - 1) _ (zrange_nodup (N + P))). unfold b2z. lia.
      - rewrite !zs_zero. lia.
      - unfold b2z. pose proof (zs_once (d_start d - 1) _ (zrange_nodup (N + P))). match goal with |- context [_ =? (if ?b then ?u else ?v)] => pose proof (zs_once (if b then u else v) _ (zrange_nodup (N + P))) end. lia. }
    unfold b2z in h. destruct (is_kind KI d); cbn [length]; lia.
Qed.
