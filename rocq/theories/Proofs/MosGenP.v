(** Lemmas on the sizes and patterns of the transistor generator. *)
From Coq Require Import String Ascii ZifyBool.
From Verif Require Import Base.Prelude Base.PyDict Model.Transformation Model.Canvas Model.TransistorArray Model.MosGen Proofs.CanvasP.
Local Open Scope Z_scope.

Lemma in_zrange n i : In i (zrange n) <-> 0 <= i < n.
Proof. unfold zrange. rewrite in_map_iff. split; [intros (k & <- & H); apply in_seq in H; lia|intros H; exists (Z.to_nat i); split; [lia|apply in_seq; lia]]. Qed.
Lemma zrange_nodup n : NoDup (zrange n).
Proof. unfold zrange. apply FinFun.Injective_map_NoDup; [intros a b; lia|apply seq_NoDup]. Qed.
Lemma zrange_len n : length (zrange n) = Z.to_nat n.
Proof. unfold zrange. now rewrite map_length, seq_length. Qed.
Lemma mapM_map_ext {A B} (f : A -> option B) g l : (forall a, In a l -> f a = Some (g a)) -> mapM f l = Some (map g l).
Proof. induction l as [|a l IH]; intros H; [reflexivity|]. cbn. rewrite (H a (or_introl eq_refl)), IH; [reflexivity|]. intros b Hb. apply H. now right. Qed.
Lemma mapM_none {A B} (f : A -> option B) l a : In a l -> f a = None -> mapM f l = None.
Proof. induction l as [|b l IH]; intros Hi E; [destruct Hi|]. destruct Hi as [<-|H]; cbn; [now rewrite E|]. destruct (f b); [|reflexivity]. now rewrite (IH H E). Qed.

(** Counting. *)
Definition countb {A} (f : A -> bool) (l : list A) : Z := Z.of_nat (length (filter f l)).
Lemma countb_app {A} (f : A -> bool) a b : countb f (a ++ b) = countb f a + countb f b.
Proof. unfold countb. rewrite filter_app, app_length. lia. Qed.
Lemma countb_map {A B} (g : A -> B) f l : countb f (map g l) = countb (fun a => f (g a)) l.
Proof. unfold countb. induction l as [|a l IH]; [reflexivity|]. cbn. destruct (f (g a)); cbn [length]; lia. Qed.
Lemma countb_ext {A} (f g : A -> bool) l : (forall a, In a l -> f a = g a) -> countb f l = countb g l.
Proof. intros H. unfold countb. induction l as [|a l IH]; [reflexivity|]. cbn. rewrite (H a (or_introl eq_refl)). assert (length (filter f l) = length (filter g l)) by (apply Nat2Z.inj, IH; intros b Hb; apply H; now right). destruct (g a); cbn [length]; lia. Qed.
Lemma countb_concat {A} (f : A -> bool) ls c : (forall l, In l ls -> countb f l = c) -> countb f (concat ls) = Z.of_nat (length ls) * c.
Proof. induction ls as [|l ls IH]; intros H; [cbn; lia|]. cbn [concat length]. rewrite countb_app, IH by (intros; apply H; now right). rewrite (H l (or_introl eq_refl)). lia. Qed.
Lemma countb_negb {A} (f : A -> bool) l : countb f l + countb (fun a => negb (f a)) l = Z.of_nat (length l).
Proof. unfold countb. induction l as [|a l IH]; [reflexivity|]. cbn. destruct (f a); cbn [length negb]; lia. Qed.
Lemma countb_true {A} (l : list A) : countb (fun _ => true) l = Z.of_nat (length l).
Proof. unfold countb. induction l as [|a l IH]; [reflexivity|]. cbn in *. lia. Qed.
(** A predicate with period [q]. *)
Lemma zrange_app a b : 0 <= a -> 0 <= b -> zrange (a + b) = zrange a ++ map (fun i => i + a) (zrange b).
Proof. intros Ha Hb. unfold zrange. rewrite Z2Nat.inj_add, seq_app, map_app by lia. f_equal. rewrite map_map. replace (0 + Z.to_nat a)%nat with (Z.to_nat a + 0)%nat by lia. generalize 0%nat. induction (Z.to_nat b) as [|k IH]; intros s; [reflexivity|]. cbn. f_equal; [lia|]. replace (Datatypes.S (Z.to_nat a + s)) with (Z.to_nat a + Datatypes.S s)%nat by lia. apply IH. Qed.
Lemma countb_period f q k : 0 <= q -> (forall i, f (i + q) = f i) -> countb f (zrange (q * Z.of_nat k)) = Z.of_nat k * countb f (zrange q).
Proof.
  intros Hq Hf. induction k as [|k IH]; [now rewrite Z.mul_0_r|]. replace (q * Z.of_nat (Datatypes.S k)) with (q + q * Z.of_nat k) by lia. rewrite zrange_app by nia. rewrite countb_app, countb_map, (countb_ext (fun a => f (a + q)) f) by (intros i _; apply Hf). rewrite IH. lia.
Qed.
Lemma countb_lt n m : 0 <= m <= n -> countb (fun x => x <? m) (zrange n) = m.
Proof.
  intros H. replace n with (m + (n - m)) by lia. rewrite zrange_app, countb_app, countb_map by lia.
  rewrite (countb_ext (fun x => x <? m) (fun _ => true) (zrange m)) by (intros a Ha; apply in_zrange in Ha; lia). rewrite (countb_ext (fun a => a + m <? m) (fun _ => false)) by (intros a Ha; apply in_zrange in Ha; lia).
  rewrite countb_true, zrange_len. unfold countb at 1. replace (filter (fun _ : Z => false) (zrange (n - m))) with (@nil Z); [cbn; lia|]. induction (zrange (n - m)); auto.
Qed.
Lemma countb_between n l r : 0 <= l <= r -> r <= n -> countb (fun x => (l <=? x) && (x <? r)) (zrange n) = r - l.
Proof.
  intros H Hn. replace n with (l + (n - l)) by lia. rewrite zrange_app, countb_app, countb_map by lia.
  rewrite (countb_ext (fun x => (l <=? x) && (x <? r)) (fun _ => false) (zrange l)) by (intros a Ha; apply in_zrange in Ha; lia). rewrite (countb_ext (fun a => (l <=? a + l) && (a + l <? r)) (fun x => x <? r - l)) by (intros a Ha; apply in_zrange in Ha; lia).
  rewrite countb_lt by lia. unfold countb. replace (filter (fun _ : Z => false) (zrange l)) with (@nil Z); [cbn; lia|]. induction (zrange l); auto.
Qed.
Lemma rev_zrange n : rev (zrange n) = map (fun i => n - 1 - i) (zrange n).
Proof.
  unfold zrange. rewrite <- map_rev, map_map. destruct (Z.le_gt_cases n 0) as [L|L]; [replace (Z.to_nat n) with 0%nat by lia; reflexivity|].
  replace n with (Z.of_nat (Z.to_nat n)) by lia. generalize (Z.to_nat n). clear. intros k. rewrite Nat2Z.id. induction k as [|k IH]; [reflexivity|].
  rewrite seq_S at 1. rewrite rev_app_distr, map_app, IH. cbn [Nat.add rev map app seq]. apply f_equal2; [lia|]. rewrite <- seq_shift, map_map. apply map_ext. lia.
Qed.

(** Sizes. *)
Lemma divide_down_spec m : 0 < m -> forall y, (0 < y)%nat -> exists r, divide_down m y = Some r /\ 0 < r <= Z.of_nat y /\ m mod r = 0.
Proof.
  intros Hm y. induction y as [|y IH]; intros Hy; [lia|]. cbn [divide_down]. destruct (Z.eqb_spec (m mod Z.of_nat (Datatypes.S y)) 0) as [E|E]; [eexists; repeat split; try lia; exact E|].
  destruct y as [|y]; [rewrite Z.mod_1_r in E; lia|]. destruct IH as (r & H1 & H2 & H3); [lia|]. exists r. repeat split; try assumption; lia.
Qed.
Definition pair_dec (a b : Z * Z) : {a = b} + {a <> b} :=
  match Z.eq_dec (fst a) (fst b), Z.eq_dec (snd a) (snd b) with
  | left e1, left e2 => left (eq_trans (surjective_pairing a) (eq_trans (f_equal2 pair e1 e2) (eq_sym (surjective_pairing b))))
  | right n, _ => right (fun e => n (f_equal fst e)) | _, right n => right (fun e => n (f_equal snd e)) end.
Lemma pairZ_eqb_ok a b : pairZ_eqb a b = true <-> a = b.
Proof. destruct a, b. unfold pairZ_eqb. cbn. split; [intros H; f_equal; lia|intros [= -> ->]; lia]. Qed.
(** Names. *)
Lemma insert_str_in s l x : In x (insert_str s l) <-> x = s \/ In x l.
Proof.
  induction l as [|t l IH]; cbn; [intuition|]. destruct (String.eqb_spec s t) as [->|N]; [cbn; intuition|]. destruct (String.leb s t); cbn; rewrite ?IH; intuition.
Qed.
Lemma sort_names_two a b : md_name a <> md_name b ->
  sort_names [a; b] = if String.leb (md_name a) (md_name b) then [md_name a; md_name b] else [md_name b; md_name a].
Proof. intros N. cbn. destruct (String.eqb_spec (md_name a) (md_name b)); [contradiction|reflexivity]. Qed.
Lemma nth_zrange n i : 0 <= i < n -> nth_error (zrange n) (Z.to_nat i) = Some i.
Proof.
  intros H. unfold zrange. assert (E : nth_error (seq 0 (Z.to_nat n)) (Z.to_nat i) = Some (Z.to_nat i)) by (rewrite nth_error_nth' with (d := 0%nat) by (rewrite seq_length; lia); rewrite seq_nth by lia; reflexivity).
  apply (map_nth_error Z.of_nat) in E. rewrite E. f_equal. lia.
Qed.
