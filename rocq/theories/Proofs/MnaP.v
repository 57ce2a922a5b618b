(** The linear system of the IR-drop simulator: rows are the laws of the network. *)
From Coq Require Import ZArith QArith Qcanon ZifyBool.
From Verif Require Import Base.Prelude Model.CapPlace Model.Mna Spec.MnaSpec.
Local Open Scope Z_scope.
Local Notation Qz := (0%Qc).

(** ** Sums *)
Definition bsum {A} (f : A -> Qc) (l : list A) : Qc := qsum (map f l).
Lemma bsum_cons {A} (f : A -> Qc) a l : bsum f (a :: l) = (f a + bsum f l)%Qc.
Proof. reflexivity. Qed.
Lemma bsum_ext {A} (f g : A -> Qc) l : (forall a, In a l -> f a = g a) -> bsum f l = bsum g l.
Proof.
  induction l as [|a l IH]; intros H; [reflexivity|]. rewrite !bsum_cons, (H a (or_introl eq_refl)), IH; [reflexivity|].
  intros b hb; apply H; right; exact hb.
Qed.
Lemma bsum_add {A} (f g : A -> Qc) l : bsum (fun a => f a + g a)%Qc l = (bsum f l + bsum g l)%Qc.
Proof. induction l as [|a l IH]; [cbn; ring|]. rewrite !bsum_cons, IH. ring. Qed.
Lemma bsum_zero {A} (f : A -> Qc) l : (forall a, In a l -> f a = Qz) -> bsum f l = Qz.
Proof.
  induction l as [|a l IH]; intros H; [reflexivity|]. rewrite bsum_cons, (H a (or_introl eq_refl)), IH; [ring|].
  intros b hb; apply H; right; exact hb.
Qed.
Lemma bsum_mul {A} (q : Qc) (f : A -> Qc) l : (q * bsum f l)%Qc = bsum (fun a => q * f a)%Qc l.
Proof. induction l as [|a l IH]; [cbn; ring|]. rewrite !bsum_cons, <- IH. ring. Qed.
Lemma bsum_swap {A B} (f : A -> B -> Qc) l m : bsum (fun a => bsum (f a) m) l = bsum (fun b => bsum (fun a => f a b) l) m.
Proof.
  induction l as [|a l IH]; [cbn; symmetry; apply bsum_zero; reflexivity|].
  rewrite bsum_cons, IH, <- bsum_add. apply bsum_ext. intros b _. rewrite bsum_cons. reflexivity.
Qed.
Lemma bsum_one {A} (f : A -> Qc) l a : NoDup l -> In a l -> (forall b, In b l -> b <> a -> f b = Qz) -> bsum f l = f a.
Proof.
  induction l as [|c l IH]; intros N I H; [destruct I|]. apply NoDup_cons_iff in N. destruct N as [Nc N]. rewrite bsum_cons.
  destruct I as [->|I].
  - rewrite (bsum_zero f l); [ring|]. intros b hb. apply H; [right; exact hb|]. intros ->. contradiction.
  - rewrite (IH N I); [|intros b hb; apply H; right; exact hb]. rewrite (H c (or_introl eq_refl)); [ring|]. intros ->. contradiction.
Qed.
Lemma zrange_in n j : In j (zrange n) <-> 0 <= j < n.
Proof.
  unfold zrange. rewrite in_map_iff. split.
  - intros (k & <- & h). apply in_seq in h. lia.
  - intros h. exists (Z.to_nat j). rewrite in_seq. lia.
Qed.
Lemma zrange_nodup n : NoDup (zrange n).
Proof. apply FinFun.Injective_map_NoDup; [intros a b h; lia|apply seq_NoDup]. Qed.
Lemma pick n (f : Z -> Qc) (k : Z) : 0 <= k < n -> bsum (fun i => if i =? k then f i else Qz) (zrange n) = f k.
Proof.
  intros h. rewrite (bsum_one _ _ k (zrange_nodup n) (proj2 (zrange_in n k) h)); [rewrite Z.eqb_refl; reflexivity|].
  intros b _ hb. rewrite (proj2 (Z.eqb_neq b k) hb). reflexivity.
Qed.

(** ** A place that at most one device writes *)
Definition single {A} (w : A -> option Qc) (l : list A) : Prop := ForallOrdPairs (fun a b => w a = None \/ w b = None) l.
Lemma single_of {A} (w : A -> option Qc) (key : A -> list Z) (k : Z) l :
  (forall a, In a l -> w a <> None -> In k (key a)) -> NoDup (flat_map key l) -> single w l.
Proof.
  induction l as [|a l IH]; intros H N; [constructor|]. cbn [flat_map] in N. constructor.
  - apply Forall_forall. intros b hb. destruct (w a) eqn:wa; [|left; reflexivity]. destruct (w b) eqn:wb; [|right; reflexivity]. exfalso.
    assert (k1 : In k (key a)) by (apply H; [left; reflexivity|congruence]).
    assert (k2 : In k (flat_map key l)) by (apply in_flat_map; exists b; split; [exact hb|apply H; [right; exact hb|congruence]]).
    revert k1 k2 N. clear. induction (key a) as [|x r IH]; intros k1 k2 N; [destruct k1|]. cbn in N. apply NoDup_cons_iff in N. destruct N as [n1 n2].
    destruct k1 as [->|k1]; [apply n1; apply in_or_app; right; exact k2|exact (IH k1 k2 n2)].
  - apply IH; [intros b hb; apply H; right; exact hb|]. revert N. induction (key a) as [|x r IH']; intros N; [exact N|].
    cbn in N. apply NoDup_cons_iff in N. exact (IH' (proj2 N)).
Qed.
Definition wval (o : option Qc) : Qc := match o with Some q => q | None => Qz end.
Lemma fold_writes {S A} (get : S -> Qc) (step : S -> A -> S) (w : A -> option Qc) l : forall s,
  (forall s a, In a l -> get (step s a) = match w a with Some q => q | None => get s end) ->
  single w l -> get s = Qz \/ (forall a, In a l -> w a = None) ->
  get (fold_left step l s) = (get s + bsum (fun a => wval (w a)) l)%Qc.
Proof.
  induction l as [|a l IH]; intros s H O Z0; [cbn; ring|]. cbn [fold_left]. rewrite bsum_cons.
  inversion O as [|x y Oa Ol]; subst. assert (Ha := H s a (or_introl eq_refl)).
  rewrite (IH (step s a)); [|intros s' b hb; apply H; right; exact hb|exact Ol|].
  - rewrite Ha. destruct (w a) as [q|] eqn:wa; cbn [wval]; [|ring]. destruct Z0 as [->|Z0]; [ring|]. discriminate (eq_trans (eq_sym wa) (Z0 a (or_introl eq_refl))).
  - destruct (w a) as [q|] eqn:wa.
    + right. intros b hb. rewrite Forall_forall in Oa. destruct (Oa b hb) as [e|e]; [congruence|exact e].
    + destruct Z0 as [e|e]; [left; rewrite Ha; exact e|right; intros b hb; apply e; right; exact hb].
Qed.

(** ** The entries *)
Definition ind (b : bool) : Qc := if b then 1%Qc else Qz.
Definition slot (N P : Z) (d : device) : Z := if is_zero (d_value d) then N + P / 2 + (- d_end d - 1) else N + (- d_end d - 1).
Lemma v_place_eq N P d : v_place N P d = match d_kind d with KV => [slot N P d] | _ => [] end.
Proof. reflexivity. Qed.
Lemma zero_iff q : is_zero q = true <-> q = Qz.
Proof.
  unfold is_zero. rewrite Qeq_bool_iff. split; [intros h; apply Qc_is_canon; exact h|intros ->; reflexivity].
Qed.
Lemma positive_zero q : (0 <= q)%Qc -> positive q = negb (is_zero q).
Proof.
  intros h. unfold positive. f_equal. apply Bool.eq_iff_eq_true. rewrite zero_iff, Qle_bool_iff. split.
  - intros h'. apply Qcle_antisym; [exact h'|exact h].
  - intros ->. apply Qle_refl.
Qed.
Section Rows.
Variables (N P : Z) (ds : list device).
Hypotheses (G : good N P ds) (P0 : 0 <= P).
Let gd : Forall (good_dev N P) ds. Proof. exact (proj1 G). Qed.
Let gi : NoDup (flat_map i_nodes ds). Proof. exact (proj1 (proj2 G)). Qed.
Let gv : NoDup (flat_map (v_place N P) ds). Proof. exact (proj1 (proj2 (proj2 G))). Qed.
Let ge : Z.even P = true. Proof. exact (proj2 (proj2 (proj2 G))). Qed.
Lemma good_in d : In d ds -> good_dev N P d.
Proof. intros h. exact (proj1 (Forall_forall _ _) gd d h). Qed.
Lemma vpos_slot d : In d ds -> d_kind d = KV -> vpos N P d = slot N P d /\ N <= slot N P d < N + P /\ 1 <= d_start d <= N.
Proof.
  intros I k. assert (g := good_in d I). unfold good_dev, v_place in g. rewrite k in g. destruct g as (g1 & g2 & g3 & g4).
  specialize (g4 _ (or_introl eq_refl)). fold (slot N P d) in g4. unfold vpos, slot in *. rewrite (positive_zero _ g3).
  assert (e : 2 * (P / 2) = P) by (pose proof (Zmod_even P) as e0; rewrite ge in e0; pose proof (Z.div_mod P 2 ltac:(lia)); lia).
  assert (p0 : 0 <= P \/ P < 0) by lia.
  destruct (is_zero (d_value d)); cbn [negb]; lia.
Qed.
Definition res (d : device) : Qc := match d_kind d with KR => (1 / d_value d)%Qc | _ => Qz end.
Definition vsrc (d : device) : bool := is_kind KV d.
Lemma kinds d : d_kind d = KV -> vsrc d = true.
Proof. intros e. unfold vsrc, is_kind. rewrite e. reflexivity. Qed.

Lemma node_fst i j l : incl l ds -> 0 <= j < N -> forall ts,
  fst (fold_left (node_step N P i) l ts) j =
  (fst ts j - bsum (fun d => res d * (ind ((d_start d =? i + 1) && (d_end d =? j + 1)) + ind ((d_end d =? i + 1) && (d_start d =? j + 1)))) l)%Qc.
Proof.
  intros inc hj. induction l as [|d l IH]; intros ts; [cbn; ring|]. cbn [fold_left]. rewrite IH, bsum_cons by (intros x hx; apply inc; right; exact hx).
  assert (I : In d ds) by (apply inc; left; reflexivity). unfold node_step, res. destruct (d_kind d) eqn:k.
  - set (g := (1 / d_value d)%Qc). clearbody g. cbn [fst snd].
    destruct (d_start d =? i + 1) eqn:e1, (d_end d =? i + 1) eqn:e2; cbn [fst snd andb]; unfold set, ind;
    destruct (j =? d_end d - 1) eqn:e3, (j =? d_start d - 1) eqn:e4, (d_end d =? j + 1) eqn:e5, (d_start d =? j + 1) eqn:e6; try lia;
    try (destruct (d_start d - 1 =? d_end d - 1) eqn:e7; try lia);
    repeat match goal with |- context [fst ts ?z] => match z with j => fail 1 | _ => replace z with j by lia end end; try ring.
  - ring.
  - destruct (vpos_slot d I k) as (e & hs & _). destruct (d_start d =? i + 1); cbn [fst snd]; unfold set; [|ring].
    rewrite e. destruct (j =? slot N P d) eqn:e3; [lia|ring].
Qed.
Lemma node_snd i l : forall ts,
  snd (fold_left (node_step N P i) l ts) = (snd ts + bsum (fun d => res d * (ind (d_start d =? i + 1) + ind (d_end d =? i + 1))) l)%Qc.
Proof.
  induction l as [|d l IH]; intros ts; [cbn; ring|]. cbn [fold_left]. rewrite IH, bsum_cons. unfold node_step, res, ind.
  destruct (d_kind d); [|ring|]; destruct (d_start d =? i + 1), (d_end d =? i + 1); cbn [fst snd]; ring.
Qed.
Lemma node_low i j : 0 <= i < N -> 0 <= j < N ->
  column N P ds i j = bsum (fun d => res d * (ind (i =? j) * (ind (d_start d =? i + 1) + ind (d_end d =? i + 1))
    - (ind ((d_start d =? i + 1) && (d_end d =? j + 1)) + ind ((d_end d =? i + 1) && (d_start d =? j + 1)))))%Qc ds.
Proof.
  intros hi hj. unfold column. replace (i <? N) with true by lia. unfold node_column, set.
  destruct (j =? i) eqn:e.
  - assert (j = i) by lia. subst j. rewrite node_snd. cbn [snd]. rewrite Z.eqb_refl. ring_simplify. apply bsum_ext. intros d I.
    unfold ind. cbn. assert (g := good_in d I). unfold good_dev, res in *. destruct (d_kind d); [|ring..].
    destruct (d_start d =? i + 1) eqn:e1, (d_end d =? i + 1) eqn:e2; cbn; try ring. lia.
  - rewrite node_fst by (try exact hj; intros x hx; exact hx). cbn [fst]. replace (i =? j) with false by lia. unfold Qcminus at 1. rewrite Qcplus_0_l.
    replace (- bsum _ ds)%Qc with ((- (1)) * bsum (fun d => res d * (ind ((d_start d =? i + 1) && (d_end d =? j + 1)) + ind ((d_end d =? i + 1) && (d_start d =? j + 1)))) ds)%Qc by ring.
    rewrite bsum_mul. apply bsum_ext. intros d _. cbn [ind]. ring.
Qed.
Definition wn (i j : Z) (d : device) : option Qc := if vsrc d && (d_start d =? i + 1) && (slot N P d =? j) then Some 1%Qc else None.
Lemma w_slot (w : device -> option Qc) r : (forall d, w d <> None -> vsrc d = true /\ slot N P d = r) -> single w ds.
Proof.
  intros H. apply (single_of w (v_place N P) r); [|exact gv]. intros d I h. destruct (H d h) as [h1 h2]. rewrite v_place_eq.
  unfold vsrc, is_kind in h1. destruct (d_kind d); try discriminate. left. exact h2.
Qed.
Lemma node_high i j : 0 <= i < N -> N <= j -> column N P ds i j = bsum (fun d => ind (vsrc d && (d_start d =? i + 1) && (slot N P d =? j))) ds.
Proof.
  intros hi hj. unfold column. replace (i <? N) with true by lia. unfold node_column, set. replace (j =? i) with false by lia.
  rewrite (fold_writes (fun ts : (Z -> Qc) * Qc => fst ts j) (node_step N P i) (wn i j) ds).
  - cbn [fst]. rewrite Qcplus_0_l. apply bsum_ext. intros d _. unfold wn, ind. destruct (_ && _); reflexivity.
  - intros ts d I. assert (g := good_in d I). unfold node_step, wn, good_dev in *. unfold vsrc, is_kind. destruct (d_kind d) eqn:k; cbn [andb].
    + destruct (d_start d =? i + 1), (d_end d =? i + 1); cbn [fst snd]; unfold set; try (destruct (j =? d_start d - 1) eqn:?; [lia|]); try (destruct (j =? d_end d - 1) eqn:?; [lia|]); reflexivity.
    + reflexivity.
    + destruct (vpos_slot d I k) as (e & _). rewrite e. destruct (d_start d =? i + 1); cbn [fst andb]; [|reflexivity]. unfold set. rewrite (Z.eqb_sym (slot N P d)). destruct (j =? slot N P d); reflexivity.
  - apply (w_slot _ j). intros d. unfold wn. destruct (vsrc d); [|intros h; destruct (h eq_refl)]. cbn [andb].
    destruct (d_start d =? i + 1); [|intros h; destruct (h eq_refl)]. cbn [andb]. destruct (slot N P d =? j) eqn:e; [|intros h; destruct (h eq_refl)]. intros _. lia.
  - left. reflexivity.
Qed.
Lemma source_low i j : N <= i -> column N P ds i j = bsum (fun d => ind (vsrc d && (slot N P d =? i) && (d_start d =? j + 1))) ds.
Proof.
  intros hi. unfold column. replace (i <? N) with false by lia.
  rewrite (fold_writes (fun t : Z -> Qc => t j) (source_step N P i) (fun d => if vsrc d && (slot N P d =? i) && (d_start d =? j + 1) then Some 1%Qc else None) ds).
  - rewrite Qcplus_0_l. apply bsum_ext. intros d _. unfold ind. destruct (_ && _); reflexivity.
  - intros t d I. unfold source_step, vsrc, is_kind. destruct (d_kind d) eqn:k; cbn [andb]; [reflexivity..|].
    assert (e : 2 * (P / 2) = P) by (pose proof (Zmod_even P) as e0; rewrite ge in e0; pose proof (Z.div_mod P 2 ltac:(lia)); lia).
    unfold slot. destruct (is_zero (d_value d)); cbn [negb].
    + destruct (2 * - d_end d =? 2 * (i + 1 - N) - P) eqn:e1, (N + P / 2 + (- d_end d - 1) =? i) eqn:e2; try lia; cbn [andb]; [|reflexivity].
      unfold set. destruct (j =? d_start d - 1) eqn:e3, (d_start d =? j + 1) eqn:e4; try lia; reflexivity.
    + destruct (- d_end d =? i + 1 - N) eqn:e1, (N + (- d_end d - 1) =? i) eqn:e2; try lia; cbn [andb]; [|reflexivity].
      unfold set. destruct (j =? d_start d - 1) eqn:e3, (d_start d =? j + 1) eqn:e4; try lia; reflexivity.
  - apply (w_slot _ i). intros d. destruct (vsrc d); [|intros h; destruct (h eq_refl)]. cbn [andb].
    destruct (slot N P d =? i) eqn:e; [|intros h; destruct (h eq_refl)]. intros _. lia.
  - left. reflexivity.
Qed.
Definition cur_i (d : device) : Qc := match d_kind d with KI => d_value d | _ => Qz end.
Lemma rhs_low j : 0 <= j < N -> rhs N ds j = bsum (fun d => cur_i d * (ind (d_end d =? j + 1) - ind (d_start d =? j + 1)))%Qc ds.
Proof.
  intros hj. unfold rhs.
  rewrite (fold_writes (fun t : Z -> Qc => t j) (rhs_step N)
    (fun d => match d_kind d with KI => if d_end d =? j + 1 then Some (d_value d) else if d_start d =? j + 1 then Some (- d_value d)%Qc else None | _ => None end) ds).
  - rewrite Qcplus_0_l. apply bsum_ext. intros d I. assert (g := good_in d I). unfold cur_i, ind, good_dev in *. destruct (d_kind d); cbn [wval]; [ring| |ring].
    destruct (d_end d =? j + 1) eqn:e1, (d_start d =? j + 1) eqn:e2; try lia; cbn [wval]; ring.
  - intros t d I. assert (g := good_in d I). unfold rhs_step, good_dev in *. destruct (d_kind d) eqn:k; [reflexivity| |].
    + destruct (0 <=? d_end d - 1) eqn:e0; unfold set;
      destruct (j =? d_start d - 1) eqn:e1, (d_end d =? j + 1) eqn:e2, (d_start d =? j + 1) eqn:e4; try (exfalso; lia); try (destruct (j =? d_end d - 1) eqn:e3; try (exfalso; lia)); reflexivity.
    + destruct (vpos_slot d I k) as (e & hs & _). unfold vpos in e. destruct (positive (d_value d)); [|reflexivity]. unfold set. destruct (j =? N - 1 - d_end d) eqn:e1; [lia|reflexivity].
  - apply (single_of _ i_nodes (j + 1)); [|exact gi]. intros d I. assert (g := good_in d I). unfold i_nodes, good_dev in *. destruct (d_kind d); [intros h; destruct (h eq_refl)| |intros h; destruct (h eq_refl)].
    destruct (d_end d =? j + 1) eqn:e1; [intros _; right; replace (0 <? d_end d) with true by lia; left; lia|].
    destruct (d_start d =? j + 1) eqn:e2; [intros _; left; lia|]. intros h; destruct (h eq_refl).
  - left. reflexivity.
Qed.
Lemma rhs_high j : N <= j -> rhs N ds j = bsum (fun d => ind (vsrc d && (slot N P d =? j)) * d_value d)%Qc ds.
Proof.
  intros hj. unfold rhs.
  rewrite (fold_writes (fun t : Z -> Qc => t j) (rhs_step N) (fun d => if vsrc d && positive (d_value d) && (slot N P d =? j) then Some (d_value d) else None) ds).
  - rewrite Qcplus_0_l. apply bsum_ext. intros d I. unfold ind, vsrc, is_kind. assert (g := good_in d I). unfold good_dev in g.
    destruct (d_kind d); cbn [andb]; [cbn [wval]; ring..|]. rewrite (positive_zero _ (proj1 (proj2 (proj2 g)))).
    destruct (is_zero (d_value d)) eqn:z; cbn [negb andb].
    + apply zero_iff in z. rewrite z. cbn [wval]. ring.
    + destruct (slot N P d =? j); cbn [wval]; ring.
  - intros t d I. assert (g := good_in d I). unfold rhs_step, good_dev, vsrc, is_kind in *. destruct (d_kind d) eqn:k; cbn [andb]; [reflexivity| |].
    + destruct (0 <=? d_end d - 1) eqn:e0; unfold set; destruct (j =? d_start d - 1) eqn:e1; try (exfalso; lia); try (destruct (j =? d_end d - 1) eqn:e3; try (exfalso; lia)); reflexivity.
    + destruct (vpos_slot d I k) as (e & hs & _). unfold vpos in e. destruct (positive (d_value d)); [|reflexivity]. cbn [andb]. unfold set.
      destruct (j =? N - 1 - d_end d) eqn:e1, (slot N P d =? j) eqn:e2; try lia; reflexivity.
  - apply (w_slot _ j). intros d. destruct (vsrc d); [|intros h; destruct (h eq_refl)]. cbn [andb].
    destruct (positive (d_value d)); [|intros h; destruct (h eq_refl)]. cbn [andb].
    destruct (slot N P d =? j) eqn:e; [|intros h; destruct (h eq_refl)]. intros _. lia.
  - left. reflexivity.
Qed.
Lemma single_in {A} (w : A -> option Qc) l a q : single w l -> In a l -> w a = Some q -> bsum (fun b => wval (w b)) l = q.
Proof.
  induction l as [|b l IH]; intros O I e; [destruct I|]. inversion O as [|x y Ob Ol]; subst. rewrite bsum_cons. rewrite Forall_forall in Ob. destruct I as [->|I].
  - rewrite e. cbn [wval]. rewrite bsum_zero; [ring|]. intros c hc. destruct (Ob c hc) as [h|h]; [congruence|rewrite h; reflexivity].
  - rewrite (IH Ol I e). destruct (Ob a I) as [h|h]; [rewrite h; cbn [wval]; ring|congruence].
Qed.
Lemma by_slot (f : device -> Qc) d : In d ds -> d_kind d = KV -> bsum (fun b => ind (vsrc b && (slot N P b =? slot N P d)) * f b)%Qc ds = f d.
Proof.
  intros I k. rewrite <- (single_in (fun b => if vsrc b && (slot N P b =? slot N P d) then Some (f b) else None) ds d (f d)).
  - apply bsum_ext. intros b _. destruct (_ && _); cbn [ind wval]; ring.
  - apply (w_slot _ (slot N P d)). intros b. destruct (vsrc b); [|intros h; destruct (h eq_refl)]. cbn [andb]. destruct (slot N P b =? slot N P d) eqn:e; [|intros h; destruct (h eq_refl)]. intros _. lia.
  - exact I.
  - rewrite (kinds d k), Z.eqb_refl. reflexivity.
Qed.
(** ** The rows *)
Definition cur (x : Z -> Qc) (d : device) : Qc :=
  match d_kind d with KR => (res d * (x (d_start d - 1)%Z - x (d_end d - 1)%Z))%Qc | KV => x (slot N P d) | KI => Qz end.
Definition entry (d : device) (i j : Z) : Qc :=
  if i <? N then (res d * (ind (i =? j) * (ind (d_start d =? i + 1) + ind (d_end d =? i + 1))
    - (ind ((d_start d =? i + 1) && (d_end d =? j + 1)) + ind ((d_end d =? i + 1) && (d_start d =? j + 1)))))%Qc
  else ind (vsrc d && (slot N P d =? i) && (d_start d =? j + 1)).
Lemma row_low x j : 0 <= j < N ->
  qsum (map (fun i => (x i * column N P ds i j)%Qc) (zrange (N + P))) = bsum (fun d => cur x d * (ind (d_start d =? j + 1) - ind (d_end d =? j + 1)))%Qc ds.
Proof.
  intros hj. change (bsum (fun i => (x i * column N P ds i j)%Qc) (zrange (N + P)) = bsum (fun d => cur x d * (ind (d_start d =? j + 1) - ind (d_end d =? j + 1)))%Qc ds).
  rewrite (bsum_ext _ (fun i => bsum (fun d => x i * entry d i j)%Qc ds)).
  2: { intros i hi. apply zrange_in in hi. rewrite <- bsum_mul. f_equal. unfold entry. destruct (i <? N) eqn:e; [apply node_low|apply source_low]; lia. }
  rewrite bsum_swap. apply bsum_ext. intros d I. assert (g := good_in d I). unfold good_dev in g. unfold cur. destruct (d_kind d) eqn:k.
  - set (r := res d).
    rewrite (bsum_ext _ (fun i => ((if i =? j then x i * (r * (ind (d_start d =? j + 1) + ind (d_end d =? j + 1))) else Qz)
      + ((if i =? (d_start d - 1)%Z then - (x i * (r * ind (d_end d =? j + 1))) else Qz) + (if i =? (d_end d - 1)%Z then - (x i * (r * ind (d_start d =? j + 1))) else Qz)))%Qc)).
    + rewrite !bsum_add, !pick by lia. clearbody r. unfold ind.
      destruct (d_start d =? j + 1) eqn:e1, (d_end d =? j + 1) eqn:e2; try lia; try ring.
      * replace (d_start d - 1) with j by lia. ring.
      * replace (d_end d - 1) with j by lia. ring.
    + intros i hi. apply zrange_in in hi. unfold entry. fold r. clearbody r.
      destruct (i <? N) eqn:e0.
      * unfold ind. destruct (i =? j) eqn:e1, (d_start d =? i + 1) eqn:e2, (d_end d =? i + 1) eqn:e3, (d_start d =? j + 1) eqn:e4, (d_end d =? j + 1) eqn:e5,
          (i =? d_start d - 1) eqn:e6, (i =? d_end d - 1) eqn:e7; try (exfalso; lia); cbn [andb]; ring.
      * unfold vsrc, is_kind. rewrite k. cbn [andb ind]. replace (i =? j) with false by lia. replace (i =? d_start d - 1) with false by lia.
        replace (i =? d_end d - 1) with false by lia. ring.
  - rewrite bsum_zero; [ring|]. intros i hi. unfold entry, res, vsrc, is_kind. rewrite k. cbn [andb ind]. destruct (i <? N); ring.
  - destruct (vpos_slot d I k) as (_ & hs & _).
    rewrite (bsum_ext _ (fun i => if i =? slot N P d then (x i * ind (d_start d =? j + 1))%Qc else Qz)).
    + rewrite pick by lia. unfold ind. replace (d_end d =? j + 1) with false by lia. ring.
    + intros i hi. apply zrange_in in hi. unfold entry, res, vsrc, is_kind. rewrite k. cbn [andb]. destruct (i <? N) eqn:e0.
      * replace (i =? slot N P d) with false by lia. ring.
      * rewrite (Z.eqb_sym (slot N P d)). destruct (i =? slot N P d); cbn [andb ind]; [reflexivity|ring].
Qed.
Lemma row_high x j : N <= j < N + P ->
  qsum (map (fun i => (x i * column N P ds i j)%Qc) (zrange (N + P))) = bsum (fun d => ind (vsrc d && (slot N P d =? j)) * x (d_start d - 1)%Z)%Qc ds.
Proof.
  intros hj. change (bsum (fun i => (x i * column N P ds i j)%Qc) (zrange (N + P)) = bsum (fun d => ind (vsrc d && (slot N P d =? j)) * x (d_start d - 1)%Z)%Qc ds).
  rewrite (bsum_ext _ (fun i => bsum (fun d => if i =? d_start d - 1 then (ind (vsrc d && (slot N P d =? j)) * x i)%Qc else Qz) ds)).
  - rewrite bsum_swap. apply bsum_ext. intros d I. destruct (vsrc d) eqn:v.
    + assert (k : d_kind d = KV) by (unfold vsrc, is_kind in v; destruct (d_kind d); [discriminate..|reflexivity]). destruct (vpos_slot d I k) as (_ & _ & h). rewrite pick by lia. reflexivity.
    + cbn [andb ind]. rewrite bsum_zero; [ring|]. intros i _. destruct (i =? d_start d - 1); [ring|reflexivity].
  - intros i hi. apply zrange_in in hi. destruct (i <? N) eqn:e.
    + rewrite node_high by lia. rewrite bsum_mul. apply bsum_ext. intros d I. destruct (vsrc d); cbn [andb ind]; [|destruct (i =? d_start d - 1); ring].
      destruct (d_start d =? i + 1) eqn:e1, (i =? d_start d - 1) eqn:e2; try (exfalso; lia); cbn [andb ind]; ring.
    + rewrite source_low by lia. rewrite bsum_mul. apply bsum_ext. intros d I. destruct (vsrc d) eqn:v; cbn [andb ind]; [|destruct (i =? d_start d - 1); ring].
      assert (k : d_kind d = KV) by (unfold vsrc, is_kind in v; destruct (d_kind d); [discriminate..|reflexivity]). destruct (vpos_slot d I k) as (_ & _ & h).
      replace (d_start d =? j + 1) with false by lia. replace (i =? d_start d - 1) with false by lia. rewrite andb_false_r. cbn [ind]. ring.
Qed.
(** ** The laws *)
Definition solvesNP (x : Z -> Qc) : Prop := forall j, 0 <= j < N + P -> qsum (map (fun i => (x i * column N P ds i j)%Qc) (zrange (N + P))) = rhs N ds j.
Definition cur_all (x : Z -> Qc) (d : device) : Qc := (cur x d + cur_i d)%Qc.
Lemma leaving_map k (c : device -> Qc) l : leaving k l (map c l) = bsum (fun d => c d * (ind (d_start d =? k) - ind (d_end d =? k)))%Qc l.
Proof.
  induction l as [|d l IH]; [reflexivity|]. cbn [map leaving]. rewrite IH, bsum_cons. f_equal. unfold ind. destruct (d_start d =? k), (d_end d =? k); ring.
Qed.
Lemma rows_laws x : solvesNP x <-> (forall k, 1 <= k <= N -> leaving k ds (map (cur_all x) ds) = Qz) /\ (forall d, In d ds -> d_kind d = KV -> x (d_start d - 1)%Z = d_value d).
Proof.
  assert (low : forall j, 0 <= j < N -> (qsum (map (fun i => (x i * column N P ds i j)%Qc) (zrange (N + P))) = rhs N ds j <-> leaving (j + 1) ds (map (cur_all x) ds) = Qz)).
  { intros j hj. rewrite row_low, rhs_low, leaving_map by lia. unfold cur_all.
    rewrite (bsum_ext (fun d => (cur x d + cur_i d) * (ind (d_start d =? j + 1) - ind (d_end d =? j + 1)))%Qc
      (fun d => cur x d * (ind (d_start d =? j + 1) - ind (d_end d =? j + 1)) + (- (1)) * (cur_i d * (ind (d_end d =? j + 1) - ind (d_start d =? j + 1))))%Qc) by (intros d _; ring).
    rewrite bsum_add, <- bsum_mul. split; intros h; [rewrite h; ring|]. apply (f_equal (fun q => q + bsum (fun d => cur_i d * (ind (d_end d =? j + 1) - ind (d_start d =? j + 1))) ds)%Qc) in h.
    ring_simplify in h. exact h. }
  split.
  - intros H. split.
    + intros k hk. assert (l := proj1 (low (k - 1) ltac:(lia)) (H (k - 1) ltac:(lia))). replace (k - 1 + 1) with k in l by lia. exact l.
    + intros d I k. destruct (vpos_slot d I k) as (_ & hs & h). assert (R := H (slot N P d) ltac:(lia)). rewrite row_high, rhs_high in R by lia.
      rewrite (by_slot (fun d => x (d_start d - 1)%Z) d I k), (by_slot d_value d I k) in R. exact R.
  - intros [H1 H2] j hj. destruct (Z_lt_ge_dec j N) as [h|h].
    + apply low; [lia|]. apply H1. lia.
    + rewrite row_high, rhs_high by lia. apply bsum_ext. intros d I. destruct (vsrc d) eqn:v; [|cbn [andb ind]; ring]. rewrite (H2 d I); [reflexivity|].
      unfold vsrc, is_kind in v; destruct (d_kind d); [discriminate..|reflexivity].
Qed.
End Rows.
