(** C105: the linear system of the IR-drop simulator is the network of its devices. *)
From Coq Require Import ZArith QArith Qcanon ZifyBool.
From Verif Require Import Base.Prelude Model.CapPlace Model.Mna Spec.MnaSpec Proofs.MnaP Proofs.MnaBuildP Proofs.MnaUniqueP Proofs.MnaExactP.
Local Open Scope Z_scope.
Local Notation Qz := (0%Qc).

Theorem C105_nodes ds : highest ds (nodenum ds).
Proof. exact (nodenum_highest ds). Qed.
Print Assumptions C105_nodes.

Lemma value_slot N P ds : NoDup (flat_map (v_place N P) ds) -> forall cs d c, In (d, c) (combine ds cs) -> d_kind d = KV ->
  bsum (fun dc => ind (vsrc (fst dc) && (slot N P (fst dc) =? slot N P d)) * snd dc)%Qc (combine ds cs) = c.
Proof.
  intros Nd cs d c I k. rewrite <- (single_in (fun dc : device * Qc => if vsrc (fst dc) && (slot N P (fst dc) =? slot N P d) then Some (snd dc) else None) (combine ds cs) (d, c) c).
  - apply bsum_ext. intros b _. destruct (_ && _); cbn [ind wval]; ring.
  - apply (single_of _ (fun dc : device * Qc => v_place N P (fst dc)) (slot N P d)).
    + intros b _. rewrite v_place_eq. unfold vsrc, is_kind. destruct (d_kind (fst b)); cbn [andb]; try (intros h; destruct (h eq_refl)).
      destruct (slot N P (fst b) =? slot N P d) eqn:e; [intros _; left; lia|intros h; destruct (h eq_refl)].
    + clear I. revert cs Nd. induction ds as [|x l IH]; intros cs Nd; [constructor|]. destruct cs as [|y cs]; [constructor|]. cbn [combine flat_map fst] in *.
      assert (Nl : NoDup (flat_map (v_place N P) l)). { revert Nd. rewrite v_place_eq. destruct (d_kind x); cbn [app]; [exact (fun h => h)..|]. intros h. apply NoDup_cons_iff in h. apply h. }
      revert Nd. rewrite v_place_eq. destruct (d_kind x); cbn [app]; [intros _; exact (IH cs Nl)..|]. intros Nd. apply NoDup_cons_iff in Nd. destruct Nd as [n1 _]. constructor; [|exact (IH cs Nl)].
      intros h. apply n1. apply in_flat_map in h. destruct h as ([u v] & h1 & h2). apply in_flat_map. exists u. split; [exact (in_combine_l _ _ _ _ h1)|exact h2].
  - exact I.
  - cbn [fst snd]. rewrite (kinds d k), Z.eqb_refl. reflexivity.
Qed.
(** The potentials of the solutions of the system are those of the network. *)
Theorem C105_laws ds v : let N := nodenum ds in good N (powerdev ds) ds ->
  ((exists cs, circuit N ds v cs) <-> exists x, solves ds x /\ forall k, 1 <= k <= N -> x (k - 1) = v k).
Proof.
  intros N G. set (P := powerdev ds) in *. assert (P0 : 0 <= P) by (unfold P, powerdev; lia). assert (gd := proj1 (Forall_forall _ _) (proj1 G)). split.
  - intros (cs & F & K). set (x := fun i => if i <? N then v (i + 1) else bsum (fun dc => ind (vsrc (fst dc) && (slot N P (fst dc) =? i)) * snd dc)%Qc (combine ds cs)).
    assert (X : forall k, 1 <= k <= N -> x (k - 1) = v k) by (intros k hk; unfold x; replace (k - 1 <? N) with true by lia; f_equal; lia).
    exists x. split; [|exact X]. apply (rows_laws N P ds G P0).
    assert (C : forall d c, In (d, c) (combine ds cs) -> cur_all N P x d = c /\ element v d c).
    { intros d c I. assert (e : element v d c). { clearbody x P N. clear - F I. induction F as [|a b l m e F IH]; [destruct I|]. destruct I as [h|I]; [injection h as <- <-; exact e|exact (IH I)]. }
      split; [|exact e]. assert (I' := in_combine_l _ _ _ _ I). assert (g := gd d I'). unfold cur_all, cur, cur_i, res, element, good_dev in *. destruct (d_kind d) eqn:k.
      - rewrite !X by lia. rewrite <- e. field. apply g.
      - rewrite e. ring.
      - destruct (vpos_slot N P ds G P0 d I' k) as (_ & hs & _). unfold x. replace (slot N P d <? N) with false by lia. rewrite (value_slot N P ds (proj1 (proj2 (proj2 G))) cs d c I k). ring. }
    assert (M : map (cur_all N P x) ds = cs).
    { clearbody x P N. clear - F C. induction F as [|a b l m e F IH]; [reflexivity|]. cbn [map]. f_equal; [apply C; left; reflexivity|]. apply IH. intros d c I. apply C. right. exact I. }
    split.
    + intros k hk. rewrite M. exact (K k hk).
    + intros d I k. assert (g := gd d I). unfold good_dev in g. rewrite k in g. rewrite X by lia. clearbody x P N. clear - F I k. induction F as [|a b l m e F IH]; [destruct I|]. destruct I as [<-|I]; [|exact (IH I)].
      unfold element in e. rewrite k in e. exact e.
  - intros (x & S & X). apply (rows_laws N P ds G P0) in S. destruct S as [S1 S2]. exists (map (cur_all N P x) ds). split; [|exact S1].
    assert (H : forall d, In d ds -> element v d (cur_all N P x d)).
    { intros d I. assert (g := gd d I). assert (s := S2 d I). unfold element, cur_all, cur, cur_i, res, good_dev in *. destruct (d_kind d).
      - rewrite !X by lia. field. apply g.
      - ring.
      - rewrite <- (s eq_refl). symmetry. apply X. lia. }
    clearbody P N. clear - H. induction ds as [|d l IH]; [constructor|]. cbn [map]. constructor; [apply H; left; reflexivity|]. apply IH. intros e I. apply H. right. exact I.
Qed.
Print Assumptions C105_laws.
(** The nodes which resistors join to a source have one potential only, whatever solution is found. *)
Theorem C105_unique ds x x' : let N := nodenum ds in good N (powerdev ds) ds -> (forall d, In d ds -> d_kind d = KR -> (0 < d_value d)%Qc) -> solves ds x -> solves ds x' ->
  forall k, fed ds k -> x (k - 1) = x' (k - 1).
Proof.
  intros N G R S S' k H. assert (gd := proj1 (Forall_forall _ _) (proj1 G)).
  assert (C := proj2 (C105_laws ds (fun k => x (k - 1)) G) (ex_intro _ x (conj S (fun k _ => eq_refl)))). destruct C as [cs C].
  assert (C' := proj2 (C105_laws ds (fun k => x' (k - 1)) G) (ex_intro _ x' (conj S' (fun k _ => eq_refl)))). destruct C' as [cs' C'].
  apply (unique N ds (fun k => x (k - 1)) (fun k => x' (k - 1)) cs cs'); [exact (proj1 (nodenum_highest ds))| |exact C|exact C'|exact H].
  apply Forall_forall. intros d I. assert (g := gd d I). unfold net_dev, good_dev in *. destruct (d_kind d) eqn:e; [|exact Logic.I|lia].
  destruct g as (g1 & g2 & _). split; [exact g1|]. split; [exact g2|]. exact (R d I e).
Qed.
Print Assumptions C105_unique.
Theorem C105_symmetric ds i j : let N := nodenum ds in let P := powerdev ds in good N P ds -> 0 <= i < N + P -> 0 <= j < N + P -> column N P ds i j = column N P ds j i.
Proof.
  intros N P G hi hj. assert (P0 : 0 <= P) by (unfold P, powerdev; lia). assert (gd := proj1 (Forall_forall _ _) (proj1 G)).
  destruct (Z_lt_ge_dec i N) as [a|a], (Z_lt_ge_dec j N) as [b|b].
  - rewrite !(node_low N P ds G P0) by lia. apply bsum_ext. intros d _. f_equal. destruct (Z.eq_dec i j) as [->|n]; [ring|]. replace (i =? j) with false by lia. replace (j =? i) with false by lia.
    cbn [ind]. rewrite (andb_comm (d_start d =? j + 1)), (andb_comm (d_end d =? j + 1)). ring.
  - rewrite (node_high N P ds G P0 i j), (source_low N P ds G j i) by lia. apply bsum_ext. intros d _. f_equal. rewrite <- !andb_assoc. f_equal. apply andb_comm.
  - rewrite (node_high N P ds G P0 j i), (source_low N P ds G i j) by lia. apply bsum_ext. intros d _. f_equal. rewrite <- !andb_assoc. f_equal. apply andb_comm.
  - rewrite !(source_low N P ds G) by lia. apply bsum_ext. intros d I. destruct (vsrc d) eqn:v; [|reflexivity].
    assert (k : d_kind d = KV) by (unfold vsrc, is_kind in v; destruct (d_kind d); [discriminate..|reflexivity]). destruct (vpos_slot N P ds G P0 d I k) as (_ & _ & h).
    replace (d_start d =? j + 1) with false by lia. replace (d_start d =? i + 1) with false by lia. rewrite !andb_false_r. reflexivity.
Qed.
Print Assumptions C105_symmetric.
(** The entries never need more than the places made for them. *)
Theorem C105_fits ds : entries ds <= places ds.
Proof. exact (entries_fit ds). Qed.
Print Assumptions C105_fits.
(** They fill them if no two resistors join the same nodes and every node has one. *)
Theorem C105_exact ds : good (nodenum ds) (powerdev ds) ds -> simple (nodenum ds) ds -> entries ds = places ds.
Proof. exact (exact ds). Qed.
Print Assumptions C105_exact.

(** The devices of a grid make a good system if Vdd and ground have as many points as each other. *)
Theorem C105_built m rs vdd vs gs ls : 0 <= m -> (0 < vdd)%Qc -> length vs = length gs ->
  (forall a b q, In (a, b, q) rs -> 1 <= a <= m /\ 1 <= b <= m /\ a <> b /\ q <> Qz) -> (forall n, In n (vs ++ gs) -> 1 <= n <= m) ->
  (forall l, In l ls -> 1 <= l_s l <= m /\ 1 <= l_e l <= m /\ l_r1 l <> Qz /\ l_r2 l <> Qz) ->
  let ds := grid_devices m rs vdd vs gs ls in good (nodenum ds) (powerdev ds) ds.
Proof.
  intros m0 v0 len Hr Hn Hl ds. destruct (nodenum_highest ds) as (_ & top & _). set (N := nodenum ds) in *. clearbody N.
  assert (Rr : forall d, In d (map (fun r => Dev KR (fst (fst r)) (snd (fst r)) (snd r)) rs) -> d_kind d = KR /\ 1 <= d_start d /\ 1 <= d_end d /\ d_start d <> d_end d /\ d_value d <> Qz).
  { intros d I. apply in_map_iff in I. destruct I as ([[a b] q] & <- & I). cbn. specialize (Hr a b q I). repeat split; try lia; apply Hr. }
  assert (Ml := Map_new_in m ls Hl [] m).
  assert (z1 : is_zero vdd = false). { destruct (is_zero vdd) eqn:e; [|reflexivity]. apply zero_iff in e. rewrite e in v0. destruct (Qclt_not_eq _ _ v0 eq_refl). }
  assert (EP : powerdev ds = 2 * Z.of_nat (length vs)).
  { unfold powerdev, ds, grid_devices. rewrite !filter_app, !app_length. rewrite (filter_none _ (map _ rs)), (filter_none _ (Map_new _ _ _)).
    - rewrite !filter_all, !AddingPower_length; [cbn [length]; lia| |]; intros d I; apply AddingPower_in in I; destruct I as [k _]; unfold is_kind; rewrite k; reflexivity.
    - intros d I. specialize (Ml d (Z.le_refl m) I). unfold is_kind. destruct (d_kind d); [reflexivity..|destruct Ml].
    - intros d I. apply Rr in I. unfold is_kind. rewrite (proj1 I). reflexivity. }
  rewrite EP. set (n := Z.of_nat (length vs)) in *. assert (half : 2 * n / 2 = n) by (rewrite Z.mul_comm; apply Z.div_mul; lia).
  split; [|split; [|split]].
  - apply Forall_forall. intros d I. assert (t := top d I). unfold ds, grid_devices in I. rewrite !in_app_iff in I. destruct I as [I|[I|[I|I]]].
    + apply Rr in I. unfold good_dev. destruct I as (-> & I). repeat split; try lia; apply I.
    + apply AddingPower_in in I. destruct I as (k & h1 & h2 & j & h3 & h4). unfold good_dev, v_place. rewrite k, h2, z1, h4.
      assert (1 <= d_start d) by (apply Hn; apply in_or_app; left; exact h1). repeat split; try lia; [apply Qclt_le_weak; exact v0|]. intros r [<-|[]]. lia.
    + apply AddingPower_in in I. destruct I as (k & h1 & h2 & j & h3 & h4). unfold good_dev, v_place. rewrite k, h2, h4. change (is_zero Qz) with true. rewrite half.
      assert (1 <= d_start d) by (apply Hn; apply in_or_app; right; exact h1). repeat split; try lia; [apply Qcle_refl|]. intros r [<-|[]]. lia.
    + specialize (Ml d (Z.le_refl m) I). unfold good_dev. destruct (d_kind d); [|lia|destruct Ml]. repeat split; try lia; apply Ml.
  - unfold ds, grid_devices. rewrite !flat_map_app. rewrite (flat_none i_nodes (map _ rs)), !(flat_none i_nodes (AddingPower _ _)).
    + exact (Map_new_nodes m ls m0 Hl [] m (Z.le_refl m)).
    + intros d I. apply AddingPower_in in I. unfold i_nodes. rewrite (proj1 I). reflexivity.
    + intros d I. apply AddingPower_in in I. unfold i_nodes. rewrite (proj1 I). reflexivity.
    + intros d I. apply Rr in I. unfold i_nodes. rewrite (proj1 I). reflexivity.
  - unfold ds, grid_devices. rewrite !flat_map_app. rewrite (flat_none _ (map _ rs)), (flat_none _ (Map_new _ _ _)), !AddingPower_places, z1, app_nil_r.
    + change (is_zero Qz) with true. cbn [app]. rewrite half. apply nodup_two.
      * apply nodup_map_inj; [intros a b h; lia|apply seq_NoDup].
      * apply nodup_map_inj; [intros a b h; lia|apply seq_NoDup].
      * intros x h1 h2. apply in_map_iff in h1, h2. destruct h1 as (a & <- & h1). destruct h2 as (b & h2 & h3). apply in_seq in h1, h3. lia.
    + intros d I. specialize (Ml d (Z.le_refl m) I). unfold v_place. destruct (d_kind d); [reflexivity..|destruct Ml].
    + intros d I. apply Rr in I. unfold v_place. rewrite (proj1 I). reflexivity.
  - apply Z.even_spec. exists n. reflexivity.
Qed.
Print Assumptions C105_built.
(** All loads are there if they are at different places. *)
Theorem C105_loads m ls : NoDup (map l_at ls) -> map d_value (filter (is_kind KI) (Map_new [] m ls)) = map l_i ls.
Proof.
  intros N. assert (H : forall ls seen m, NoDup (map l_at ls) -> (forall p, In p seen -> ~ In p (map l_at ls)) -> map d_value (filter (is_kind KI) (Map_new seen m ls)) = map l_i ls).
  { clear. induction ls as [|l ls IH]; intros seen m N D; [reflexivity|]. cbn [map] in N, D. apply NoDup_cons_iff in N. destruct N as [n1 n2]. cbn [Map_new].
    destruct (existsb (at_eqb (l_at l)) seen) eqn:e.
    - exfalso. apply existsb_exists in e. destruct e as (p & h1 & h2). apply (D p h1). left. unfold at_eqb in h2. destruct (l_at l), p. cbn in h2. f_equal; lia.
    - cbn [filter is_kind d_kind map d_value]. f_equal. apply IH; [exact n2|]. intros p [<-|hp]; [exact n1|]. intros h. apply (D p hp). right. exact h. }
  apply H; [exact N|]. intros p [].
Qed.
Print Assumptions C105_loads.

Local Notation q1 := (1%Qc).
Definition half_q : Qc := Q2Qc (1 # 2).
(** Finding: with more points of Vdd than of ground the solver finds potentials which the network does not have; here ground is at a half. *)
Theorem C105_unequal_refuted : exists m rs vs gs x, let ds := grid_devices m rs q1 vs gs [] in
  (forall a b q, In (a, b, q) rs -> 1 <= a <= m /\ 1 <= b <= m /\ a <> b /\ q <> Qz) /\ solves ds x /\ In 3 gs /\ x (3 - 1) <> Qz /\
  (forall v, (forall k, 1 <= k <= nodenum ds -> x (k - 1) = v k) -> ~ exists cs, circuit (nodenum ds) ds v cs) /\ exists x', solves ds x' /\ x' 5 <> x 5.
Proof.
  set (mk := fun z i => if i =? 0 then q1 else if i =? 1 then half_q else if i =? 2 then half_q else if i =? 3 then (- half_q)%Qc else if i =? 4 then half_q else z).
  assert (S : forall z, z = Qz \/ z = q1 -> solves (grid_devices 3 [(1, 2, q1); (2, 3, q1)] q1 [1; 2] [3] []) (mk z)).
  { intros z hz j hj. change (0 <= j < 6) in hj. assert (c : j = 0 \/ j = 1 \/ j = 2 \/ j = 3 \/ j = 4 \/ j = 5) by lia.
    destruct hz as [->| ->]; destruct c as [->|[->|[->|[->|[->| ->]]]]]; apply Qc_is_canon; vm_compute; reflexivity. }
  exists 3, [(1, 2, q1); (2, 3, q1)], [1; 2], [3], (mk Qz). intros ds. split; [|split; [apply S; left; reflexivity|split; [left; reflexivity|split; [|split]]]].
  - intros a b q [h|[h|[]]]; injection h as <- <- <-; repeat split; try lia; discriminate.
  - vm_compute. discriminate.
  - intros v H [cs [F _]]. assert (h := H 3 ltac:(vm_compute; split; discriminate)). change (half_q = v 3) in h.
    change ds with [Dev KR 1 2 q1; Dev KR 2 3 q1; Dev KV 1 (-1) q1; Dev KV 2 (-2) q1; Dev KV 3 (-1) Qz] in F.
    inversion F as [|? ? ? ? _ F1]; subst. inversion F1 as [|? ? ? ? _ F2]; subst. inversion F2 as [|? ? ? ? _ F3]; subst. inversion F3 as [|? ? ? ? _ F4]; subst. inversion F4 as [|? ? ? ? e _]; subst.
    unfold element in e. cbn [d_kind d_start d_value] in e. rewrite e in h. discriminate.
  - exists (mk q1). split; [apply S; right; reflexivity|]. vm_compute. discriminate.
Qed.
Print Assumptions C105_unequal_refuted.
(** Finding: the second of two loads at one place is left out. *)
Theorem C105_place_refuted : exists ls, length ls = 2%nat /\ forall m, length (filter (is_kind KI) (Map_new [] m ls)) = 1%nat.
Proof. exists [Load (0, 0) 1 2 q1 q1 q1; Load (0, 0) 1 2 q1 q1 q1]. split; [reflexivity|]. intros m. reflexivity. Qed.
Print Assumptions C105_place_refuted.
(** Finding: two wires between the same points leave places without an entry, which the solver reads. *)
Theorem C105_parallel_refuted : exists m rs vs gs, let ds := grid_devices m rs q1 vs gs [] in good (nodenum ds) (powerdev ds) ds /\ entries ds < places ds.
Proof.
  exists 2, [(1, 2, q1); (1, 2, q1)], [1], [2]. intros ds. split; [|vm_compute; reflexivity].
  apply C105_built; try lia; try reflexivity.
  - intros a b q [h|[h|[]]]; injection h as <- <- <-; repeat split; try lia; discriminate.
  - intros n [<-|[<-|[]]]; lia.
  - intros l [].
Qed.
Print Assumptions C105_parallel_refuted.
(** Finding: a point of power may be none of the grid. *)
Theorem C105_point_refuted : exists pts p, In p (FindPowerPoints pts) /\ ~ In p pts.
Proof. exists [(0, 0); (1, 1)], (0, 1). split; [vm_compute; tauto|]. intros [h|[h|[]]]; discriminate. Qed.
Print Assumptions C105_point_refuted.
(** But all coordinates are of the grid. *)
Lemma z_ins_in z l x : In x (z_ins z l) -> x = z \/ In x l.
Proof.
  induction l as [|y r IH]; cbn [z_ins]; [intros [h|[]]; left; congruence|]. destruct (z <? y); [intros [h|h]; [left; congruence|right; exact h]|]. destruct (y <? z); [|intros h; right; exact h].
  intros [h|h]; [right; left; exact h|]. destruct (IH h) as [e|e]; [left; exact e|right; right; exact e].
Qed.
Lemma z_sort_in l x : In x (z_sort l) -> In x l.
Proof.
  assert (H : forall l s, In x (fold_left (fun s z => z_ins z s) l s) -> In x l \/ In x s).
  { clear. induction l as [|z l IH]; intros s h; [right; exact h|]. cbn [fold_left] in h. destruct (IH _ h) as [e|e]; [left; right; exact e|]. destruct (z_ins_in z s x e) as [->|e']; [left; left; reflexivity|right; exact e']. }
  intros h. destruct (H l [] h) as [e|[]]. exact e.
Qed.
Lemma every_in f st l : forall i x, 0 <= i -> 0 <= st -> In x (every f st i l) -> In x l.
Proof.
  induction f as [|f IH]; intros i x hi hs h; [destruct h|]. cbn [every] in h. destruct (i <? Z.of_nat (length l)) eqn:e; [|destruct h]. destruct h as [<-|h]; [apply nth_In; lia|]. apply (IH (i + st) x); [lia|exact hs|exact h].
Qed.
Lemma picked_in l x : In x (picked l) -> In x l.
Proof.
  unfold picked. assert (c : 0 <= ceil_div (Z.of_nat (length l)) 3).
  { unfold ceil_div. first [apply Z.div_pos; lia | (assert (0 <= Z.of_nat (length l)) by lia; nia) | idtac]. all: try (pose proof (Z.div_le_upper_bound (- Z.of_nat (length l)) 3 0 ltac:(lia) ltac:(lia)); lia). }
  intros h. apply every_in in h; [exact h|apply Z.quot_pos; lia|]. destruct (_ <=? _); lia.
Qed.
Theorem C105_points pts x y : In (x, y) (FindPowerPoints pts) -> (exists y', In (x, y') pts) /\ exists x', In (x', y) pts.
Proof.
  unfold FindPowerPoints. intros h. apply in_flat_map in h. destruct h as (a & h1 & h2). apply in_map_iff in h2. destruct h2 as (b & e & h2). injection e as -> ->.
  apply picked_in, z_sort_in, in_map_iff in h1, h2. destruct h1 as ([u v] & e1 & h1). destruct h2 as ([u' v'] & e2 & h2). cbn in e1, e2. subst. split; [exists v|exists u']; assumption.
Qed.
Print Assumptions C105_points.

(** A wire between Vdd and ground with a load: the system is good, and its nodes are fed. *)
Example C105_nonvacuous : let ds := grid_devices 4 [(1, 2, q1); (3, 4, q1)] q1 [1] [3] [Load (0, 0) 2 4 q1 q1 half_q] in
  good (nodenum ds) (powerdev ds) ds /\ nodenum ds = 6 /\ simple 6 ds /\ (forall k, 1 <= k <= 6 -> fed ds k) /\ exists x, solves ds x /\ x (2 - 1) = half_q.
Proof.
  intros ds. assert (G : good (nodenum ds) (powerdev ds) ds).
  { apply C105_built; try lia; try reflexivity.
    - intros a b q [h|[h|[]]]; injection h as <- <- <-; repeat split; try lia; discriminate.
    - intros n [<-|[<-|[]]]; lia.
    - intros l [<-|[]]. cbn. repeat split; try lia; discriminate. }
  split; [exact G|]. split; [reflexivity|]. split; [split; [|split]|split].
  - assert (e : nodup (fun p q : Z * Z => ltac:(decide equality; apply Z.eq_dec)) (flat_map r_pairs ds) = flat_map r_pairs ds) by (vm_compute; reflexivity). rewrite <- e. apply NoDup_nodup.
  - intros d I k. cbn in I. repeat (destruct I as [<-|I]; [first [discriminate k|reflexivity]|]). destruct I.
  - intros k hk. assert (c : (k = 1 \/ k = 2) \/ (k = 3 \/ k = 4) \/ k = 5 \/ k = 6) by lia.
    destruct c as [c|[c|[c|c]]]; [exists (Dev KR 1 2 q1)|exists (Dev KR 3 4 q1)|exists (Dev KR 2 5 q1)|exists (Dev KR 6 4 q1)]; (split; [cbn; tauto|]; split; [reflexivity|cbn; lia]).
  - assert (f1 : fed ds 1) by (apply (fed_source ds (Dev KV 1 (-1) q1)); [cbn; tauto|reflexivity]).
    assert (f2 : fed ds 2) by (apply (fed_from ds (Dev KR 1 2 q1)); [cbn; tauto|reflexivity|exact f1]).
    assert (f3 : fed ds 3) by (apply (fed_source ds (Dev KV 3 (-1) Qz)); [cbn; tauto|reflexivity]).
    assert (f4 : fed ds 4) by (apply (fed_from ds (Dev KR 3 4 q1)); [cbn; tauto|reflexivity|exact f3]).
    assert (f5 : fed ds 5) by (apply (fed_from ds (Dev KR 2 5 q1)); [cbn; tauto|reflexivity|exact f2]).
    assert (f6 : fed ds 6) by (apply (fed_to ds (Dev KR 6 4 q1)); [cbn; tauto|reflexivity|exact f4]).
    intros k hk. assert (c : k = 1 \/ k = 2 \/ k = 3 \/ k = 4 \/ k = 5 \/ k = 6) by lia. destruct c as [->|[->|[->|[->|[->| ->]]]]]; assumption.
  - exists (fun i => if i =? 0 then q1 else if i =? 1 then half_q else if i =? 3 then half_q else if i =? 5 then q1 else if i =? 6 then (- half_q)%Qc else if i =? 7 then half_q else Qz).
    split; [|reflexivity]. intros j hj. change (0 <= j < 8) in hj. assert (c : j = 0 \/ j = 1 \/ j = 2 \/ j = 3 \/ j = 4 \/ j = 5 \/ j = 6 \/ j = 7) by lia.
    destruct c as [->|[->|[->|[->|[->|[->|[->| ->]]]]]]]; apply Qc_is_canon; vm_compute; reflexivity.
Qed.
