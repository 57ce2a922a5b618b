(** C98: the grid of tiles of the global router. *)
From Coq Require Import ZArith ZifyBool.
From Verif Require Import Base.Prelude Model.GlobalGraph Spec.GlobalGraphSpec Model.GlobalGrid Spec.GlobalGridSpec Proofs.GlobalGraphP Proofs.FindSTsP Proofs.GlobalGridP Proofs.GridEdgesP Proofs.GridUseP.
Local Open Scope Z_scope.

(** The constructor gives all tiles in their order, with their edges and capacities. *)
Theorem C98_grid s : valid s -> exists ts, GlobalGrid s = Some ts /\ grid_ok s ts.
Proof. intros V. destruct (grid_final s V) as (ts & E & I). exists ts. split; [exact E|]. now apply grid_is_ok. Qed.
Lemma grid_of s ts : valid s -> GlobalGrid s = Some ts -> grid_ok s ts.
Proof. intros V E. destruct (C98_grid s V) as (ts' & E' & Ok). rewrite E in E'. now injection E' as <-. Qed.

(** On each layer the tiles cover each point of the box once. *)
Definition covers (t : gtile) (x y : Z) : Prop := gx t - gw t / 2 <= x < gx t - gw t / 2 + gw t /\ gy t - gh t / 2 <= y < gy t - gh t / 2 + gh t.
Theorem C98_cover s ts k x y : valid s -> GlobalGrid s = Some ts -> (k < layers s)%nat -> llx s <= x < urx s -> lly s <= y < ury s ->
  exists n t, (nth_error ts n = Some t /\ glayer t = k /\ covers t x y) /\
    forall n' t', nth_error ts n' = Some t' -> glayer t' = k -> covers t' x y -> n' = n.
Proof.
  intros V E Hk Hx Hy. pose proof (grid_of s ts V E) as Ok. destruct (column_of s V x Hx) as (i & Hi & Li), (row_of s V y Hy) as (j & Hj & Lj).
  assert (in_grid s k i j) as Gr by (repeat split; assumption). pose proof Ok as [_ I]. destruct (I k i j Gr) as (t & Ht & T). exists (cell s k i j), t.
  assert (forall k' i' j' t', tile_ok s k' i' j' t' -> glayer t' = k' /\ (covers t' x y <-> (left_of s i' <= x < right_of s i' /\ bottom_of s j' <= y < top_of s j'))) as Cv.
  { intros k' i' j' t' (Tw & Th & Tx & Ty & Tl & _). split; [exact Tl|]. unfold covers. lia. }
  split; [split; [exact Ht|]; destruct (Cv _ _ _ _ T) as [C1 C2]; split; [exact C1|apply C2; auto]|].
  intros n' t' Hn Hl Hc. destruct (tile_of s ts Ok n' t' Hn) as (k' & i' & j' & G' & -> & T'). destruct (Cv _ _ _ _ T') as [C1 C2]. apply C2 in Hc. destruct Hc as [Hc1 Hc2].
  rewrite (column_one s V x i' i Hc1 Li), (row_one s V y j' j Hc2 Lj). congruence.
Qed.

(** A pin belongs exactly to the tiles of its layer that it overlaps. *)
Theorem C98_pin s ts m px py qx qy n : valid s -> GlobalGrid s = Some ts -> px < urx s -> py < ury s -> lmetal s <= m <= hmetal s ->
  In n (ConvertNetBlockPin s ts m px py qx qy) <->
  exists k i j, in_grid s k i j /\ metal_in s k m /\ n = cell s k i j /\ overlaps s i j px py qx qy.
Proof.
  intros V E Hx Hy Hm. pose proof (grid_of s ts V E) as Ok. rewrite (pin_ok s ts V Ok m px py qx qy n Hx Hy). destruct V as [_ _ _ Hp].
  assert (forall k, metal_in s k m <-> layer_of s m = k) as L.
  { intros k. unfold metal_in, layer_of. replace ((lmetal s <=? m) && (m <=? hmetal s)) with true by lia. pose proof (Z.div_mod (m - lmetal s) (per_layer s) ltac:(lia)). pose proof (Z.mod_pos_bound (m - lmetal s) (per_layer s) Hp).
    assert (0 <= (m - lmetal s) / per_layer s) by (apply Z.div_pos; lia). set (q := (m - lmetal s) / per_layer s) in *. split; [intros (_ & A); nia|]. intros <-. split; [exact Hm|]. rewrite Z2Nat.id by lia. lia. }
  split.
  - intros (i & j & Gr & -> & O). exists (layer_of s m), i, j. split; [exact Gr|]. split; [now apply L|]. split; [reflexivity|exact O].
  - intros (k & i & j & Gr & M & -> & O). apply L in M. subst k. eauto.
Qed.

(** The graph of the tiles: each edge leads to a tile beside, above or below, and there is the same edge back. *)
Theorem C98_graph s ts : valid s -> GlobalGrid s = Some ts ->
  exists g, CreateAdjacentList (map as_tile ts) = Some g /\ describes (map as_tile ts) (fun _ => true) (length ts) g /\
  forall a b w, edge_of (nodes g) a b w -> edge_of (nodes g) b a w /\
    exists k i j k' i' j', in_grid s k i j /\ in_grid s k' i' j' /\ a = cell s k i j /\ b = cell s k' i' j' /\ step_to k i j k' i' j'.
Proof. intros V E. exact (graph_ok s ts (grid_of s ts V E)). Qed.
(** The graph of the layers of a net is right if it starts at the lowest metal of the grid. *)
Theorem C98_layers s ts l hi : valid s -> GlobalGrid s = Some ts -> l <= lmetal s ->
  exists m g, CreateAdjacentList_New (map as_tile ts) l hi = Some g /\ describes (map as_tile ts) (in_layers l hi) m g.
Proof.
  intros V E Hl. pose proof (grid_of s ts V E) as Ok. destruct (create_new_ok (map as_tile ts) l hi (tiles_wf s ts Ok) (prefix_ok s ts V Ok l hi Hl)) as (g & Eg & D & _). eauto.
Qed.
(** Metal takes capacity only: positions, neighbours and edges between layers stay, no capacity grows or gets negative;
    without metal nothing changes. *)
Theorem C98_plate s pts ts : Forall2 lessened ts (AdjustPlateEdgeCapacity s pts ts) /\
  ((forall m p, ~ In p (pts m)) -> (forall t e c, In t ts -> In (e, c) (north t ++ south t ++ east t ++ west t ++ up t ++ down t) -> 0 <= c) -> AdjustPlateEdgeCapacity s pts ts = ts).
Proof. split; [apply plate_ok|apply plate_same]. Qed.

(** Findings. *)
Definition rules0 : rules := Rules Z.even (fun _ => 2) (fun _ => 2) (fun _ => 4) (fun _ => 2) (fun _ => 2).
Definition box (lo hi : Z) : setup := Setup rules0 lo lo hi hi 0 1 1 5.
Lemma box_valid lo hi : valid (box lo hi).
Proof. constructor; cbn; intros; lia. Qed.
(** A pin on a metal outside of the grid gets tiles of the lowest layer. *)
Theorem C98_metal_refuted : exists s ts m n t, valid s /\ GlobalGrid s = Some ts /\ hmetal s < m /\
  In n (ConvertNetBlockPin s ts m 1 1 3 3) /\ nth_error ts n = Some t /\ ~ In m (gmetal t).
Proof.
  exists (box 0 20). do 1 eexists. exists 7, 0%nat. eexists. split; [apply box_valid|]. split; [vm_compute; reflexivity|]. split; [cbn; lia|]. split; [vm_compute; auto|]. split; [reflexivity|]. cbn. lia.
Qed.
(** A via takes room from a tile where it is not, and not from its own. *)
Theorem C98_via_refuted : exists s ts ts' x y n t n' t' u', valid s /\ GlobalGrid s = Some ts /\ via_adjust s 0 x y ts = Some ts' /\
  nth_error ts n = Some t /\ covers t x y /\ glayer t = 0%nat /\ up t <> [] /\ nth_error ts' n = Some t /\
  nth_error ts n' = Some t' /\ ~ covers t' x y /\ nth_error ts' n' = Some u' /\ up u' <> up t'.
Proof.
  exists (box 0 60). do 2 eexists. exists 50, 50, 35%nat. eexists. exists 0%nat. do 2 eexists. split; [apply box_valid|]. split; [vm_compute; reflexivity|]. split; [vm_compute; reflexivity|].
  split; [reflexivity|]. split; [unfold covers; cbn; lia|]. split; [reflexivity|]. split; [discriminate|]. split; [reflexivity|]. split; [reflexivity|]. split; [unfold covers; cbn; lia|]. split; [reflexivity|]. discriminate.
Qed.
(** If the box does not start at a multiple of the tile size, metal takes no capacity at all. *)
Theorem C98_offset_refuted : exists s ts, valid s /\ GlobalGrid s = Some ts /\ (exists m p, lmetal s <= m <= hmetal s /\ In p (Metal2Points s m (llx s) (lly s) (urx s) (ury s))) /\
  AdjustPlateEdgeCapacity s (fun m => Metal2Points s m (llx s) (lly s) (urx s) (ury s)) ts = ts.
Proof.
  exists (box 5 35). eexists. split; [apply box_valid|]. split; [vm_compute; reflexivity|]. split; [|vm_compute; reflexivity]. exists 0, (6, 10). split; [cbn; lia|]. vm_compute. auto.
Qed.
(** With tiles of an odd size the capacity is taken from one direction of an edge only. *)
Definition odd_box : setup := Setup (Rules Z.even (fun _ => 2) (fun _ => 5) (fun _ => 4) (fun _ => 0) (fun _ => 0)) 0 0 2 10 0 1 1 1.
Theorem C98_odd_refuted : exists s ts g a b w, valid s /\ GlobalGrid s = Some ts /\
  CreateAdjacentList (map as_tile (AdjustPlateEdgeCapacity s (fun m => Metal2Points s m (llx s) (lly s) (urx s) (ury s)) ts)) = Some g /\
  edge_of (nodes g) a b w /\ forall w', ~ edge_of (nodes g) b a w'.
Proof.
  exists odd_box. do 2 eexists. exists 0%nat, 1%nat, 5. split; [constructor; cbn; intros; lia|]. split; [vm_compute; reflexivity|]. split; [vm_compute; reflexivity|]. split.
  - eexists. split; [reflexivity|]. cbn. auto.
  - intros w' (n & Hn & H). cbn in Hn. injection Hn as <-. cbn in H. intuition congruence.
Qed.

Example C98_nonvacuous : exists s ts, valid s /\ GlobalGrid s = Some ts /\ columns s = 3%nat /\ rows s = 3%nat /\ layers s = 2%nat /\
  nth_error ts 4 = Some (G 15 15 10 10 [0] 0 [(5%nat, 5)] [(3%nat, 5)] [] [] [] [(13%nat, 25)]) /\
  ConvertNetBlockPin s ts 1 8 12 11 13 = [10; 13]%nat.
Proof.
  exists (box 0 25). eexists. split; [apply box_valid|]. split; [vm_compute; reflexivity|]. repeat split; vm_compute; reflexivity.
Qed.

(** A via takes 2 from the capacity of the way up of one tile and of the way down of one tile above, at the place computed for it,
    and from nothing else; no capacity gets negative. *)
Definition less_by (n : Z) (e e' : edges) : Prop :=
  match e, e' with
  | [], [] => True
  | (k, c) :: r, (k', c') :: r' => k' = k /\ r' = r /\ 0 <= c' /\ (c' = c - n \/ c' = 0 /\ c < n)
  | _, _ => False
  end.
Definition same_but (t t' : gtile) : Prop :=
  gx t' = gx t /\ gy t' = gy t /\ gw t' = gw t /\ gh t' = gh t /\ gmetal t' = gmetal t /\ glayer t' = glayer t /\ north t' = north t /\ south t' = south t /\ east t' = east t /\ west t' = west t.
Lemma alter_nth {A} (f : A -> A) i : forall l l', alter f i l = Some l' -> length l' = length l /\ forall n, nth_error l' n = option_map (fun a => if Nat.eqb n i then f a else a) (nth_error l n).
Proof.
  induction i as [|i IH]; intros [|a l] l' E; cbn in E; try discriminate.
  - injection E as <-. split; [reflexivity|]. intros [|n]; cbn; [reflexivity|]. now destruct (nth_error l n).
  - destruct (alter f i l) as [r|] eqn:Er; [|discriminate]. injection E as <-. destruct (IH _ _ Er) as [L H]. split; [cbn; congruence|]. intros [|n]; [reflexivity|]. apply H.
Qed.
Lemma insert_sub lt p i m : forall e, In e (pm_insert lt p i m) -> e = (p, i) \/ In e m.
Proof. induction m as [|(q, j) m IH]; cbn; intros e H; [destruct H as [<-|[]]; now left|]. destruct (lt p q); [destruct H as [<-|H]; auto|]. destruct (lt q p); [|auto]. destruct H as [<-|H]; [auto|]. destruct (IH e H); auto. Qed.
Lemma pm_sub lt k ts p n : In (p, n) (pm lt k ts) -> exists t, nth_error ts n = Some t /\ glayer t = k /\ p = (gx t, gy t).
Proof.
  intros H. enough (In (p, n) (layer_points k ts)) as Q.
  - change (layer_points k ts) with (points_from 0 k ts) in Q. apply points_in in Q. destruct Q as (t & _ & Ht & Hk & E). rewrite Nat.sub_0_r in Ht. eauto.
  - revert H. unfold pm. assert (forall l m, In (p, n) (fold_left (fun m e => pm_insert lt (fst e) (snd e) m) l m) -> In (p, n) l \/ In (p, n) m) as Q; [|intros H; destruct (Q _ _ H) as [X|[]]; exact X].
    induction l as [|e l IH]; intros m H; [now right|]. cbn in H. destruct (IH _ H) as [X|X]; [left; now right|]. destruct (insert_sub _ _ _ _ _ X) as [->|X']; [left; left; now destruct e|now right].
Qed.
Lemma pm_find_sub lt k ts q n : pm_find q (pm lt k ts) = Some n -> exists t, nth_error ts n = Some t /\ glayer t = k /\ (gx t, gy t) = q.
Proof.
  unfold pm_find. destruct (find _ _) as [(p, i)|] eqn:F; [|discriminate]. intros E. injection E as <-. apply find_some in F. destruct F as [I F]. apply pm_sub in I. destruct I as (t & Ht & Hk & ->). exists t. split; [exact Ht|]. split; [exact Hk|]. cbn in F. destruct q. cbn in F. f_equal; lia.
Qed.
Lemma one_less_by e : less_by 2 e (one_less e).
Proof. destruct e as [|(k, c) r]; cbn; [exact I|]. repeat split; lia. Qed.
Theorem C98_via s k x y ts ts' : via_adjust s k x y ts = Some ts' -> length ts' = length ts /\
  let i := pm_find (via_point s x y) (pm xy_lt k ts) in let i' := pm_find (via_point s x y) (pm xy_lt (S k) ts) in
  (forall n, i = Some n \/ i' = Some n -> exists t, nth_error ts n = Some t /\ (gx t, gy t) = via_point s x y /\ glayer t = (if match i with Some a => Nat.eqb a n | None => false end then k else S k)) /\
  forall n t, nth_error ts n = Some t -> exists t', nth_error ts' n = Some t' /\ same_but t t' /\
    (if match i with Some a => Nat.eqb a n | None => false end then less_by 2 (up t) (up t') else up t' = up t) /\
    (if match i' with Some a => Nat.eqb a n | None => false end then less_by 2 (down t) (down t') else down t' = down t).
Proof.
  unfold via_adjust. intros E. destruct (at_found _ _ ts) as [ts1|] eqn:E1; [|discriminate].
  assert (length ts1 = length ts /\ forall n, nth_error ts1 n = option_map (fun t => if match pm_find (via_point s x y) (pm xy_lt k ts) with Some a => Nat.eqb a n | None => false end then set_up t (one_less (up t)) else t) (nth_error ts n)) as [L1 H1].
  { destruct (pm_find (via_point s x y) (pm xy_lt k ts)) as [a|]; cbn in E1.
    - destruct (alter_nth _ _ _ _ E1) as [L H]. split; [exact L|]. intros n. rewrite H, Nat.eqb_sym. reflexivity.
    - injection E1 as <-. split; [reflexivity|]. intros n. now destruct (nth_error ts n). }
  assert (pm xy_lt (S k) ts1 = pm xy_lt (S k) ts) as Ep.
  { apply pm_ext. apply nth_ext with (d := spot (G 0 0 0 0 [] 0 [] [] [] [] [] [])) (d' := spot (G 0 0 0 0 [] 0 [] [] [] [] [] [])); rewrite !map_length; [exact L1|]. intros n Hn.
    rewrite !map_nth. specialize (H1 n). destruct (nth_error ts n) as [t|] eqn:Et; [|apply nth_error_None in Et; lia]. cbn in H1. rewrite (nth_error_nth _ _ _ H1), (nth_error_nth _ _ _ Et). now destruct (match _ with Some _ => _ | None => _ end). }
  rewrite Ep in E.
  assert (length ts' = length ts1 /\ forall n, nth_error ts' n = option_map (fun t => if match pm_find (via_point s x y) (pm xy_lt (S k) ts) with Some a => Nat.eqb a n | None => false end then set_down t (one_less (down t)) else t) (nth_error ts1 n)) as [L2 H2].
  { destruct (pm_find (via_point s x y) (pm xy_lt (S k) ts)) as [a|]; cbn in E.
    - destruct (alter_nth _ _ _ _ E) as [L H]. split; [exact L|]. intros n. rewrite H, Nat.eqb_sym. reflexivity.
    - injection E as <-. split; [reflexivity|]. intros n. now destruct (nth_error ts1 n). }
  split; [congruence|]. cbv zeta. split.
  - intros n H. destruct (pm_find (via_point s x y) (pm xy_lt k ts)) as [a|] eqn:Fa.
    + destruct (Nat.eqb_spec a n) as [->|N].
      * destruct (pm_find_sub _ _ _ _ _ Fa) as (t & Ht & Hk & Hq). eauto.
      * destruct H as [H|H]; [congruence|]. destruct (pm_find_sub _ _ _ _ _ H) as (t & Ht & Hk & Hq). eauto.
    + destruct H as [H|H]; [discriminate|]. destruct (pm_find_sub _ _ _ _ _ H) as (t & Ht & Hk & Hq). eauto.
  - intros n t Ht. specialize (H1 n). specialize (H2 n). rewrite Ht in H1. cbn in H1. rewrite H1 in H2. cbn in H2. eexists. split; [exact H2|].
    destruct (match pm_find (via_point s x y) (pm xy_lt k ts) with Some _ => _ | None => _ end), (match pm_find (via_point s x y) (pm xy_lt (S k) ts) with Some _ => _ | None => _ end); cbn; (split; [repeat split|]); (split; try reflexivity; apply one_less_by).
Qed.

Print Assumptions C98_grid.
Print Assumptions C98_cover.
Print Assumptions C98_pin.
Print Assumptions C98_graph.
Print Assumptions C98_layers.
Print Assumptions C98_plate.
Print Assumptions C98_via.
Print Assumptions C98_metal_refuted.
Print Assumptions C98_via_refuted.
Print Assumptions C98_offset_refuted.
Print Assumptions C98_odd_refuted.
