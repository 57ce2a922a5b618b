(** C100: the grid of the detailed router. *)
From Coq Require Import ZArith QArith ZifyBool.
From Verif Require Import Base.Prelude Model.GlobalGrid Model.AStar Model.DetailGrid Spec.AStarSpec Spec.DetailGridSpec Proofs.DetailGridP Proofs.DetailLinkP Proofs.DetailPlaceP Proofs.DetailUseP Proofs.DetailOneP Props.C99.
Local Open Scope Z_scope.

(** The tracks of a metal are the longest runs of tiles of the global path in a column (row) of its layer. *)
Theorem C100_tracks a m s e : placed a -> (In (s, e) (tracks a m) <-> longest a m s e).
Proof. intros P. now apply tracks_ok. Qed.
(** The nodes are exactly the crossings, with a line of a metal next to it, in the boxes of the tracks. *)
Theorem C100_nodes a m x y : proper a -> placed a ->
  ((exists u, sits (Grid a) u m x y) <-> lo_metal a <= m <= hi_metal a /\ crossing (dr a) m x y /\ exists s e, longest a m s e /\ aligned a m (s, e) /\ inside (track_box a (s, e)) x y).
Proof.
  intros Q P. rewrite (nodes_ok a Q). split; intros (H1 & H2 & H3); (split; [exact H1|]; split; [exact H2|]).
  - destruct H3 as ([s e] & H3 & H4). exists s, e. split; [now apply tracks_ok|exact H4].
  - destruct H3 as (s & e & H3 & H4). exists (s, e). split; [now apply tracks_ok|exact H4].
Qed.
(** If the tiles are in regular columns and rows, each tile of the global path is covered. *)
Theorem C100_cover a m i x y : proper a -> placed a -> regular a -> In i (tiles a) -> In m (metals (gr a) (tlayer (gr a) i)) -> lo_metal a <= m <= hi_metal a ->
  inside (track_box a (i, i)) x y -> crossing (dr a) m x y -> exists u, sits (Grid a) u m x y.
Proof. intros Q P R. now apply cover_ok. Qed.
(** No crossing is there twice if the tracks do not meet. *)
Theorem C100_single a : proper a -> placed a -> apart a -> single (Grid a).
Proof. apply single_ok. Qed.
(** Two crossings of a track with none between them are joined. *)
Theorem C100_joined a m s e x y x' y' : proper a -> placed a -> lo_metal a <= m <= hi_metal a -> longest a m s e -> aligned a m (s, e) ->
  inside (track_box a (s, e)) x y -> inside (track_box a (s, e)) x' y' -> crossing (dr a) m x y -> crossing (dr a) m x' y' -> follows (dr a) m x y x' y' ->
  exists u n n', nth_error (Grid a) u = Some n /\ nth_error (Grid a) (S u) = Some n' /\ sits (Grid a) u m x y /\ sits (Grid a) (S u) m x' y' /\ joined (dr a) m n n' u (S u).
Proof. intros Q P Hm Hl. apply (wires_ok a Q); [exact Hm|now apply tracks_ok]. Qed.
(** Each neighbour is the next crossing of the same line, and links go both ways. *)
Theorem C100_wires a u n : proper a -> nth_error (Grid a) u = Some n -> let d := dr a in
  (forall v, In v (AStar.north n ++ AStar.east n) -> exists n', nth_error (Grid a) v = Some n' /\ metal n' = metal n /\ v = S u /\ follows d (metal n) (vx n) (vy n) (vx n') (vy n')) /\
  (vert d (metal n) = true -> AStar.east n = [] /\ AStar.west n = []) /\ (vert d (metal n) = false -> AStar.north n = [] /\ AStar.south n = []) /\
  (forall v, In v (AStar.south n) <-> exists n', nth_error (Grid a) v = Some n' /\ In u (AStar.north n')) /\
  (forall v, In v (AStar.west n) <-> exists n', nth_error (Grid a) v = Some n' /\ In u (AStar.east n')).
Proof.
  intros Q H d. destruct (after_sides a u n H) as (Hn & Hs & He & Hw). fold d in Hn, Hs, He, Hw. cbv zeta in Hn, Hs, He, Hw.
  assert (forall l (P : nat -> Prop), (forall v, In v l <-> vert d (metal n) = true /\ P v) -> vert d (metal n) = false -> l = []) as Nil1 by (intros [|v l] P X Y; [reflexivity|]; destruct (proj1 (X v) (or_introl eq_refl)); congruence).
  assert (forall l (P : nat -> Prop), (forall v, In v l <-> vert d (metal n) = false /\ P v) -> vert d (metal n) = true -> l = []) as Nil2 by (intros [|v l] P X Y; [reflexivity|]; destruct (proj1 (X v) (or_introl eq_refl)); congruence).
  split; [|split; [|split; [|split]]].
  - intros v Hv. assert (after a u v) as A by (apply in_app_or in Hv; destruct Hv as [Hv|Hv]; [apply Hn in Hv|apply He in Hv]; tauto). destruct (after_nodes a u v A) as (n1 & n' & H1 & H2 & Em & Ev & F). rewrite H in H1. injection H1 as <-. exists n'. auto.
  - intros V. split; [now apply (Nil2 _ _ He)|now apply (Nil2 _ _ Hw)].
  - intros V. split; [now apply (Nil1 _ _ Hn)|now apply (Nil1 _ _ Hs)].
  - intros v. rewrite Hs. split.
    + intros [V A]. destruct (after_nodes a v u A) as (n' & n1 & H1 & H2 & Em & _). rewrite H in H2. injection H2 as <-. exists n'. split; [exact H1|]. apply (proj1 (after_sides a v n' H1)). unfold d in V. split; [congruence|exact A].
    + intros (n' & H1 & H2). apply (proj1 (after_sides a v n' H1)) in H2. destruct H2 as [V A]. destruct (after_nodes a v u A) as (n2 & n1 & H3 & H4 & Em & _). unfold d. split; [congruence|exact A].
  - intros v. rewrite Hw. split.
    + intros [V A]. destruct (after_nodes a v u A) as (n' & n1 & H1 & H2 & Em & _). rewrite H in H2. injection H2 as <-. exists n'. split; [exact H1|]. apply (proj1 (proj2 (proj2 (after_sides a v n' H1)))). unfold d in V. split; [congruence|exact A].
    + intros (n' & H1 & H2). apply (proj1 (proj2 (proj2 (after_sides a v n' H1)))) in H2. destruct H2 as [V A]. destruct (after_nodes a v u A) as (n2 & n1 & H3 & H4 & Em & _). unfold d. split; [congruence|exact A].
Qed.
(** A via goes up to the first node of the next metal at the same place; it goes down again if no crossing is there twice. *)
Theorem C100_vias a u n : nth_error (Grid a) u = Some n ->
  (forall v, AStar.up n = Some v <-> metal n < hi_metal a /\ sits (Grid a) v (metal n + 1) (vx n) (vy n) /\ forall k, (k < v)%nat -> ~ sits (Grid a) k (metal n + 1) (vx n) (vy n)) /\
  (forall v, AStar.down n = Some v -> sits (Grid a) v (metal n - 1) (vx n) (vy n)) /\
  (single (Grid a) -> forall v n', nth_error (Grid a) v = Some n' -> (AStar.up n = Some v <-> AStar.down n' = Some u)).
Proof.
  intros H. split; [exact (grid_up a u n H)|]. split; [|intros S1 v n' H'; exact (up_down a S1 u v n n' H H')].
  intros v E. apply (grid_down a u n H) in E. destruct E as ((w & Hw & E) & _). apply (grid_up a v w Hw) in E. destruct E as (_ & (n1 & H1 & E1 & E2 & E3) & _). rewrite H in H1. injection H1 as <-. exists w. split; [exact Hw|]. lia.
Qed.
(** Lists of points change only the flags: a node is off iff a list blocks it and no later one opens it. *)
Theorem C100_lists a es u w : nth_error (edited es (Grid a)) u = Some w -> exists v, nth_error (Grid a) u = Some v /\ fixed v w /\
  (active w = false <-> blocked es (metal w) (vx w) (vy w)) /\ (via_up w = false <-> no_via es true (metal w) (vx w) (vy w)) /\ (via_down w = false <-> no_via es false (metal w) (vx w) (vy w)).
Proof.
  intros H. destruct (edit_all _ _ _ _ H) as (v & Hv & F & Ha & Hu & Hd). exists v. split; [exact Hv|]. split; [exact F|]. destruct (grid_node a u v Hv) as (_ & _ & _ & _ & _ & _ & _ & _ & _ & _ & _ & A1 & A2 & A3 & _).
  destruct F as (-> & -> & -> & _). auto.
Qed.
(** With this grid the search of C99 is well-defined, and each wire or via of its path joins points which are not blocked. *)
Theorem C100_route a es j : g j = edited es (Grid a) -> (forall m, horizontal (t j) m = negb (vert (dr a) m)) -> (forall u, In u (source j) -> (u < size j)%nat) ->
  wf j /\ (forall s f p ls, has_vias j -> clean s -> fst (A_star f j s) = Path p ls -> legal j p /\
    forall l u v r, p = l ++ u :: v :: r -> forall w, w = u \/ w = v -> let n := at_ j w in
      sits (Grid a) w (metal n) (vx n) (vy n) /\ ~ blocked es (metal n) (vx n) (vy n)).
Proof.
  intros Eg Eh Es. pose proof (edited_wf a es j Eg Eh Es) as W. split; [exact W|]. intros s f p ls HV Cl E. pose proof (C99_path j s f p ls W HV Cl E) as L. split; [exact L|].
  intros l u v r Ep w Hw n. destruct L as [R _]. pose proof (r_steps j p R l u v r Ep) as (A1 & A2 & _). assert (active n = true) as A by (unfold n; destruct Hw; subst w; assumption). assert (n = nth w (edited es (Grid a)) nowhere) as En0 by (unfold n, at_; now rewrite Eg). clearbody n.
  destruct (nth_error (edited es (Grid a)) w) as [n'|] eqn:En; [|apply nth_error_None in En; rewrite En0, nth_overflow in A by exact En; discriminate].
  rewrite (nth_of _ _ _ En) in En0. subst n'. rename n into n'. destruct (C100_lists a es w n' En) as (v0 & Hv & F & B & _). destruct F as (F1 & F2 & F3 & _). split; [exists v0; auto|]. intros X. apply B in X. congruence.
Qed.

(** *** Findings. *)
Definition two_tiles : gg := Gg (fun i => 2 + 4 * Z.of_nat i) (fun _ => 2) (fun _ => 4) (fun _ => 4) (fun _ => O) (fun i => i) (fun _ => O) 1 1 0 (fun _ => [0; 1]).
Definition wide (o : Z) (lo : Z) : args := Args two_tiles [(0, 1)]%nat (Pdk Z.even (fun _ => 2) (fun _ => o) 3) lo 0 8 4 0 1.
Lemma wide_proper o : 0 <= o < 2 -> proper (wide o 0).
Proof. intros H. constructor; cbn; intros; try lia. rewrite Z.even_add. cbn. now destruct (Z.even m). Qed.
Lemma wide_placed o lo : placed (wide o lo).
Proof. constructor; cbn; intros; intuition lia. Qed.
Lemma wide_regular o lo : regular (wide o lo).
Proof. constructor; cbn; intros; intuition (subst; cbn in *; lia). Qed.
(** Where two tracks meet on a line of their metal, the crossings are there twice; the link up from the first copy does not come back. *)
Theorem C100_twice_refuted : exists a u v w nu nw m x y, proper a /\ placed a /\ regular a /\ u <> v /\ sits (Grid a) u m x y /\ sits (Grid a) v m x y /\
  nth_error (Grid a) u = Some nu /\ AStar.up nu = Some w /\ nth_error (Grid a) w = Some nw /\ AStar.down nw = Some v.
Proof.
  exists (wide 0 0), 6%nat, 9%nat, 20%nat. do 2 eexists. exists 0, 4, 0. split; [now apply wide_proper|]. split; [apply wide_placed|]. split; [apply wide_regular|]. split; [lia|].
  split; [eexists; split; [vm_compute; reflexivity|repeat split]|]. split; [eexists; split; [vm_compute; reflexivity|repeat split]|]. split; [vm_compute; reflexivity|]. split; [reflexivity|]. split; [vm_compute; reflexivity|]. reflexivity.
Qed.
(** With negative coordinates crossings are left out, since the remainder is negative. *)
Definition left_tile : gg := Gg (fun _ => -2) (fun _ => 2) (fun _ => 4) (fun _ => 4) (fun _ => O) (fun _ => O) (fun _ => O) 1 0 0 (fun _ => [1]).
Definition left : args := Args left_tile [(0, 0)]%nat (Pdk Z.even (fun _ => 2) (fun _ => 1) 3) (-4) 0 0 4 1 1.
Theorem C100_negative_refuted : exists a i m x y, (forall m, 0 <= off (dr a) m < unit (dr a) m) /\ (forall m, vert (dr a) (m + 1) = negb (vert (dr a) m)) /\ placed a /\ regular a /\
  In i (tiles a) /\ In m (metals (gr a) (tlayer (gr a) i)) /\ lo_metal a <= m <= hi_metal a /\ inside (track_box a (i, i)) x y /\ crossing (dr a) m x y /\ ~ exists u, sits (Grid a) u m x y.
Proof.
  exists left, O, 1, (-1), 1. split; [intros; cbn; lia|]. split; [intros m; cbn; rewrite Z.even_add; cbn; now destruct (Z.even m)|]. split; [constructor; cbn; intros; intuition lia|]. split; [constructor; cbn; intros; intuition lia|].
  split; [now left|]. split; [now left|]. split; [cbn; lia|]. split; [unfold inside; cbn; lia|]. split; [split; [exists 0; reflexivity|left; exists (-1); reflexivity]|]. intros (u & n & H & _). replace (Grid left) with (@nil vertex) in H by (vm_compute; reflexivity). destruct u; discriminate.
Qed.

Lemma wide_apart : apart (wide 1 0).
Proof.
  intros m p p' x y Hp Hp' Hc I1 I2. unfold tracks in Hp, Hp'. cbn [wide gr two_tiles metals layer_num seq flat_map existsb] in Hp, Hp'. rewrite app_nil_r in Hp, Hp'. rewrite orb_false_r in Hp, Hp'. destruct (m =? 0) eqn:E0.
  - assert (m = 0) as -> by lia. vm_compute in Hp, Hp'. destruct Hc as [(k & Ex) _]. change (x = 1 + k * 2) in Ex.
    destruct Hp as [<-|[<-|[]]]; destruct Hp' as [<-|[<-|[]]]; try reflexivity; exfalso; change (track_box (wide 1 0) (0, 0)%nat) with (Box 0 0 4 4) in *; change (track_box (wide 1 0) (1, 1)%nat) with (Box 4 0 8 4) in *; unfold inside in *; cbn [bx0 bx1 by0 by1] in I1, I2; clear - I1 I2 Ex; lia.
  - destruct (m =? 1) eqn:E1; [|destruct Hp]. assert (m = 1) as -> by lia. vm_compute in Hp, Hp'. destruct Hp as [<-|[]]. destruct Hp' as [<-|[]]. reflexivity.
Qed.

Example C100_nonvacuous : exists a es j, proper a /\ placed a /\ regular a /\ apart a /\ length (Grid a) = 16%nat /\ g j = edited es (Grid a) /\ (forall m, horizontal (t j) m = negb (vert (dr a) m)) /\
  (forall u, In u (source j) -> (u < size j)%nat) /\ (exists u w, nth_error (edited es (Grid a)) u = Some w /\ active w = false) /\ has_vias j /\
  exists p ls, fst (A_star 100 j blank) = Path p ls /\ p = [0; 1; 12; 13; 14; 15; 7; 6]%nat.
Proof.
  set (a := wide 1 0). set (es := [Block (fun m => if m =? 1 then [(1, 1); (3, 1)] else []); Open (fun m => [(1, 1)])]).
  exists a, es, (Job (edited es (Grid a)) (tech0 (fun _ => 1%Q) (fun _ => Some 1%Q) 0) 0 0 [0%nat] [6%nat] []). split; [now apply wide_proper|]. split; [apply wide_placed|]. split; [apply wide_regular|]. split; [apply wide_apart|].
  split; [vm_compute; reflexivity|]. split; [reflexivity|]. split; [intros m; symmetry; apply Z.negb_even|]. split; [intros u [<-|[]]; vm_compute; lia|]. split; [exists 9%nat; eexists; split; [vm_compute; reflexivity|reflexivity]|]. split; [intros u _; discriminate|].
  do 2 eexists. split; [vm_compute; reflexivity|reflexivity].
Qed.

Print Assumptions C100_tracks.
Print Assumptions C100_nodes.
Print Assumptions C100_cover.
Print Assumptions C100_single.
Print Assumptions C100_joined.
Print Assumptions C100_wires.
Print Assumptions C100_vias.
Print Assumptions C100_lists.
Print Assumptions C100_route.
Print Assumptions C100_twice_refuted.
Print Assumptions C100_negative_refuted.
