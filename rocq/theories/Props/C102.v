(** C102: the guard ring around a node. *)
From Coq Require Import ZArith ZifyBool.
From Verif Require Import Base.Prelude Model.GuardRing Spec.GuardRingSpec Proofs.GuardRingP.
Local Open Scope Z_scope.

Definition width (c : cell_rules) : Z := c_hi c - c_lo c.
Definition behind (c : cell_rules) : Z := c_cell c - c_hi c.
Definition new_of (n n' : node) (new : list ring) : Prop := n_rings n' = n_rings n ++ new.
Definition own (r : ring) : box := last (r_metals r) (Box 0 0 0 0).
Section Fits.
Variables (cx cy : cell_rules) (n : node).
Hypotheses (Fx : fit cx) (Fy : fit cy) (Hw : 0 <= n_w n) (Hh : 0 <= n_h n).
Let n' := guard_ring cx cy n.
Let X := side_of (n_w n) cx.
Let Y := side_of (n_h n) cy.
Lemma new_is new : new_of n n' new -> new = store X Y [] [] [] (stored_ll X Y).
Proof. unfold new_of. cbn. intros H. symmetry. exact (app_inv_head _ _ _ H). Qed.
(** The cells are exactly those of a frame of the least number of columns and rows, each once. *)
Theorem C102_frame new : new_of n n' new -> exists a b, enough (n_w n) cx (a - 2) /\ enough (n_h n) cy (b - 2) /\
  Z.of_nat (length new) = 2 * (a + b) - 4 /\ NoDup (map r_box new) /\
  forall q, In q (map r_box new) <-> exists i j, on_frame a b i j /\ q = Box (i * width cx) (j * width cy) (i * width cx + c_cell cx) (j * width cy + c_cell cy).
Proof.
  intros H. apply new_is in H. subst new. exists (number X + 2), (number Y + 2). replace (number X + 2 - 2) with (number X) by lia. replace (number Y + 2 - 2) with (number Y) by lia.
  split; [now apply number_enough|]. split; [now apply number_enough|]. rewrite <- (map_length r_box), store_boxes, map_length. split; [now apply stored_len|]. split.
  - apply nodup_map; [now apply stored_nodup|]. intros p q _ _ E. unfold cell_box in E. injection E as E1 E2 _ _. destruct p, q. cbn in *. congruence.
  - intros q. rewrite in_map_iff. split.
    + intros (p & <- & Hp). apply stored_in in Hp; auto. destruct Hp as (i & j & Hf & ->). exists i, j. split; [exact Hf|reflexivity].
    + intros (i & j & Hf & ->). exists (i * width cx, j * width cy). split; [reflexivity|]. apply stored_in; auto. exists i, j. now split.
Qed.
(** The metal of the cells makes a closed ring: each has a side in common with the next, none overlaps another. *)
Theorem C102_closed new : new_of n n' new -> cyclic abut (map own new) /\
  (forall i j r s, i <> j -> nth_error new i = Some r -> nth_error new j = Some s -> room 0 0 (own r) (own s)) /\
  forall r, In r new -> own r = Box (x0 (r_box r) + c_lo cx) (y0 (r_box r) + c_lo cy) (x0 (r_box r) + c_hi cx) (y0 (r_box r) + c_hi cy).
Proof.
  intros H. apply new_is in H. subst new.
  assert (map own (store X Y [] [] [] (stored_ll X Y)) = map (pin_box X Y) (stored_ll X Y)) as Eo by apply store_last.
  split; [|split].
  - rewrite Eo. destruct (stored_cyclic (n_w n) (n_h n) cx cy Fx Fy Hw Hh) as [C1 C2]. split.
    + intros l1 p q l2 E. apply map_eq_app in E. destruct E as (k1 & k2 & Ek & E1 & E2). destruct k2 as [|p' [|q' k2]]; try discriminate. injection E2 as <- <- _. exact (C1 _ _ _ _ Ek).
    + intros p l q E. destruct (stored_ll X Y) as [|p' k] eqn:Es; [discriminate|]. cbn in E. injection E as <- E. apply map_eq_app in E. destruct E as (k1 & k2 & -> & _ & E2). destruct k2 as [|q' [|? ?]]; try discriminate. injection E2 as <-. exact (C2 _ _ _ Es).
  - intros i j r s N Hi Hj. assert (forall k u, nth_error (store X Y [] [] [] (stored_ll X Y)) k = Some u -> exists p, nth_error (stored_ll X Y) k = Some p /\ own u = pin_box X Y p) as Q.
    { intros k u Hk. pose proof (map_nth_error own _ _ Hk) as M. rewrite Eo in M. destruct (store_nth _ _ _ _ _ _ _ _ Hk) as (p & Ep & _). rewrite (map_nth_error _ _ _ Ep) in M. injection M as M. eauto. }
    destruct (Q _ _ Hi) as (p & Hp & ->), (Q _ _ Hj) as (q & Hq & ->).
    assert (p <> q) as Npq. { intros ->. apply N. pose proof (stored_nodup (n_w n) (n_h n) cx cy Fx Fy Hw Hh) as ND. apply (proj1 (NoDup_nth_error _) ND); [apply nth_error_Some; fold X Y; congruence|]. fold X Y. congruence. }
    apply nth_error_In in Hp, Hq. apply stored_in in Hp, Hq; auto. destruct Hp as (i1 & j1 & _ & ->), Hq as (i2 & j2 & _ & ->).
    assert (i1 <> i2 \/ j1 <> j2) as D. { destruct (Z.eq_dec i1 i2) as [->|]; [|now left]. destruct (Z.eq_dec j1 j2) as [->|]; [|now right]. now destruct Npq. }
    pose proof (metal_pos (n_w n) cx Fx) as MX. pose proof (metal_pos (n_h n) cy Fy) as MY. unfold room, pin_box. cbn [x0 y0 x1 y1 fst snd]. fold X Y in MX, MY |- *. clear - D MX MY. set (mx := metal_size X) in *. set (my := metal_size Y) in *. clearbody mx my. nia.
  - intros r Hr. apply In_nth_error in Hr. destruct Hr as [k Hk]. pose proof (map_nth_error own _ _ Hk) as M. rewrite Eo in M. destruct (store_nth _ _ _ _ _ _ _ _ Hk) as (p & Hp & -> & _). rewrite (map_nth_error _ _ _ Hp) in M. injection M as <-.
    unfold pin_box, cell_box. cbn [x0 y0 fst snd]. unfold metal_size. cbn. f_equal; lia.
Qed.
(** The node moves as a whole, by multiples of the grid. In each direction the space at the lower side is the least one and half of what is
    to spare, less what the grid takes; at the higher side it is not less. *)
Theorem C102_gaps : exists dx dy, moved n n' dx dy /\
  forall c size d, c = cx /\ size = n_w n /\ d = dx \/ c = cy /\ size = n_h n /\ d = dy ->
  exists k slack rest, enough size c k /\ slack = k * width c - (size + 2 * (c_space c + behind c)) /\ c_grid c <= slack < c_grid c + width c /\ 0 <= rest < c_grid c /\ (c_grid c | d) /\
    d - c_hi c = c_space c + behind c + slack / 2 - rest /\ (c_lo c + (k + 1) * width c) - (d + size) = c_space c + behind c + (slack - slack / 2) + rest.
Proof.
  exists (wcell_shift X), (wcell_shift Y). split; [split; reflexivity|].
  assert (forall c size, fit c -> 0 <= size -> let d := wcell_shift (side_of size c) in exists k slack rest, enough size c k /\ slack = k * width c - (size + 2 * (c_space c + behind c)) /\ c_grid c <= slack < c_grid c + width c /\ 0 <= rest < c_grid c /\ (c_grid c | d) /\
    d - c_hi c = c_space c + behind c + slack / 2 - rest /\ (c_lo c + (k + 1) * width c) - (d + size) = c_space c + behind c + (slack - slack / 2) + rest) as Q.
  { intros c size F H d. exists (number (side_of size c)), (slack size c), (rest size c). destruct (gaps size c F) as ((k & K) & G1 & G2). fold d in G1, G2, K.
    split; [now apply number_enough|]. split; [reflexivity|]. split; [now apply slack_bounds|]. split; [now apply rest_bounds|]. split; [now exists k|].
    assert (metal_size (side_of size c) = width c) as Em by reflexivity. assert (minimal (side_of size c) = c_space c + behind c) as Ei by reflexivity. rewrite Em, Ei in G1, G2. split; [|exact G2]. unfold width in G1. lia. }
  intros c size d [(-> & -> & ->)|(-> & -> & ->)]; now apply Q.
Qed.
(** So the metal keeps its space to the node, less half the grid at most; the cells keep theirs if no space was lost to the grid
    and the cell has no more below its metal than above it. *)
Theorem C102_space new dx dy : new_of n n' new -> moved n n' dx dy -> n_boxes n <> [] -> let W := Box dx dy (dx + n_w n) (dy + n_h n) in
  forall r, In r new ->
  room (c_space cx + behind cx - (c_grid cx - 1) / 2) (c_space cy + behind cy - (c_grid cy - 1) / 2) (own r) W /\
  (c_space cx + behind cx <= dx - c_hi cx -> c_space cy + behind cy <= dy - c_hi cy ->
   room (c_space cx + behind cx) (c_space cy + behind cy) (own r) W /\ (c_lo cx <= behind cx -> c_lo cy <= behind cy -> room (c_space cx) (c_space cy) (r_box r) W)).
Proof.
  intros Hn [M _] N W r Hr. assert (dx = wcell_shift X /\ dy = wcell_shift Y) as [Ex Ey]. { cbn in M. destruct (n_boxes n) as [|q l]; [contradiction|]. injection M as M1 M2 _ _ _. fold X in M1. fold Y in M2. lia. }
  destruct (gaps (n_w n) cx Fx) as (_ & GX1 & GX2), (gaps (n_h n) cy Fy) as (_ & GY1 & GY2). fold X in GX1, GX2. fold Y in GY1, GY2.
  pose proof (slack_bounds (n_w n) cx Fx) as SX. pose proof (slack_bounds (n_h n) cy Fy) as SY. pose proof (rest_bounds (n_w n) cx Fx) as RX. pose proof (rest_bounds (n_h n) cy Fy) as RY.
  destruct (C102_closed new Hn) as (_ & _ & Ho). rewrite (Ho r Hr). destruct (C102_frame new Hn) as (a & b & Ea & Eb & _ & _ & Hf). apply (in_map r_box) in Hr. apply Hf in Hr. destruct Hr as (i & j & (Hi & Hj & Hc) & Er). rewrite Er. cbn [x0 y0 x1 y1].
  assert (a = number X + 2) as Na. { pose proof (number_enough (n_w n) cx Fx) as E. fold X in E. unfold enough in E, Ea. pose proof (f_metal cx Fx). clear - E Ea H. nia. }
  assert (b = number Y + 2) as Nb. { pose proof (number_enough (n_h n) cy Fy) as E. fold Y in E. unfold enough in E, Eb. pose proof (f_metal cy Fy). clear - E Eb H. nia. }
  assert (metal_size X = width cx) as E1 by reflexivity. assert (metal_size Y = width cy) as E2 by reflexivity. assert (minimal X = c_space cx + behind cx) as E3 by reflexivity. assert (minimal Y = c_space cy + behind cy) as E4 by reflexivity.
  fold X in SX. fold Y in SY. rewrite E1, ?E3 in *. rewrite E2, ?E4 in *.
  rewrite <- Ex in *. rewrite <- Ey in *. set (slx := slack (n_w n) cx) in *. set (sly := slack (n_h n) cy) in *. set (rx := rest (n_w n) cx) in *. set (ry := rest (n_h n) cy) in *.
  replace (number X + 1) with (a - 1) in GX2 by lia. replace (number Y + 1) with (b - 1) in GY2 by lia. pose proof (f_lo cx Fx) as LX. pose proof (f_lo cy Fy) as LY.
  assert (c_hi cx = c_lo cx + width cx) as HX by (unfold width; lia). assert (c_hi cy = c_lo cy + width cy) as HY by (unfold width; lia). assert (c_cell cx = c_hi cx + behind cx) as CX by (unfold behind; lia). assert (c_cell cy = c_hi cy + behind cy) as CY by (unfold behind; lia).
  unfold room, W. cbn [x0 y0 x1 y1]. clearbody slx sly rx ry. clear - Hc GX1 GX2 GY1 GY2 SX SY RX RY LX LY HX HY CX CY.
  assert (i = 0 /\ i * width cx = 0 \/ i = a - 1 /\ i * width cx = (a - 1) * width cx \/ j = 0 /\ j * width cy = 0 \/ j = b - 1 /\ j * width cy = (b - 1) * width cy) as K.
  { destruct Hc as [->|[->|[->| ->]]]; auto. }
  clear Hc. set (p := i * width cx) in *. set (q := j * width cy) in *. set (P := (a - 1) * width cx) in *. set (Q := (b - 1) * width cy) in *. clearbody p q P Q.
  split; [|intros BX BY; split; [|intros OX OY]]; destruct K as [(_ & K)|[(_ & K)|[(_ & K)|(_ & K)]]]; lia.
Qed.
(** The ring is inside the new box of the node exactly if the cell has less above its metal than below it (by 1 for an odd number to spare). *)
Theorem C102_box new k k' : new_of n n' new -> enough (n_w n) cx k -> enough (n_h n) cy k' ->
  ((forall r, In r new -> inside_of (r_box r) (Box 0 0 (n_w n') (n_h n'))) <-> behind cx + (k * width cx - n_w n) mod 2 <= c_lo cx /\ behind cy + (k' * width cy - n_h n) mod 2 <= c_lo cy).
Proof.
  intros Hn Ek Ek'.
  assert (forall c size p q, fit c -> enough size c p -> enough size c q -> p = q) as Uq. { intros c size p q F E1 E2. unfold enough in E1, E2. pose proof (f_metal c F). clear - E1 E2 H. nia. }
  assert ((k * width cx - n_w n) mod 2 = slack (n_w n) cx mod 2) as ->. { rewrite (Uq _ _ _ _ Fx Ek (number_enough (n_w n) cx Fx)). unfold slack. change (metal_size (side_of (n_w n) cx)) with (width cx). set (u := number _ * width cx). replace (u - n_w n) with (u - (n_w n + 2 * minimal (side_of (n_w n) cx)) + minimal (side_of (n_w n) cx) * 2) by lia. apply Z.mod_add. lia. }
  assert ((k' * width cy - n_h n) mod 2 = slack (n_h n) cy mod 2) as ->. { rewrite (Uq _ _ _ _ Fy Ek' (number_enough (n_h n) cy Fy)). unfold slack. change (metal_size (side_of (n_h n) cy)) with (width cy). set (u := number _ * width cy). replace (u - n_h n) with (u - (n_h n + 2 * minimal (side_of (n_h n) cy)) + minimal (side_of (n_h n) cy) * 2) by lia. apply Z.mod_add. lia. }
  clear Uq Ek Ek'. destruct (C102_frame new Hn) as (a & b & Ea & Eb & _ & _ & Hf).
  assert (a = number X + 2) as Na. { pose proof (number_enough (n_w n) cx Fx) as E. fold X in E. unfold enough in E, Ea. pose proof (f_metal cx Fx). clear - E Ea H. nia. }
  assert (b = number Y + 2) as Nb. { pose proof (number_enough (n_h n) cy Fy) as E. fold Y in E. unfold enough in E, Eb. pose proof (f_metal cy Fy). clear - E Eb H. nia. }
  assert (0 < width cx) as PX by (exact (metal_pos (n_w n) cx Fx)). assert (0 < width cy) as PY by (exact (metal_pos (n_h n) cy Fy)).
  pose proof (number_pos (n_w n) cx Fx Hw) as NX. pose proof (number_pos (n_h n) cy Fy Hh) as NY. fold X in NX. fold Y in NY.
  assert (n_w n' = (a - 1) * width cx + c_cell cx + (c_lo cx - behind cx) - slack (n_w n) cx mod 2) as Wx.
  { change (n_w n') with (n_w n + 2 * shift X). unfold X. rewrite (shift_eq (n_w n) cx Fx). fold X. pose proof (Z.div_mod (slack (n_w n) cx) 2 ltac:(lia)) as D. assert (slack (n_w n) cx = number X * width cx - (n_w n + 2 * minimal X)) as E by reflexivity. change (metal_size X) with (width cx). assert (c_cell cx = c_lo cx + width cx + behind cx) as Ec by (unfold width, behind; lia). rewrite Na. lia. }
  assert (n_h n' = (b - 1) * width cy + c_cell cy + (c_lo cy - behind cy) - slack (n_h n) cy mod 2) as Wy.
  { change (n_h n') with (n_h n + 2 * shift Y). unfold Y. rewrite (shift_eq (n_h n) cy Fy). fold Y. pose proof (Z.div_mod (slack (n_h n) cy) 2 ltac:(lia)) as D. assert (slack (n_h n) cy = number Y * width cy - (n_h n + 2 * minimal Y)) as E by reflexivity. change (metal_size Y) with (width cy). assert (c_cell cy = c_lo cy + width cy + behind cy) as Ec by (unfold width, behind; lia). rewrite Nb. lia. }
  split.
  - intros H. assert (In (Box ((a - 1) * width cx) ((b - 1) * width cy) ((a - 1) * width cx + c_cell cx) ((b - 1) * width cy + c_cell cy)) (map r_box new)) as I by (apply Hf; exists (a - 1), (b - 1); split; [unfold on_frame; lia|reflexivity]).
    apply in_map_iff in I. destruct I as (r & Er & Hr). specialize (H r Hr). rewrite Er in H. unfold inside_of in H. cbn [x0 y0 x1 y1] in H. lia.
  - intros [Hx Hy] r Hr. apply (in_map r_box) in Hr. apply Hf in Hr. destruct Hr as (i & j & (Hi & Hj & _) & ->). unfold inside_of. cbn [x0 y0 x1 y1]. rewrite Wx, Wy. repeat split; nia.
Qed.
(** The k-th cell holds the metal of all cells up to it, and as many pins; pin i has the contacts of the cells up to i. *)
Theorem C102_store new k r : new_of n n' new -> nth_error new k = Some r ->
  r_metals r = map own (firstn (S k) new) /\ r_pins r = map (fun i => map own (firstn (S i) new)) (seq 0 (S k)).
Proof.
  intros H. apply new_is in H. subst new. intros Hk. destruct (store_nth _ _ _ _ _ _ _ _ Hk) as (p & _ & _ & E1 & E2). rewrite E1, E2. cbn [app].
  assert (forall i, map own (firstn i (store X Y [] [] [] (stored_ll X Y))) = map (pin_box X Y) (firstn i (stored_ll X Y))) as Q. { intros i. rewrite <- !firstn_map. f_equal. apply store_last. }
  rewrite Q. split; [reflexivity|]. apply map_ext. intros i. now rewrite Q.
Qed.
End Fits.

(** *** Findings. *)
Definition cr (lo hi cell space grid : Z) : cell_rules := CellRules lo hi cell space grid.
Definition empty (w h : Z) : node := Node w h [] [] [] [].
(** The rounding to the grid takes more from the lower side than there is to spare: the cells even overlap the node. *)
Theorem C102_grid_refuted : exists cx cy n r dx dy, fit cx /\ fit cy /\ 0 <= n_w n /\ 0 <= n_h n /\ c_lo cx = behind cx /\ moved n (guard_ring cx cy n) dx dy /\ n_boxes n = [Box 0 0 (n_w n) (n_h n)] /\ In r (n_rings (guard_ring cx cy n)) /\
  ~ room (c_space cx + behind cx) (c_space cy + behind cy) (own r) (Box dx dy (dx + n_w n) (dy + n_h n)) /\ ~ room 0 0 (r_box r) (Box dx dy (dx + n_w n) (dy + n_h n)).
Proof.
  exists (cr 5 15 20 3 16), (cr 5 15 20 3 1), (Node 28 50 [Box 0 0 28 50] [] [] []). eexists. exists 16, 25. split; [constructor; cbn; lia|]. split; [constructor; cbn; lia|]. split; [cbn; lia|]. split; [cbn; lia|]. split; [reflexivity|]. split; [split; vm_compute; reflexivity|]. split; [reflexivity|].
  split; [vm_compute; do 25 right; left; reflexivity|]. unfold room; vm_compute; intuition discriminate.
Qed.
(** At the higher sides the cells are too near if they have more below their metal than above it. *)
Theorem C102_side_refuted : exists cx cy n r dx dy, fit cx /\ fit cy /\ 0 <= n_w n /\ 0 <= n_h n /\ c_grid cx = 1 /\ c_grid cy = 1 /\ moved n (guard_ring cx cy n) dx dy /\ n_boxes n = [Box 0 0 (n_w n) (n_h n)] /\ In r (n_rings (guard_ring cx cy n)) /\
  ~ room (c_space cx) (c_space cy) (r_box r) (Box dx dy (dx + n_w n) (dy + n_h n)).
Proof.
  exists (cr 8 18 20 3 1), (cr 5 15 20 3 1), (Node 29 50 [Box 0 0 29 50] [] [] []). eexists. exists 23, 25. split; [constructor; cbn; lia|]. split; [constructor; cbn; lia|]. split; [cbn; lia|]. split; [cbn; lia|]. split; [reflexivity|]. split; [reflexivity|]. split; [split; vm_compute; reflexivity|]. split; [reflexivity|].
  split; [vm_compute; do 11 right; left; reflexivity|]. unfold room; vm_compute; intuition discriminate.
Qed.
(** The ring sticks out of the new box of the node, also for a cell with its metal in the middle. *)
Theorem C102_box_refuted : exists cx cy n r, fit cx /\ fit cy /\ 0 <= n_w n /\ 0 <= n_h n /\ c_lo cx = behind cx /\ c_lo cy = behind cy /\ c_grid cx = 1 /\ c_grid cy = 1 /\
  In r (n_rings (guard_ring cx cy n)) /\ ~ inside_of (r_box r) (Box 0 0 (n_w (guard_ring cx cy n)) (n_h (guard_ring cx cy n))).
Proof.
  exists (cr 5 15 20 3 1), (cr 5 15 20 3 1), (empty 51 50). eexists. split; [constructor; cbn; lia|]. split; [constructor; cbn; lia|]. split; [cbn; lia|]. split; [cbn; lia|]. do 4 (split; [reflexivity|]). split; [vm_compute; do 12 right; left; reflexivity|]. unfold inside_of. vm_compute. intuition congruence.
Qed.
(** A cell holds the pins of the cells before it. *)
Theorem C102_pins_refuted : exists cx cy n r q c, fit cx /\ fit cy /\ 0 <= n_w n /\ 0 <= n_h n /\ n_rings n = [] /\ In r (n_rings (guard_ring cx cy n)) /\ In q (r_pins r) /\ In c q /\ room 1 1 (r_box r) c.
Proof.
  exists (cr 5 15 20 3 1), (cr 5 15 20 3 1), (empty 50 50). eexists. exists [Box 5 5 15 15], (Box 5 5 15 15). split; [constructor; cbn; lia|]. split; [constructor; cbn; lia|]. split; [cbn; lia|]. split; [cbn; lia|]. split; [reflexivity|]. split; [vm_compute; do 2 right; left; reflexivity|]. split; [cbn; now left|]. split; [now left|]. vm_compute. right. left. discriminate.
Qed.
(** The axes of symmetric nets stay where they are. *)
Theorem C102_axis_refuted : exists cx cy n p q p' q' c, fit cx /\ fit cy /\ n_boxes n = [p; q] /\ n_axes n = [(true, c)] /\ x0 p + x1 q = 2 * c /\ x1 p + x0 q = 2 * c /\ inside_of p (Box 0 0 (n_w n) (n_h n)) /\ inside_of q (Box 0 0 (n_w n) (n_h n)) /\
  n_boxes (guard_ring cx cy n) = [p'; q'] /\ n_axes (guard_ring cx cy n) = [(true, c)] /\ x0 p' + x1 q' <> 2 * c.
Proof.
  exists (cr 5 15 20 3 1), (cr 5 15 20 3 1), (Node 50 50 [Box 0 0 10 50; Box 40 0 50 50] [] [(true, 25)] []). exists (Box 0 0 10 50), (Box 40 0 50 50). do 2 eexists. exists 25. split; [constructor; cbn; lia|]. split; [constructor; cbn; lia|]. repeat (split; [try reflexivity; unfold inside_of; cbn; lia|]). vm_compute. discriminate.
Qed.

Example C102_nonvacuous : let c := cr 5 15 20 3 4 in let n := Node 46 62 [Box 0 0 46 62; Box 4 4 10 20] [(7, 9)] [] [] in let n' := guard_ring c c n in
  fit c /\ new_of n n' (n_rings n') /\ enough 46 c 7 /\ enough 62 c 9 /\ length (n_rings n') = 36%nat /\ n_boxes n' = [Box 24 28 70 90; Box 28 32 34 48] /\ n_points n' = [(31, 37)] /\
  c_space c + behind c <= 24 - c_hi c /\ c_lo c <= behind c /\ (n_w n', n_h n') = (100, 120).
Proof. cbv zeta. split; [constructor; cbn; lia|]. split; [reflexivity|]. split; [unfold enough; cbn; lia|]. split; [unfold enough; cbn; lia|]. repeat split; try (vm_compute; reflexivity); vm_compute; discriminate. Qed.

Print Assumptions C102_frame.
Print Assumptions C102_closed.
Print Assumptions C102_gaps.
Print Assumptions C102_space.
Print Assumptions C102_box.
Print Assumptions C102_store.
Print Assumptions C102_grid_refuted.
Print Assumptions C102_side_refuted.
Print Assumptions C102_box_refuted.
Print Assumptions C102_pins_refuted.
Print Assumptions C102_axis_refuted.
