(** C93: the flow around the integer program. *)
From Coq Require Import ZArith QArith Lqa ZifyBool.
From Verif Require Import Base.Prelude Model.SeqEnum Model.SymmGroup Model.KeepOrder Model.SeqCheck Model.PlaceRows Model.PlaceFlow
  Spec.SeqEnumSpec Spec.SymmGroupSpec Spec.SeqCheckSpec Spec.PlaceRowsSpec Spec.PlaceFlowSpec
  Proofs.PlaceRowsP Proofs.PlaceSymP Proofs.PlaceMainP Proofs.PlaceFlowP Props.C92.
Local Open Scope Z_scope.

(** Without offset grids, the result is on the routing grid. *)
Theorem C93_on_grid solve f pos neg s t : sane (f_d f) -> sound_solver solve (f_d f) pos neg ->
  f_black f = false -> no_offsets (f_d f) = true -> (1 < length (i_blocks (f_d f)))%nat ->
  place_all solve f s = Some t -> all_on_grid (f_d f) t.
Proof. intros. eapply place_on_grid; eauto. Qed.

(** If there is nothing to round, or the first pass is off the grid, the result has all that the
    program guarantees. *)
Definition good (d : idesign) (pos neg : list nat) (F : flipped) : Prop :=
  realizes (length (i_blocks d)) pos neg (fp F) /\ apart d pos neg (fp F) /\
  (forall x y, (x < length (i_blocks d))%nat -> (y < length (i_blocks d))%nat -> x <> y -> ~ overlap (fp F) x y) /\
  flips_ok d F /\ on_offsets d F /\ ordered d (fp F) /\
  (forall g, In g (i_syms d) -> twins d g -> balanced (across d g) g -> mirrored (fp F) g) /\
  (forall u, In u (i_aligns d) -> same_rest d u -> in_line (fp F) u).
Lemma good_solution d pos neg flush snap prev cur a t : sane d -> sequences (length (i_blocks d)) pos neg -> solution d pos neg flush snap prev cur a ->
  same_state t (read a) -> good d pos neg (state_at d t).
Proof.
  intros Hd Hs Ha E.
  assert (X : forall i, px (fp (solved d a)) i = px (fp (state_at d t)) i) by (intros i; symmetry; apply E).
  assert (Y : forall i, py (fp (solved d a)) i = py (fp (state_at d t)) i) by (intros i; symmetry; apply E).
  assert (W : forall i, pw (fp (solved d a)) i = pw (fp (state_at d t)) i) by reflexivity.
  assert (H : forall i, ph (fp (solved d a)) i = ph (fp (state_at d t)) i) by reflexivity.
  assert (A : forall i, fh (solved d a) i = fh (state_at d t) i) by (intros i; symmetry; apply E).
  assert (B : forall i, fv (solved d a) i = fv (state_at d t) i) by (intros i; symmetry; apply E).
  destruct (C92_sound d pos neg flush snap prev cur a Hd Hs Ha) as (S0 & S1 & S2 & (S3 & S4) & S5 & S6 & _).
  split; [|split; [|split; [|split; [|split; [|split; [|split]]]]]].
  - unfold realizes in *. setoid_rewrite X in S0. setoid_rewrite Y in S0. setoid_rewrite W in S0. setoid_rewrite H in S0. exact S0.
  - intros x y Hx Hy. specialize (S1 x y Hx Hy). unfold apart_h, apart_v in *. rewrite !X, !Y, !W, !H in S1. exact S1.
  - intros x y Hx Hy Hn. specialize (S2 x y Hx Hy Hn). unfold overlap in *. rewrite !X, !Y, !W, !H in S2. exact S2.
  - split; [intros i Hi'; specialize (S3 i Hi'); rewrite A, B in S3; exact S3|].
    intros g x y Hg' Hp'. specialize (S4 g x y Hg' Hp'). rewrite !A, !B in S4. exact S4.
  - intros i Hi'. specialize (S5 i Hi'). rewrite A, B, X, Y, W, H in S5. exact S5.
  - unfold ordered in *. setoid_rewrite X in S6. setoid_rewrite Y in S6. setoid_rewrite W in S6. setoid_rewrite H in S6. exact S6.
  - intros g Hg T1 T2. destruct (proj2 (C92_mirrored d pos neg flush snap prev cur a g Hd Ha Hg) (conj T1 T2)) as (ax & M). exists ax.
    intros x Hx. specialize (M x Hx). unfold cx, cy in *. destruct (g_axis g), x as [[x y]|[x m]]; rewrite ?X, ?Y, ?W, ?H in M; exact M.
  - intros u Hu Hr. pose proof (proj2 (C92_in_line d pos neg flush snap prev cur a u Hd Ha Hu) Hr) as M.
    intros x y Hx Hy. specialize (M x y Hx Hy). unfold on_line, cx, cy in *. rewrite !X, !Y, !W, !H in M. exact M.
Qed.
Theorem C93_good solve f pos neg s t : sane (f_d f) -> sequences (length (i_blocks (f_d f))) pos neg -> sound_solver solve (f_d f) pos neg ->
  (1 < length (i_blocks (f_d f)))%nat -> place_all solve f s = Some t ->
  f_black f = true \/ pairless (f_d f) \/
  (f_black f = false /\ no_offsets (f_d f) = true /\ exists u, gen_core solve f s false = Some u /\ ~ all_on_grid (f_d f) u) ->
  good (f_d f) pos neg (state_at (f_d f) t).
Proof.
  intros Hd Hs Hv Hl H Hc.
  assert (forall flush snap cur a t, solution (f_d f) pos neg flush snap None cur a -> same_state t (read a) -> good (f_d f) pos neg (state_at (f_d f) t)) as G
    by (intros; eapply good_solution; eauto).
  assert (f_black f = true \/ pairless (f_d f) -> good (f_d f) pos neg (state_at (f_d f) t)) as K.
  { intros Hp. destruct (place_solution solve f pos neg Hd Hv s t Hl H) as [(flush & snap & cur & a & Ha & E)|(flush & snap & cur & a & Ha & E)].
    - eapply G; eauto.
    - rewrite round_all_pairless in E by exact Hp. subst t. eapply G; eauto. intros i; auto. }
  destruct Hc as [Hc|[Hc|(Hb & Hn & u & Hu & Hg)]]; [now apply K; left|now apply K; right|].
  unfold place_all in H. rewrite Hu, Hb in H. cbn [negb andb] in H. destruct (wants_snap f u) eqn:W.
  - destruct (core_snap solve f pos neg Hd Hv u t Hn Hl H) as (_ & flush & cur & a & Ha & E). eapply G; eauto.
  - exfalso. apply Hg. unfold wants_snap in W. rewrite Hn in W. replace (1 <? length (i_blocks (f_d f)))%nat with true in W by lia. cbn [andb] in W.
    eapply off_grid_false; eauto.
Qed.

(** Finding: the rounding of the pairs is not checked.  Two pairs in a row get overlapping
    blocks. *)
Definition only (a : assign) (flush : bool) : bool -> bool -> option (nat -> Z * Z) -> (nat -> Z * Z) -> option assign :=
  fun fl sn prev _ => match prev with None => if Bool.eqb fl flush && negb sn then Some a else None | Some _ => None end.
Definition row_of_pairs : idesign :=
  IDesign [square 10; square 10; square 10; square 10] [] [Group [(0, 1)]%nat [] DirV; Group [(2, 3)]%nat [] DirV] [] [] []
    (fun _ _ _ => 0) 0 0 10 10 3 0 60 60.
Definition row_found : assign :=
  Assign (fun v => match v with VX i => nth i [3; 13; 23; 33] 0 | VH i => nth i [0; 1; 0; 1] 0 | _ => 0 end) (fun _ => inject_Z 60).
Lemma row_sane : sane row_of_pairs.
Proof.
  split; cbn [row_of_pairs i_blocks i_nets i_syms i_aligns i_orders i_abuts i_spread i_bias_h i_bias_v i_xp i_yp i_halo_h i_halo_v i_box_w i_box_h]; try lia; try (intros; contradiction).
  - apply (lt4 (fun i => 0 < bw row_of_pairs i /\ 0 < bh row_of_pairs i)); cbn; lia.
  - intros g x a [<-|[<-|[]]]; cbn; intuition; subst; cbn in *; lia.
Qed.
Lemma only_sound d pos neg a flush : (forall cur, solution d pos neg flush false None cur a) -> sound_solver (only a flush) d pos neg.
Proof.
  intros H fl sn prev cur b E. unfold only in E. destruct prev; [discriminate|]. destruct (Bool.eqb fl flush) eqn:Q; [|discriminate]. apply Bool.eqb_prop in Q. subst.
  destruct sn; [discriminate|]. injection E as <-. apply H.
Qed.
Theorem C93_rounding_refuted : exists solve f pos neg s t x y w,
  sane (f_d f) /\ sequences (length (i_blocks (f_d f))) pos neg /\ sound_solver solve (f_d f) pos neg /\
  generate solve f s = Some (t, x, y, w) /\ all_on_grid (f_d f) t /\ overlap (fp (state_at (f_d f) t)) 1 2.
Proof.
  set (f := FDesign row_of_pairs StyleL false false 0 100 (fun _ _ => [])).
  exists (only row_found true), f, [0; 1; 2; 3]%nat, [0; 1; 2; 3]%nat, (PState (fun _ => 0) (fun _ => 0) (fun _ => 0) (fun _ => 0)).
  exists (round_all f (read row_found)), 50, 10, 0.
  split; [exact row_sane|]. split. { split; [|split]; [repeat constructor; cbn; intuition lia|repeat constructor; cbn; intuition lia|]. intros a H; cbn in H; cbn; lia. }
  split. { apply only_sound. intros cur. apply solution_check; vm_compute; reflexivity. }
  split; [reflexivity|]. split.
  - apply (off_grid_false f row_sane). reflexivity.
  - unfold overlap. cbn. lia.
Qed.
(** Finding: pairs with a horizontal axis are rounded apart in the same way, and are mirrored no
    more. *)
Definition stacked_pair : idesign :=
  IDesign [IBlock 4 10 0 0 1 [] 1 [] []; IBlock 4 10 0 0 1 [] 1 [] []] [] [Group [(0, 1)]%nat [] DirH] [] [] [] (fun _ _ _ => 0) 0 0 10 10 5 0 60 60.
Definition stack_found : assign :=
  Assign (fun v => match v with VX i => 5 | VY i => nth i [10; 0] 0 | VV i => nth i [0; 1] 0 | _ => 0 end) (fun _ => inject_Z 60).
Lemma stacked_sane : sane stacked_pair.
Proof.
  split; cbn [stacked_pair i_blocks i_nets i_syms i_aligns i_orders i_abuts i_spread i_bias_h i_bias_v i_xp i_yp i_halo_h i_halo_v i_box_w i_box_h]; try lia; try (intros; contradiction).
  - intros i Hi. cbn in Hi. apply two_squares in Hi. destruct Hi as [->| ->]; cbn; lia.
  - intros g x a [<-|[]]; cbn; intuition; subst; cbn in *; lia.
Qed.
Theorem C93_mirror_refuted : exists solve f pos neg s t x y w g,
  sane (f_d f) /\ sequences (length (i_blocks (f_d f))) pos neg /\ sound_solver solve (f_d f) pos neg /\
  In g (i_syms (f_d f)) /\ twins (f_d f) g /\ balanced (across (f_d f) g) g /\
  generate solve f s = Some (t, x, y, w) /\ ~ mirrored (fp (state_at (f_d f) t)) g.
Proof.
  set (f := FDesign stacked_pair StyleL false false 0 100 (fun _ _ => [])).
  exists (only stack_found true), f, [0; 1]%nat, [1; 0]%nat, (PState (fun _ => 0) (fun _ => 0) (fun _ => 0) (fun _ => 0)).
  exists (round_all f (read stack_found)), 14, 20, 0, (Group [(0, 1)]%nat [] DirH).
  split; [exact stacked_sane|]. split; [exact two_sequences|].
  split. { apply only_sound. intros cur. apply solution_check; vm_compute; reflexivity. }
  split; [now left|]. split; [intros x y [E|[]]; injection E as <- <-; reflexivity|].
  split; [exists 2; split; [intros x y [E|[]]; injection E as <- <-; reflexivity|intros x []]|]. split; [reflexivity|].
  intros (ax & M). specialize (M (EPair (0, 1)%nat) (or_introl eq_refl)). cbn in M. lia.
Qed.

(** Finding: without the snapping, placing at the centre is placing at the left; the program
    with the blocks moved by their slack is never solved. *)
Definition at_left (f : fdesign) : fdesign := FDesign (f_d f) StyleL (f_black f) (f_off0 f) (f_lo f) (f_hi f) (f_shapes f).
Theorem C93_center solve f pos neg s : sane (f_d f) -> sound_solver solve (f_d f) pos neg -> f_style f = StyleC ->
  gen_core solve f s false = gen_core solve (at_left f) s false.
Proof.
  intros Hd Hv E. unfold gen_core. cbn [at_left f_d f_off0]. destruct (length (i_blocks (f_d f))) as [|n] eqn:L; [reflexivity|].
  rewrite (center_left solve f pos neg Hd Hv s ltac:(lia) E). reflexivity.
Qed.
Theorem C93_slack solve solve' f s : (forall flush snap cur, solve flush snap None cur = solve' flush snap None cur) ->
  generate solve f s = generate solve' f s.
Proof. apply generate_ext. Qed.

(** Finding: placing at the right puts all blocks below zero, unless all are at most two pitches
    wide and the solution was snapped; *)
Theorem C93_right solve f pos neg s t : sane (f_d f) -> sound_solver solve (f_d f) pos neg ->
  (1 < length (i_blocks (f_d f)))%nat -> f_style f = StyleR -> pairless (f_d f) -> place_all solve f s = Some t ->
  (forall i, (i < length (i_blocks (f_d f)))%nat -> st_x t i + bw (f_d f) i <= 0 /\ st_y t i + bh (f_d f) i <= 0) \/
  (forall i, (i < length (i_blocks (f_d f)))%nat -> bw (f_d f) i <= 2 * i_xp (f_d f) /\ bh (f_d f) i <= 2 * i_yp (f_d f)).
Proof. intros. eapply place_right; eauto. Qed.
(** then the limits of the aspect ratio and of the box are met by every placement, and the wire
    length is measured from zero. *)
Definition pair_right : idesign :=
  IDesign [IBlock 10 10 0 0 1 [] 1 [] [PBox 0 0 2 2]; square 10] [INet false [(0, 0)]%nat] [] [] [] [] (fun _ _ _ => 0) 0 0 5 5 0 0 10 10.
Definition right_found : assign :=
  Assign (fun v => match v with VX i => nth i [-20; -10] 0 | VY i => -10 | _ => 0 end)
         (fun v => match v with VNet _ 2 | VNet _ 3 => 0%Q | _ => inject_Z (-20) end).
Lemma right_sane : sane pair_right.
Proof.
  split; cbn [pair_right i_blocks i_nets i_syms i_aligns i_orders i_abuts i_spread i_bias_h i_bias_v i_xp i_yp i_halo_h i_halo_v i_box_w i_box_h]; try lia; try (intros; contradiction).
  intros i Hi. cbn in Hi. apply two_squares in Hi. destruct Hi as [->| ->]; cbn; lia.
Qed.
Theorem C93_right_refuted : exists solve f pos neg s t x y w,
  sane (f_d f) /\ sequences (length (i_blocks (f_d f))) pos neg /\ sound_solver solve (f_d f) pos neg /\
  generate solve f s = Some (t, x, y, w) /\ (f_lo f == 1)%Q /\ (f_hi f == 1)%Q /\
  (st_x t 0%nat = -20 /\ st_x t 1%nat + bw (f_d f) 1%nat = 0 /\ i_box_w (f_d f) = 10) /\
  (st_y t 0%nat = -10 /\ st_y t 1%nat = -10 /\ bh (f_d f) 0%nat = 10 /\ bh (f_d f) 1%nat = 10) /\
  w = 30 /\ exists net, i_nets (f_d f) = [net] /\ half_perimeter (f_d f) t (shapes_of f net) 4.
Proof.
  set (f := FDesign pair_right StyleR false false 1 1 (fun _ _ => [PBox 0 0 2 2])).
  exists (only right_found false), f, [0; 1]%nat, [0; 1]%nat, (PState (fun _ => 0) (fun _ => 0) (fun _ => 0) (fun _ => 0)).
  exists (read right_found), 0, 0, 30.
  split; [exact right_sane|].
  split. { split; [|split]; [repeat constructor; cbn; lia|repeat constructor; cbn; lia|]. intros a Ha. apply two_squares in Ha. destruct Ha as [->| ->]; cbn; tauto. }
  split. { apply only_sound. intros cur. apply solution_check; vm_compute; reflexivity. }
  split; [reflexivity|]. split; [reflexivity|]. split; [reflexivity|]. split; [repeat split|]. split; [repeat split|]. split; [reflexivity|].
  exists (INet false [(0, 0)]%nat). split; [reflexivity|]. exists (-20), (-18), (-10), (-8). unfold least, greatest. cbn. intuition lia.
Qed.

(** The wire length of a net is half the perimeter of the box around its pins, if the blocks are
    not below zero and the net has a pin; *)
Theorem C93_hpwl f s net : shapes_of f net <> [] -> on_blocks (f_d f) (shapes_of f net) ->
  (forall i, (i < length (i_blocks (f_d f)))%nat -> 0 <= st_x s i /\ 0 <= st_y s i) ->
  half_perimeter (f_d f) s (shapes_of f net) (net_hpwl f s net).
Proof. apply hpwl_exact. Qed.
(** Finding: a net without pins of blocks is minus half the perimeter of the placement. *)
Theorem C93_hpwl_empty f s net : shapes_of f net = [] -> net_hpwl f s net = - (ur_x (f_d f) s + ur_y (f_d f) s).
Proof. intros H. unfold net_hpwl. rewrite H. cbn [fold_left e_x0 e_x1 e_y0 e_y1]. lia. Qed.

(** Finding: a block of its own is put at the halo, whatever its flips and grids say. *)
Theorem C93_single solve f s : length (i_blocks (f_d f)) = 1%nat -> f_off0 f = false ->
  exists t, place_all solve f s = Some t /\ st_x t 0%nat = i_halo_h (f_d f) /\ st_y t 0%nat = i_halo_v (f_d f) /\ st_h t 0%nat = 0 /\ st_v t 0%nat = 0.
Proof.
  intros H E. unfold place_all, gen_core, wants_snap. rewrite H, E. cbn [Nat.eqb negb andb Nat.ltb Nat.leb]. rewrite andb_false_r. cbn [andb]. rewrite andb_false_r.
  eexists. split; [reflexivity|]. cbn. auto.
Qed.
Theorem C93_single_refuted : exists f, sane (f_d f) /\ length (i_blocks (f_d f)) = 1%nat /\ f_off0 f = false /\
  forall solve s t, place_all solve f s = Some t -> ~ flips_ok (f_d f) (state_at (f_d f) t) /\ ~ on_offsets (f_d f) (state_at (f_d f) t).
Proof.
  set (d := IDesign [IBlock 10 10 (-1) 0 10 [3] 1 [] []] [] [] [] [] [] (fun _ _ _ => 0) 0 0 10 10 0 0 60 60).
  set (f := FDesign d StyleL false false 0 1 (fun _ _ => [])). exists f.
  split. { split; cbn; try lia; try (intros; contradiction). intros i Hi. assert (i = 0%nat) as -> by lia. cbn. lia. }
  split; [reflexivity|]. split; [reflexivity|]. intros solve s t H. assert (t = PState (fun _ => 0) (fun _ => 0) (fun _ => 0) (fun _ => 0)) as ->.
  { unfold place_all in H. cbn in H. injection H as <-. reflexivity. }
  split.
  - intros [K _]. specialize (K 0%nat ltac:(cbn; lia)). unfold flip_ok in K. cbn in K. lia.
  - intros K. destruct (K 0%nat ltac:(cbn; lia)) as [K1 _]. destruct K1 as [K1|(m & o & M0 & [<-|[]] & M1)]; [discriminate|]. change (0 = 10 * m + 3) in M1. lia.
Qed.

(** A first pass off the grid and a second one on it meet the hypotheses of the theorems. *)
Definition two_row : idesign :=
  IDesign [square 10; square 10] [] [Group [(0, 1)]%nat [] DirV] [] [] [] (fun _ _ _ => 0) 0 0 10 10 4 4 60 60.
Definition raw_row : assign := Assign (fun v => match v with VX i => nth i [4; 24] 0 | VY i => 4 | VH i => nth i [0; 1] 0 | _ => 0 end) (fun _ => inject_Z 60).
Definition snap_row : assign :=
  Assign (fun v => match v with VX i => nth i [10; 30] 0 | VY i => 10 | VH i => nth i [0; 1] 0 | VSnapX i => nth i [1; 3] 0 | VSnapY i => 1 | _ => 0 end) (fun _ => inject_Z 60).
Definition row_solver : bool -> bool -> option (nat -> Z * Z) -> (nat -> Z * Z) -> option assign :=
  fun fl sn prev cur =>
    match prev with
    | Some _ => None
    | None => if negb fl then None else if negb sn then Some raw_row
              else if ((fst (cur 0%nat) =? 0) || (fst (cur 0%nat) =? 4)) && (snd (cur 0%nat) =? 4) && ((fst (cur 1%nat) =? 30) || (fst (cur 1%nat) =? 24)) && (snd (cur 1%nat) =? 4) then Some snap_row else None
    end.
Definition row_flow : fdesign := FDesign two_row StyleL false false 0 10 (fun _ _ => []).
Lemma two_row_sane : sane two_row.
Proof.
  split; cbn [two_row i_blocks i_nets i_syms i_aligns i_orders i_abuts i_spread i_bias_h i_bias_v i_xp i_yp i_halo_h i_halo_v i_box_w i_box_h]; try lia; try (intros; contradiction).
  - intros i Hi. cbn in Hi. apply two_squares in Hi. destruct Hi as [->| ->]; cbn; lia.
  - intros g x a [<-|[]]; cbn; intuition; subst; cbn in *; lia.
Qed.
Example C93_on_grid_nonvacuous : exists t, place_all row_solver row_flow (read raw_row) = Some t /\ st_x t 1%nat = 30 /\
  all_on_grid two_row t /\ good two_row [0; 1]%nat [0; 1]%nat (state_at two_row t).
Proof.
  eexists. split; [reflexivity|]. split; [reflexivity|].
  assert (sound_solver row_solver two_row [0; 1]%nat [0; 1]%nat) as Hv.
  { intros fl sn prev cur a E. unfold row_solver in E. destruct prev; [discriminate|]. destruct fl; [|discriminate]. destruct sn; cbn [negb] in E.
    - match type of E with (if ?c then _ else _) = _ => destruct c eqn:C end; [|discriminate]. injection E as <-.
      assert ((fst (cur 0%nat) = 0 \/ fst (cur 0%nat) = 4) /\ snd (cur 0%nat) = 4 /\ (fst (cur 1%nat) = 30 \/ fst (cur 1%nat) = 24) /\ snd (cur 1%nat) = 4) as (C1 & C2 & C3 & C4) by lia.
      apply solution_check; try (vm_compute; reflexivity). cbn [two_row i_blocks ids length seq forallb int_bnd snapping no_offsets square b_xoff b_yoff andb].
      destruct C1 as [C1|C1], C3 as [C3|C3]; rewrite C1, C2, C3, C4; vm_compute; reflexivity.
    - injection E as <-. apply solution_check; vm_compute; reflexivity. }
  assert (sequences 2 [0; 1]%nat [0; 1]%nat) as Hs.
  { split; [|split]; [repeat constructor; cbn; lia|repeat constructor; cbn; lia|]. intros a Ha. apply two_squares in Ha. destruct Ha as [->| ->]; cbn; tauto. }
  split.
  - apply (C93_on_grid row_solver row_flow [0; 1]%nat [0; 1]%nat (read raw_row)); auto using two_row_sane.
  - apply (C93_good row_solver row_flow [0; 1]%nat [0; 1]%nat (read raw_row)); auto using two_row_sane.
    right. right. split; [reflexivity|]. split; [reflexivity|]. eexists. split; [reflexivity|]. intros K. destruct (K 0%nat ltac:(cbn; lia)) as [_ (k & E)]. change (4 = 10 * k) in E. lia.
Qed.

Print Assumptions C93_on_grid.
Print Assumptions C93_good.
Print Assumptions C93_rounding_refuted.
Print Assumptions C93_mirror_refuted.
Print Assumptions C93_center.
Print Assumptions C93_slack.
Print Assumptions C93_right.
Print Assumptions C93_right_refuted.
Print Assumptions C93_hpwl.
Print Assumptions C93_hpwl_empty.
Print Assumptions C93_single.
Print Assumptions C93_single_refuted.
