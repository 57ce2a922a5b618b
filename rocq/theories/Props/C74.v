(** C74: postprocessing of terminals: colours and cuts of vias, align/cell_fabric/postprocess.py,
    align/primitive/default/via.py. *)
From Coq Require Import String Ascii ZifyBool.
From Verif Require Import Base.Prelude Base.PyDict Base.PyStr Model.Transformation Model.Grid Model.Canvas Model.DefaultCanvas Spec.TrackSpec Proofs.TrackP.
Local Open Scope string_scope. Local Open Scope list_scope. Local Open Scope Z_scope.

(** Each terminal is replaced, in place, by what the processor of its layer makes of it; a terminal on a layer without a
    processor stays; errors are counted; the run fails when a processor does. *)
Inductive processed {A} (procs : list (string * (term A -> option (list (term A) * bool)))) : list (term A) -> list (term A) -> nat -> Prop :=
| pr_nil : processed procs [] [] 0
| pr_keep t ts out k : (forall f, ~ In (t_layer t, f) procs) -> processed procs ts out k -> processed procs (t :: ts) (t :: out) k
| pr_one t f new ts out k : In (t_layer t, f) procs -> f t = Some (new, false) -> processed procs ts out k -> processed procs (t :: ts) (new ++ out) k
| pr_error t f new ts out k : In (t_layer t, f) procs -> f t = Some (new, true) -> processed procs ts out k -> processed procs (t :: ts) (new ++ out) (Datatypes.S k).
Theorem C74_run {A} procs (ts out : list (term A)) k : NoDup (map fst procs) -> (run procs ts = Some (out, k) <-> processed procs ts out k).
Proof.
  intros Hnd. revert out k. induction ts as [|t ts IH]; intros out k; cbn [run].
  - split; [intros [= <- <-]; constructor|intros H; inversion H; reflexivity].
  - destruct (dget String.eqb procs (t_layer t)) as [f|] eqn:E.
    + pose proof E as Ei. apply (dget_in _ String.eqb_eq) in Ei. split.
      * destruct (f t) as [(new, e)|] eqn:F; [|discriminate]. destruct (run procs ts) as [(l, k')|]; [|discriminate]. intros [= <- <-]. destruct e; [apply (pr_error procs t f)|apply (pr_one procs t f)]; auto; now apply IH.
      * intros H. inversion H as [|? ? ? ? Hk|? f' ? ? ? ? Hi F Hp|? f' ? ? ? ? Hi F Hp]; subst; [exfalso; exact (Hk _ Ei)| |];
          (assert (f' = f) by (apply (in_dget _ String.eqb_eq) in Hi; [congruence|exact Hnd])); subst f'; rewrite F; apply IH in Hp; rewrite Hp; reflexivity.
    + assert (Hk : forall f, ~ In (t_layer t, f) procs) by (intros f Hf; apply (proj1 (dget_none _ String.eqb_eq _ _) E); now apply (in_map fst) in Hf). split.
      * destruct (run procs ts) as [(l, k')|]; [|discriminate]. intros [= <- <-]. apply (pr_keep procs t); [exact Hk|now apply IH].
      * intros H. inversion H as [|? ? ? ? _ Hp|? f' ? ? ? ? Hi|? f' ? ? ? ? Hi]; subst; [|exfalso; exact (Hk _ Hi)|exfalso; exact (Hk _ Hi)]. apply IH in Hp. now rewrite Hp.
Qed.
Print Assumptions C74_run.

(** * Cuts *)
Lemma in_range n i : In i (range n) <-> 0 <= i < n.
Proof. unfold range. rewrite in_map_iff. split; [intros (k & <- & H); apply in_seq in H; lia|intros H; exists (Z.to_nat i); split; [lia|apply in_seq; lia]]. Qed.
Lemma range_len n : length (range n) = Z.to_nat n.
Proof. unfold range. now rewrite map_length, seq_length. Qed.
Lemma range_nodup n : NoDup (range n).
Proof. unfold range. apply FinFun.Injective_map_NoDup; [intros a b; lia|apply seq_NoDup]. Qed.
(** The cut in column [i] and row [j]. *)
Definition cut_at (c : cuts) (r : Rect) (i j : Z) : Rect :=
  let x := start_at (llx r) (urx r) (cu_wx c) (cu_sx c) (cu_nx c) + i * (cu_wx c + cu_sx c) in
  let y := start_at (lly r) (ury r) (cu_wy c) (cu_sy c) (cu_ny c) + j * (cu_wy c + cu_sy c) in mkRect x y (x + cu_wx c) (y + cu_wy c).
(** The cuts of a via: one in each column and row, of the same layer and net, of the given size. *)
Theorem C74_cuts {A} c (t u : term A) : In u (via_array c t) <->
  exists i j, 0 <= i < cu_nx c /\ 0 <= j < cu_ny c /\ t_layer u = t_layer t /\ t_color u = t_color t /\ t_rest u = t_rest t /\ t_rect u = cut_at c (t_rect t) i j.
Proof.
  unfold via_array. rewrite in_flat_map. split.
  - intros (i & Hi & Hu). apply in_map_iff in Hu as (j & <- & Hj). apply in_range in Hi. apply in_range in Hj. exists i, j. cbn. auto 10.
  - intros (i & j & Hi & Hj & H1 & H2 & H3 & H4). exists i. split; [now apply in_range|]. apply in_map_iff. exists j. split; [|now apply in_range]. destruct u as [ul ur uc ue]. cbn in *. subst. reflexivity.
Qed.
Print Assumptions C74_cuts.
Theorem C74_count {A} c (t : term A) : 0 <= cu_nx c -> 0 <= cu_ny c -> Z.of_nat (length (via_array c t)) = cu_nx c * cu_ny c.
Proof.
  intros Hx Hy. unfold via_array. assert (G : forall f : Z -> list (term A), (forall i, length (f i) = Z.to_nat (cu_ny c)) -> forall l, length (flat_map f l) = (length l * Z.to_nat (cu_ny c))%nat).
  { intros f Hf l. induction l as [|a l IH]; [reflexivity|]. cbn. now rewrite app_length, Hf, IH. }
  rewrite G by (intros i; now rewrite map_length, range_len). rewrite range_len. lia.
Qed.
Print Assumptions C74_count.
(** Two cuts are apart by the given space, in x or in y. *)
Theorem C74_apart c r i j i' j' : 0 < cu_wx c -> 0 < cu_wy c -> 0 <= cu_sx c -> 0 <= cu_sy c ->
  (i < i' -> urx (cut_at c r i j) + cu_sx c <= llx (cut_at c r i' j')) /\ (j < j' -> ury (cut_at c r i j) + cu_sy c <= lly (cut_at c r i' j')).
Proof. intros H1 H2 H3 H4. unfold cut_at. cbn [llx lly urx ury]. split; intros H; nia. Qed.
Print Assumptions C74_apart.
(** All cuts lie inside the via exactly when the array is not larger than it. *)
Definition extent (w s n : Z) : Z := w * n + s * (n - 1).
Definition inside (a b : Rect) : Prop := llx b <= llx a /\ lly b <= lly a /\ urx a <= urx b /\ ury a <= ury b.
Theorem C74_inside c r : 1 <= cu_nx c -> 1 <= cu_ny c -> 0 < cu_wx c -> 0 < cu_wy c -> 0 <= cu_sx c -> 0 <= cu_sy c ->
  ((forall i j, 0 <= i < cu_nx c -> 0 <= j < cu_ny c -> inside (cut_at c r i j) r) <->
   extent (cu_wx c) (cu_sx c) (cu_nx c) <= urx r - llx r /\ extent (cu_wy c) (cu_sy c) (cu_ny c) <= ury r - lly r).
Proof.
  intros Hx Hy W1 W2 S1 S2. unfold inside, cut_at, start_at, extent. cbn [llx lly urx ury].
  set (X := cu_wx c * cu_nx c + cu_sx c * (cu_nx c - 1)). set (Y := cu_wy c * cu_ny c + cu_sy c * (cu_ny c - 1)).
  assert (EX : (cu_nx c - 1) * (cu_wx c + cu_sx c) + cu_wx c = X) by (unfold X; ring). assert (EY : (cu_ny c - 1) * (cu_wy c + cu_sy c) + cu_wy c = Y) by (unfold Y; ring).
  split.
  - intros H. destruct (H 0 0 ltac:(lia) ltac:(lia)) as (A1 & A2 & _). destruct (H (cu_nx c - 1) (cu_ny c - 1) ltac:(lia) ltac:(lia)) as (_ & _ & B1 & B2).
    rewrite <- Z.add_assoc, EX in B1. rewrite <- Z.add_assoc, EY in B2. lia.
  - intros (HX & HY) i j Hi Hj. assert (0 <= i * (cu_wx c + cu_sx c) <= (cu_nx c - 1) * (cu_wx c + cu_sx c)) by nia. assert (0 <= j * (cu_wy c + cu_sy c) <= (cu_ny c - 1) * (cu_wy c + cu_sy c)) by nia.
    set (I := i * _) in *. set (J := j * _) in *. set (A := (cu_nx c - 1) * _) in *. set (B := (cu_ny c - 1) * _) in *. lia.
Qed.
Print Assumptions C74_inside.
(** The array is centred, up to one unit when the parities of via and array differ. *)
Theorem C74_centred c r :
  (let left := llx (cut_at c r 0 0) - llx r in let right := urx r - urx (cut_at c r (cu_nx c - 1) 0) in
   - 1 <= left - right <= 1 /\ (left = right <-> (extent (cu_wx c) (cu_sx c) (cu_nx c) - (urx r - llx r)) mod 2 = 0)) /\
  (let low := lly (cut_at c r 0 0) - lly r in let high := ury r - ury (cut_at c r 0 (cu_ny c - 1)) in
   - 1 <= low - high <= 1 /\ (low = high <-> (extent (cu_wy c) (cu_sy c) (cu_ny c) - (ury r - lly r)) mod 2 = 0)).
Proof.
  cbv zeta. unfold cut_at, start_at, extent. cbn [llx lly urx ury]. set (X := cu_wx c * cu_nx c + cu_sx c * (cu_nx c - 1)). set (Y := cu_wy c * cu_ny c + cu_sy c * (cu_ny c - 1)).
  assert (EX : (cu_nx c - 1) * (cu_wx c + cu_sx c) + cu_wx c = X) by (unfold X; ring). assert (EY : (cu_ny c - 1) * (cu_wy c + cu_sy c) + cu_wy c = Y) by (unfold Y; ring).
  rewrite <- (Z.add_assoc _ _ (cu_wx c)), EX. rewrite <- (Z.add_assoc _ _ (cu_wy c)), EY. lia.
Qed.
Print Assumptions C74_centred.

(** * Colours *)
(** The wire on track [k] gets, besides itself, a copy with the colour of track [k + offset / pitch], if the offset is a multiple of
    the pitch; otherwise it is reported and gets no colour. *)
Theorem C74_color {A} d p cs o w k x y (t : term A) : 0 < p -> cs <> [] -> is_even w -> t_rect t = wire_rect d (track o p k) w x y ->
  (o mod p <> 0 -> color_closure d p cs t = Some ([t], true)) /\
  (o mod p = 0 -> exists col, nth_error cs (Z.to_nat ((k + o / p) mod Z.of_nat (length cs))) = Some col /\
     color_closure d p cs t = Some ([t; mkTerm (t_layer t) (t_rect t) (Some col) (t_rest t)], false)).
Proof.
  intros Hp Hc (h & ->) Ht. unfold color_closure. rewrite Ht. set (c2 := match d with H => _ | V => _ end).
  assert (E2 : c2 = 2 * (o + k * p)) by (unfold c2, wire_rect, track; destruct d; cbn [lly ury llx urx]; replace (2 * h / 2) with h by lia; lia). clearbody c2.
  destruct (Z.eqb_spec (2 * p) 0); [lia|]. assert (M : c2 mod (2 * p) = 2 * (o mod p)) by (rewrite E2, Z.mul_mod_distr_l, Z.mod_add by lia; reflexivity).
  assert (Q : c2 / (2 * p) = k + o / p) by (rewrite E2, Z.div_mul_cancel_l, Z.div_add by lia; lia). rewrite M, Q. split; intros Ho.
  - destruct (Z.eqb_spec (2 * (o mod p)) 0); [lia|reflexivity].
  - rewrite Ho. cbn [Z.mul Z.eqb]. assert (0 <= (k + o / p) mod Z.of_nat (length cs) < Z.of_nat (length cs)) by (apply Z.mod_pos_bound; destruct cs; [congruence|cbn; lia]).
    destruct (nth_error cs (Z.to_nat ((k + o / p) mod Z.of_nat (length cs)))) as [col|] eqn:E; [|apply nth_error_None in E; lia]. exists col. auto.
Qed.
Print Assumptions C74_color.
(** With offset 0 the copy has the colour that the grid of the metal gives to the track. *)
Theorem C74_agrees {A} d p cs w g k x y (t : term A) : 0 < p -> colored cs p w 0 = Some g -> t_rect t = wire_rect d (track 0 p k) w x y ->
  exists col, value g (Flat k) true = Some (track 0 p k, Some (w, Some col)) /\ color_closure d p cs t = Some ([t; mkTerm (t_layer t) (t_rect t) (Some col) (t_rest t)], false).
Proof.
  intros Hp Hg Ht. assert (Hc : cs <> []) by (intros ->; discriminate). assert (Hw : is_even w) by (unfold colored in Hg; destruct cs; [discriminate|]; destruct (_ && even w) eqn:E; [|discriminate]; apply andb_prop in E as (_ & E); unfold even in E; exists (w / 2); lia).
  destruct (C74_color d p cs 0 w k x y t Hp Hc Hw Ht) as (_ & H). destruct (H eq_refl) as (col & Hn & Hcl). exists col. split; [|exact Hcl].
  rewrite (value_colored cs p w 0 g k Hg). rewrite Z.div_0_l, Z.add_0_r in Hn by lia. rewrite Hn. unfold track. reflexivity.
Qed.
Print Assumptions C74_agrees.
(** Finding: the offset of the metal is not taken into account.  With two colours and an offset of one pitch the copy always has
    the other colour; with an offset that is no multiple of the pitch every wire is reported. *)
Theorem C74_offset_refuted {A} d p w g k x y (t : term A) : 0 < p -> colored [1; 2] p w p = Some g -> t_rect t = wire_rect d (track p p k) w x y ->
  exists col col', value g (Flat k) true = Some (track p p k, Some (w, Some col)) /\ color_closure d p [1; 2] t = Some ([t; mkTerm (t_layer t) (t_rect t) (Some col') (t_rest t)], false) /\ col <> col'.
Proof.
  intros Hp Hg Ht. assert (Hw : is_even w) by (unfold colored in Hg; destruct (_ && even w) eqn:E; [|discriminate]; apply andb_prop in E as (_ & E); unfold even in E; exists (w / 2); lia).
  destruct (C74_color d p [1; 2] p w k x y t Hp ltac:(discriminate) Hw Ht) as (_ & H). destruct (H (Z.mod_same p ltac:(lia))) as (col' & Hn & Hcl). rewrite Z.div_same in Hn by lia.
  rewrite (value_colored [1; 2] p w p g k Hg). cbn [length] in *. change (Z.of_nat 2) with 2 in *.
  assert (K : k mod 2 = 0 /\ (k + 1) mod 2 = 1 \/ k mod 2 = 1 /\ (k + 1) mod 2 = 0) by lia. destruct K as [(K1 & K2)|(K1 & K2)]; rewrite K1; rewrite K2 in Hn; cbn in Hn; injection Hn as <-.
  - exists 1, 2. split; [reflexivity|]. split; [exact Hcl|discriminate].
  - exists 2, 1. split; [reflexivity|]. split; [exact Hcl|discriminate].
Qed.
Print Assumptions C74_offset_refuted.

(** V12 of pdks/FinFET14nm_Mock_PDK/layers.json, around the origin. *)
Definition v12 : cuts := mkCuts 256 256 360 360 3 2.
Definition wires : list (term string) := [mkTerm "M1" (mkRect 64 0 96 200) None "a"; mkTerm "V12" (mkRect (-1328) (-436) 1328 436) None "b"; mkTerm "M2" (mkRect 0 0 10 10) None "c"; mkTerm "M1" (mkRect 65 0 97 200) None "d"].
Example C74_nonvacuous :
  run [("M1", color_closure V 80 [1; 2]); ("V12", fun t => Some (via_array v12 t, false))] wires =
  Some ([mkTerm "M1" (mkRect 64 0 96 200) None "a"; mkTerm "M1" (mkRect 64 0 96 200) (Some 2) "a";
         mkTerm "V12" (mkRect (-744) (-436) (-488) (-180)) None "b"; mkTerm "V12" (mkRect (-744) 180 (-488) 436) None "b"; mkTerm "V12" (mkRect (-128) (-436) 128 (-180)) None "b";
         mkTerm "V12" (mkRect (-128) 180 128 436) None "b"; mkTerm "V12" (mkRect 488 (-436) 744 (-180)) None "b"; mkTerm "V12" (mkRect 488 180 744 436) None "b";
         mkTerm "M2" (mkRect 0 0 10 10) None "c"; mkTerm "M1" (mkRect 65 0 97 200) None "d"], 1%nat) /\
  colored [1; 2] 80 32 0 <> None /\ colored [1; 2] 80 32 80 <> None.
Proof. split; [reflexivity|split; discriminate]. Qed.
