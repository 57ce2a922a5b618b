(** Rectangles and grid indices in the python router. *)
From Coq Require Import ZArith ZifyBool.
From Verif Require Import Base.Prelude Model.PySort Model.Transformation Model.Grid Model.Canvas Model.PyRoute Spec.GridSpec Proofs.GridP Props.C06_C08.
Local Open Scope Z_scope.

(** The sides of a rectangle across a wire and along it. *)
Definition sides (d : direction) (r : Rect) : (Z * Z) * (Z * Z) := match d with H => ((lly r, ury r), (llx r, urx r)) | V => ((llx r, urx r), (lly r, ury r)) end.
Lemma check_bound_some b i : check_bound b = Some i -> b = Some (i, i).
Proof. destruct b as [[[a1 a2] [b1 b2]]|]; [|discriminate]. cbn. destruct (Z.eqb_spec a1 b1), (Z.eqb_spec a2 b2); try discriminate. intros [= <-]. subst. reflexivity. Qed.
Lemma check_bound_same i : check_bound (Some (i, i)) = Some i.
Proof. cbn. rewrite !Z.eqb_refl. reflexivity. Qed.
Lemma rect_to_grid_eq w r : rect_to_grid w r =
  let s := sides (w_dir w) r in
  match check_bound (inverseBounds (w_clg w) ((fst (fst s) + snd (fst s)) / 2)), check_bound (inverseBounds (w_spg w) (fst (snd s))), check_bound (inverseBounds (w_spg w) (snd (snd s))) with
  | Some c, Some b, Some e => Some (c, b, e) | _, _, _ => None end.
Proof. unfold rect_to_grid, sides. destruct (w_dir w); reflexivity. Qed.

(** The indices are those of lines at the centre, begin and end of the rectangle. *)
Theorem C110_sound w pc ps r c b e : periodic (w_clg w) pc -> periodic (w_spg w) ps -> rect_to_grid w r = Some (c, b, e) ->
  let s := sides (w_dir w) r in exists ac ab ae,
  value (w_clg w) (Pair (fst c) (snd c)) false = Some ((fst (fst s) + snd (fst s)) / 2, ac) /\
  value (w_spg w) (Pair (fst b) (snd b)) false = Some (fst (snd s), ab) /\ value (w_spg w) (Pair (fst e) (snd e)) false = Some (snd (snd s), ae).
Proof.
  intros hc hs. rewrite rect_to_grid_eq. cbv zeta. set (s := sides (w_dir w) r).
  destruct (check_bound (inverseBounds (w_clg w) _)) as [[c1 c2]|] eqn:e1; [|discriminate]. destruct (check_bound (inverseBounds (w_spg w) (fst (snd s)))) as [[b1 b2]|] eqn:e2; [|discriminate].
  destruct (check_bound (inverseBounds (w_spg w) (snd (snd s)))) as [[f1 f2]|] eqn:e3; [|discriminate]. intros [= <- <- <-]. apply check_bound_some in e1, e2, e3. cbn [fst snd].
  destruct (C07_roundtrip_back _ _ _ _ _ hc e1) as (ac & v1). destruct (C07_roundtrip_back _ _ _ _ _ hs e2) as (ab & v2). destruct (C07_roundtrip_back _ _ _ _ _ hs e3) as (ae & v3). exists ac, ab, ae. auto.
Qed.
Print Assumptions C110_sound.

Lemma value_check g i b x : value g i true = Some x -> value g i b = Some x.
Proof. unfold value. destruct (n_lines g <=? 0); [discriminate|]. cbv zeta. destruct b; [auto|]. cbn [andb]. destruct (negb _); [discriminate|auto]. Qed.
Lemma inverse_value g p i x a : periodic g p -> increasing g -> value g i true = Some (x, a) -> let v := idx_flat g i in inverseBounds g x = Some ((v / n_lines g, v mod n_lines g), (v / n_lines g, v mod n_lines g)).
Proof.
  intros hp hi hv. cbv zeta. apply (value_check _ _ false) in hv. destruct (C07_roundtrip g p (idx_flat g i) hp hi) as (c & a' & h1 & h2). assert (q : value g i false = value g (Flat (idx_flat g i)) false) by reflexivity. rewrite q, h1 in hv. injection hv as -> _. exact h2.
Qed.
(** The rectangle of a wire segment gives back the indices of the segment, with the whole part normalised. *)
Theorem C110_roundtrip w pc ps ci bi ei r : periodic (w_clg w) pc -> increasing (w_clg w) -> periodic (w_spg w) ps -> increasing (w_spg w) -> wire_segment w ci bi ei = Some r ->
  let norm g i := (idx_flat g i / n_lines g, idx_flat g i mod n_lines g) in rect_to_grid w r = Some (norm (w_clg w) ci, norm (w_spg w) bi, norm (w_spg w) ei).
Proof.
  intros h1 h2 h3 h4 h. cbv zeta. unfold wire_segment in h. destruct (value (w_clg w) ci true) as [[c [[wd k]|]]|] eqn:e1; try discriminate. destruct (value (w_spg w) bi true) as [[bp ab]|] eqn:e2; [|discriminate]. destruct (value (w_spg w) ei true) as [[ep ae]|] eqn:e3; [|discriminate].
  cbv zeta in h. injection h as <-. rewrite rect_to_grid_eq. cbv zeta.
  assert (E : sides (w_dir w) (match w_dir w with H => mkRect bp (c - wd / 2) ep (c + wd / 2) | V => mkRect (c - wd / 2) bp (c + wd / 2) ep end) = ((c - wd / 2, c + wd / 2), (bp, ep))) by (destruct (w_dir w); reflexivity).
  rewrite E. cbn [fst snd]. replace ((c - wd / 2 + (c + wd / 2)) / 2) with c by (replace (c - wd / 2 + (c + wd / 2)) with (c * 2) by lia; rewrite Z.div_mul; lia).
  rewrite (inverse_value _ _ _ _ _ h1 h2 e1), (inverse_value _ _ _ _ _ h3 h4 e2), (inverse_value _ _ _ _ _ h3 h4 e3), !check_bound_same. reflexivity.
Qed.
Print Assumptions C110_roundtrip.

Lemma inverse_shift g p x k : periodic g p -> inverseBounds g (x + k * p) = match inverseBounds g x with Some ((q, i), (q', j)) => Some ((q + k, i), (q' + k, j)) | None => None end.
Proof.
  intros (hp & c0 & a0 & tl & eg & (l & aN & el) & _). unfold inverseBounds. assert (f : first_line g = Some c0) by (unfold first_line; rewrite eg; reflexivity).
  assert (ep : period g = Some p). { unfold period. rewrite f. unfold last_line. rewrite el, rev_app_distr. cbn. f_equal. lia. }
  rewrite f, ep. replace (p =? 0) with false by lia. cbv zeta. replace (x + k * p - c0) with (x - c0 + k * p) by lia. rewrite Z.div_add, Z.mod_add by lia.
  match goal with |- ib_loop _ _ _ (fst (last ?m _)) _ = _ => generalize (fst (last m (0, 0))); generalize m end. intros m. induction m as [|[i v] m IH]; intros prev; [reflexivity|]. cbn [ib_loop].
  destruct (v - c0 =? (x - c0) mod p); [reflexivity|]. destruct ((x - c0) mod p <? v - c0); [reflexivity|]. apply IH.
Qed.
(** A move by whole periods changes only the whole parts of the indices. *)
Theorem C110_shift w pc ps r k m : periodic (w_clg w) pc -> periodic (w_spg w) ps ->
  let dx := match w_dir w with H => m * ps | V => k * pc end in let dy := match w_dir w with H => k * pc | V => m * ps end in
  rect_to_grid w (mkRect (llx r + dx) (lly r + dy) (urx r + dx) (ury r + dy)) =
  match rect_to_grid w r with Some (c, b, e) => Some ((fst c + k, snd c), (fst b + m, snd b), (fst e + m, snd e)) | None => None end.
Proof.
  intros hc hs. cbv zeta. rewrite !rect_to_grid_eq. cbv zeta.
  set (dx := match w_dir w with H => m * ps | V => k * pc end). set (dy := match w_dir w with H => k * pc | V => m * ps end).
  assert (E : sides (w_dir w) (mkRect (llx r + dx) (lly r + dy) (urx r + dx) (ury r + dy)) = let s := sides (w_dir w) r in ((fst (fst s) + k * pc, snd (fst s) + k * pc), (fst (snd s) + m * ps, snd (snd s) + m * ps))) by (unfold dx, dy; destruct (w_dir w); reflexivity).
  rewrite E. cbv zeta. cbn [fst snd]. set (s := sides (w_dir w) r). clearbody s. clear E dx dy.
  replace ((fst (fst s) + k * pc + (snd (fst s) + k * pc)) / 2) with ((fst (fst s) + snd (fst s)) / 2 + k * pc) by (replace (fst (fst s) + k * pc + (snd (fst s) + k * pc)) with (fst (fst s) + snd (fst s) + k * pc * 2) by lia; rewrite Z.div_add by lia; reflexivity).
  rewrite !(inverse_shift _ _ _ _ hc), !(inverse_shift _ _ _ _ hs).
  assert (C : forall (o : option ((Z * Z) * (Z * Z))) t, check_bound match o with Some (q, i, (q', j)) => Some (q + t, i, (q' + t, j)) | None => None end = match check_bound o with Some i => Some (fst i + t, snd i) | None => None end).
  { intros [[[q i] [q' j]]|] t; [|reflexivity]. cbn. replace (q + t =? q' + t) with (q =? q') by lia. destruct ((q =? q') && (i =? j)); reflexivity. }
  rewrite !C. destruct (check_bound (inverseBounds (w_clg w) _)); [|reflexivity]. destruct (check_bound (inverseBounds (w_spg w) (fst (snd s)))); [|reflexivity]. destruct (check_bound (inverseBounds (w_spg w) (snd (snd s)))); reflexivity.
Qed.
Print Assumptions C110_shift.

Definition ex_wire : Wire := mkWire H (UncoloredCenterLineGrid 80 32 0 1) (SingleGrid 50 0 2).
(** Neither the width of a rectangle nor half a unit of its centre is looked at: rectangles that no segment gives have indices. *)
Theorem C110_width_refuted : exists w r1 r2 r3 ci, w = ex_wire /\ r1 <> r2 /\ r2 <> r3 /\ wire_segment w (Flat 1) (Flat 0) (Flat 2) = Some r1 /\ rect_to_grid w r1 = Some ci /\ rect_to_grid w r2 = Some ci /\ rect_to_grid w r3 = Some ci /\ lly r3 + ury r3 <> 2 * 80.
Proof. exists ex_wire, (mkRect 0 64 100 96), (mkRect 0 0 100 160), (mkRect 0 64 100 97), (1, 0, (0, 0), (1, 0)). repeat split; try discriminate; try reflexivity; vm_compute; discriminate. Qed.
Print Assumptions C110_width_refuted.

Example C110_nonvacuous : periodic (w_clg ex_wire) 80 /\ increasing (w_clg ex_wire) /\ periodic (w_spg ex_wire) 100 /\ increasing (w_spg ex_wire) /\
  wire_segment ex_wire (Flat 1) (Flat 1) (Flat 4) = Some (mkRect 50 64 200 96) /\ rect_to_grid ex_wire (mkRect 50 64 200 96) = Some ((1, 0), (0, 1), (2, 0)) /\ rect_to_grid ex_wire (mkRect 51 64 200 96) = None.
Proof.
  split; [|split; [|split; [|split; [|repeat split; reflexivity]]]].
  - split; [lia|]. exists 0, (Some (32, None)), [(80, Some (32, None))]. split; [reflexivity|]. split; [exists [(0, Some (32, None))], (Some (32, None)); reflexivity|]. intros c a [h|[h|[]]]; injection h as <- _; lia.
  - unfold increasing. cbn. repeat constructor.
  - split; [lia|]. exists 0, None, [(50, None); (100, None)]. split; [reflexivity|]. split; [exists [(0, None); (50, None)], None; reflexivity|]. intros c a [h|[h|[h|[]]]]; injection h as <- _; lia.
  - unfold increasing. cbn. repeat constructor.
Qed.
