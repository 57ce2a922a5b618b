(** Properties C06-C08: grids. *)
From Verif Require Import Base.Prelude Model.PySort Model.Grid Spec.GridSpec Proofs.GridP.
Local Open Scope Z_scope.

(** C06. [inverseBounds] never falls through and brackets the coordinate.  This needs no
    ordering of the lines, so it covers the non-monotonic enclosure grids too. *)
Theorem C06_inverseBounds_brackets : forall g p x, periodic g p ->
  exists q i j ci cj, inverseBounds g x = Some ((q, i), (q, j)) /\
    coord g p q i ci /\ coord g p q j cj /\ ci <= x <= cj /\
    (i = j <-> on_line g p x) /\
    (forall w f c, coord g p w f c -> ~ (ci < c < cj)).
Proof.
  intros g p x Hp.
  destruct (inverseBounds_spec g p x Hp) as (q & i & j & ci & cj & H1 & H2 & H3 & H4 & H5).
  exists q, i, j, ci, cj. split; [assumption|]. split; [assumption|]. split; [assumption|].
  assert (Hij : i = j -> ci = cj) by (intros ->; eapply coord_fun; eassumption).
  split; [destruct H4 as [[E1 E2]|E]; [apply Hij in E1; lia|lia]|].
  split.
  - split.
    + intros E. destruct H4 as [[_ <-]|E2]; [exists q, i; assumption|]. apply Hij in E. lia.
    + intros (w & f & Hc). destruct H4 as [[E _]|E2]; [assumption|]. specialize (H5 _ _ _ Hc). lia.
  - intros w f c Hc. specialize (H5 _ _ _ Hc). lia.
Qed.
Print Assumptions C06_inverseBounds_brackets.

Example C06_nonvacuous : periodic (EnclosureGrid 100 (-7) 80) 100 /\
  inverseBounds (EnclosureGrid 100 (-7) 80) (-250) = Some ((-3, 2), (-3, 1)).
Proof. split; [apply enclosure_periodic; lia | reflexivity]. Qed.

(** C07. *)
Theorem C07_roundtrip : forall g p v, periodic g p -> increasing g ->
  exists c a, value g (Flat v) false = Some (c, a) /\
    inverseBounds g c = Some ((v / n_lines g, v mod n_lines g), (v / n_lines g, v mod n_lines g)).
Proof.
  intros g p v Hp Hi. destruct (value_flat g p v Hp) as (c & a & Hv & _).
  exists c, a. split; [assumption|]. eapply roundtrip; eassumption.
Qed.
Print Assumptions C07_roundtrip.

Theorem C07_roundtrip_back : forall g p x q i, periodic g p ->
  inverseBounds g x = Some ((q, i), (q, i)) ->
  exists a, value g (Pair q i) false = Some (x, a).
Proof.
  intros g p x q i Hp H.
  destruct (inverseBounds_spec g p x Hp) as (q' & i' & j & ci & cj & H1 & H2 & H3 & H4 & _).
  rewrite H in H1. injection H1 as <- <- E. subst j.
  destruct H4 as [[_ ->]|H4].
  - eapply value_pair; eassumption.
  - assert (ci = cj) by (eapply coord_fun; eassumption). lia.
Qed.
Print Assumptions C07_roundtrip_back.

Theorem C07_strictly_increasing : forall g p v1 v2, periodic g p -> increasing g -> v1 < v2 ->
  exists c1 a1 c2 a2, value g (Flat v1) false = Some (c1, a1) /\
                      value g (Flat v2) false = Some (c2, a2) /\ c1 < c2.
Proof. exact value_strictly_increasing. Qed.
Print Assumptions C07_strictly_increasing.

Theorem C07_periodic : forall g p v, periodic g p ->
  exists c a, value g (Flat v) false = Some (c, a) /\
              value g (Flat (v + n_lines g)) false = Some (c + p, a).
Proof. exact value_periodic. Qed.
Print Assumptions C07_periodic.

(** Tuple indices, including line number n and overflowing ones, denote the expected line. *)
Theorem C07_tuple_index : forall g p w f c, periodic g p -> coord g p w f c ->
  exists a, value g (Pair w f) false = Some (c, a).
Proof. exact value_pair. Qed.
Print Assumptions C07_tuple_index.

Example C07_nonvacuous :
  let g := EnclosureGrid 100 (-7) 20 in
  periodic g 100 /\ increasing g /\ value g (Flat (-5)) false = Some (-107 + -100 + 80, None).
Proof. split; [apply enclosure_periodic; lia|]. split; [apply enclosure_increasing; lia|reflexivity]. Qed.

(** The library's grid constructors give periodic increasing grids. *)
Theorem C07_library_grids : forall pitch width offset (repeat : nat), 2 <= pitch -> (1 <= repeat)%nat ->
  (let g := UncoloredCenterLineGrid pitch width offset repeat in
   periodic g (Z.of_nat repeat * pitch) /\ increasing g /\ legal_range g /\ ends_agree g) /\
  (let g := SingleGrid pitch offset repeat in
   periodic g (Z.of_nat repeat * pitch) /\ increasing g /\ legal_range g /\ ends_agree g) /\
  (let g := CenteredGrid pitch offset in
   periodic g pitch /\ increasing g /\ legal_range g /\ ends_agree g) /\
  (forall stop, 0 < stop -> 2 * stop < pitch - 1 ->
   let g := EnclosureGrid pitch offset stop in
   periodic g pitch /\ increasing g /\ legal_range g /\ ends_agree g).
Proof.
  intros pitch width offset repeat H1 H2. split; [apply lines_ok; lia|]. split; [apply lines_ok; lia|].
  split; [apply centered_ok; lia|]. intros stop H3 H4. cbn zeta.
  split; [apply enclosure_periodic; lia|]. split; [apply enclosure_increasing; lia|].
  apply enclosure_legal.
Qed.
Print Assumptions C07_library_grids.

(** C08, in index space: no hypothesis on the grid except a legal line. *)
Theorem C08_snap_index : forall g w f, legalIndices g <> [] ->
  (exists w' f', snapToLegal g (w, f) Down = Some (w', f') /\
    In f' (legalIndices g) /\ lex_le (w', f') (w, f) /\
    (forall w2 f2, In f2 (legalIndices g) -> lex_le (w2, f2) (w, f) -> lex_le (w2, f2) (w', f'))) /\
  (exists w' f', snapToLegal g (w, f) Up = Some (w', f') /\
    In f' (legalIndices g) /\ lex_le (w, f) (w', f') /\
    (forall w2 f2, In f2 (legalIndices g) -> lex_le (w, f) (w2, f2) -> lex_le (w', f') (w2, f2))).
Proof. intros; split; [apply snap_down | apply snap_up]; assumption. Qed.
Print Assumptions C08_snap_index.

(** C08, in coordinates. *)
Theorem C08_snap_coordinate : forall g p w f c,
  periodic g p -> increasing g -> legal_range g -> ends_agree g -> coord g p w f c ->
  (exists w' f' c', snapToLegal g (w, f) Down = Some (w', f') /\ In f' (legalIndices g) /\
    coord g p w' f' c' /\ c' <= c /\
    (forall w2 f2 c2, In f2 (legalIndices g) -> coord g p w2 f2 c2 -> c2 <= c -> c2 <= c')) /\
  (exists w' f' c', snapToLegal g (w, f) Up = Some (w', f') /\ In f' (legalIndices g) /\
    coord g p w' f' c' /\ c <= c' /\
    (forall w2 f2 c2, In f2 (legalIndices g) -> coord g p w2 f2 c2 -> c <= c2 -> c' <= c2)).
Proof. intros; split; [eapply snap_down_coord | eapply snap_up_coord]; eassumption. Qed.
Print Assumptions C08_snap_coordinate.

Example C08_nonvacuous :
  let g := EnclosureGrid 100 (-7) 20 in
  periodic g 100 /\ increasing g /\ legal_range g /\ ends_agree g /\ coord g 100 3 4 393 /\
  snapToLegal g (3, 4) Up = Some (4, 1) /\ snapToLegal g (3, 0) Down = Some (2, 3).
Proof.
  split; [apply enclosure_periodic; lia|]. split; [apply enclosure_increasing; lia|].
  split; [apply enclosure_legal|]. split; [apply enclosure_legal|].
  split; [|split; reflexivity]. split; [lia|]. exists 93, None. split; reflexivity.
Qed.

(** Without agreement of the two end lines a legal line at the same coordinate is skipped. *)
Theorem C08_ends_disagree_refuted : exists g w f c,
  periodic g 10 /\ increasing g /\ legal_range g /\ coord g 10 w f c /\
  (exists w2 f2, In f2 (legalIndices g) /\ coord g 10 w2 f2 c) /\
  exists w' f' c', snapToLegal g (w, f) Down = Some (w', f') /\ coord g 10 w' f' c' /\ c' < c.
Proof.
  exists (mkGrid [(0, None); (10, None)] [0]), 0, 1, 10.
  split. { split; [lia|]. exists 0, None. eexists. split; [reflexivity|]. split.
           - exists [(0, None)], None. reflexivity.
           - intros c a [E|[E|[]]]; injection E as <- <-; lia. }
  split. { repeat constructor. }
  split. { unfold legal_range, n_lines; simpl. split; [discriminate|lia]. }
  split. { split; [lia|]. exists 10, None. split; reflexivity. }
  split. { exists 1, 0. split; [left; reflexivity|]. split; [lia|]. exists 0, None. split; reflexivity. }
  exists 0, 0, 0. split; [reflexivity|]. split; [|lia]. split; [lia|]. exists 0, None. split; reflexivity.
Qed.
Print Assumptions C08_ends_disagree_refuted.

(** On a non-monotonic enclosure grid (stop point beyond half the pitch) snapping follows the
    line numbers, not the coordinates: snapping down can move up. *)
Theorem C08_nonmonotone_refuted : exists g w f c w' f' c',
  periodic g 10 /\ coord g 10 w f c /\
  snapToLegal g (w, f) Down = Some (w', f') /\ coord g 10 w' f' c' /\ c < c'.
Proof.
  exists (EnclosureGrid 10 0 7), 0, 2, 5, 0, 1, 7.
  split; [apply enclosure_periodic; lia|].
  split; [split; [lia|]; exists 5, None; split; reflexivity|].
  split; [reflexivity|]. split; [|lia]. split; [lia|]. exists 7, None. split; reflexivity.
Qed.
Print Assumptions C08_nonmonotone_refuted.
