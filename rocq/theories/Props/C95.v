(** C95: the search among sequence pairs reaches every placement. *)
From Coq Require Import String ZArith QArith Lqa ZifyBool.
From Verif Require Import Base.Prelude Model.Transformation Model.SeqPair Model.ConstraintDB Model.Formulas Model.SeqEnum Model.SymmGroup
  Model.KeepOrder Model.SeqCheck Model.PlaceRows Model.ReadCon Spec.SeqEnumSpec Spec.SymmGroupSpec Spec.SeqCheckSpec Spec.PlaceRowsSpec
  Spec.ReadConSpec Spec.SeqExistSpec Proofs.SeqEnumP Proofs.SeqSearchP Proofs.SymmGroupP Proofs.KeepOrderP Proofs.PlaceRowsP Proofs.PlaceMainP Proofs.SeqExistP
  Props.C88 Props.C92 Props.C94.
Local Open Scope Z_scope.

Lemma one_way n l a b : NoDup l -> (forall x, (x < n)%nat -> In x l) -> (a < n)%nat -> (b < n)%nat -> a <> b -> precedes l a b \/ precedes l b a.
Proof.
  intros N H Ha Hb E. destruct (precedes_total n l a b N H Ha Hb E) as [H1 H2], (precedes_total n l b a N H Hb Ha (not_eq_sym E)) as [H3 _].
  rewrite H1, H3. lia.
Qed.

(** Blocks are spaced if and only if some sequence pair puts them so. *)
Theorem C95_exists n rh rv P : 0 <= rh -> 0 <= rv -> (forall i, (i < n)%nat -> 0 < pw P i /\ 0 < ph P i) ->
  (spaced n rh rv P <->
   exists pos neg, arrangement n pos /\ arrangement n neg /\
    forall a b, (a < n)%nat -> (b < n)%nat ->
      (left_of pos neg a b -> px P a + pw P a + rh <= px P b) /\ (above pos neg a b -> py P b + ph P b + rv <= py P a)).
Proof.
  intros Hh Hv Hs. split.
  - intros Hp. destruct (sequence_pair n (px P) (fun a => px P a + pw P a + rh) (py P) (fun a => py P a + ph P a + rv)) as (pos & neg & A1 & A2 & L & U).
    + intros a Ha. specialize (Hs a Ha). lia.
    + intros a b Ha Hb N. exact (Hp a b Ha Hb N).
    + exists pos, neg. split; [exact A1|]. split; [exact A2|]. intros a b Ha Hb. split; intros H; [now apply L|now apply U].
  - intros (pos & neg & A1 & A2 & H) a b Ha Hb N.
    assert (forall l, arrangement n l -> NoDup l /\ forall x, (x < n)%nat -> In x l) as Arr.
    { intros l A. split; [apply (Permutation_NoDup A), seq_NoDup|]. intros x Hx. apply (Permutation_in x A). apply in_seq. lia. }
    destruct (Arr pos A1) as [N1 I1], (Arr neg A2) as [N2 I2].
    destruct (H a b Ha Hb) as [H1 H2], (H b a Hb Ha) as [H3 H4].
    destruct (one_way n pos a b N1 I1 Ha Hb N) as [P1|P1], (one_way n neg a b N2 I2 Ha Hb N) as [P2|P2].
    + specialize (H1 (conj P1 P2)). lia.
    + specialize (H2 (conj P1 P2)). lia.
    + specialize (H4 (conj P1 P2)). lia.
    + specialize (H3 (conj P1 P2)). lia.
Qed.

(** A sequence pair keeps the order of blocks that face each other. *)
Theorem C95_keeps n pos neg P o : sequences n pos neg -> realizes n pos neg P ->
  (fst (fst o) < n)%nat -> (snd (fst o) < n)%nat -> facing P o -> keeps pos neg o.
Proof.
  destruct o as [[a b] x]. cbn [fst snd]. intros (N1 & N2 & I) R Ha Hb Hf.
  assert (a <> b) as N. { intros <-. destruct (R a a Ha Ha) as (W & H & _). destruct x; cbn in Hf; lia. }
  destruct (R a b Ha Hb) as (W & H & H1 & H2), (R b a Hb Ha) as (W' & H' & H3 & H4).
  destruct (one_way n pos a b N1 (fun y h => proj1 (I y h)) Ha Hb N) as [P1|P1], (one_way n neg a b N2 (fun y h => proj2 (I y h)) Ha Hb N) as [P2|P2].
  - specialize (H1 (conj P1 P2)). destruct x; cbn in Hf |- *; [split; assumption|lia].
  - specialize (H2 (conj P1 P2)). destruct x; cbn in Hf |- *; [lia|split; assumption].
  - specialize (H4 (conj P1 P2)). destruct x; cbn in Hf; lia.
  - specialize (H3 (conj P1 P2)). destruct x; cbn in Hf; lia.
Qed.

Lemma arranged n pos neg : arrangement n pos -> arrangement n neg -> sequences n pos neg.
Proof.
  intros A B. split; [apply (Permutation_NoDup A), seq_NoDup|]. split; [apply (Permutation_NoDup B), seq_NoDup|].
  intros x Hx. split; [apply (Permutation_in x A)|apply (Permutation_in x B)]; apply in_seq; lia.
Qed.
Lemma enough_nonneg d rh rv : sane d -> enough d rh rv -> 0 <= rh /\ 0 <= rv.
Proof. intros [] (_ & (m & H1) & m' & H2). lia. Qed.

(** Every placement with spaced blocks, with ordered ones that face each other and with the constraints of the design
    is a solution of the integer program of some sequence pair that keeps the orders. *)
Theorem C95_reached d rh rv F cur : exact d -> enough d rh rv -> well_placed d rh rv F ->
  exists pos neg a, arrangement (length (i_blocks d)) pos /\ arrangement (length (i_blocks d)) neg /\
    (forall o, In o (i_orders d) -> keeps pos neg o) /\ solution d pos neg true false None cur a /\ same_place (solved d a) F.
Proof.
  intros X En (Hsz & Hsp & Hfa & Hab & Hin & Hfl & Hof & Hmi & Hal). destruct X. destruct (enough_nonneg d rh rv e_sane En) as [Hh Hv].
  assert (forall i, (i < length (i_blocks d))%nat -> 0 < pw (fp F) i /\ 0 < ph (fp F) i) as Hpos.
  { intros i Hi. destruct (Hsz i) as [-> ->]. now apply (s_size d e_sane). }
  destruct (proj1 (C95_exists (length (i_blocks d)) rh rv (fp F) Hh Hv Hpos) Hsp) as (pos & neg & A1 & A2 & H).
  pose proof (arranged _ _ _ A1 A2) as Hs.
  assert (realizes (length (i_blocks d)) pos neg (fp F)) as Re.
  { intros a b Ha Hb. destruct (Hpos a Ha). split; [assumption|]. split; [assumption|]. destruct (H a b Ha Hb) as [L U]. split; intros Q; [specialize (L Q)|specialize (U Q)]; lia. }
  assert (forall o, In o (i_orders d) -> keeps pos neg o) as Hk.
  { intros [[a b] x] Ho. destruct (s_orders d e_sane _ _ _ Ho). eapply C95_keeps; eauto. }
  assert (legal d pos neg F) as Hl.
  { split; [exact Hin|]. split; [exact Hfl|]. split; [exact Hof|]. split; [|split; assumption].
    destruct En as (E1 & (mh & E2) & (mv & E3)). intros a b Ha Hb. destruct (H a b Ha Hb) as [L U]. split; intros Q.
    - specialize (L Q). split; [intros Hi; specialize (Hab a b Hi); lia|]. intros _. split; [destruct (E1 a b); lia|]. exists mh. lia.
    - specialize (U Q). split; [intros Hi; exfalso; apply (e_stack a b); auto|]. intros _. split; [destruct (E1 a b); lia|]. exists mv. lia. }
  destruct (proj1 (C92_exact d pos neg F cur e_sane Hs Hsz e_pins e_nets e_syms e_aligns Hk e_abuts e_stack e_bias) Hl) as (a & Ha & Hsame).
  exists pos, neg, a. repeat (split; [assumption|]). exact Hsame.
Qed.

(** So the exhaustive search finds the best placement: if it ends with a result, and the cost of a candidate is at most
    the score of each solution of its integer program, then a result is not worse than any
    placement, for any choice of variants. *)
Theorem C95_optimum d maxiter junk s e cost size iters o design_for score rh rv cur :
  groups_ok d -> variants_ok d -> orders_ok d -> maxiter <= 2 ^ 20 -> SeqEnum.start d maxiter junk = Some (s, e) ->
  (is_ordered s = true -> (length (s_neg s) <= length (s_pos s))%nat) ->
  enumerated cost size iters s e = Some o -> (0 < size)%nat ->
  (forall sl, choice (d_sizes d) (d_groups d) sl ->
     length (i_blocks (design_for sl)) = length (d_sizes d) /\ i_orders (design_for sl) = d_orders d /\
     exact (design_for sl) /\ enough (design_for sl) rh rv) ->
  (forall sl F G, same_place F G -> score sl F = score sl G) ->
  (forall pos neg sl a, candidate_ok d (pos, neg, sl) -> keeps_all d (pos, neg, sl) -> solution (design_for sl) pos neg true false None cur a ->
     0 <= cost (pos, neg, sl) <= score sl (solved (design_for sl) a)) ->
  forall sl F, choice (d_sizes d) (d_groups d) sl -> well_placed (design_for sl) rh rv F ->
  exists k x, In (k, x) o /\ cost x = k /\ candidate_ok d x /\ k <= score sl F.
Proof.
  intros Hg Hv Ho Hm Hst Hln Hen Hsi Hde Hsc Hco sl F Hsl HF. destruct (Hde sl Hsl) as (Hlen & Hor & Hex & Hengh).
  destruct (C95_reached (design_for sl) rh rv F cur Hex Hengh HF) as (pos & neg & a & A1 & A2 & Hk & Ha & Hs). rewrite Hlen in A1, A2. rewrite Hor in Hk.
  assert (candidate_ok d (pos, neg, sl)) as Hc by (split; [exact A1|split; [exact A2|exact Hsl]]).
  assert (keeps_all d (pos, neg, sl)) as Hka by exact Hk.
  pose proof (Hco pos neg sl a Hc Hka Ha) as Hcost. rewrite (Hsc sl _ F Hs) in Hcost.
  pose proof (C88_best d maxiter junk s e cost size iters Hg Hv Ho Hst) as B. cbn zeta in B. rewrite Hen in B. destruct B as (_ & _ & _ & B1 & B2).
  set (total := ((if is_ordered s then length (s_pos s) * length (s_pos s) else fact (length (d_sizes d)) * fact (length (d_sizes d))) * SeqSearchP.product (limits d))%nat) in *.
  assert (In (pos, neg, sl) (visits total s e)) as Hv1.
  { destruct (is_ordered s) eqn:Es.
    - apply (proj2 (C88_covers d maxiter junk s e total Hg Hv Ho Hst Es (Nat.le_refl _)) (Hln eq_refl) _ Hc Hka).
    - destruct (C88_plain d maxiter junk s e total Hg Hv Hst Es (Nat.le_refl _)) as ((_ & W) & _). now apply W. }
  assert (forall k x, In (k, x) o -> candidate_ok d x) as Hcand.
  { intros k x Hx. destruct (B1 k x Hx) as (Hvx & _). destruct (is_ordered s) eqn:Es.
    - apply (C88_kept d maxiter junk s e total x Hg Hv Ho Hst Es Hvx).
    - destruct (C88_plain d maxiter junk s e total Hg Hv Hst Es (Nat.le_refl _)) as ((_ & W) & _). now apply W. }
  destruct (B2 _ Hv1 (proj1 Hcost)) as [Hin|[Hfull Hless]].
  - apply in_map_iff in Hin. destruct Hin as ([k x] & Ek & Hx). cbn in Ek. exists k, x. destruct (B1 k x Hx) as (_ & Ecost & _).
    split; [exact Hx|]. split; [exact Ecost|]. split; [eauto|]. lia.
  - destruct o as [|[k x] r]; [cbn in Hfull; lia|]. exists k, x. assert (In (k, x) ((k, x) :: r)) as Hx by now left. destruct (B1 k x Hx) as (_ & Ecost & _).
    split; [exact Hx|]. split; [exact Ecost|]. split; [eauto|]. specialize (Hless k (or_introl eq_refl)). lia.
Qed.

(** Finding: an order is kept in both sequences also for blocks that do not face each other. A
    placement that the checks accept has then no sequence pair. *)
Definition order_cs : list ucon := [UHard (HOrder OLR false ["A"; "C"])]%string.
Definition wide (w : Z) (h : Z) (box : Z) : idesign := IDesign [square 4; IBlock w h 0 0 1 [] 1 [] []; square 4] [] [] [] [] [] (fun _ _ _ => 0) 0 0 1 1 0 0 box box.
Lemma wide_usable w h box cs : 0 < w -> 0 < h -> known abc cs -> (forall h v z, In (UDist h v z) cs -> 0 <= z) ->
  (forall mw mh hh hv, In (UHard (HBoundary mw mh hh hv)) cs -> (0 <= hh /\ 0 <= hv)%Q) -> usable abc 1 (wide w h box) cs.
Proof.
  intros Hw Hh K D B. split; auto; try (cbn; lia).
  - repeat constructor; cbn; intuition discriminate.
  - intros i Hi. cbn in Hi. destruct i as [|[|[|]]]; cbn; lia.
Qed.
Theorem C95_order_refuted : exists names scale d0 h0 cs d raw, usable names scale d0 cs /\ (forall i, h0 i = bh d0 i) /\ build names scale d0 h0 cs = Some d /\ acceptable names d cs raw /\
  forall pos neg flush snap prev cur a, sequences (length (i_blocks d)) pos neg -> (forall o, In o (i_orders d) -> keeps pos neg o) ->
    solution d pos neg flush snap prev cur a -> ~ (forall i n, nth_error names i = Some n -> raw n = box_at (fp (solved d a)) i).
Proof.
  assert (usable abc 1 (wide 8 4 12) order_cs) as U.
  { apply wide_usable; [lia|lia| | |]; unfold known; cbn; intuition; subst; cbn in *; try discriminate; tauto. }
  set (d := match build abc 1 (wide 8 4 12) (bh (wide 8 4 12)) order_cs with Some d => d | None => wide 8 4 12 end).
  exists abc, 1, (wide 8 4 12), (bh (wide 8 4 12)), order_cs, d, (raw3 (mkRect 0 0 4 4) (mkRect 0 4 8 8) (mkRect 4 8 8 12) 12).
  split; [exact U|]. split; [reflexivity|]. split; [reflexivity|]. split.
  - split; [|split; [reflexivity|split; [|split]]].
    + intros [|[|[|i]]] n E; try (cbn in E; injection E as <-; vm_compute; auto). destruct i; discriminate.
    + intros n [<-|[<-|[<-|[]]]]; vm_compute; repeat split; discriminate.
    + intros n m Hnm. vm_compute in Hnm. unfold zapart. destruct Hnm as [E|[E|[E|[]]]]; injection E as <- <-; right; right; left; vm_compute; discriminate.
    + intros c [E|[]]; injection E as <-. repeat constructor; vm_compute; discriminate.
  - intros pos neg flush snap prev cur a Hs Hk Ha E. pose proof (C94_sane _ _ _ _ _ d U eq_refl) as Hd.
    destruct (C92_sound d pos neg flush snap prev cur a Hd Hs Ha) as (R & _).
    pose proof (E 0%nat "A"%string eq_refl) as E0. pose proof (E 1%nat "B"%string eq_refl) as E1. pose proof (E 2%nat "C"%string eq_refl) as E2.
    unfold box_at in E0, E1, E2. set (P := fp (solved d a)) in *.
    assert (px P 0 = 0 /\ py P 0 = 0 /\ px P 0 + pw P 0 = 4 /\ py P 0 + ph P 0 = 4) as F0 by (pose proof (f_equal Transformation.llx E0); pose proof (f_equal Transformation.lly E0); pose proof (f_equal Transformation.urx E0); pose proof (f_equal Transformation.ury E0); cbn [raw3 String.eqb Ascii.eqb Bool.eqb Transformation.llx Transformation.lly Transformation.urx Transformation.ury] in *; clearbody P; auto).
    assert (px P 1 = 0 /\ py P 1 = 4 /\ px P 1 + pw P 1 = 8 /\ py P 1 + ph P 1 = 8) as F1 by (pose proof (f_equal Transformation.llx E1); pose proof (f_equal Transformation.lly E1); pose proof (f_equal Transformation.urx E1); pose proof (f_equal Transformation.ury E1); cbn [raw3 String.eqb Ascii.eqb Bool.eqb Transformation.llx Transformation.lly Transformation.urx Transformation.ury] in *; clearbody P; auto).
    assert (px P 2 = 4 /\ py P 2 = 8 /\ px P 2 + pw P 2 = 8 /\ py P 2 + ph P 2 = 12) as F2 by (pose proof (f_equal Transformation.llx E2); pose proof (f_equal Transformation.lly E2); pose proof (f_equal Transformation.urx E2); pose proof (f_equal Transformation.ury E2); cbn [raw3 String.eqb Ascii.eqb Bool.eqb Transformation.llx Transformation.lly Transformation.urx Transformation.ury] in *; clearbody P; auto).
    clearbody P. clear E E0 E1 E2. change (length (i_blocks d)) with 3%nat in *.
    assert (keeps pos neg (2, 1, DirV)%nat) as K1 by (apply (C95_keeps 3 pos neg P); auto; cbn; lia).
    assert (keeps pos neg (1, 0, DirV)%nat) as K2 by (apply (C95_keeps 3 pos neg P); auto; cbn; lia).
    specialize (Hk (0, 2, DirH)%nat ltac:(now left)). destruct Hs as (N & _). destruct Hk as [K3 _], K1 as [K1 _], K2 as [K2 _].
    apply precedes_at in K1, K2, K3; auto. cbn [fst snd] in *. lia.
Qed.

(** Finding: a spread between blocks that do not face each other is kept as well, if the
    sequence pair has them side by side. Here each pair has only one way to lie. *)
Definition far_cs : list ucon := [UHard (HSpread true 5 ["A"; "C"])]%string.
Theorem C95_spread_refuted : exists names scale d0 h0 cs d raw, usable names scale d0 cs /\ (forall i, h0 i = bh d0 i) /\ build names scale d0 h0 cs = Some d /\ acceptable names d cs raw /\
  forall pos neg flush snap prev cur a, sequences (length (i_blocks d)) pos neg ->
    solution d pos neg flush snap prev cur a -> ~ (forall i n, nth_error names i = Some n -> raw n = box_at (fp (solved d a)) i).
Proof.
  assert (usable abc 1 (wide 4 12 12) far_cs) as U.
  { apply wide_usable; [lia|lia| | |]; unfold known; cbn; intuition; subst; cbn in *; try discriminate; tauto. }
  set (d := match build abc 1 (wide 4 12 12) (bh (wide 4 12 12)) far_cs with Some d => d | None => wide 4 12 12 end).
  exists abc, 1, (wide 4 12 12), (bh (wide 4 12 12)), far_cs, d, (raw3 (mkRect 0 8 4 12) (mkRect 4 0 8 12) (mkRect 8 0 12 4) 12).
  split; [exact U|]. split; [reflexivity|]. split; [reflexivity|]. split.
  - split; [|split; [reflexivity|split; [|split]]].
    + intros [|[|[|i]]] n E; try (cbn in E; injection E as <-; vm_compute; auto). destruct i; discriminate.
    + intros n [<-|[<-|[<-|[]]]]; vm_compute; repeat split; discriminate.
    + intros n m Hnm. vm_compute in Hnm. unfold zapart. destruct Hnm as [E|[E|[E|[]]]]; injection E as <- <-; left; vm_compute; discriminate.
    + intros c [E|[]]; injection E as <-. cbn [ztranslate combos app map]. constructor; [|constructor]. vm_compute. intros [H1 H2]; discriminate.
  - intros pos neg flush snap prev cur a Hs Ha E. pose proof (C94_sane _ _ _ _ _ d U eq_refl) as Hd.
    destruct (C92_sound d pos neg flush snap prev cur a Hd Hs Ha) as (R & A & _).
    pose proof (E 0%nat "A"%string eq_refl) as E0. pose proof (E 1%nat "B"%string eq_refl) as E1. pose proof (E 2%nat "C"%string eq_refl) as E2.
    unfold box_at in E0, E1, E2. set (P := fp (solved d a)) in *.
    assert (px P 0 = 0 /\ py P 0 = 8 /\ px P 0 + pw P 0 = 4 /\ py P 0 + ph P 0 = 12) as F0 by (pose proof (f_equal Transformation.llx E0); pose proof (f_equal Transformation.lly E0); pose proof (f_equal Transformation.urx E0); pose proof (f_equal Transformation.ury E0); cbn [raw3 String.eqb Ascii.eqb Bool.eqb Transformation.llx Transformation.lly Transformation.urx Transformation.ury] in *; clearbody P; auto).
    assert (px P 1 = 4 /\ py P 1 = 0 /\ px P 1 + pw P 1 = 8 /\ py P 1 + ph P 1 = 12) as F1 by (pose proof (f_equal Transformation.llx E1); pose proof (f_equal Transformation.lly E1); pose proof (f_equal Transformation.urx E1); pose proof (f_equal Transformation.ury E1); cbn [raw3 String.eqb Ascii.eqb Bool.eqb Transformation.llx Transformation.lly Transformation.urx Transformation.ury] in *; clearbody P; auto).
    assert (px P 2 = 8 /\ py P 2 = 0 /\ px P 2 + pw P 2 = 12 /\ py P 2 + ph P 2 = 4) as F2 by (pose proof (f_equal Transformation.llx E2); pose proof (f_equal Transformation.lly E2); pose proof (f_equal Transformation.urx E2); pose proof (f_equal Transformation.ury E2); cbn [raw3 String.eqb Ascii.eqb Bool.eqb Transformation.llx Transformation.lly Transformation.urx Transformation.ury] in *; clearbody P; auto).
    clearbody P. clear E E0 E1 E2. destruct (A 0%nat 2%nat) as [A1 _]; [cbn; lia|cbn; lia|]. change (length (i_blocks d)) with 3%nat in *.
    assert (keeps pos neg (0, 1, DirH)%nat) as K1 by (apply (C95_keeps 3 pos neg P); auto; cbn; lia).
    assert (keeps pos neg (1, 2, DirH)%nat) as K2 by (apply (C95_keeps 3 pos neg P); auto; cbn; lia).
    assert (left_of pos neg 0 2) as K3.
    { destruct Hs as (N1 & N2 & I). destruct K1 as [P1 Q1], K2 as [P2 Q2]. cbn [fst snd] in *. apply precedes_at in P1, Q1, P2, Q2; auto.
      split; apply at_precedes; try tauto; lia. }
    destruct (A1 K3) as [_ A2]. destruct A2 as [A2 _]; [intros []|]. change (i_spread d 0 2 true) with 10 in A2. lia.
Qed.

(** The design of C94 with its symmetric pair, orders, alignment and spacing, and a placement. *)
Definition roomy : flipped := Flipped (Placement (fun i => nth i [0; 2; 8] 0) (fun i => nth i [8; 0; 8] 0) (bw all_d) (bh all_d)) (fun i => nth i [0; 0; 1] 0) (fun _ => 0).
Lemma lt3 (Q : nat -> Prop) : Q 0%nat -> Q 1%nat -> Q 2%nat -> forall i, (i < 3)%nat -> Q i.
Proof. intros H0 H1 H2 i Hi. destruct i as [|[|[|i]]]; auto. lia. Qed.
Example C95_reached_nonvacuous : exact all_d /\ enough all_d 4 4 /\ well_placed all_d 4 4 roomy /\ i_bias_h all_d = 4 /\ length (i_orders all_d) = 3%nat.
Proof.
  assert (sane all_d) as Hd by (apply (C94_sane abc 1 all_d0 (bh all_d0) all_cs all_d (proj1 C94_kept_nonvacuous) eq_refl)).
  split; [|split; [|split; [|split; reflexivity]]].
  - split; [exact Hd| | | | | | |].
    + intros i p Hi. change (i < 3)%nat in Hi. revert i Hi. refine (lt3 _ _ _ _); cbn; intros [].
    + intros net c [].
    + intros g [<-|[]]. split; [intros a b [E|[]]; injection E as <- <-; reflexivity|]. exists 0. split; [intros a b [E|[]]; injection E as <- <-; reflexivity|]. intros a [<-|[]]. reflexivity.
    + intros u [<-|[]]. discriminate.
    + intros o [].
    + intros x y _ [].
    + intros g H. exact H.
  - split; [|split; [exists 4; cbn; lia|exists 4; cbn; lia]]. intros a b. unfold all_d, build. cbn [all_cs]. split.
    + cbn -[Nat.eqb]. repeat match goal with |- context [if ?c then _ else _] => destruct c end; lia.
    + cbn -[Nat.eqb]. repeat match goal with |- context [if ?c then _ else _] => destruct c end; lia.
  - split; [intros i; split; reflexivity|]. split; [|split; [|split; [intros a b []|split; [|split; [|split; [|split]]]]]].
    + intros a b Ha. change (a < 3)%nat in Ha. revert a Ha b. refine (lt3 _ _ _ _); intros b Hb; change (b < 3)%nat in Hb; revert b Hb; refine (lt3 _ _ _ _); intros N; try congruence; vm_compute; lia || (right; right; right; discriminate) || (right; right; left; discriminate) || (right; left; discriminate) || (left; discriminate).
    + intros o [<-|[<-|[<-|[]]]]; vm_compute; repeat split; discriminate.
    + intros i Hi. change (i < 3)%nat in Hi. revert i Hi. refine (lt3 _ _ _ _); vm_compute; repeat split; discriminate.
    + split.
      * intros i Hi. change (i < 3)%nat in Hi. revert i Hi. refine (lt3 _ _ _ _); unfold flip_ok; cbn; lia.
      * intros g a b [<-|[]] [E|[]]. injection E as <- <-. cbn. lia.
    + intros i Hi. change (i < 3)%nat in Hi. revert i Hi. refine (lt3 _ _ _ _); split; left; reflexivity.
    + intros g [<-|[]]. exists 12. intros x [<-|[<-|[]]]; vm_compute; auto.
    + intros u [<-|[]] a b Hp Hq. vm_compute in Hp, Hq. destruct Hp as [<-|[<-|[]]], Hq as [<-|[<-|[]]]; reflexivity.
Qed.

(** Two squares of size 4: no placement has their corners nearer than 4. *)
Definition two_d : idesign := IDesign [square 4; square 4] [] [] [] [] [] (fun _ _ _ => 0) 0 0 1 1 0 0 100 100.
Lemma two_exact : exact two_d.
Proof.
  split; cbn [two_d i_blocks i_nets i_syms i_aligns i_orders i_abuts i_spread i_bias_h i_bias_v i_xp i_yp i_halo_h i_halo_v i_box_w i_box_h]; try (intros; contradiction); try (intros g H; exact H).
  - split; cbn; try lia; try (intros; contradiction). intros i Hi. apply two_squares in Hi. destruct Hi as [->| ->]; cbn; lia.
  - intros i p Hi. apply two_squares in Hi. destruct Hi as [->| ->]; intros [].
Qed.
Example C95_optimum_nonvacuous : forall F, well_placed two_d 0 0 F -> 4 <= Z.abs (px (fp F) 0 - px (fp F) 1) + Z.abs (py (fp F) 0 - py (fp F) 1).
Proof.
  intros F HF. set (d := Design [1%nat; 1%nat] [] []).
  destruct (SeqEnum.start d 10000 0) as [[s e]|] eqn:St; [|discriminate]. pose proof St as St'. vm_compute in St'.
  destruct (C95_optimum d 10000 0 s e (fun _ => 4) 1 100 [(4, ([1; 0], [1; 0], [0; 0])%nat)] (fun _ => two_d)
    (fun _ F => Z.abs (px (fp F) 0 - px (fp F) 1) + Z.abs (py (fp F) 0 - py (fp F) 1)) 0 0 (fun _ => (0, 0))) with (sl := [0; 0]%nat) (F := F) as (k & x & Hin & _ & _ & Hk); auto.
  - split; [intros g []|]. split; [intros g a b []|]. intros [|k]; discriminate.
  - intros x [<-|[<-|[]]]; lia.
  - intros c [].
  - lia.
  - injection St' as <- <-. discriminate.
  - injection St' as <- <-. vm_compute. reflexivity.
  - intros sl _. split; [reflexivity|]. split; [reflexivity|]. split; [exact two_exact|]. split; [cbn; lia|]. split; exists 0; cbn; lia.
  - intros sl F' G E. destruct (E 0%nat) as (-> & -> & _), (E 1%nat) as (-> & -> & _). reflexivity.
  - intros pos neg sl a (A1 & A2 & _) _ Ha. split; [lia|].
    destruct (C92_sound two_d pos neg true false None (fun _ => (0, 0)) a (e_sane _ two_exact) (arranged _ _ _ A1 A2) Ha) as (_ & _ & O & _).
    specialize (O 0%nat 1%nat). unfold overlap in O. cbn in O |- *. assert (~ (a_int a (VX 0) < a_int a (VX 1) + 4 /\ a_int a (VX 1) < a_int a (VX 0) + 4 /\ a_int a (VY 0) < a_int a (VY 1) + 4 /\ a_int a (VY 1) < a_int a (VY 0) + 4)) as O' by (apply O; lia). lia.
  - split; [reflexivity|]. split; [|intros g a b []]. intros i Hi. cbn in Hi. destruct i as [|[|]]; cbn; lia.
  - destruct Hin as [E|[]]. injection E as <- <-. exact Hk.
Qed.

Print Assumptions C95_exists.
Print Assumptions C95_keeps.
Print Assumptions C95_reached.
Print Assumptions C95_optimum.
Print Assumptions C95_order_refuted.
Print Assumptions C95_spread_refuted.
