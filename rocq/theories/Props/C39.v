(** C39: the formulae posted for placement constraints mean what the documentation says. *)
From Coq Require Import String QArith Qround Lqa ZifyBool.
From Verif Require Import Base.Prelude Model.Transformation Model.SeqPair Model.ConstraintDB Model.Formulas Spec.FormulaSpec.
Local Open Scope Z_scope.

Lemma lo_low x b : lo x b = low x b. Proof. reflexivity. Qed.
Lemma hi_high x b : hi x b = high x b. Proof. reflexivity. Qed.
Lemma solid_x x b : solid b -> low x b < high x b.
Proof. intros (H1 & H2). destruct x; assumption. Qed.

(** Neighbouring pairs of a transitive relation are all pairs. *)
Lemma pairwise_all {A} (P : A -> Prop) (R : A -> A -> Prop) l :
  Forall P l -> (forall a b c, P b -> R a b -> R b c -> R a c) ->
  Forall (fun p => R (fst p) (snd p)) (pairwise l) <-> ForallOrdPairs R l.
Proof.
  intros HP HR. split.
  - induction l as [|a l IH]; intros H; [constructor|]. apply Forall_cons_iff in HP as (_ & HP). destruct l as [|b l]; [repeat constructor|].
    simpl in H. apply Forall_cons_iff in H as (Hab & H). specialize (IH HP H). constructor; [|assumption]. constructor; [assumption|].
    inversion IH as [|? ? Hb _]; subst. apply Forall_cons_iff in HP as (Pb & _). rewrite Forall_forall in *. intros c Hc. exact (HR a b c Pb Hab (Hb c Hc)).
  - induction 1 as [|a l Ha H IH]; [constructor|]. apply Forall_cons_iff in HP as (_ & HP). destruct l as [|b l]; [constructor|]. simpl. constructor; [|auto].
    apply Forall_cons_iff in Ha. apply Ha.
Qed.
Lemma pairwise_map {A B} (f : A -> B) l : pairwise (map f l) = map (fun p => (f (fst p), f (snd p))) (pairwise l).
Proof. induction l as [|a [|b l] IH]; [reflexivity|reflexivity|]. cbn [map pairwise fst snd] in *. now rewrite IH. Qed.
Lemma forall_pairs (R : Rect -> Rect -> Prop) (bx : boxes) xs :
  Forall (fun p => R (bx (fst p)) (bx (snd p))) (pairwise xs) <-> Forall (fun p => R (fst p) (snd p)) (pairwise (map bx xs)).
Proof. rewrite pairwise_map, Forall_map. reflexivity. Qed.
Lemma ordpairs_rev {A} (R : A -> A -> Prop) l : ForallOrdPairs (fun a b => R b a) (rev l) <-> ForallOrdPairs R l.
Proof.
  assert (G : forall (Q : A -> A -> Prop) l1 l2, ForallOrdPairs Q (l1 ++ l2) <-> ForallOrdPairs Q l1 /\ ForallOrdPairs Q l2 /\ forall x y, In x l1 -> In y l2 -> Q x y).
  { intros Q. induction l1 as [|a l1 IH]; intros l2; simpl.
    - split; [intros H; split; [constructor|split; [assumption|intros x y []]]|tauto].
    - split.
      + intros H. inversion H as [|? ? Ha H']; subst. apply IH in H' as (H1 & H2 & H3). apply Forall_app in Ha as (Ha1 & Ha2). split; [constructor; assumption|]. split; [assumption|].
        intros x y [->|Hx] Hy; [rewrite Forall_forall in Ha2; auto|auto].
      + intros (H1 & H2 & H3). inversion H1; subst. constructor; [apply Forall_app; split; [assumption|]|apply IH; auto]. rewrite Forall_forall. auto. }
  induction l as [|a l IH]; simpl; [split; constructor|]. rewrite G. split.
  - intros (H1 & _ & H3). constructor; [|now apply IH]. rewrite Forall_forall. intros x Hx. apply (H3 x a); [now apply in_rev in Hx|now left].
  - intros H. inversion H as [|? ? Ha H']; subst. split; [now apply IH|]. split; [repeat constructor|]. intros x y Hx [<-|[]]. rewrite Forall_forall in Ha. apply Ha. now apply in_rev.
Qed.

(** * Order *)

Definition axis_of (d : odir) : option (bool * bool) :=
  match d with OLR => Some (true, true) | ORL => Some (true, false) | OBT => Some (false, true) | OTB => Some (false, false) | _ => None end.

(** The four directed forms: every instance lies before all later ones (after, for the two
    descending directions). *)
Theorem C39_order names d xs bx x asc : axis_of d = Some (x, asc) -> (forall n, In n xs -> solid (bx n)) ->
  ztranslate names (HOrder d false xs) bx <-> in_order x (if asc then map bx xs else rev (map bx xs)).
Proof.
  intros Hd Hs. simpl.
  assert (HP : Forall solid (map bx xs)) by (apply Forall_forall; intros b Hb; apply in_map_iff in Hb as (n & <- & Hn); auto).
  assert (Ht : forall a b c, solid b -> before x a b -> before x b c -> before x a c).
  { unfold before. intros a b c Hb H1 H2. apply (solid_x x) in Hb. lia. }
  assert (Ht' : forall a b c, solid b -> before x b a -> before x c b -> before x c a).
  { unfold before. intros a b c Hb H1 H2. apply (solid_x x) in Hb. lia. }
  destruct d; try discriminate; injection Hd as <- <-; rewrite forall_pairs; unfold in_order.
  - apply (pairwise_all solid (before true)); assumption.
  - rewrite ordpairs_rev with (R := fun a b => before true b a). apply (pairwise_all solid (fun a b => before true b a)); assumption.
  - apply (pairwise_all solid (before false)); assumption.
  - rewrite ordpairs_rev with (R := fun a b => before false b a). apply (pairwise_all solid (fun a b => before false b a)); assumption.
Qed.

(** With [abut] neighbours touch, and the order follows. *)
Theorem C39_order_abut names d xs bx x asc : axis_of d = Some (x, asc) -> (forall n, In n xs -> solid (bx n)) ->
  (ztranslate names (HOrder d true xs) bx <-> touching x (if asc then map bx xs else rev (map bx xs))) /\
  (ztranslate names (HOrder d true xs) bx -> ztranslate names (HOrder d false xs) bx).
Proof.
  intros Hd Hs. split.
  - simpl. assert (Hup : forall y l, Forall (fun p => high y (fst p) = low y (snd p)) (pairwise l) <-> touching y l).
    { intros y l. induction l as [|a [|b l] IH]; [split; constructor|split; constructor|]. simpl in *. rewrite Forall_cons_iff, IH. reflexivity. }
    assert (Happ : forall y l a, touching y (l ++ [a]) <-> touching y l /\ match rev l with [] => True | b :: _ => high y b = low y a end).
    { intros y l a. induction l as [|b [|c l] IH]; [simpl; tauto|simpl; tauto|]. change ((b :: c :: l) ++ [a]) with (b :: (c :: l ++ [a])). cbn [touching]. change (c :: l ++ [a]) with ((c :: l) ++ [a]). rewrite IH.
      assert (Er : rev (b :: c :: l) = rev (c :: l) ++ [b]) by reflexivity. rewrite Er. destruct (rev (c :: l)) as [|e tl] eqn:E; [|simpl; tauto].
      apply (f_equal (@List.length Rect)) in E. rewrite rev_length in E. discriminate. }
    assert (Hdn : forall y l, Forall (fun p => high y (snd p) = low y (fst p)) (pairwise l) <-> touching y (rev l)).
    { intros y l. induction l as [|a [|b l] IH]; [split; constructor|split; constructor|]. change (rev (a :: b :: l)) with (rev (b :: l) ++ [a]). rewrite Happ, rev_involutive, <- IH.
      cbn [pairwise]. rewrite Forall_cons_iff. simpl. tauto. }
    destruct d; try discriminate; injection Hd as <- <-; rewrite forall_pairs.
    + apply (Hup true). + apply (Hdn true). + apply (Hup false). + apply (Hdn false).
  - simpl. apply Forall_impl. intros (a, b). destruct d; try discriminate; unfold zorder, zorder_cc; lia.
Qed.

(** Undirected, two instances: one lies beside the other. *)
Theorem C39_order_pair names a b bx (x : bool) d : d = (if x then OHoriz else OVert) ->
  ztranslate names (HOrder d false [a; b]) bx <-> before x (bx a) (bx b) \/ before x (bx b) (bx a).
Proof. intros ->. simpl. rewrite Forall_cons_iff. destruct x; simpl; unfold before, zorder_cc; simpl; intuition. Qed.
(** "Left to right or vice versa" for more instances: an order is enough, *)
Theorem C39_horizontal_enough names xs bx (x : bool) d : d = (if x then OHoriz else OVert) ->
  in_order x (map bx xs) \/ in_order x (rev (map bx xs)) -> ztranslate names (HOrder d false xs) bx.
Proof.
  intros -> H. simpl. rewrite forall_pairs. unfold in_order in H.
  assert (G : ForallOrdPairs (before x) (map bx xs) \/ ForallOrdPairs (fun a b => before x b a) (map bx xs)).
  { destruct H as [H|H]; [auto|right]. now rewrite ordpairs_rev with (R := fun a b => before x b a) in H. }
  clear H. induction (map bx xs) as [|a [|b l] IH]; [constructor|constructor|]. cbn [pairwise]. constructor.
  - destruct G as [G|G]; inversion G as [|? ? Ha _]; subst; apply Forall_cons_iff in Ha as (Ha & _); destruct x; unfold before in Ha; simpl in *; auto.
  - apply IH. destruct G as [G|G]; inversion G; subst; auto.
Qed.
(** but the formulae do not force one: with three instances the first may lie between the others. *)
Theorem C39_horizontal_refuted : exists names xs bx, (forall n, In n xs -> solid (bx n)) /\ ztranslate names (HOrder OHoriz false xs) bx /\
  ~ in_order true (map bx xs) /\ ~ in_order true (rev (map bx xs)).
Proof.
  exists [], ["A"; "B"; "C"]%string, (fun n => if String.eqb n "A" then mkRect 10 0 20 10 else if String.eqb n "B" then mkRect 30 0 40 10 else mkRect 0 0 10 10).
  split; [|split; [|split]].
  - intros n [<-|[<-|[<-|[]]]]; unfold solid; simpl; lia.
  - simpl. constructor; [left; simpl; unfold zorder_cc; simpl; lia|]. constructor; [right; unfold zorder_cc; simpl; lia|constructor].
  - intros H. inversion H as [|? ? Ha _]; subst. rewrite Forall_forall in Ha. assert (Hc := Ha _ (or_intror (or_introl eq_refl))). unfold before in Hc. simpl in Hc. lia.
  - simpl. intros H. inversion H as [|? ? _ H']; subst. inversion H' as [|? ? Ha _]; subst. apply Forall_cons_iff in Ha as (Ha & _). unfold before in Ha. simpl in Ha. lia.
Qed.

(** * Align *)

Definition edge_of (l : aline) : option (Rect -> Z) :=
  match l with HTop => Some ury | HBottom => Some lly | VLeft => Some llx | VRight => Some urx | _ => None end.
Lemma pairwise_common {A} (f : A -> Z) l : Forall (fun p => f (fst p) = f (snd p)) (pairwise l) <-> common f l.
Proof.
  induction l as [|a [|b l] IH].
  - split; [exists 0; constructor|constructor].
  - split; [exists (f a); repeat constructor|constructor].
  - cbn [pairwise]. rewrite Forall_cons_iff, IH. cbn [fst snd]. split.
    + intros (E & v & H). exists v. constructor; [|assumption]. apply Forall_cons_iff in H as (H & _). congruence.
    + intros (v & H). apply Forall_cons_iff in H as (E & H). split; [apply Forall_cons_iff in H as (E' & _); congruence|]. exists v. assumption.
Qed.
Theorem C39_align_edges names l f xs bx : edge_of l = Some f -> ztranslate names (HAlign l xs) bx <-> common f (map bx xs).
Proof. intros Hf. simpl. rewrite forall_pairs, <- pairwise_common. destruct l; try discriminate; injection Hf as <-; reflexivity. Qed.

(** Centres are compared after rounding down to a multiple of one half unit: *)
Theorem C39_align_center names (x : bool) xs bx :
  ztranslate names (HAlign (if x then VCenter else HCenter) xs) bx <-> common (fun b => mid2 x b / 2) (map bx xs).
Proof. simpl. rewrite forall_pairs, <- pairwise_common. destruct x; reflexivity. Qed.
(** equal centres are accepted; if all sums have the same parity, accepted centres are equal; *)
Theorem C39_align_center_exact names (x : bool) xs bx k : (forall n, In n xs -> mid2 x (bx n) mod 2 = k) ->
  ztranslate names (HAlign (if x then VCenter else HCenter) xs) bx <-> common (mid2 x) (map bx xs).
Proof.
  intros Hk. rewrite C39_align_center. unfold common. split; intros (v & H).
  - exists (2 * v + k). rewrite Forall_map in *. rewrite Forall_forall in *. intros n Hn. rewrite <- (H n Hn), <- (Hk n Hn). apply Z.div_mod. lia.
  - exists (v / 2). rewrite Forall_map in *. rewrite Forall_forall in *. intros n Hn. now rewrite (H n Hn).
Qed.
(** otherwise centres half a unit apart are accepted. *)
Theorem C39_align_center_refuted : exists names xs bx, (forall n, In n xs -> solid (bx n)) /\ ztranslate names (HAlign HCenter xs) bx /\ ~ common (mid2 false) (map bx xs).
Proof.
  exists [], ["A"; "B"]%string, (fun n => if String.eqb n "A" then mkRect 0 0 10 10 else mkRect 20 0 30 11).
  split; [|split].
  - intros n [<-|[<-|[]]]; unfold solid; simpl; lia.
  - simpl. constructor; [reflexivity|constructor].
  - intros (v & H). apply Forall_cons_iff in H as (H1 & H). apply Forall_cons_iff in H as (H2 & _). unfold mid2 in *. simpl in *. lia.
Qed.
(** [h_any]/[v_any]: of two instances one spans the other, so they share a line; *)
Theorem C39_align_any_pair names (x : bool) a b bx : solid (bx a) -> solid (bx b) ->
  ztranslate names (HAlign (if x then VAny else HAny) [a; b]) bx -> common_line x (map bx [a; b]).
Proof.
  intros Ha Hb H. apply (solid_x x) in Ha, Hb. simpl in H. apply Forall_cons_iff in H as (H & _).
  assert (G : within x (bx a) (bx b) \/ within x (bx b) (bx a)) by (destruct x; exact H). unfold within in G.
  destruct G as [(G1 & G2)|(G1 & G2)].
  - clear H. exists (low x (bx a)). apply Forall_cons; [|apply Forall_cons; [|constructor]]; destruct x; simpl in *; lia.
  - clear H. exists (low x (bx b)). apply Forall_cons; [|apply Forall_cons; [|constructor]]; destruct x; simpl in *; lia.
Qed.
(** three instances need not share one. *)
Theorem C39_align_any_refuted : exists names xs bx, (forall n, In n xs -> solid (bx n)) /\ ztranslate names (HAlign HAny xs) bx /\ ~ common_line false (map bx xs).
Proof.
  exists [], ["A"; "B"; "C"]%string, (fun n => if String.eqb n "A" then mkRect 0 0 10 10 else if String.eqb n "B" then mkRect 20 0 30 100 else mkRect 40 90 50 100).
  split; [|split].
  - intros n [<-|[<-|[<-|[]]]]; unfold solid; simpl; lia.
  - simpl. constructor; [left; unfold within; simpl; lia|]. constructor; [right; unfold within; simpl; lia|constructor].
  - intros (v & H). simpl in H. apply Forall_cons_iff in H as (H1 & H). apply Forall_cons_iff in H as (_ & H). apply Forall_cons_iff in H as (H3 & _). unfold low, high in *. simpl in *. lia.
Qed.

(** * SymmetricBlocks *)

(** The formulae hold iff the sums of centres agree and pairs are level. *)
Definition symmetric (x : bool) (a : Z) (bx : boxes) (p : list string) : Prop :=
  match p with
  | [n] => on_axis x a (bx n)
  | [n; m] => mid2 x (bx n) + mid2 x (bx m) = 2 * a /\ level (negb x) (bx n) (bx m)
  | _ => False
  end.
Lemma level_pair vert bx n m : zsymm_pair vert bx [n; m] <-> level (negb vert) (bx n) (bx m).
Proof.
  unfold level, zsymm_pair, zsum, mid2. destruct vert; cbn [negb lo hi low high]; lia.
Qed.
Theorem C39_symmetric names vert ps bx : ps <> [] -> (forall p, In p ps -> length p = 1%nat \/ length p = 2%nat) ->
  (exists p, In p ps /\ length p = 1%nat) \/ (exists n m, In [n; m] ps /\ (mid2 vert (bx n) + mid2 vert (bx m)) mod 2 = 0) ->
  ztranslate names (HSymm vert ps) bx <-> exists a, Forall (symmetric vert a bx) ps.
Proof.
  intros Hne Hlen Heven.
  assert (Hexp : forall p, In p ps -> match p with [n] => zsymm_expr vert bx p = 2 * mid2 vert (bx n) | [n; m] => zsymm_expr vert bx p = mid2 vert (bx n) + mid2 vert (bx m) | _ => False end).
  { intros p Hp. destruct (Hlen p Hp) as [E|E]; destruct p as [|n [|m [|k p]]]; try discriminate; unfold zsymm_expr, zsum, mid2; destruct vert; cbn [lo hi low high]; lia. }
  destruct ps as [|p0 ps]; [contradiction|]. cbn [ztranslate].
  assert (Hall : Forall (fun p => zsymm_expr vert bx p0 = zsymm_expr vert bx p) ps <-> forall p, In p (p0 :: ps) -> zsymm_expr vert bx p = zsymm_expr vert bx p0).
  { rewrite Forall_forall. split; [intros H p [<-|Hp]; [reflexivity|symmetry; auto]|intros H p Hp; symmetry; apply H; now right]. }
  rewrite Hall. split.
  - intros (Hp & Hs). assert (Hev : exists a, zsymm_expr vert bx p0 = 2 * a).
    { destruct Heven as [(p & Hin & E)|(n & m & Hin & E)].
      - destruct p as [|n [|m p]]; try discriminate. exists (mid2 vert (bx n)). rewrite <- (Hs _ Hin). exact (Hexp _ Hin).
      - exists ((mid2 vert (bx n) + mid2 vert (bx m)) / 2). rewrite <- (Hs _ Hin), (Hexp _ Hin). rewrite <- Z_div_exact_full_2; lia. }
    destruct Hev as (a & Ea). exists a. rewrite Forall_forall in *. intros p Hin. specialize (Hs p Hin). specialize (Hexp p Hin). specialize (Hp p Hin).
    destruct p as [|n [|m [|k p]]]; try contradiction; cbn [symmetric].
    + unfold on_axis. lia.
    + split; [lia|]. now apply level_pair.
  - intros (a & H). rewrite Forall_forall in H. assert (Hx : forall p, In p (p0 :: ps) -> zsymm_expr vert bx p = 2 * a).
    { intros p Hin. specialize (H p Hin). specialize (Hexp p Hin). destruct p as [|n [|m [|k p]]]; try contradiction; cbn [symmetric] in H; unfold on_axis in *; lia. }
    split.
    + rewrite Forall_forall. intros p Hin. specialize (H p Hin). destruct p as [|n [|m [|k p]]]; try contradiction; [exact I|]. apply level_pair, H.
    + intros p Hin. rewrite (Hx p Hin). symmetry. apply Hx. now left.
Qed.
(** With equal sizes the two blocks of a pair are mirror images; *)
Theorem C39_symmetric_mirror x a b c : high x b - low x b = high x c - low x c -> mid2 x b + mid2 x c = 2 * a <-> mirror x a b c.
Proof. unfold mid2, mirror. lia. Qed.
(** without, they need not be. *)
Theorem C39_symmetric_refuted : exists names ps bx, Forall (fun p => Forall (fun n => solid (bx n)) p) ps /\ ztranslate names (HSymm true ps) bx /\
  forall a, ~ mirror true a (bx "A"%string) (bx "B"%string) /\ In ["A"; "B"]%string ps.
Proof.
  exists [], [["A"; "B"]; ["C"]]%string, (fun n => if String.eqb n "A" then mkRect 0 0 10 10 else if String.eqb n "B" then mkRect 30 0 60 10 else mkRect 20 20 30 30).
  split; [|split].
  - repeat constructor; unfold solid; simpl; lia.
  - simpl. split; [|repeat constructor]. constructor; [simpl; lia|]. constructor; [exact I|constructor].
  - intros a. split; [|now left]. unfold mirror. simpl. lia.
Qed.

(** * Spread *)

Lemma combos_ordpairs {A} (R : A -> A -> Prop) l : Forall (fun p => R (fst p) (snd p)) (combos l) <-> ForallOrdPairs R l.
Proof.
  induction l as [|a l IH]; simpl; [split; constructor|]. rewrite Forall_app, IH, Forall_map. simpl. split.
  - intros (H1 & H2). now constructor.
  - intros H. inversion H; subst. auto.
Qed.
Lemma ordpairs_map {A B} (f : A -> B) (R : B -> B -> Prop) l : ForallOrdPairs (fun a b => R (f a) (f b)) l <-> ForallOrdPairs R (map f l).
Proof.
  induction l as [|a l IH]; simpl; [split; constructor|]. split; intros H; inversion H; subst; constructor.
  - now rewrite Forall_map. - now apply IH. - now rewrite Forall_map in *. - now apply IH.
Qed.
(** For blocks that do not overlap the formula is the documented minimum gap; *)
Theorem C39_spread names x d xs bx : 0 <= d -> (forall n, In n xs -> solid (bx n)) -> ForallOrdPairs apart (map bx xs) ->
  ztranslate names (HSpread x d xs) bx <-> ForallOrdPairs (fun a b => facing x a b -> gap_at_least x d a b) (map bx xs).
Proof.
  intros Hd Hs Ha. simpl. rewrite (combos_ordpairs (fun n m => zspread x d (bx n) (bx m))), (ordpairs_map bx (zspread x d)).
  assert (Hs' : Forall solid (map bx xs)) by (rewrite Forall_map, Forall_forall; auto). clear Hs. induction (map bx xs) as [|a l IH]; [split; constructor|].
  apply Forall_cons_iff in Hs' as (Sa & Sl). inversion Ha as [|? ? Aa Al]; subst. specialize (IH Al Sl).
  assert (G : forall b, In b l -> zspread x d a b <-> (facing x a b -> gap_at_least x d a b)).
  { intros b Hb. rewrite Forall_forall in Aa, Sl. specialize (Aa b Hb). specialize (Sl b Hb). unfold zspread, facing, gap_at_least, apart, solid in *. destruct x; simpl in *; lia. }
  split; intros H; inversion H; subst; constructor; try (now apply IH); rewrite Forall_forall in *; intros b Hb; apply (G b Hb); auto.
Qed.
(** overlapping blocks satisfy it although there is no gap. *)
Theorem C39_spread_refuted : exists names xs bx, (forall n, In n xs -> solid (bx n)) /\ ztranslate names (HSpread true 50 xs) bx /\
  ~ ForallOrdPairs (fun a b => facing true a b -> gap_at_least true 50 a b) (map bx xs).
Proof.
  exists [], ["A"; "B"]%string, (fun n => if String.eqb n "A" then mkRect 0 0 100 10 else mkRect 10 0 110 10).
  split; [|split].
  - intros n [<-|[<-|[]]]; unfold solid; simpl; lia.
  - simpl. constructor; [|constructor]. unfold zspread. simpl. lia.
  - intros H. inversion H as [|? ? Ha _]; subst. apply Forall_cons_iff in Ha as (Ha & _). unfold facing, gap_at_least in Ha. simpl in Ha. lia.
Qed.

(** * AspectRatio, GroupBlocks *)

Theorem C39_aspect names low high bx : solid (bx top_name) ->
  let w := inject_Z (urx (bx top_name) - llx (bx top_name)) in let h := inject_Z (ury (bx top_name) - lly (bx top_name)) in
  ztranslate names (HAspect low high) bx <-> (low <= w / h)%Q /\ (w / h < high)%Q.
Proof.
  intros (_ & Hs) w h. simpl. unfold zaspect, zsize. cbn [lo hi]. fold w h.
  assert (Hh : (0 < h)%Q) by (unfold h; change 0%Q with (inject_Z 0); rewrite <- Zlt_Qlt; lia).
  assert (E : (w == w / h * h)%Q) by (field; intros E; rewrite E in Hh; discriminate). split; intros (H1 & H2); split.
  - apply (Qmult_le_r _ _ h Hh). now rewrite <- E.
  - apply (Qmult_lt_r _ _ h Hh). now rewrite <- E.
  - rewrite E. now apply (Qmult_le_r _ _ h Hh).
  - rewrite E. now apply (Qmult_lt_r _ _ h Hh).
Qed.
(** The documentation admits the upper bound; the formula does not. *)
Theorem C39_aspect_refuted : exists names bx, solid (bx top_name) /\
  (inject_Z (urx (bx top_name) - llx (bx top_name)) / inject_Z (ury (bx top_name) - lly (bx top_name)) <= 2)%Q /\
  ~ ztranslate names (HAspect 1 2) bx.
Proof.
  exists [], (fun _ => mkRect 0 0 20 10). split; [unfold solid; simpl; lia|]. split; [vm_compute; discriminate|]. intros (_ & H). vm_compute in H. discriminate.
Qed.
Theorem C39_group names g xs bx : (forall x, In x xs -> In x names) ->
  ztranslate names (HGroup g xs) bx <->
  solid (bx g) /\ (forall x, In x xs -> llx (bx g) <= llx (bx x) /\ lly (bx g) <= lly (bx x) /\ urx (bx x) <= urx (bx g) /\ ury (bx x) <= ury (bx g)) /\
  (forall x, In x names -> ~ In x xs -> apart (bx x) (bx g)).
Proof.
  intros Hsub. assert (Hm : forall x l, smem x l = true <-> In x l).
  { intros x l. unfold smem. rewrite existsb_exists. split; [intros (y & H & E); apply String.eqb_eq in E; now subst|intros H; exists x; split; [assumption|apply String.eqb_refl]]. }
  simpl. unfold zgroup, solid, zinside, zapart, apart. rewrite !Forall_forall. split.
  - intros (H1 & H2 & H3 & H4). split; [auto|]. split; intros x Hx.
    + apply H3. apply filter_In. split; [assumption|]. apply Hm. auto.
    + intros Hn. apply H4. apply filter_In. split; [assumption|]. apply negb_true_iff, not_true_is_false. intros E. apply Hm in E. contradiction.
  - intros ((H1 & H2) & H3 & H4). split; [assumption|]. split; [assumption|]. split; intros x Hx; apply filter_In in Hx as (Hx & E).
    + apply H3. assumption.
    + apply H4; [assumption|]. intros Hi. apply Hm in Hi. rewrite Hi in E. discriminate.
Qed.

(** * Boundary: sizes and halos are in micrometres, the boxes in nanometres. *)
Lemma q_int_inject (q : Q) (z : Z) : (q == inject_Z z)%Q -> q_int q = z.
Proof.
  intros E. unfold q_int. destruct (Qle_bool 0 q); [now rewrite (Qround.Qfloor_comp _ _ E), Qround.Qfloor_Z|now rewrite (Qround.Qceiling_comp _ _ E), Qround.Qceiling_Z].
Qed.
Theorem C39_boundary names mw mh hh hv a b bx : (1000 * hh == inject_Z a)%Q -> (1000 * hv == inject_Z b)%Q ->
  let top := bx top_name in
  ztranslate names (HBoundary mw mh hh hv) bx <->
  (inject_Z (urx top - llx top) / 1000 <= mw)%Q /\ (inject_Z (ury top - lly top) / 1000 <= mh)%Q /\
  forall n, In n names -> a <= llx (bx n) - llx top /\ a <= urx top - urx (bx n) /\ b <= lly (bx n) - lly top /\ b <= ury top - ury (bx n).
Proof.
  intros Ha Hb top. unfold ztranslate, zboundary. fold top. rewrite (q_int_inject _ _ Ha), (q_int_inject _ _ Hb). change (zsize true top) with (urx top - llx top). change (zsize false top) with (ury top - lly top). rewrite Forall_map, Forall_forall.
  assert (D : forall z m, (inject_Z z <= 1000 * m)%Q <-> (inject_Z z / 1000 <= m)%Q).
  { intros z m. split; intros H; [apply Qle_shift_div_r; [reflexivity|]; now rewrite Qmult_comm|]. apply (Qmult_le_r _ _ 1000) in H; [|reflexivity]. setoid_replace (inject_Z z / 1000 * 1000)%Q with (inject_Z z) in H by field. now rewrite Qmult_comm. }
  rewrite !D. split; intros (H1 & H2 & H3); (split; [assumption|]); (split; [assumption|]); intros n Hn; specialize (H3 n Hn); lia.
Qed.
(** Parts of a nanometre are cut off: a block may be closer to the edge than the halo. *)
Theorem C39_boundary_refuted : exists names mw mh hh hv bx n, In n names /\ ztranslate names (HBoundary mw mh hh hv) bx /\ (inject_Z (llx (bx n) - llx (bx top_name)) < 1000 * hh)%Q.
Proof.
  exists ["A"]%string, 1%Q, 1%Q, (1 # 2000)%Q, 0%Q, (fun _ => mkRect 0 0 10 10), "A"%string. split; [now left|]. split; [|reflexivity].
  split; [discriminate|]. split; [discriminate|]. constructor; [|constructor]. vm_compute. repeat split; discriminate.
Qed.

(** The hypotheses are met by ordinary placements. *)
Example C39_nonvacuous :
  let bx := fun n => if String.eqb n "A" then mkRect 0 0 10 10 else if String.eqb n "B" then mkRect 10 0 20 10 else if String.eqb n "C" then mkRect 30 0 40 20 else mkRect 0 0 40 20 in
  (forall n, In n ["A"; "B"; "C"]%string -> solid (bx n)) /\ ztranslate [] (HOrder OLR false ["A"; "B"; "C"]%string) bx /\ ~ ztranslate [] (HOrder OLR true ["A"; "B"; "C"]%string) bx /\
  ztranslate [] (HAlign HBottom ["A"; "B"; "C"]%string) bx /\ ~ ztranslate [] (HAlign HTop ["A"; "B"; "C"]%string) bx /\
  ForallOrdPairs apart (map bx ["A"; "B"; "C"]%string) /\ ztranslate [] (HSymm true [["A"; "B"]]%string) bx /\ ~ ztranslate [] (HSymm true [["A"; "C"]; ["B"]]%string) bx.
Proof.
  cbv zeta. split; [|split; [|split; [|split; [|split; [|split; [|split]]]]]].
  - intros n [<-|[<-|[<-|[]]]]; unfold solid; simpl; lia.
  - simpl. repeat constructor; unfold zorder_cc; simpl; lia.
  - simpl. intros H. apply Forall_cons_iff in H as (_ & H). apply Forall_cons_iff in H as (H & _). unfold zorder_cc in H. simpl in H. lia.
  - simpl. repeat constructor.
  - simpl. intros H. apply Forall_cons_iff in H as (_ & H). apply Forall_cons_iff in H as (H & _). simpl in H. discriminate.
  - simpl. repeat constructor; unfold apart; simpl; lia.
  - simpl. split; [|constructor]. constructor; [simpl; lia|constructor].
  - simpl. intros (_ & H). apply Forall_cons_iff in H as (H & _). simpl in H. discriminate.
Qed.

Print Assumptions C39_order.
Print Assumptions C39_order_abut.
Print Assumptions C39_order_pair.
Print Assumptions C39_horizontal_enough.
Print Assumptions C39_horizontal_refuted.
Print Assumptions C39_align_edges.
Print Assumptions C39_align_center.
Print Assumptions C39_align_center_exact.
Print Assumptions C39_align_center_refuted.
Print Assumptions C39_align_any_pair.
Print Assumptions C39_align_any_refuted.
Print Assumptions C39_symmetric.
Print Assumptions C39_symmetric_mirror.
Print Assumptions C39_symmetric_refuted.
Print Assumptions C39_spread.
Print Assumptions C39_spread_refuted.
Print Assumptions C39_aspect.
Print Assumptions C39_aspect_refuted.
Print Assumptions C39_group.
Print Assumptions C39_boundary.
Print Assumptions C39_boundary_refuted.
