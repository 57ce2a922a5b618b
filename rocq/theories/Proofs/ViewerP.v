(** Lemmas for C87: the layout assembled for a block. *)
From Coq Require Import String Ascii ZifyBool.
From Verif Require Import Base.Prelude Base.PyDict Model.Transformation Model.Grid Model.RemoveDuplicates Model.Viewer.
From Verif Require Import Spec.Geometry Spec.RemoveDuplicatesSpec Spec.FlatLayout Proofs.TransformationP.
Local Open Scope Z_scope.

(** * Names *)
Lemma under_inj a b x y : no_slash a -> no_slash b -> under a x = under b y -> a = b /\ x = y.
Proof.
  unfold under. revert b. induction a as [|c a IH]; intros [|d b] Ha Hb E; cbn in *.
  - injection E as E. auto.
  - injection E as E _. destruct Hb. congruence.
  - injection E as E _. destruct Ha. congruence.
  - injection E as -> E. destruct Ha as [_ Ha], Hb as [_ Hb]. destruct (IH b Ha Hb E) as [-> ->]. auto.
Qed.
Lemma under_slash a x : ~ no_slash (under a x).
Proof. unfold under. induction a as [|c a IH]; cbn; [intros [H _]; now apply H|tauto]. Qed.

Lemma foldO_app {A B} (f : A -> B -> option A) l1 l2 a :
  foldO f a (l1 ++ l2) = match foldO f a l1 with Some b => foldO f b l2 | None => None end.
Proof. revert a. induction l1 as [|x l1 IH]; intros a; cbn; [reflexivity|]. destruct (f a x); auto. Qed.

Lemma foldO_flat {A B C} (f : A -> C -> option A) (g : B -> list C) l a :
  foldO (fun a x => foldO f a (g x)) a l = foldO f a (flat_map g l).
Proof. revert a. induction l as [|x l IH]; intros a; cbn; [reflexivity|]. rewrite foldO_app. destruct (foldO f a (g x)); auto. Qed.

Lemma foldO_map {A B C} (f : A -> C -> option A) (g : B -> C) l a : foldO f a (map g l) = foldO (fun a x => f a (g x)) a l.
Proof. revert a. induction l as [|x l IH]; intros a; cbn; [reflexivity|]. destruct (f a (g x)); auto. Qed.

Lemma foldO_ext {A B} (f g : A -> B -> option A) l a : (forall a x, f a x = g a x) -> foldO f a l = foldO g a l.
Proof. intros E. revert a. induction l as [|x l IH]; intros a; cbn; [reflexivity|]. rewrite E. destruct (g a x); auto. Qed.

(** All connections with the name of their net. *)
Definition links (h : hnode) : list (string * conn) := flat_map (fun n => map (fun c => (n_name n, c)) (n_conn n)) (all_nets h).

Lemma in_all_nets h n : In n (all_nets h) <-> In n (h_nets h) \/ In n (h_power h).
Proof. unfold all_nets. apply in_app_iff. Qed.

Lemma in_links h nm c : In (nm, c) (links h) <-> exists n, (In n (h_nets h) \/ In n (h_power h)) /\ n_name n = nm /\ In c (n_conn n).
Proof.
  unfold links. rewrite in_flat_map. split.
  - intros (n & Hn & H). apply in_map_iff in H as (c' & E & H). injection E as <- <-. exists n. rewrite <- in_all_nets. auto.
  - intros (n & Hn & <- & H). exists n. rewrite in_all_nets. split; [assumption|]. apply in_map_iff. eauto.
Qed.

Lemma fa_map_links h : fa_map h = foldO (fun m nc => fa_conn h (fst nc) m (snd nc)) [] (links h).
Proof.
  unfold fa_map, links. rewrite <- foldO_flat. apply foldO_ext. intros m n. rewrite foldO_map. apply foldO_ext. reflexivity.
Qed.

Definition hits (h : hnode) (l : list (string * conn)) (k x : string) : Prop :=
  exists i j b p, In (x, CBlock i j) l /\ nth_error (h_blocks h) j = Some b /\ nth_error (k_pins b) i = Some p /\ k = under (k_name b) (fst p).

Lemma dget_dset_str m f nm k x : dget String.eqb m f = None ->
  dget String.eqb (set_fa m f nm) k = Some x <-> dget String.eqb m k = Some x \/ (k = f /\ x = nm).
Proof.
  intros Hf. unfold set_fa, dset. destruct (string_dec k f) as [->|E].
  - rewrite (dget_dupd_same _ String.eqb_eq). rewrite Hf. split; [intros [= <-]; auto|intros [?|[_ ->]]; [discriminate|reflexivity]].
  - rewrite (dget_dupd_other _ String.eqb_eq) by congruence. split; [auto|intros [?|[? _]]; [assumption|contradiction]].
Qed.

Lemma fa_spec h l : forall m m', foldO (fun m nc => fa_conn h (fst nc) m (snd nc)) m l = Some m' ->
  forall k x, dget String.eqb m' k = Some x <-> dget String.eqb m k = Some x \/ hits h l k x.
Proof.
  induction l as [|[nm c] l IH]; cbn; intros m m' H k x.
  - injection H as <-. split; [auto|intros [?|(i & j & b & p & [] & _)]; assumption].
  - destruct (fa_conn h nm m c) as [m1|] eqn:E; [|discriminate]. rewrite (IH m1 m' H k x).
    assert (Hs : dget String.eqb m1 k = Some x <-> dget String.eqb m k = Some x \/ hits h [(nm, c)] k x).
    { unfold fa_conn in E. destruct c as [i j|i|]; [| |discriminate].
      - destruct (nth_error (h_blocks h) j) as [b|] eqn:Eb; [|discriminate].
        destruct (nth_error (k_pins b) i) as [p|] eqn:Ep; [|discriminate].
        destruct (dget String.eqb m (under (k_name b) (fst p))) eqn:Ed; [discriminate|]. injection E as <-.
        rewrite dget_dset_str by assumption. split.
        + intros [?|[-> ->]]; [auto|right]. exists i, j, b, p. cbn. auto.
        + intros [?|(i' & j' & b' & p' & [E|[]] & H1 & H2 & ->)]; [auto|]. injection E as -> -> ->. rewrite Eb in H1. injection H1 as <-. rewrite Ep in H2. injection H2 as <-. auto.
      - destruct (nth_error (h_terms h) i) as [t|]; [|discriminate]. destruct (String.eqb nm t); [|discriminate]. injection E as <-.
        split; [auto|]. intros [?|(i' & j' & b' & p' & [E|[]] & _)]; [assumption|discriminate]. }
    rewrite Hs. split.
    + intros [[?|(i & j & b & p & [Hi|[]] & ?)]|(i & j & b & p & Hi & ?)]; [auto| |]; right; exists i, j, b, p; cbn; tauto.
    + intros [?|(i & j & b & p & [Hi|Hi] & ?)]; [auto| |].
      * left. right. exists i, j, b, p. cbn. tauto.
      * right. exists i, j, b, p. tauto.
Qed.

Lemma nth_block_eq h j b b' : NoDup (map k_name (h_blocks h)) -> nth_error (h_blocks h) j = Some b' -> In b (h_blocks h) -> k_name b = k_name b' -> b = b'.
Proof.
  intros Hn Hj Hb E. apply In_nth_error in Hb as [j' Hb].
  assert (j = j').
  { apply (proj1 (NoDup_nth_error (map k_name (h_blocks h))) Hn).
    - rewrite map_length. apply nth_error_Some. congruence.
    - rewrite (map_nth_error k_name _ _ Hj), (map_nth_error k_name _ _ Hb). congruence. }
  subst. congruence.
Qed.

Lemma fa_joins h fa b nm x : well_named h -> fa_map h = Some fa -> In b (h_blocks h) ->
  dget String.eqb fa (under (k_name b) nm) = Some x <-> joins h b nm x.
Proof.
  intros (Wn & Wb & _) H Hb. rewrite fa_map_links in H. rewrite (fa_spec _ _ _ _ H). split.
  - intros [?|(i & j & b' & p & Hl & Hj & Hi & E)]; [discriminate|].
    apply under_inj in E as [E ->]; [|auto|apply Wb; eapply nth_error_In; eassumption].
    assert (b = b') by (eapply nth_block_eq; eassumption). subst b'.
    apply in_links in Hl as (n & Hn & Hnm & Hc). exists n, i, j, (snd p). destruct p; auto.
  - intros (n & i & j & ps & Hn & Hnm & Hc & Hj & Hi). right. exists i, j, b, (nm, ps).
    split; [|auto]. apply in_links. eauto.
Qed.

Lemma in_strs_iff x l : in_strs x l = true <-> In x l.
Proof. unfold in_strs. rewrite existsb_exists. split; [intros (y & H & E); apply String.eqb_eq in E; now subst|intros H; exists x; now rewrite String.eqb_refl]. Qed.

Lemma new_name_named h fa b nm : well_named h -> fa_map h = Some fa -> In b (h_blocks h) ->
  exists y, new_name fa (power_names h) (k_name b) (Some nm) = Some y /\ named h b nm y.
Proof.
  intros W F Hb. unfold new_name. destruct (dget String.eqb fa (under (k_name b) nm)) as [x|] eqn:E.
  - exists x. split; [reflexivity|]. apply named_net. apply (fa_joins h fa); assumption.
  - assert (NJ : forall x, ~ joins h b nm x) by (intros x J; apply (fa_joins h fa) in J; [congruence|assumption..]).
    destruct (in_strs nm (power_names h)) eqn:Ep.
    + exists nm. split; [reflexivity|]. apply named_power; [assumption|]. apply in_strs_iff in Ep. apply in_map_iff in Ep as (n & En & Hn). now exists n.
    + exists (under (k_name b) nm). split; [reflexivity|]. apply named_local; [assumption|]. intros (n & Hn & En).
      assert (in_strs nm (power_names h) = true) by (apply in_strs_iff; rewrite <- En; now apply in_map). congruence.
Qed.

Lemma named_unique h fa b nm x y : well_named h -> fa_map h = Some fa -> In b (h_blocks h) -> named h b nm x -> named h b nm y -> x = y.
Proof.
  intros W F Hb H1 H2.
  assert (U : forall u v, joins h b nm u -> joins h b nm v -> u = v).
  { intros u v Hu Hv. apply (fa_joins h fa) in Hu, Hv; try assumption. congruence. }
  inversion H1 as [z J1|N1 P1|N1 P1]; inversion H2 as [z' J2|N2 P2|N2 P2]; subst; auto; try contradiction; exfalso.
  all: first [exact (N1 _ J2) | exact (N2 _ J1)].
Qed.

Lemma joins_noslash h b nm x : well_named h -> joins h b nm x -> no_slash x.
Proof. intros (_ & _ & W) (n & i & j & ps & Hn & <- & _). auto. Qed.

Lemma named_distinct h b c nm mm x : well_named h -> In b (h_blocks h) -> In c (h_blocks h) -> named h b nm x -> named h c mm x ->
  (b = c /\ nm = mm) \/ (joins h b nm x /\ (joins h c mm x \/ (mm = x /\ is_power h x))) \/ (nm = x /\ is_power h x /\ (joins h c mm x \/ mm = x)).
Proof.
  intros W Hb Hc H1 H2. destruct W as (Wn & Wb & Wx). assert (W : well_named h) by (repeat split; assumption).
  assert (PS : forall z, is_power h z -> no_slash z) by (intros z (n & Hn & <-); auto).
  assert (U : forall d z, (k_name d ++ "/" ++ z)%string = x -> ~ no_slash x) by (intros d z <-; apply under_slash).
  inversion H1 as [z J1 E1|N1 P1 E1|N1 P1 E1]; inversion H2 as [z' J2 E2|N2 P2 E2|N2 P2 E2].
  - auto.
  - right. left. split; [assumption|]. right. split; [reflexivity|]. subst; assumption.
  - exfalso. apply (U c mm E2). exact (joins_noslash _ _ _ _ W J1).
  - right. right. split; [reflexivity|]. subst; auto.
  - right. right. split; [reflexivity|]. subst; auto.
  - exfalso. apply (U c mm E2). subst. auto.
  - exfalso. apply (U b nm E1). exact (joins_noslash _ _ _ _ W J2).
  - exfalso. apply (U b nm E1). subst. auto.
  - left. assert (E : under (k_name c) mm = under (k_name b) nm) by (unfold under; congruence).
    apply under_inj in E as [E ->]; auto. split; [|reflexivity].
    apply In_nth_error in Hc as [j Hj]. eapply nth_block_eq; eauto.
Qed.

(** * Geometry *)
Lemma scale_1d sf x s o : 0 < sf -> (2 * x) mod sf = 0 -> (sf * (s * (2 * x / sf) + o)) mod 2 = 0 ->
  exists o', 2 * o' = sf * o /\ sf * (s * (2 * x / sf) + o) / 2 = s * x + o'.
Proof.
  intros Hs Hd Hm. assert (E : sf * (2 * x / sf) = 2 * x) by (pose proof (Z.div_mod (2 * x) sf); lia).
  set (x1 := 2 * x / sf) in *. clearbody x1.
  assert (E2 : sf * (s * x1 + o) = 2 * (s * x) + sf * o) by (rewrite Z.mul_add_distr_l; replace (sf * (s * x1)) with (s * (sf * x1)) by ring; rewrite E; ring).
  rewrite E2 in *. clear E2. set (u := sf * o) in *. set (v := s * x) in *. clearbody u v.
  exists (u / 2). lia.
Qed.

Lemma half_min sf a b : 0 < sf -> sf * Z.min a b / 2 = Z.min (sf * a / 2) (sf * b / 2).
Proof.
  intros H. destruct (Z.le_ge_cases a b) as [L|L].
  - rewrite Z.min_l by lia. assert (sf * a / 2 <= sf * b / 2) by (apply Z.div_le_mono; nia). lia.
  - rewrite Z.min_r by lia. assert (sf * b / 2 <= sf * a / 2) by (apply Z.div_le_mono; nia). lia.
Qed.
Lemma half_max sf a b : 0 < sf -> sf * Z.max a b / 2 = Z.max (sf * a / 2) (sf * b / 2).
Proof.
  intros H. destruct (Z.le_ge_cases a b) as [L|L].
  - rewrite Z.max_r by lia. assert (sf * a / 2 <= sf * b / 2) by (apply Z.div_le_mono; nia). lia.
  - rewrite Z.max_l by lia. assert (sf * b / 2 <= sf * a / 2) by (apply Z.div_le_mono; nia). lia.
Qed.

Lemma all4_ok mul div r : all4 (divides mul div) r = true <->
  (mul * llx r) mod div = 0 /\ (mul * lly r) mod div = 0 /\ (mul * urx r) mod div = 0 /\ (mul * ury r) mod div = 0.
Proof. unfold all4, divides. rewrite !andb_true_iff, !Z.eqb_eq. tauto. Qed.

Lemma both_of_minmax (Q : Z -> Prop) a b : Q (Z.min a b) -> Q (Z.max a b) -> Q a /\ Q b.
Proof. intros H1 H2. destruct (Z.min_spec a b) as [[_ E1]|[_ E1]], (Z.max_spec a b) as [[_ E2]|[_ E2]]; rewrite E1, E2 in *; split; try assumption; try (destruct (Z.eq_dec a b) as [->|]; [assumption|lia]). Qed.

Lemma place_scaled sf T r : 0 < sf -> all4 (divides 2 sf) r = true ->
  all4 (divides sf 2) (canonical (hitRect T (map4 (fun c => 2 * c / sf) r))) = true ->
  exists T', in_pdk sf T T' /\ map4 (fun c => sf * c / 2) (canonical (hitRect T (map4 (fun c => 2 * c / sf) r))) = canonical (hitRect T' r).
Proof.
  intros Hs H1 H2. apply all4_ok in H1 as (A1 & A2 & A3 & A4). apply all4_ok in H2.
  rewrite canonical_min_max in *. cbn [llx lly urx ury map4 hitRect hit] in *. destruct H2 as (B1 & B2 & B3 & B4).
  destruct (both_of_minmax (fun z => (sf * z) mod 2 = 0) _ _ B1 B3) as [C1 C3]. destruct (both_of_minmax (fun z => (sf * z) mod 2 = 0) _ _ B2 B4) as [C2 C4].
  destruct (scale_1d sf _ _ _ Hs A1 C1) as (ox & Ex & F1). destruct (scale_1d sf _ _ _ Hs A3 C3) as (ox' & Ex' & F3).
  destruct (scale_1d sf _ _ _ Hs A2 C2) as (oy & Ey & F2). destruct (scale_1d sf _ _ _ Hs A4 C4) as (oy' & Ey' & F4).
  assert (ox' = ox) by lia. assert (oy' = oy) by lia. subst ox' oy'.
  exists (mkTr ox oy (sX T) (sY T)). split; [repeat split; assumption|].
  rewrite canonical_min_max. cbn [map4 hitRect hit sX sY oX oY llx lly urx ury]. unfold map4. cbn [llx lly urx ury].
  rewrite !half_min, !half_max by assumption. rewrite F1, F2, F3, F4. reflexivity.
Qed.

Lemma in_pdk_unique sf T A B : in_pdk sf T A -> in_pdk sf T B -> A = B.
Proof. intros (a & b & c & d) (a' & b' & c' & d'). apply Tr_eq; congruence || lia. Qed.
Lemma position_unit sf b T : position sf b T -> unit_tr T.
Proof. intros (a & b' & _). destruct (gen_transformation_unit (k_blk b)) as [H1 H2]. unfold unit_tr. rewrite a, b'. auto. Qed.

(** * Assembly *)
Section Assembly.
  Context {P : Type}.
  Variables (file : string -> option (lay P)) (grids : string -> option Grid) (sf : Z).

  Definition imported (fa : list (string * string)) (pw : list string) (b : block) (x : list term * list (string * P) * list verr) : Prop :=
    import_block file sf fa pw b = Some x.

  Lemma import_fold fa pw bs : forall a a', foldO (fun a b => match import_block file sf fa pw b with
                              | None => None
                              | Some (ts, ds, es) => let '(ts0, ds0, es0) := a in Some (ts0 ++ ts, ds0 ++ ds, es0 ++ es)%list
                              end) a bs = Some a' ->
    exists xs, Forall2 (imported fa pw) bs xs /\ fst (fst a') = (fst (fst a) ++ concat (map (fun x => fst (fst x)) xs))%list /\
      snd (fst a') = (snd (fst a) ++ concat (map (fun x => snd (fst x)) xs))%list /\ snd a' = (snd a ++ concat (map snd xs))%list.
  Proof.
    induction bs as [|b bs IH]; cbn; intros a a' H.
    - injection H as <-. exists []. cbn. rewrite !app_nil_r. auto.
    - destruct (import_block file sf fa pw b) as [[[ts ds] es]|] eqn:E; [|discriminate]. destruct a as [[ts0 ds0] es0].
      apply IH in H as (xs & F & H1 & H2 & H3). exists ((ts, ds, es) :: xs). cbn in *. rewrite H1, H2, H3, <- !app_assoc. auto.
  Qed.

  Definition own_term (ns : string * shape) : term := mkTerm (sh_layer (snd ns)) (Some (fst ns)) (sh_box (snd ns)) "drawing" None.
  Definition verdict (ns : string * shape) (kv : string * Z) : option (list verr) := check_value grids sf (fst kv) (sh_layer (snd ns)) (fst ns) (sh_box (snd ns)) (snd kv).
  Definition add1 (a : list term * list verr) (ns : string * shape) : option (list term * list verr) := add_terminal grids sf (fst ns) a (snd ns).

  Lemma check_fold ns l : forall es es', foldO (fun es kv => match check_value grids sf (fst kv) (sh_layer (snd ns)) (fst ns) (sh_box (snd ns)) (snd kv) with Some e => Some (es ++ e)%list | None => None end) es l = Some es' ->
    exists e', es' = (es ++ e')%list /\ (forall kv, In kv l -> exists e, verdict ns kv = Some e /\ incl e e') /\
      (forall x, In x e' -> exists kv e, In kv l /\ verdict ns kv = Some e /\ In x e).
  Proof.
    induction l as [|kv l IH]; cbn; intros es es' H.
    - injection H as <-. exists []. rewrite app_nil_r. split; [reflexivity|]. split; [intros ? []|intros ? []].
    - destruct (check_value grids sf (fst kv) (sh_layer (snd ns)) (fst ns) (sh_box (snd ns)) (snd kv)) as [e|] eqn:E; [|discriminate]. change (verdict ns kv = Some e) in E.
      apply IH in H as (e' & -> & H1 & H2). exists (e ++ e')%list. rewrite app_assoc. split; [reflexivity|]. split.
      + intros kv' [<-|Hk]; [exists e; split; [assumption|apply incl_appl, incl_refl]|]. destruct (H1 _ Hk) as (e0 & ? & ?). exists e0. split; [assumption|now apply incl_appr].
      + intros x Hx. apply in_app_iff in Hx as [Hx|Hx]; [exists kv, e; auto|]. destruct (H2 x Hx) as (kv' & e0 & ? & ?). exists kv', e0. auto.
  Qed.

  Lemma add_fold L : forall a a', foldO add1 a L = Some a' ->
    exists e', fst a' = (fst a ++ map own_term L)%list /\ snd a' = (snd a ++ e')%list /\
      (forall ns kv, In ns L -> In kv (checked (sh_layer (snd ns)) (sh_box (snd ns))) -> exists e, verdict ns kv = Some e /\ incl e e') /\
      (forall x, In x e' -> exists ns kv e, In ns L /\ In kv (checked (sh_layer (snd ns)) (sh_box (snd ns))) /\ verdict ns kv = Some e /\ In x e).
  Proof.
    induction L as [|ns L IH]; cbn [foldO map]; intros a a' H.
    - injection H as <-. exists []. rewrite !app_nil_r. split; [reflexivity|]. split; [reflexivity|]. split; [intros ? ? []|intros ? []].
    - unfold add1 at 1 in H. unfold add_terminal in H.
      match type of H with match match ?f with _ => _ end with _ => _ end = _ => destruct f as [es|] eqn:E end; [|discriminate].
      destruct (check_fold _ _ _ _ E) as (e1 & -> & C1 & C2). apply IH in H as (e' & H1 & H2 & H3 & H4). cbn [fst snd] in *.
      exists (e1 ++ e')%list. rewrite H1, H2, <- !app_assoc. split; [reflexivity|]. split; [reflexivity|]. split.
      + intros ns' kv [<-|Hn] Hk.
        * destruct (C1 kv Hk) as (e & ? & ?). exists e. split; [assumption|now apply incl_appl].
        * destruct (H3 _ _ Hn Hk) as (e & ? & ?). exists e. split; [assumption|now apply incl_appr].
      + intros x Hx. apply in_app_iff in Hx as [Hx|Hx].
        * destruct (C2 x Hx) as (kv & e & ? & ?). exists ns, kv, e. split; [now left|auto].
        * destruct (H4 x Hx) as (ns' & kv & e & ? & ?). exists ns', kv, e. split; [now right|auto].
  Qed.

  Lemma conn_fold h nm cs : forall a a', foldO (fun a c => match conn_shapes h nm c with Some l => Some (a ++ l)%list | None => None end) a cs = Some a' ->
    forall s, In s a' <-> In s a \/ exists c l, In c cs /\ conn_shapes h nm c = Some l /\ In s l.
  Proof.
    induction cs as [|c cs IH]; cbn; intros a a' H s.
    - injection H as <-. split; [auto|intros [?|(c & l & [] & _)]; assumption].
    - destruct (conn_shapes h nm c) as [l|] eqn:E; [|discriminate]. rewrite (IH _ _ H). rewrite in_app_iff. split.
      + intros [[?|?]|(c' & l' & ? & ?)]; [auto| |]; right; [exists c, l; auto|exists c', l'; tauto].
      + intros [?|(c' & l' & [<-|?] & E' & ?)]; [auto| |].
        * rewrite E in E'. injection E' as <-. auto.
        * right. exists c', l'. auto.
  Qed.

  Lemma in_vias s l : In s (flat_map via_shapes l) <-> exists u w v, In (u, w, v) l /\ (s = u \/ s = w \/ s = v).
  Proof.
    rewrite in_flat_map. split.
    - intros ([[u w] v] & H & [<-|[<-|[<-|[]]]]); exists u, w, v; auto.
    - intros (u & w & v & H & E). exists (u, w, v). split; [assumption|]. cbn. intuition.
  Qed.

  Lemma nets_fold h ns : forall a a', foldO (fun a n => match net_shapes h n with None => None | Some l => foldO (add_terminal grids sf (n_name n)) a l end) a ns = Some a' ->
    exists L, foldO add1 a L = Some a' /\ forall nm s, In (nm, s) L <-> exists n l, In n ns /\ nm = n_name n /\ net_shapes h n = Some l /\ In s l.
  Proof.
    induction ns as [|n ns IH]; cbn; intros a a' H.
    - exists []. split; [assumption|]. intros nm s. split; [intros []|intros (n & l & [] & _)].
    - destruct (net_shapes h n) as [l|] eqn:E; [|discriminate].
      destruct (foldO (add_terminal grids sf (n_name n)) a l) as [a1|] eqn:E1; [|discriminate].
      apply IH in H as (L & HL & HI). exists (map (pair (n_name n)) l ++ L)%list. split.
      + rewrite foldO_app, foldO_map. rewrite (foldO_ext _ (add_terminal grids sf (n_name n))) by reflexivity. now rewrite E1.
      + intros nm s. rewrite in_app_iff, HI, in_map_iff. split.
        * intros [(s' & E' & Hs)|(n' & l' & ? & ?)]; [injection E' as <- <-; exists n, l; auto|exists n', l'; tauto].
        * intros (n' & l' & [<-|?] & -> & E' & Hs); [left; rewrite E in E'; injection E' as <-; eauto|right; exists n', l'; auto].
  Qed.

  Lemma net_draws h n l s : (In n (h_nets h) \/ In n (h_power h)) -> net_shapes h n = Some l -> In s l -> draws h (n_name n) s.
  Proof.
    intros Hn H Hs. unfold net_shapes in H.
    destruct (foldO _ [] (n_conn n)) as [l0|] eqn:E; [|discriminate]. injection H as <-.
    rewrite !in_app_iff in Hs. destruct Hs as [Hs|[Hs|[Hs|Hs]]].
    - apply (conn_fold _ _ _ _ _ E) in Hs as [[]|(c & l & Hc & Ec & Hs)]. unfold conn_shapes in Ec. destruct c as [i j|i|]; [| |discriminate].
      + destruct (nth_error (h_blocks h) j) as [b|] eqn:Eb; [|discriminate]. destruct (nth_error (k_pins b) i) as [[p ps]|] eqn:Ep; [|discriminate].
        injection Ec as <-. eapply draws_pin; eauto.
      + destruct (nth_error (h_terms h) i); [|discriminate]. destruct (String.eqb _ _); [|discriminate]. injection Ec as <-. destruct Hs.
    - now apply draws_metal.
    - apply in_vias in Hs as (u & w & v & H & Hs). eapply draws_via; eauto.
    - apply in_vias in Hs as (u & w & v & H & Hs). eapply draws_via; eauto.
  Qed.

  Lemma draws_net h nm s ns : (forall n, In n ns <-> In n (h_nets h) \/ In n (h_power h)) -> (forall n, In n ns -> exists l, net_shapes h n = Some l) -> draws h nm s ->
    (exists n l, In n ns /\ nm = n_name n /\ net_shapes h n = Some l /\ In s l) \/ (exists g, (g = h_gnd h \/ g = h_vdd h) /\ nm = g_name g /\ In s (pg_shapes g)).
  Proof.
    intros Hns Hok H. 
    assert (K : forall n, (In n (h_nets h) \/ In n (h_power h)) -> exists l l0, In n ns /\ net_shapes h n = Some (l0 ++ l) /\ l = (n_metal n ++ flat_map via_shapes (n_via n) ++ flat_map via_shapes (n_inter n))%list /\
      foldO (fun a c => match conn_shapes h (n_name n) c with Some l => Some (a ++ l)%list | None => None end) [] (n_conn n) = Some l0).
    { intros n Hn. apply Hns in Hn. destruct (Hok n Hn) as [l Hl]. unfold net_shapes in *. destruct (foldO _ [] (n_conn n)) as [l0|] eqn:E; [|discriminate]. eauto 10. }
    destruct H as [n i j b p ps s Hn Hc Hj Hi Hs|n s Hn Hs|n u l v s Hn Hv Hs|g s Hg Hs|g u l v s Hg Hv Hs].
    - left. destruct (K n Hn) as (l & l0 & Hi' & E & -> & Ef). exists n. eexists. split; [assumption|]. split; [reflexivity|]. split; [eassumption|].
      apply in_app_iff. left. apply (conn_fold _ _ _ _ _ Ef). right. exists (CBlock i j), ps. split; [assumption|]. split; [|assumption]. cbn. now rewrite Hj, Hi.
    - left. destruct (K n Hn) as (l & l0 & Hi' & E & -> & Ef). exists n. eexists. split; [assumption|]. split; [reflexivity|]. split; [eassumption|]. rewrite !in_app_iff. auto.
    - left. destruct (K n Hn) as (l' & l0 & Hi' & E & -> & Ef). exists n. eexists. split; [assumption|]. split; [reflexivity|]. split; [eassumption|]. rewrite !in_app_iff.
      destruct Hv as [Hv|Hv]; right; right; [left|right]; apply in_vias; exists u, l, v; auto.
    - right. exists g. split; [assumption|]. split; [reflexivity|]. unfold pg_shapes. apply in_app_iff. auto.
    - right. exists g. split; [assumption|]. split; [reflexivity|]. unfold pg_shapes. apply in_app_iff. right. apply in_vias. exists u, l, v. auto.
  Qed.

  Lemma nets_ok h ns : forall a a', foldO (fun a n => match net_shapes h n with None => None | Some l => foldO (add_terminal grids sf (n_name n)) a l end) a ns = Some a' ->
    forall n, In n ns -> exists l, net_shapes h n = Some l.
  Proof.
    induction ns as [|m ns IH]; cbn; intros a a' H n Hn; [destruct Hn|].
    destruct (net_shapes h m) as [l|] eqn:E; [|discriminate]. destruct (foldO _ a l) as [a1|] eqn:E1; [|discriminate].
    destruct Hn as [<-|Hn]; eauto.
  Qed.

  (** The parts of the assembled layout. *)
  Lemma assemble_parts h ts ds es : assemble file grids sf h = Some (ts, ds, es) ->
    exists fa xs L e', fa_map h = Some fa /\ Forall2 (imported fa (power_names h)) (h_blocks h) xs /\
      ts = (concat (map (fun x => fst (fst x)) xs) ++ map own_term L)%list /\ ds = concat (map (fun x => snd (fst x)) xs) /\
      es = (concat (map snd xs) ++ e')%list /\ (forall nm s, In (nm, s) L <-> draws h nm s) /\
      (forall ns kv, In ns L -> In kv (checked (sh_layer (snd ns)) (sh_box (snd ns))) -> exists e, verdict ns kv = Some e /\ incl e e') /\
      (forall x, In x e' -> exists ns kv e, In ns L /\ In kv (checked (sh_layer (snd ns)) (sh_box (snd ns))) /\ verdict ns kv = Some e /\ In x e).
  Proof.
    unfold assemble. intros H. destruct (fa_map h) as [fa|]; [|discriminate].
    match type of H with match ?f with _ => _ end = _ => destruct f as [[[ts0 ds0] es0]|] eqn:E0 end; [|discriminate].
    apply import_fold in E0 as (xs & F & H1 & H2 & H3). cbn in H1, H2, H3. subst ts0 ds0 es0.
    match type of H with match ?f with _ => _ end = _ => destruct f as [a|] eqn:E1 end; [|discriminate].
    match type of H with match ?f with _ => _ end = _ => destruct f as [[ts1 es1]|] eqn:E2 end; [|discriminate].
    injection H as -> <- ->. pose proof (nets_ok _ _ _ _ E1) as Hok. apply nets_fold in E1 as (L & HL & HI).
    set (G := flat_map (fun g => map (pair (g_name g)) (pg_shapes g)) [h_gnd h; h_vdd h]).
    assert (E3 : foldO add1 a G = Some (ts, es)).
    { unfold G. rewrite <- foldO_flat. rewrite <- E2. apply foldO_ext. intros a0 g. rewrite foldO_map. apply foldO_ext. reflexivity. }
    assert (E4 : foldO add1 (concat (map (fun x => fst (fst x)) xs), concat (map snd xs)) (L ++ G) = Some (ts, es)) by (rewrite foldO_app, HL; exact E3).
    apply add_fold in E4 as (e' & A1 & A2 & A3 & A4). cbn [fst snd] in A1, A2. exists fa, xs, (L ++ G)%list, e'.
    split; [reflexivity|]. split; [assumption|]. split; [assumption|]. split; [reflexivity|]. split; [assumption|]. split; [|auto].
    assert (HG : forall nm s, In (nm, s) G <-> exists g, (g = h_gnd h \/ g = h_vdd h) /\ nm = g_name g /\ In s (pg_shapes g)).
    { intros nm s. unfold G. rewrite in_flat_map. split.
      - intros (g & Hg & H). apply in_map_iff in H as (s' & E & H). injection E as <- <-. exists g. destruct Hg as [<-|[<-|[]]]; auto.
      - intros (g & Hg & -> & H). exists g. split; [cbn; intuition|]. apply in_map_iff. eauto. }
    intros nm s. rewrite in_app_iff, HI, HG. split.
    - intros [(n & l & Hn & -> & Hl & Hs)|(g & Hg & -> & Hs)].
      + eapply net_draws; eauto. now apply in_all_nets.
      + unfold pg_shapes in Hs. apply in_app_iff in Hs as [Hs|Hs]; [now apply draws_grid|]. apply in_vias in Hs as (u & w & v & H & Hs). eapply draws_grid_via; eauto.
    - intros H. apply (draws_net h nm s (all_nets h)); auto. intros n. apply in_all_nets.
  Qed.

  Lemma filter_nil_all {A} (f : A -> bool) l : filter (fun x => negb (f x)) l = [] -> forall x, In x l -> f x = true.
  Proof. induction l as [|a l IH]; cbn; [intros _ ? []|]. destruct (f a) eqn:E; cbn; [|discriminate]. intros H x [<-|Hx]; auto. Qed.

  Lemma concat_nil {A} (l : list (list A)) : concat l = [] -> forall x, In x l -> x = [].
  Proof. induction l as [|a l IH]; cbn; [intros _ ? []|]. intros H. apply app_eq_nil in H as [-> H]. intros x [<-|Hx]; auto. Qed.

  Lemma scaling_ok mul div bb ts bb' ts' : rational_scaling mul div bb ts = Some (bb', ts', []) ->
    ts' = map (fun t => with_rect t (map4 (fun c => mul * c / div) (t_rect t))) ts /\ forall t, In t ts -> all4 (divides mul div) (t_rect t) = true.
  Proof.
    unfold rational_scaling. destruct (all4 _ bb); [|discriminate]. intros [= _ <- E]. split; [reflexivity|].
    apply map_eq_nil in E. exact (filter_nil_all (fun t => all4 (divides mul div) (t_rect t)) ts E).
  Qed.
End Assembly.

Lemma F2_filter_map {A B} (R : A -> B -> Prop) (f : A -> bool) (g : B -> bool) (h : A -> B) l :
  (forall x, g (h x) = f x) -> (forall x, In x l -> f x = true -> R x (h x)) -> Forall2 R (filter f l) (filter g (map h l)).
Proof.
  intros E. induction l as [|x l IH]; cbn; intros H; [constructor|]. rewrite E. destruct (f x) eqn:F; [constructor|]; auto.
Qed.

Lemma F2_in_map {A B C} (R : A -> B -> Prop) (S : A -> C -> Prop) (g : B -> C) l m :
  Forall2 R l m -> (forall x y, In x l -> In y m -> R x y -> S x (g y)) -> Forall2 S l (map g m).
Proof. induction 1; cbn; intros K; constructor; auto. Qed.

Definition rescale (sf : Z) (t : term) : term := with_rect t (map4 (fun c => sf * c / 2) (t_rect t)).

Lemma map_concat {A B} (f : A -> B) l : map f (concat l) = concat (map (map f) l).
Proof. induction l as [|x l IH]; cbn; [reflexivity|]. now rewrite map_app, IH. Qed.

Lemma filter_map_comm {A B} (f : A -> bool) (g : B -> bool) (h : A -> B) l : (forall x, g (h x) = f x) -> filter g (map h l) = map h (filter f l).
Proof. intros E. induction l as [|x l IH]; cbn; [reflexivity|]. rewrite E. destruct (f x); cbn; congruence. Qed.

Section Layout.
  Context {P : Type}.
  Variables (file : string -> option (lay P)) (grids : string -> option Grid) (sf : Z).
  Hypothesis sf_pos : 0 < sf.

  Definition not_boundary (t : term) : bool := negb (String.eqb (t_layer t) "boundary").

  (** The copies of the terminals of one block. *)
  Definition block_part (h : hnode) (b : block) (xs : list term) : Prop :=
    match file (k_master b) with None => xs = [] | Some l => Forall2 (copy sf h b) (filter not_boundary (ly_terms l)) xs end.

  Definition own_in_pdk (h : hnode) (x : term) : Prop :=
    exists nm s r, draws h nm s /\ shape_in_pdk sf (sh_box s) r /\ x = mkTerm (sh_layer s) (Some nm) r "drawing" None.

  Lemma shape_scale r : all4 (divides sf 2) r = true -> shape_in_pdk sf r (map4 (fun c => sf * c / 2) r).
  Proof. intros H. apply all4_ok in H as (A & B & C & D). unfold shape_in_pdk, map4. cbn [llx lly urx ury].
    assert (K : forall z, z mod 2 = 0 -> 2 * (z / 2) = z) by (intros z; lia). auto.
  Qed.

  Lemma shape_unique r a b : shape_in_pdk sf r a -> shape_in_pdk sf r b -> a = b.
  Proof. destruct a as [a1 a2 a3 a4], b as [b1 b2 b3 b4]. unfold shape_in_pdk. cbn [llx lly urx ury]. intros (A & B & C & D) (A' & B' & C' & D'). f_equal; lia. Qed.

  Lemma scaled_parts h bb ts ds : well_named h -> scaled file grids sf h = Some (bb, ts, ds, []) ->
    exists xss own, ts = (concat xss ++ own)%list /\ Forall2 (block_part h) (h_blocks h) xss /\ (forall x, In x own <-> own_in_pdk h x).
  Proof.
    intros W H. unfold scaled in H. destruct (assemble file grids sf h) as [[[ts0 ds0] es0]|] eqn:EA; [|discriminate].
    destruct (rational_scaling sf 2 (h_box h) ts0) as [[[bb' ts'] es']|] eqn:ER; [|discriminate]. injection H as <- <- <- E.
    apply app_eq_nil in E as [-> ->]. apply scaling_ok in ER as [-> HD].
    apply assemble_parts in EA as (fa & xs & L & e' & Hfa & F & Ets & _ & Ees & HL & _). symmetry in Ees. apply app_eq_nil in Ees as [Ees _].
    exists (map (fun x => map (rescale sf) (fst (fst x))) xs), (map (rescale sf) (map own_term L)). split; [|split].
    - rewrite Ets, map_app. f_equal. rewrite map_concat, map_map. reflexivity.
    - eapply F2_in_map; [exact F|]. intros b x Hb Hx HI. unfold imported, import_block in HI. unfold block_part.
      destruct (file (k_master b)) as [l|] eqn:Efile; [|injection HI as <-; reflexivity].
      destruct (rational_scaling 2 sf (ly_bbox l) (ly_terms l)) as [[[bb1 ts1] es1]|] eqn:ER; [|discriminate]. injection HI as <-. cbn [fst snd] in *.
      assert (es1 = []) as ->. { apply (concat_nil _ Ees). apply in_map_iff. eexists. split; [|exact Hx]. reflexivity. }
      apply scaling_ok in ER as [-> HD1]. rewrite map_map.
      set (imp := fun t => import fa (power_names h) b (with_rect t (map4 (fun c => 2 * c / sf) (t_rect t)))).
      assert (Hl : forall t, t_layer (imp t) = t_layer t) by (intros t; unfold imp, import; destruct (t_term (with_rect t _)) as [[i p]|]; reflexivity).
      rewrite (filter_map_comm not_boundary) by (intros t; unfold not_boundary; now rewrite Hl). rewrite map_map.
      assert (HK : forall t, In t (filter not_boundary (ly_terms l)) -> copy sf h b t (rescale sf (imp t))).
      { intros t Ht. apply filter_In in Ht as [Ht Hnb].
        assert (Hin : In (imp t) ts0).
        { rewrite Ets. apply in_app_iff. left. apply in_concat. eexists. split; [apply in_map_iff; eexists; split; [|exact Hx]; reflexivity|].
          cbn [fst snd]. apply filter_In. split; [|unfold not_boundary in Hnb; now rewrite Hl]. rewrite map_map. apply in_map_iff. exists t. auto. }
        specialize (HD _ Hin). specialize (HD1 _ Ht).
        assert (Hrect : t_rect (imp t) = canonical (hitRect (gen_transformation (k_blk b)) (map4 (fun c => 2 * c / sf) (t_rect t)))).
        { unfold imp, import. destruct (t_term (with_rect t _)) as [[i p]|]; reflexivity. }
        rewrite Hrect in HD. destruct (place_scaled sf _ _ sf_pos HD1 HD) as (T' & HT & HE).
        unfold copy, rescale. cbn [with_rect t_layer t_type t_rect t_net t_term]. split; [apply Hl|]. split; [unfold imp, import; destruct (t_term (with_rect t _)) as [[i p]|]; reflexivity|].
        split; [exists T'; split; [exact HT|rewrite Hrect; exact HE]|].
        unfold imp, import. change (t_term (with_rect t _)) with (t_term t) at 1 2 3. cbn [with_rect t_term t_net].
        destruct (t_term t) as [[i p]|]; cbn [t_term t_net]; [auto|]. split; [reflexivity|].
        destruct (t_net t) as [nm|]; [|reflexivity]. apply new_name_named; assumption. }
      clear -HK. induction (filter not_boundary (ly_terms l)) as [|t r IH]; cbn [map]; constructor; [apply HK; now left|apply IH; intros u Hu; apply HK; now right].
    - intros x. rewrite map_map, in_map_iff. split.
      + intros ([nm s] & <- & HI). exists nm, s, (map4 (fun c => sf * c / 2) (sh_box s)). split; [now apply HL|]. split; [|reflexivity].
        apply shape_scale. assert (Hin : In (own_term (nm, s)) ts0) by (rewrite Ets; apply in_app_iff; right; now apply in_map). exact (HD _ Hin).
      + intros (nm & s & r & Hd & Hr & ->). apply HL in Hd. exists (nm, s). split; [|assumption].
        assert (Hin : In (own_term (nm, s)) ts0) by (rewrite Ets; apply in_app_iff; right; now apply in_map). specialize (HD _ Hin). cbn [own_term t_rect] in HD.
        unfold rescale, own_term, with_rect. cbn [t_layer t_net t_rect t_type t_term fst snd]. now rewrite (shape_unique _ _ _ Hr (shape_scale _ HD)).
  Qed.

  Lemma F2_pick {A B} (R : A -> B -> Prop) l m : Forall2 R l m -> forall x, In x l -> exists y, In y m /\ R x y.
  Proof. induction 1; cbn; intros z []; [subst; eauto|]. destruct (IHForall2 z H1) as (w & ? & ?). eauto. Qed.
  Lemma F2_pick_r {A B} (R : A -> B -> Prop) l m : Forall2 R l m -> forall y, In y m -> exists x, In x l /\ R x y.
  Proof. induction 1; cbn; intros z []; [subst; eauto|]. destruct (IHForall2 z H1) as (w & ? & ?). eauto. Qed.

  Lemma scaled_fwd h bb ts ds b l s : well_named h -> scaled file grids sf h = Some (bb, ts, ds, []) -> In b (h_blocks h) -> file (k_master b) = Some l ->
    In s (ly_terms l) -> t_layer s <> "boundary"%string -> exists x, In x ts /\ copy sf h b s x.
  Proof.
    intros W H Hb Hf Hs Hl. destruct (scaled_parts _ _ _ _ W H) as (xss & own & -> & F & _).
    destruct (F2_pick _ _ _ F b Hb) as (xs & Hxs & HB). unfold block_part in HB. rewrite Hf in HB.
    destruct (F2_pick _ _ _ HB s) as (x & Hx & HC). { apply filter_In. split; [assumption|]. unfold not_boundary. destruct (String.eqb_spec (t_layer s) "boundary"); [contradiction|reflexivity]. }
    exists x. split; [|assumption]. apply in_app_iff. left. apply in_concat. eauto.
  Qed.

  Lemma scaled_bwd h bb ts ds x : well_named h -> scaled file grids sf h = Some (bb, ts, ds, []) -> In x ts ->
    own_in_pdk h x \/ exists b l s, In b (h_blocks h) /\ file (k_master b) = Some l /\ In s (ly_terms l) /\ t_layer s <> "boundary"%string /\ copy sf h b s x.
  Proof.
    intros W H Hx. destruct (scaled_parts _ _ _ _ W H) as (xss & own & -> & F & HO).
    apply in_app_iff in Hx as [Hx|Hx]; [|left; now apply HO]. right. apply in_concat in Hx as (xs & Hxs & Hx).
    destruct (F2_pick_r _ _ _ F xs Hxs) as (b & Hb & HB). unfold block_part in HB. destruct (file (k_master b)) as [l|] eqn:E; [|subst; destruct Hx].
    destruct (F2_pick_r _ _ _ HB x Hx) as (s & Hs & HC). apply filter_In in Hs as [Hs Hn]. exists b, l, s.
    split; [assumption|]. split; [assumption|]. split; [assumption|]. split; [|assumption]. unfold not_boundary in Hn. destruct (String.eqb_spec (t_layer s) "boundary"); [discriminate|assumption].
  Qed.
End Layout.
