(** Pins of symmetric nets. *)
From Coq Require Import String ZifyBool.
From Verif Require Import Base.Prelude Base.PyDict Model.RemoveDuplicates Model.Netlist Model.UpdateConst Model.SymConst Model.SymNet Spec.SymNetSpec Proofs.NetlistP Proofs.HierP Proofs.SymConstP.

Lemma conn_eqb_eq a b : conn_eqb a b = true <-> a = b.
Proof. destruct a, b; cbn; rewrite ?andb_true_iff, ?String.eqb_eq; split; intros H; try discriminate; try (destruct H; congruence); try congruence; try (injection H; auto). Qed.
Lemma has_conn a l : existsb (conn_eqb a) l = true <-> In a l.
Proof. rewrite existsb_exists. split; [intros (x & Hx & E); apply conn_eqb_eq in E; now subst|intros H; exists a; split; [assumption|now apply conn_eqb_eq]]. Qed.
Lemma in_smb_iff a b w : in_smb a b w = true <-> partners w a b.
Proof.
  unfold in_smb, partners. rewrite existsb_exists. split.
  - intros ([s|l] & Hl & E); [discriminate|]. exists l. split; [assumption|]. apply andb_true_iff in E as (E & E3). apply andb_true_iff in E as (E1 & E2). apply in_strs_iff in E2, E3. rewrite forallb_forall in E1. intros x. split; [|intros [->| ->]; assumption]. intros Hx. specialize (E1 x Hx). apply in_strs_iff in E1. destruct E1 as [<-|[<-|[]]]; auto.
  - intros (l & Hl & E). exists (WSet l). split; [assumption|]. rewrite !andb_true_iff. split; [split|].
    + apply forallb_forall. intros x Hx. apply in_strs_iff. apply E in Hx as [->| ->]; cbn; auto.
    + apply in_strs_iff, E. auto.
    + apply in_strs_iff, E. auto.
Qed.
Lemma foldO_ind {A B} (f : B -> A -> option B) (P : list A -> B -> Prop) l : forall done b b', P done b -> (forall done a b b', In a l -> P done b -> f b a = Some b' -> P (done ++ [a]) b') -> foldO f l b = Some b' -> P (done ++ l) b'.
Proof.
  induction l as [|a l IH]; intros done b b' H Hs E; cbn [foldO] in E; [injection E as <-; now rewrite app_nil_r|]. destruct (f b a) as [b1|] eqn:Eb; [|discriminate]. change (a :: l) with ([a] ++ l). rewrite app_assoc. apply (IH (done ++ [a]) b1); [apply (Hs done a b b1); [now left|assumption|assumption]| |assumption]. intros d x y y' Hx Hp Hf. apply (Hs d x y y'); [now right|assumption|assumption].
Qed.
Lemma snd_sset d k v x : In x (map snd (sset d k v)) -> x = v \/ In x (map snd d).
Proof. intros H. apply in_map_iff in H as ((a, b) & <- & H). revert H. unfold sset, dset. induction d as [|(k', v') d IH]; cbn; [intros [[= <- <-]|[]]; auto|]. destruct (String.eqb k k'); cbn; [intros [[= <- <-]|H]; [auto|right; right; now apply (in_map snd _ _ H)]|]. intros [[= <- <-]|H]; [auto|]. destruct (IH H); auto. Qed.

Section Net.
  Variables (model : string -> string) (smb : list written) (skip : list string) (user : bool) (A B : list (conn * string)).
  Notation step := (net_step model smb skip user).
  Lemma step_cases s a b s' : step s (a, b) = Some s' ->
    s' = s \/ (eligible model smb skip user a b /\ ps_A s' = ps_A s ++ [fst a] /\ ps_B s' = ps_B s ++ [fst b] /\
      match fst a, fst b with
      | CPin i _, CPin j _ => ps_pairs s' = sset (ps_pairs s) i j /\ ~ In j (map snd (ps_pairs s))
      | CPort n, CPort m => ps_pairs s' = sset (ps_pairs s) n m /\ ~ In (fst a) (ps_A s) /\ ~ In (fst b) (ps_B s)
      | _, _ => False
      end).
  Proof.
    destruct a as (a, ta), b as (b, tb). unfold net_step. destruct a as [i p|n], b as [j q|m]; try (intros [= <-]; now left).
    - destruct (in_strs i skip || in_strs j skip) eqn:K; [intros [= <-]; now left|]. apply orb_false_iff in K as (K1 & K2). rewrite in_strs_false in K1, K2.
      destruct (String.eqb_spec ta tb) as [->|]; cbn [andb]; [|intros [= <-]; now left]. destruct (String.eqb_spec (model i) (model j)) as [Em|]; [|intros [= <-]; now left].
      destruct (in_strs j (map snd (ps_pairs s))) eqn:J; [discriminate|]. rewrite in_strs_false in J. destruct (negb user && negb (in_smb i j smb)) eqn:U; [intros [= <-]; now left|]. intros [= <-]. right. cbn. split; [|auto]. split; [split; [reflexivity|assumption]|]. cbn. split; [assumption|]. split; [assumption|]. destruct user; [now left|right]. cbn in U. apply in_smb_iff. now destruct (in_smb i j smb).
    - destruct (String.eqb_spec ta tb) as [->|]; cbn [andb]; [|intros [= <-]; now left]. destruct (existsb (conn_eqb (CPort n)) (ps_A s)) eqn:E1; cbn [negb andb]; [intros [= <-]; now left|]. destruct (existsb (conn_eqb (CPort m)) (ps_B s)) eqn:E2; cbn [negb]; [intros [= <-]; now left|]. intros [= <-]. right. cbn [fst ps_A ps_B ps_pairs]. split; [repeat split|]. split; [reflexivity|]. split; [reflexivity|]. split; [reflexivity|]. split; intros H; apply has_conn in H; congruence.
  Qed.
  Definition sound (s : pins_state) : Prop := Forall2 (fun a b => exists ta tb, In (a, ta) A /\ In (b, tb) B /\ eligible model smb skip user (a, ta) (b, tb)) (ps_A s) (ps_B s).
  Lemma fold_sound s : foldO step (list_prod A B) (mkPS [] [] []) = Some s -> sound s.
  Proof.
    intros H. refine (foldO_ind _ (fun _ => sound) _ [] _ _ _ _ H); [constructor|]. intros done ((a, ta), (b, tb)) x x' Hi Hx E. apply in_prod_iff in Hi as (Ha & Hb). destruct (step_cases _ _ _ _ E) as [->|(El & EA & EB & _)]; [assumption|]. unfold sound. rewrite EA, EB. apply Forall2_app; [assumption|]. constructor; [|constructor]. exists ta, tb. auto.
  Qed.

  (** One-to-one without a user constraint. *)
  Hypothesis apart : forall l l' x, In (WSet l) smb -> In (WSet l') smb -> In x l -> In x l' -> forall y, In y l -> In y l'.
  Hypothesis names : forall n i p, In (CPort n) (map fst A) -> In (CPin i p) (map fst A) -> n <> i.
  Hypothesis not_user : user = false.
  Lemma partner_unique i j j' : partners smb i j -> partners smb i j' -> j = j'.
  Proof.
    intros (l & H1 & E1) (l' & H2 & E2). assert (X : forall y, In y l -> In y l') by (apply (apart l l' i H1 H2); [apply E1|apply E2]; auto). assert (Y : forall y, In y l' -> In y l) by (apply (apart l' l i H2 H1); [apply E2|apply E1]; auto).
    assert (Ij : In j l) by (apply E1; auto). assert (Ij' : In j' l') by (apply E2; auto). apply X in Ij. apply Y in Ij'. apply E2 in Ij. apply E1 in Ij'. destruct Ij as [->|Ij]; [|congruence]. destruct Ij' as [->|Ij']; congruence.
  Qed.
  Definition oto (s : pins_state) : Prop := NoDup (ps_A s) /\ NoDup (ps_B s) /\ (forall a, In a (ps_A s) -> In a (map fst A)) /\
    (forall i p, In (CPin i p) (ps_A s) -> exists j, partners smb i j /\ sget (ps_pairs s) i = Some j) /\
    (forall j q, In (CPin j q) (ps_B s) -> exists i p, In (CPin i p) (ps_A s) /\ sget (ps_pairs s) i = Some j).
  Lemma nodup_snoc {T} (l : list T) x : NoDup l -> ~ In x l -> NoDup (l ++ [x]).
  Proof. intros N H. apply nodup_app'; [assumption|constructor; [intros []|constructor]|]. intros y Hy [->|[]]. contradiction. Qed.
  Lemma fold_oto s : foldO step (list_prod A B) (mkPS [] [] []) = Some s -> oto s.
  Proof.
    intros H. refine (foldO_ind _ (fun _ => oto) _ [] _ _ _ _ H); [split; [constructor|]; split; [constructor|]; split; [intros a []|]; split; [intros i p []|intros j q []]|].
    intros done ((a, ta), (b, tb)) x x' Hi Hx E. apply in_prod_iff in Hi as (Ha & Hb). destruct (step_cases _ _ _ _ E) as [->|(El & EA & EB & M)]; [assumption|]. cbn [fst] in EA, EB, M. destruct Hx as (N1 & N2 & D & I1 & I2). apply (in_map fst) in Ha. cbn [fst] in Ha.
    assert (D' : forall a', In a' (ps_A x') -> In a' (map fst A)) by (rewrite EA; intros a'; rewrite in_app_iff; intros [X|[<-|[]]]; auto).
    unfold oto. rewrite EA, EB in *. destruct a as [i p|n], b as [j q|m]; try contradiction M.
    - destruct M as (Ep & Nj). rewrite Ep. destruct El as (_ & _ & _ & Pa). cbn [fst] in Pa. destruct Pa as [Pa|Pa]; [congruence|].
      assert (Ni : forall p', ~ In (CPin i p') (ps_A x)) by (intros p' Hp; destruct (I1 i p' Hp) as (j0 & P0 & G); rewrite (partner_unique i j j0 Pa P0) in Nj; apply Nj, (in_map snd _ (i, j0)); now apply sget_in).
      assert (Nj' : forall q', ~ In (CPin j q') (ps_B x)) by (intros q' Hq; destruct (I2 j q' Hq) as (i0 & p0 & _ & G); apply Nj, (in_map snd _ (i0, j)); now apply sget_in).
      split; [now apply nodup_snoc|]. split; [now apply nodup_snoc|]. split; [assumption|]. split.
      + intros i0 p0. rewrite in_app_iff. intros [X|[[= <- <-]|[]]]; [destruct (I1 i0 p0 X) as (j0 & P0 & G); exists j0; split; [assumption|]; rewrite sget_sset_other; [assumption|intros ->; exact (Ni p0 X)]|exists j; split; [assumption|apply sget_sset_same]].
      + intros j0 q0. rewrite in_app_iff. intros [X|[[= <- <-]|[]]]; [destruct (I2 j0 q0 X) as (i0 & p0 & Y & G); exists i0, p0; split; [rewrite in_app_iff; now left|]; rewrite sget_sset_other; [assumption|intros ->; exact (Ni p0 Y)]|exists i, p; split; [rewrite in_app_iff; right; now left|apply sget_sset_same]].
    - destruct M as (Ep & Na & Nb). rewrite Ep. split; [now apply nodup_snoc|]. split; [now apply nodup_snoc|]. split; [assumption|].
      assert (Ne : forall i0 p0, In (CPin i0 p0) (ps_A x) -> i0 <> n) by (intros i0 p0 X Y; exact (names n i0 p0 Ha (D _ X) (eq_sym Y))). split.
      + intros i0 p0. rewrite in_app_iff. intros [X|[X|[]]]; [|discriminate]. destruct (I1 i0 p0 X) as (j0 & P0 & G). exists j0. split; [assumption|]. rewrite sget_sset_other; [assumption|exact (Ne _ _ X)].
      + intros j0 q0. rewrite in_app_iff. intros [X|[X|[]]]; [|discriminate]. destruct (I2 j0 q0 X) as (i0 & p0 & Y & G). exists i0, p0. split; [rewrite in_app_iff; now left|]. rewrite sget_sset_other; [assumption|exact (Ne _ _ Y)].
  Qed.
End Net.

Section Complete.
  Variables (model : string -> string) (smb : list written) (skip : list string) (user : bool) (A B : list (conn * string)).
  Notation step := (net_step model smb skip user).
  Hypothesis NA : NoDup A.
  Hypothesis NB : NoDup B.
  Hypothesis once : forall b b' j q q', In b B -> In b' B -> fst b = CPin j q -> fst b' = CPin j q' -> b = b'.
  Hypothesis one : forall a a' b, In a A -> In a' A -> In b B -> alike model a b -> alike model a' b -> a = a'.
  Hypothesis ports : forall m j q, In (CPort m) (map fst B) -> In (CPin j q) (map fst B) -> m <> j.
  Definition comp (done : list ((conn * string) * (conn * string))) (s : pins_state) : Prop :=
    length (ps_A s) = length (ps_B s) /\
    (forall a b i p j q, In (a, b) done -> eligible model smb skip user a b -> fst a = CPin i p -> fst b = CPin j q -> In (fst a, fst b) (combine (ps_A s) (ps_B s)) /\ In i (map fst (ps_pairs s))) /\
    (forall j, In j (map snd (ps_pairs s)) -> In (CPort j) (map fst B) \/ exists a b q, In (a, b) done /\ alike model a b /\ fst b = CPin j q).
  Lemma combine_snoc {X Y} (l : list X) (l' : list Y) x y : length l = length l' -> combine (l ++ [x]) (l' ++ [y]) = combine l l' ++ [(x, y)].
  Proof. revert l'. induction l as [|a l IH]; intros [|b l'] H; try discriminate; [reflexivity|]. cbn. f_equal. apply IH. now injection H. Qed.
  Lemma step_some done s a b : In a A -> In b B -> ~ In (a, b) done -> (forall e, In e done -> In (fst e) A /\ In (snd e) B) -> comp done s -> exists s', step s (a, b) = Some s' /\ comp (done ++ [(a, b)]) s'.
  Proof.
    intros Ha Hb Nd Hd (L & C1 & C2).
    assert (Keep : forall s', s' = s -> (forall i p j q, eligible model smb skip user a b -> fst a = CPin i p -> fst b = CPin j q -> False) -> comp (done ++ [(a, b)]) s').
    { intros s' -> Hn. split; [assumption|]. split.
      - intros a0 b0 i p j q Hi El Ea Eb. apply in_app_iff in Hi as [Hi|[[= <- <-]|[]]]; [exact (C1 _ _ _ _ _ _ Hi El Ea Eb)|destruct (Hn i p j q El Ea Eb)].
      - intros j Hj. destruct (C2 j Hj) as [X|(a0 & b0 & q & X & Y)]; [now left|right; exists a0, b0, q; split; [rewrite in_app_iff; now left|assumption]]. }
    destruct a as (a, ta), b as (b, tb). unfold net_step. destruct a as [i p|n], b as [j q|m]; cbn [fst] in *; try (exists s; split; [reflexivity|apply Keep; [reflexivity|intros; discriminate]]).
    - destruct (in_strs i skip || in_strs j skip) eqn:K; [exists s; split; [reflexivity|apply Keep; [reflexivity|]]|].
      { intros i0 p0 j0 q0 (_ & K1 & K2 & _) _ _. cbn in K1, K2. rewrite <- in_strs_false in K1, K2. rewrite K1, K2 in K. discriminate. }
      destruct (String.eqb_spec ta tb) as [<-|Nt]; cbn [andb]; [|exists s; split; [reflexivity|apply Keep; [reflexivity|intros ? ? ? ? ((X & _) & _); contradiction]]]. destruct (String.eqb_spec (model i) (model j)) as [Em|Nm]; [|exists s; split; [reflexivity|apply Keep; [reflexivity|intros ? ? ? ? ((_ & X) & _); contradiction]]].
      assert (Al : alike model (CPin i p, ta) (CPin j q, ta)) by (split; [reflexivity|assumption]).
      assert (J : in_strs j (map snd (ps_pairs s)) = false).
      { apply in_strs_false. intros Hj. destruct (C2 j Hj) as [X|(a0 & b0 & q0 & X & Y & Z)]; [exact (ports j j q X (in_map fst _ _ Hb) eq_refl)|]. destruct (Hd _ X) as (A0 & B0). cbn [fst snd] in A0, B0. assert (b0 = (CPin j q, ta)) by (apply (once b0 _ j q0 q); auto). subst b0. assert (a0 = (CPin i p, ta)) by (apply (one a0 _ (CPin j q, ta)); auto). subst a0. contradiction. }
      rewrite J. destruct (negb user && negb (in_smb i j smb)) eqn:U.
      { exists s. split; [reflexivity|]. apply Keep; [reflexivity|]. intros ? ? ? ? (_ & _ & _ & X) _ _. cbn in X. destruct X as [X|X]; [rewrite X in U; discriminate|]. apply in_smb_iff in X. rewrite X in U. rewrite andb_false_r in U. discriminate. }
      eexists. split; [reflexivity|]. split; [cbn; rewrite !app_length; cbn; lia|]. cbn [ps_A ps_B ps_pairs]. split.
      + intros a0 b0 i0 p0 j0 q0 Hi El Ea Eb. rewrite combine_snoc by assumption. rewrite in_app_iff. apply in_app_iff in Hi as [Hi|[[= <- <-]|[]]].
        * destruct (C1 _ _ _ _ _ _ Hi El Ea Eb) as (X & Y). split; [now left|]. apply shas_in. unfold shas, dmem. rewrite <- (shas_in _ i0) in Y. unfold shas, dmem in Y. fold (sget (sset (ps_pairs s) i j) i0). fold (sget (ps_pairs s) i0) in Y. rewrite sget_sset. destruct (String.eqb i0 i); [reflexivity|assumption].
        * cbn [fst] in *. injection Ea as <- <-. split; [right; now left|]. apply in_map_iff. exists (i, j). split; [reflexivity|]. apply sget_in, sget_sset_same.
      + intros j0 Hj0. apply snd_sset in Hj0 as [->|Hj0]; [right; exists (CPin i p, ta), (CPin j q, ta), q; split; [rewrite in_app_iff; right; now left|auto]|]. destruct (C2 j0 Hj0) as [X|(a0 & b0 & q0 & X & Y)]; [now left|right; exists a0, b0, q0; split; [rewrite in_app_iff; now left|assumption]].
    - destruct (_ && _); [|exists s; split; [reflexivity|apply Keep; [reflexivity|intros; discriminate]]]. eexists. split; [reflexivity|]. split; [cbn; rewrite !app_length; cbn; lia|]. cbn [ps_A ps_B ps_pairs]. split.
      + intros a0 b0 i0 p0 j0 q0 Hi El Ea Eb. rewrite combine_snoc by assumption. rewrite in_app_iff. apply in_app_iff in Hi as [Hi|[[= <- <-]|[]]]; [|discriminate]. destruct (C1 _ _ _ _ _ _ Hi El Ea Eb) as (X & Y). split; [now left|]. apply shas_in. unfold shas, dmem. rewrite <- (shas_in _ i0) in Y. unfold shas, dmem in Y. fold (sget (sset (ps_pairs s) n m) i0). fold (sget (ps_pairs s) i0) in Y. rewrite sget_sset. destruct (String.eqb i0 n); [reflexivity|assumption].
      + intros j0 Hj0. apply snd_sset in Hj0 as [->|Hj0]; [left; exact (in_map fst _ _ Hb)|]. destruct (C2 j0 Hj0) as [X|(a0 & b0 & q0 & X & Y)]; [now left|right; exists a0, b0, q0; split; [rewrite in_app_iff; now left|assumption]].
  Qed.
  Lemma nodup_prod : NoDup (list_prod A B).
  Proof.
    clear once one ports. induction A as [|a l IH]; cbn; [constructor|]. inversion NA; subst. apply nodup_app'; [|now apply IH|].
    - apply FinFun.Injective_map_NoDup; [|assumption]. intros x y [= ->]. reflexivity.
    - intros x Hx Hy. apply in_map_iff in Hx as (y & <- & _). apply in_prod_iff in Hy as (Hy & _). contradiction.
  Qed.
  Lemma fold_comp l : forall done s, NoDup (done ++ l) -> (forall e, In e (done ++ l) -> In (fst e) A /\ In (snd e) B) -> comp done s -> exists s', foldO step l s = Some s' /\ comp (done ++ l) s'.
  Proof.
    induction l as [|(a, b) l IH]; intros done s N Hi C; cbn [foldO]; [exists s; now rewrite app_nil_r|].
    destruct (Hi (a, b)) as (Ha & Hb); [rewrite in_app_iff; right; now left|]. cbn [fst snd] in Ha, Hb.
    destruct (step_some done s a b Ha Hb) as (s1 & E & C1); [apply NoDup_remove_2 in N; rewrite in_app_iff in N; tauto|intros e He; apply Hi; rewrite in_app_iff; now left|assumption|]. rewrite E.
    change ((a, b) :: l) with ([(a, b)] ++ l) in *. rewrite app_assoc in *. apply IH; assumption.
  Qed.
  Lemma sym_pins_complete : exists s, foldO step (list_prod A B) (mkPS [] [] []) = Some s /\ comp (list_prod A B) s.
  Proof.
    apply (fold_comp (list_prod A B) []); [exact nodup_prod|intros (a, b) He; apply in_prod_iff in He; exact He|]. split; [reflexivity|]. split; [intros ? ? ? ? ? ? []|intros ? []].
  Qed.
End Complete.
