(** Lemmas on the resolution of parameters. *)
From Coq Require Import String Ascii.
From Verif Require Import Base.Prelude Base.PyDict Base.PyStr Model.RemoveDuplicates Model.Canvas Model.Netlist Model.Hier Model.ResolveParams Spec.HierSpec Spec.ParamSpec
  Proofs.HierP Proofs.FindDummyP Proofs.NetlistP Proofs.AbstractNameP.
From Coq Require Import ZifyBool.

Lemma str_app a b : list_ascii_of_string (a ++ b)%string = list_ascii_of_string a ++ list_ascii_of_string b.
Proof. induction a as [|c a IH]; [reflexivity|]. simpl. now rewrite IH. Qed.
Lemma copy_name_inj m k m' k' : copy_name m k = copy_name m' k' -> m = m' /\ k = k'.
Proof.
  unfold copy_name. intros E. apply (f_equal list_ascii_of_string) in E. rewrite !str_app in E. unfold zstr in E. rewrite !list_ascii_of_string_of_list_ascii in E. cbn [list_ascii_of_string app] in E.
  apply split_last in E as (E1 & E2); [|apply print_nonneg; lia|apply print_nonneg; lia]. apply print_Z_inj in E2. split; [|lia].
  rewrite <- (string_of_list_ascii_of_string m), <- (string_of_list_ascii_of_string m'). now f_equal.
Qed.
Lemma set_sub_names L n s' : sb_name s' = n -> map cell_name (set_sub L n s') = map cell_name L.
Proof. intros E. unfold set_sub. rewrite map_map. apply map_ext. intros c. destruct (String.eqb_spec (cell_name c) n) as [H|H]; [simpl; congruence|reflexivity]. Qed.
Lemma lfind_set L n s' x : sb_name s' = n -> lfind (set_sub L n s') x = if String.eqb x n then option_map (fun _ => Sub s') (lfind L n) else lfind L x.
Proof.
  intros E. unfold lfind, set_sub. induction L as [|c L IH]; simpl; [now destruct (String.eqb x n)|]. destruct (String.eqb_spec (cell_name c) n) as [H|H].
  - simpl. rewrite E. rewrite (String.eqb_sym n x). destruct (String.eqb_spec x n) as [->|Hx]; [reflexivity|]. rewrite H. destruct (String.eqb_spec n x) as [->|_]; [congruence|]. exact IH.
  - destruct (String.eqb_spec (cell_name c) x) as [Hc|Hc].
    + destruct (String.eqb_spec x n) as [->|_]; [congruence|]. reflexivity.
    + exact IH.
Qed.
Lemma lfind_set_same L n s s' : sb_name s' = n -> lfind L n = Some (Sub s) -> lfind (set_sub L n s') n = Some (Sub s').
Proof. intros E H. rewrite lfind_set, String.eqb_refl, H; [reflexivity|assumption]. Qed.
Lemma lfind_set_other L n s' x : sb_name s' = n -> x <> n -> lfind (set_sub L n s') x = lfind L x.
Proof. intros E H. rewrite lfind_set by assumption. destruct (String.eqb_spec x n); [contradiction|reflexivity]. Qed.
Lemma lfind_app L L' x : lfind (L ++ L') x = match lfind L x with Some c => Some c | None => lfind L' x end.
Proof. unfold lfind. induction L as [|c L IH]; [reflexivity|]. simpl. destruct (String.eqb (cell_name c) x); [reflexivity|exact IH]. Qed.
Lemma meaning_pvalue cp E v : pvalue cp E v = meaning cp E v.
Proof.
  unfold pvalue, meaning, global. destruct (in_dec String.string_dec v (map fst cp)) as [H|H].
  - destruct (sget_key _ _ H) as (w & ->). reflexivity.
  - rewrite (proj2 (sget_none cp v) H). destruct (sget E v); reflexivity.
Qed.
Lemma meanings_pvalues cp E ps : pvalues cp E ps = meanings cp E ps.
Proof. unfold pvalues, meanings. apply map_ext. intros kv. now rewrite meaning_pvalue. Qed.
Lemma meanings_keys cp E ps : map fst (meanings cp E ps) = map fst ps.
Proof. unfold meanings. rewrite map_map. reflexivity. Qed.
Lemma overwrite_keys sp ps : map fst (overwrite sp ps) = map fst sp.
Proof. unfold overwrite. rewrite map_map. reflexivity. Qed.
Lemma overwrite_ext sp sp' ps : map fst sp = map fst sp' -> map fst ps = map fst sp -> overwrite sp ps = overwrite sp' ps.
Proof.
  unfold overwrite. intros E K. assert (H : forall k, In k (map fst sp) -> exists w, sget ps k = Some w) by (intros k Hk; apply sget_key; now rewrite K). clear K. revert sp' E H.
  induction sp as [|(k, v) sp IH]; intros [|(k', v') sp'] E H; try discriminate; [reflexivity|]. injection E as <- E. cbn [map fst snd]. destruct (H k (or_introl eq_refl)) as (w & ->). f_equal. apply IH; [assumption|]. intros q Hq. apply H. now right.
Qed.
Lemma dict_eq_keys (a b : dict) : NoDup (map fst a) -> map fst a = map fst b -> (forall k, In k (map fst a) -> sget a k = sget b k) -> a = b.
Proof.
  revert b. induction a as [|(k, v) a IH]; intros [|(k', v') b] Hn E H; try discriminate; [reflexivity|]. injection E as <- E. inversion Hn as [|? ? Hno Hn']; subst.
  pose proof (H k (or_introl eq_refl)) as Hk. unfold sget in Hk. simpl in Hk. rewrite String.eqb_refl in Hk. injection Hk as <-. f_equal. apply IH; [assumption|assumption|]. intros q Hq. specialize (H q (or_intror Hq)). unfold sget in H. simpl in H. destruct (String.eqb_spec q k) as [e|]; [exfalso; apply Hno; rewrite <- e; exact Hq|exact H].
Qed.
Lemma opt_eqb_eq a b : opt_eqb a b = true <-> a = b.
Proof. destruct a, b; simpl; try (split; congruence). rewrite String.eqb_eq. split; congruence. Qed.
Lemma dict_eqb_get a b k : dict_eqb a b = true -> In k (map fst a) -> sget a k = sget b k.
Proof. unfold dict_eqb. rewrite forallb_forall. intros H Hk. apply opt_eqb_eq, H. apply in_or_app. now left. Qed.
(** The test of lines 108 of create_database.py. *)
Lemma same_values sp param : NoDup (map fst sp) -> map fst param = map fst sp ->
  forallb (fun pv => match sget param (fst pv) with Some w => String.eqb (snd pv) w | None => true end) sp = true <-> sp = overwrite sp param.
Proof.
  intros Hn Hk. rewrite forallb_forall. assert (G : forall k, In k (map fst sp) -> exists w, sget param k = Some w) by (intros k H; apply sget_key; now rewrite Hk). clear Hk Hn. unfold overwrite. induction sp as [|(k, v) sp IH]; [simpl; split; [reflexivity|intros _ ? []]|].
  cbn [map fst snd]. destruct (G k (or_introl eq_refl)) as (w & Hw). rewrite Hw. split.
  - intros H. pose proof (H (k, v) (or_introl eq_refl)) as H0. cbn [fst snd] in H0. rewrite Hw in H0. apply String.eqb_eq in H0 as ->. f_equal. apply IH; [intros q Hq; apply G; now right|]. intros x Hx. apply H. now right.
  - intros E. injection E as -> E. intros x [<-|Hx]; [cbn [fst snd]; rewrite Hw; apply String.eqb_refl|]. exact (proj2 (IH (fun q Hq => G q (or_intror Hq))) E x Hx).
Qed.
Lemma overwrite_self sp : NoDup (map fst sp) -> overwrite sp sp = sp.
Proof.
  intros Hn. apply dict_eq_keys; [rewrite overwrite_keys; assumption|apply overwrite_keys|]. intros k Hk. rewrite overwrite_keys in Hk. destruct (sget_key _ _ Hk) as (v & Hv). rewrite Hv. apply in_sget; [rewrite overwrite_keys; assumption|].
  unfold overwrite. apply in_map_iff. exists (k, v). cbn [fst snd]. rewrite Hv. split; [reflexivity|]. now apply sget_in.
Qed.

(** The name chosen. *)
Lemma pick_name_ok L s param fuel : forall k nn, pick_name fuel L s param k = Some nn ->
  exists j, nn = copy_name (sb_name s) j /\ (lfind L nn = None \/ exists ck, lfind L nn = Some (Sub ck) /\ duplicate s ck (overwrite (sb_params s) param) = true).
Proof.
  induction fuel as [|f IH]; intros k nn; [discriminate|]. cbn [pick_name]. destruct (lfind L (copy_name (sb_name s) k)) as [[l|ck]|] eqn:E.
  - destruct (strs_eqb _ _ && _); [discriminate|apply IH].
  - destruct (duplicate s ck _) eqn:D; [|apply IH]. intros H. injection H as <-. exists k. split; [reflexivity|]. right. exists ck. auto.
  - intros H. injection H as <-. exists k. auto.
Qed.
Lemma pick_name_some L s param fuel : forall k, (forall j l, lfind L (copy_name (sb_name s) j) <> Some (Prim l)) ->
  pick_name fuel L s param k = None -> forall j, (k <= j < k + fuel)%nat -> lfind L (copy_name (sb_name s) j) <> None.
Proof.
  induction fuel as [|f IH]; intros k Hp E j Hj; [lia|]. cbn [pick_name] in E. destruct (lfind L (copy_name (sb_name s) k)) as [[l|ck]|] eqn:Ek; [exfalso; exact (Hp _ _ Ek)| |discriminate].
  destruct (duplicate s ck _); [discriminate|]. destruct (Nat.eq_dec j k) as [->|Hne]; [congruence|]. apply (IH (Datatypes.S k) Hp E). lia.
Qed.
Lemma pick_name_total L s param : (forall j l, lfind L (copy_name (sb_name s) j) <> Some (Prim l)) -> exists nn, pick_name (Datatypes.S (length L)) L s param 1 = Some nn.
Proof.
  intros Hp. destruct (pick_name _ L s param 1) as [nn|] eqn:E; [eauto|]. exfalso. pose proof (pick_name_some _ _ _ _ _ Hp E) as H.
  set (l := map (copy_name (sb_name s)) (seq 1 (Datatypes.S (length L)))).
  assert (Hl : NoDup l) by (apply FinFun.Injective_map_NoDup; [intros a b Hab; exact (proj2 (copy_name_inj _ _ _ _ Hab))|apply seq_NoDup]).
  assert (Hi : incl l (map cell_name L)).
  { intros x Hx. apply in_map_iff in Hx as (j & <- & Hj). apply in_seq in Hj. destruct (lfind L (copy_name (sb_name s) j)) as [c|] eqn:Ej; [|exfalso; exact (H j ltac:(lia) Ej)]. apply lfind_in in Ej as (Hc & <-). now apply in_map. }
  pose proof (NoDup_incl_length Hl Hi) as Hlen. unfold l in Hlen. rewrite !map_length, seq_length in Hlen. lia.
Qed.

Lemma update_at done e todo e' : NoDup (map e_name (done ++ e :: todo)) -> e_name e' = e_name e -> update (e_name e') (fun _ => e') (done ++ e :: todo) = done ++ e' :: todo.
Proof.
  intros Hn E. unfold update. rewrite map_app in *. cbn [map] in *. rewrite E, String.eqb_refl. pose proof (NoDup_remove_2 _ _ _ Hn) as Hno.
  assert (G : forall l, (forall x, In x l -> e_name x <> e_name e) -> map (fun x => if String.eqb (e_name x) (e_name e) then e' else x) l = l).
  { intros l H. induction l as [|a l IH]; [reflexivity|]. cbn [map]. destruct (String.eqb_spec (e_name a) (e_name e)) as [H0|_]; [exfalso; exact (H a (or_introl eq_refl) H0)|]. f_equal. apply IH. intros x Hx. apply H. now right. }
  rewrite !G; [reflexivity|intros x Hx Ex; apply Hno; apply in_or_app; right; rewrite <- Ex; now apply in_map|intros x Hx Ex; apply Hno; apply in_or_app; left; rewrite <- Ex; now apply in_map].
Qed.
Lemma put_elem_at L n pins E done e todo e' : lfind L n = Some (Sub (mkSub n pins E (done ++ e :: todo))) -> NoDup (map e_name (done ++ e :: todo)) -> e_name e' = e_name e ->
  put_elem L n e' = set_sub L n (mkSub n pins E (done ++ e' :: todo)).
Proof. intros H Hn He. unfold put_elem. rewrite H. cbn [sb_name sb_pins sb_params sb_elems]. now rewrite update_at. Qed.

Section Run.
  Variable L0 : lib.
  Variable cp : dict.
  Variable t0 : sub.
  Variable rank : string -> nat.
  Hypothesis Hwf : well_formed L0.
  Hypothesis Hpd : params_distinct L0.
  Hypothesis Hrank : forall c s m, In (Sub c) L0 -> instantiates L0 c m -> lfind L0 m = Some (Sub s) -> (rank (sb_name s) < rank (sb_name c))%nat.
  Hypothesis Hder : forall n, derived L0 n -> lfind L0 n = None.
  Hypothesis Hlit : literal_globals L0 cp.
  Hypothesis Huniq : forall c E1 E2, passes_on L0 c -> used L0 cp t0 c E1 -> used L0 cp t0 c E2 -> E1 = E2.

  Notation origin := (string -> option sub).
  Definition elem_ok (L : lib) (M : list string) (og : origin) (E : dict) (e e' : elem) : Prop :=
    e_name e' = e_name e /\ e_pins e' = e_pins e /\
    ((exists l, lfind L0 (e_model e) = Some (Prim l) /\ e' = e) \/
     (exists t s', lfind L0 (e_model e) = Some (Sub t) /\ In (e_model e') M /\ og (e_model e') = Some t /\ lfind L (e_model e') = Some (Sub s') /\
        sb_params s' = bound t (meanings cp E (e_params e)) /\ e_params e' = meanings cp E (e_params e))).
  Definition elem_pre (og : origin) (E : dict) (e e' : elem) : Prop :=
    e_name e' = e_name e /\ e_pins e' = e_pins e /\
    ((exists l, lfind L0 (e_model e) = Some (Prim l) /\ e' = e) \/
     (exists t, lfind L0 (e_model e) = Some (Sub t) /\ og (e_model e') = Some t /\ meanings cp E (e_params e') = meanings cp E (e_params e))).
  Definition good (L : lib) (M : list string) (og : origin) (n : string) : Prop :=
    exists s c, lfind L n = Some (Sub s) /\ og n = Some c /\ Forall2 (elem_ok L M og (sb_params s)) (sb_elems c) (sb_elems s).
  Record Inv (P : list string) (L : lib) (M : list string) (og : origin) : Prop := {
    i_nodup : NoDup (map cell_name L);
    i_prim : forall n l, lfind L n = Some (Prim l) <-> lfind L0 n = Some (Prim l);
    i_org0 : forall n s, lfind L0 n = Some (Sub s) -> og n = Some s;
    i_sub : forall n s, lfind L n = Some (Sub s) -> og n <> None;
    i_c0 : forall n c, og n = Some c -> lfind L0 (sb_name c) = Some (Sub c);
    i_un : forall n c, og n = Some c -> ~ In n M -> lfind L n = Some (Sub c) /\ lfind L0 n = Some (Sub c);
    i_res : forall n, In n M -> exists s c, lfind L n = Some (Sub s) /\ og n = Some c /\ used L0 cp t0 c (sb_params s) /\ map fst (sb_params s) = map fst (sb_params c) /\ sb_pins s = sb_pins c;
    i_P : forall n, In n P -> In n M;
    i_good : forall n, In n M -> ~ In n P -> good L M og n;
    i_der : forall n c, og n = Some c -> lfind L0 n = None -> derived L0 n /\ forall m k, n = copy_name m k -> og m = Some c }.
  Record ext (P : list string) (L : lib) (M : list string) (og : origin) (L' : lib) (M' : list string) (og' : origin) : Prop := {
    x_M : forall n, In n M -> In n M';
    x_og : forall n c, og n = Some c -> og' n = Some c;
    x_par : forall n s, In n M -> lfind L n = Some (Sub s) -> exists s', lfind L' n = Some (Sub s') /\ sb_params s' = sb_params s;
    x_P : forall n, In n P -> lfind L' n = lfind L n }.

  Lemma ext_refl P L M og : ext P L M og L M og.
  Proof. constructor; eauto. Qed.
  Lemma ext_trans P L M og L1 M1 og1 L2 M2 og2 : ext P L M og L1 M1 og1 -> ext P L1 M1 og1 L2 M2 og2 -> ext P L M og L2 M2 og2.
  Proof.
    intros [A1 B1 C1 D1] [A2 B2 C2 D2]. constructor; [auto|auto| |].
    - intros n s Hn Hs. destruct (C1 n s Hn Hs) as (s1 & H1 & E1). destruct (C2 n s1 (A1 n Hn) H1) as (s2 & H2 & E2). exists s2. split; [assumption|congruence].
    - intros n Hn. rewrite D2, D1; auto.
  Qed.
  Lemma elem_ok_mono P L M og L' M' og' E e e' : ext P L M og L' M' og' -> elem_ok L M og E e e' -> elem_ok L' M' og' E e e'.
  Proof.
    intros X (Hn & Hp & [Hl|(t & s' & H1 & H2 & H3 & H4 & H5 & H6)]); (split; [assumption|split; [assumption|]]); [now left|]. right.
    destruct (x_par _ _ _ _ _ _ _ X _ _ H2 H4) as (s2 & Hs2 & E2). exists t, s2. repeat split; auto; [exact (x_M _ _ _ _ _ _ _ X _ H2)|exact (x_og _ _ _ _ _ _ _ X _ _ H3)|congruence].
  Qed.
  Lemma elems_ok_mono P L M og L' M' og' E es es' : ext P L M og L' M' og' -> Forall2 (elem_ok L M og E) es es' -> Forall2 (elem_ok L' M' og' E) es es'.
  Proof. intros X H. induction H; constructor; [eapply elem_ok_mono; eauto|assumption]. Qed.
  Lemma elem_pre_mono P L M og L' M' og' E e e' : ext P L M og L' M' og' -> elem_pre og E e e' -> elem_pre og' E e e'.
  Proof.
    intros X (Hn & Hp & [Hl|(t & H1 & H2 & H3)]); (split; [assumption|split; [assumption|]]); [now left|]. right. exists t. repeat split; auto. exact (x_og _ _ _ _ _ _ _ X _ _ H2).
  Qed.
  Lemma elems_pre_mono P L M og L' M' og' E es es' : ext P L M og L' M' og' -> Forall2 (elem_pre og E) es es' -> Forall2 (elem_pre og' E) es es'.
  Proof. intros X H. induction H; constructor; [eapply elem_pre_mono; eauto|assumption]. Qed.

  (** A change of the elements of a subcircuit in progress. *)
  Lemma ext_set P L M og n s s' : ~ In n P -> lfind L n = Some (Sub s) -> sb_name s' = n -> sb_params s' = sb_params s -> ext P L M og (set_sub L n s') M og.
  Proof.
    intros Hn Hs Hs' Hp. constructor; auto.
    - intros x sx Hx Hsx. destruct (String.string_dec x n) as [->|Hne].
      + exists s'. split; [now apply lfind_set_same with s|]. congruence.
      + exists sx. rewrite lfind_set_other; auto.
    - intros x Hx. apply lfind_set_other; [assumption|]. intros ->. contradiction.
  Qed.
  Lemma Inv_set P L M og n s s' : Inv P L M og -> In n P -> lfind L n = Some (Sub s) -> sb_name s' = n -> sb_params s' = sb_params s -> sb_pins s' = sb_pins s -> Inv P (set_sub L n s') M og.
  Proof.
    intros I Hn Hs Hs' Hpa Hpi. pose proof (i_P _ _ _ _ I n Hn) as HM. constructor.
    - rewrite set_sub_names by assumption. apply I.
    - intros x l. rewrite <- (i_prim _ _ _ _ I). destruct (String.string_dec x n) as [->|Hne]; [|now rewrite lfind_set_other]. rewrite (lfind_set_same _ _ s) by assumption. rewrite Hs. split; discriminate.
    - apply I.
    - intros x sx. destruct (String.string_dec x n) as [->|Hne]; [intros _; exact (i_sub _ _ _ _ I _ _ Hs)|]. rewrite lfind_set_other by assumption. apply I.
    - apply I.
    - intros x c Hx HxM. rewrite lfind_set_other; [now apply (i_un _ _ _ _ I)|assumption|intros ->; contradiction].
    - intros x Hx. destruct (i_res _ _ _ _ I x Hx) as (sx & c & H1 & H2 & H3 & H4 & H5). destruct (String.string_dec x n) as [->|Hne].
      + assert (sx = s) by congruence. subst sx. exists s', c. rewrite (lfind_set_same _ _ s) by assumption. rewrite Hpa, Hpi. auto.
      + exists sx, c. rewrite lfind_set_other by assumption. auto.
    - apply I.
    - intros x Hx HxP. assert (x <> n) by (intros ->; contradiction). destruct (i_good _ _ _ _ I x Hx HxP) as (sx & c & H1 & H2 & H3). exists sx, c. rewrite lfind_set_other by assumption. repeat split; auto.
      refine (elems_ok_mono [] L M og _ _ _ _ _ _ _ H3). now apply ext_set with s.
    - apply I.
  Qed.
  Lemma Inv_same P L M M' og : (forall x, In x M <-> In x M') -> Inv P L M og -> Inv P L M' og.
  Proof.
    intros HM I. assert (X : ext P L M og L M' og) by (constructor; eauto; [intros n Hn; now apply HM]). constructor; try apply I.
    - intros n c H1 H2. apply I; [assumption|]. rewrite HM. assumption.
    - intros n Hn. apply (i_res _ _ _ _ I), HM, Hn.
    - intros n Hn. apply HM, (i_P _ _ _ _ I), Hn.
    - intros n Hn HnP. destruct (i_good _ _ _ _ I n (proj2 (HM n) Hn) HnP) as (s & c & H1 & H2 & H3). exists s, c. repeat split; auto. exact (elems_ok_mono _ _ _ _ _ _ _ _ _ _ X H3).
  Qed.
  (** The end of progress. *)
  Lemma Inv_done P L M og n : Inv (n :: P) L M og -> good L M og n -> Inv P L M og.
  Proof.
    intros I G. constructor; try apply I.
    - intros x Hx. apply (i_P _ _ _ _ I). now right.
    - intros x Hx HxP. destruct (String.string_dec x n) as [->|Hne]; [assumption|]. apply (i_good _ _ _ _ I x Hx). intros [->|H]; contradiction.
  Qed.

  Definition rec_ok (f r : nat) : Prop := forall P L M og name c param, Inv P L M og -> og name = Some c -> (rank (sb_name c) < r)%nat ->
    (forall q, In q P -> exists cq, og q = Some cq /\ (r <= rank (sb_name cq))%nat) -> (In name M -> map fst param = map fst (sb_params c)) -> used L0 cp t0 c (bound c param) ->
    exists L' M' og' n' s', resolve f cp (L, M) name param = Some (L', M', n') /\ Inv P L' M' og' /\ ext P L M og L' M' og' /\ In n' M' /\ og' n' = Some c /\ lfind L' n' = Some (Sub s') /\ sb_params s' = bound c param.

  Lemma elem_keys c e t : In (Sub c) L0 -> In e (sb_elems c) -> lfind L0 (e_model e) = Some (Sub t) -> (forall p, In p (map fst (e_pins e)) <-> In p (sb_pins t)) /\ map fst (e_params e) = map fst (sb_params t) /\ NoDup (map fst (e_params e)).
  Proof.
    intros Hc He Ht. destruct (proj2 (proj2 Hwf c Hc) e He) as (_ & m & Hm & Hp & Hk). assert (m = Sub t) by congruence. subst m. split; [exact Hp|]. split; [exact Hk|]. rewrite Hk. apply (Hpd (Sub t)). now apply (lfind_in _ _ _ Ht).
  Qed.

  Lemma loop_ok f c n P : rec_ok f (rank (sb_name c)) -> lfind L0 (sb_name c) = Some (Sub c) -> ~ In n P -> forall todo est done esd L M og E pins,
    Inv (n :: P) L M og -> (forall q, In q (n :: P) -> exists cq, og q = Some cq /\ (rank (sb_name c) <= rank (sb_name cq))%nat) -> used L0 cp t0 c E -> (forall e, In e est -> In e (sb_elems c)) ->
    lfind L n = Some (Sub (mkSub n pins E (done ++ todo))) -> NoDup (map e_name (done ++ todo)) -> Forall2 (elem_ok L M og E) esd done -> Forall2 (elem_pre og E) est todo ->
    exists L' M' og' els, foldM (inter_step (resolve f cp) cp n E) todo (L, M) = Some (L', M') /\ Inv (n :: P) L' M' og' /\ ext P L M og L' M' og' /\
      lfind L' n = Some (Sub (mkSub n pins E els)) /\ Forall2 (elem_ok L' M' og' E) (esd ++ est) els.
  Proof.
    intros HR Hc HnP. pose proof (proj1 (lfind_in _ _ _ Hc)) as HcL. induction todo as [|e' todo IH]; intros est done esd L M og E pins I HP HE Hest Hn Hnd Hdone Hpre.
    - inversion Hpre; subst. rewrite !app_nil_r in *. exists L, M, og, done. split; [reflexivity|]. split; [assumption|]. split; [apply ext_refl|]. auto.
    - inversion Hpre as [|e ? est' ? He Hpre']; subst. cbn [foldM]. assert (Hein : In e (sb_elems c)) by (apply Hest; now left).
      destruct He as (Hname & Hpins & [(l & Hl & ->)|(t & Ht & Hog & Hps)]).
      + unfold inter_step at 1. assert (is_sub L (e_model e) = false) as ->. { unfold is_sub. now rewrite (proj2 (i_prim _ _ _ _ I _ _) Hl). }
        destruct (IH est' (done ++ [e]) (esd ++ [e]) L M og E pins I HP HE) as (L' & M' & og' & els & H1 & H2 & H3 & H4 & H5).
        * intros x Hx. apply Hest. now right.
        * now rewrite <- app_assoc.
        * now rewrite <- app_assoc.
        * apply Forall2_app; [assumption|]. constructor; [|constructor]. split; [reflexivity|]. split; [reflexivity|]. left. eauto.
        * assumption.
        * exists L', M', og', els. rewrite <- app_assoc in H5. auto.
      + destruct (elem_keys c e t HcL Hein Ht) as (Kp & Kk & Kn).
        assert (Hsub : exists s, lfind L (e_model e') = Some (Sub s)).
        { destruct (in_dec String.string_dec (e_model e') M) as [HM|HM]; [destruct (i_res _ _ _ _ I _ HM) as (s & ? & H & _); eauto|]. destruct (i_un _ _ _ _ I _ _ Hog HM); eauto. }
        unfold inter_step at 1. rewrite (proj2 (is_sub_iff _ _) Hsub). rewrite meanings_pvalues, Hps. set (ps := meanings cp E (e_params e)) in *.
        assert (Kps : map fst ps = map fst (sb_params t)) by (unfold ps; now rewrite meanings_keys).
        set (e1 := mkElem (e_name e') (e_model e') (e_pins e') ps). rewrite (put_elem_at L n pins E done e' todo e1 Hn Hnd eq_refl).
        set (L1 := set_sub L n (mkSub n pins E (done ++ e1 :: todo))).
        assert (I1 : Inv (n :: P) L1 M og) by (eapply Inv_set; [exact I|now left|exact Hn|reflexivity|reflexivity|reflexivity]).
        assert (X1 : ext P L M og L1 M og) by (eapply ext_set; [assumption|exact Hn|reflexivity|reflexivity]).
        destruct (HR (n :: P) L1 M og (e_model e') t ps I1 Hog) as (L2 & M2 & og2 & nn & s2 & R1 & I2 & X2 & Q1 & Q2 & Q3 & Q4).
        { apply (Hrank c t (e_model e)); [assumption|exists e; auto|assumption]. }
        { exact HP. }
        { intros _. exact Kps. }
        { exact (used_in L0 cp t0 c E e t HE Hein Ht). }
        rewrite R1. destruct (i_res _ _ _ _ I2 nn Q1) as (s2' & t' & U1 & U2 & _ & U4 & U5). assert (s2' = s2) by congruence. assert (t' = t) by congruence. subst s2' t'.
        rewrite (mk_inst_ok L2 (e_name e') nn (e_pins e') ps (Sub s2) Q3 (ltac:(destruct (e_name e'); reflexivity))).
        2:{ intros p. cbn [cell_pins]. rewrite U5, Hpins. apply Kp. }
        2:{ cbn [cell_params]. rewrite U4. exact Kps. }
        2:{ unfold ps. now rewrite meanings_keys. }
        assert (Hn2 : lfind L2 n = Some (Sub (mkSub n pins E (done ++ e1 :: todo)))).
        { rewrite (x_P _ _ _ _ _ _ _ X2 n (or_introl eq_refl)). unfold L1. eapply lfind_set_same; [reflexivity|exact Hn]. }
        assert (Hnd1 : NoDup (map e_name (done ++ e1 :: todo))) by (rewrite map_app in *; exact Hnd).
        set (e2 := mkElem (e_name e') nn (e_pins e') ps). rewrite (put_elem_at L2 n pins E done e1 todo e2 Hn2 Hnd1 eq_refl). set (L3 := set_sub L2 n (mkSub n pins E (done ++ e2 :: todo))).
        assert (I3 : Inv (n :: P) L3 M2 og2) by (eapply Inv_set; [exact I2|now left|exact Hn2|reflexivity|reflexivity|reflexivity]).
        assert (X3 : ext P L2 M2 og2 L3 M2 og2) by (eapply ext_set; [assumption|exact Hn2|reflexivity|reflexivity]).
        assert (X2' : ext P L1 M og L2 M2 og2). { destruct X2 as [A B C D]. constructor; auto. intros x Hx. apply D. now right. }
        assert (X : ext P L M og L3 M2 og2) by (eapply ext_trans; [exact X1|]; eapply ext_trans; [exact X2'|exact X3]).
        destruct (IH est' (done ++ [e2]) (esd ++ [e]) L3 M2 og2 E pins I3) as (L' & M' & og' & els & H1 & H2 & H3 & H4 & H5).
        * intros q Hq. destruct (HP q Hq) as (cq & Hcq & Hr). exists cq. split; [exact (x_og _ _ _ _ _ _ _ X _ _ Hcq)|assumption].
        * assumption.
        * intros x Hx. apply Hest. now right.
        * rewrite <- app_assoc. unfold L3. eapply lfind_set_same; [reflexivity|exact Hn2].
        * rewrite <- app_assoc. rewrite map_app in *. exact Hnd.
        * apply Forall2_app; [exact (elems_ok_mono _ _ _ _ _ _ _ _ _ _ X Hdone)|]. constructor; [|constructor]. split; [exact Hname|]. split; [exact Hpins|]. right.
          destruct (x_par _ _ _ _ _ _ _ X3 nn s2 Q1 Q3) as (s3 & V1 & V2). exists t, s3. cbn [e_model e_params e2]. split; [exact Ht|]. split; [exact Q1|]. split; [exact Q2|]. split; [exact V1|]. split; [rewrite V2; exact Q4|reflexivity].
        * exact (elems_pre_mono _ _ _ _ _ _ _ _ _ _ X Hpre').
        * exists L', M', og', els. rewrite <- app_assoc in H5. split; [assumption|]. split; [assumption|]. split; [eapply ext_trans; [exact X|exact H3]|]. auto.
  Qed.

  Lemma sub_of P L M og n c : Inv P L M og -> og n = Some c -> exists s, lfind L n = Some (Sub s) /\ map fst (sb_params s) = map fst (sb_params c) /\ sb_pins s = sb_pins c /\ (~ In n M -> s = c).
  Proof.
    intros I H. destruct (in_dec String.string_dec n M) as [HM|HM].
    - destruct (i_res _ _ _ _ I n HM) as (s & c' & H1 & H2 & _ & H3 & H4). assert (c' = c) by congruence. subst c'. exists s. repeat split; auto. contradiction.
    - destruct (i_un _ _ _ _ I n c H HM) as (H1 & _). exists c. auto.
  Qed.
  Lemma literal_twice c E1 E2 v : In (Sub c) L0 -> ~ In v (map fst (sb_params c)) -> map fst E1 = map fst (sb_params c) -> map fst E2 = map fst (sb_params c) -> meaning cp E2 (meaning cp E1 v) = meaning cp E2 v.
  Proof.
    intros Hc Hv H1 H2. unfold meaning at 2 3. destruct (in_dec String.string_dec v (map fst cp)) as [H|H].
    - unfold global. destruct (sget_key _ _ H) as (w & Hw). rewrite Hw. destruct (Hlit v w (sget_in _ _ _ Hw)) as (G1 & G2). unfold meaning. destruct (in_dec String.string_dec w (map fst cp)) as [|_]; [contradiction|].
      rewrite (proj2 (sget_none E2 w)); [reflexivity|]. rewrite H2. now apply G2.
    - rewrite (proj2 (sget_none E1 v)) by now rewrite H1. unfold meaning. destruct (in_dec String.string_dec v (map fst cp)) as [|_]; [contradiction|]. reflexivity.
  Qed.
  Lemma Inv_first P L M og name c param : Inv P L M og -> og name = Some c -> ~ In name M -> used L0 cp t0 c (bound c param) ->
    Inv (name :: P) (set_sub L name (mkSub name (sb_pins c) (bound c param) (sb_elems c))) (M ++ [name]) og.
  Proof.
    intros I Hog HM HU. destruct (i_un _ _ _ _ I name c Hog HM) as (Hf & Hf0). set (s' := mkSub name (sb_pins c) (bound c param) (sb_elems c)).
    assert (HX : forall x, In x M -> x <> name) by (intros x Hx ->; contradiction).
    assert (Hin : forall x, In x (M ++ [name]) <-> In x M \/ x = name) by (intros x; rewrite in_app_iff; simpl; intuition).
    assert (X : ext [] L M og (set_sub L name s') (M ++ [name]) og).
    { constructor; [intros x Hx; apply Hin; auto|auto| |intros x []]. intros x s Hx Hs. exists s. rewrite lfind_set_other; auto. }
    constructor.
    - rewrite set_sub_names by reflexivity. apply I.
    - intros x l. rewrite <- (i_prim _ _ _ _ I). destruct (String.string_dec x name) as [->|Hne]; [|now rewrite lfind_set_other]. rewrite (lfind_set_same _ _ c) by (reflexivity || assumption). rewrite Hf. split; discriminate.
    - apply I.
    - intros x s. destruct (String.string_dec x name) as [->|Hne]; [intros _; congruence|]. rewrite lfind_set_other by (reflexivity || assumption). apply I.
    - apply I.
    - intros x d Hx HxM. rewrite Hin in HxM. rewrite lfind_set_other; [apply (i_un _ _ _ _ I); [assumption|]; tauto|reflexivity|tauto].
    - intros x Hx. apply Hin in Hx as [Hx| ->].
      + destruct (i_res _ _ _ _ I x Hx) as (s & d & H1). exists s, d. rewrite lfind_set_other; auto.
      + exists s', c. rewrite (lfind_set_same _ _ c) by (reflexivity || assumption). repeat split; auto. apply overwrite_keys.
    - intros x [<-|Hx]; apply Hin; [now right|left; now apply (i_P _ _ _ _ I)].
    - intros x Hx HxP. apply Hin in Hx as [Hx| ->]; [|exfalso; apply HxP; now left]. destruct (i_good _ _ _ _ I x Hx) as (s & d & H1 & H2 & H3); [intros H; apply HxP; now right|].
      exists s, d. rewrite lfind_set_other by (reflexivity || auto). repeat split; auto. exact (elems_ok_mono _ _ _ _ _ _ _ _ _ _ X H3).
    - apply I.
  Qed.
  Definition og_new (og : origin) (nn : string) (c : sub) : origin := fun x => if String.eqb x nn then Some c else og x.
  Lemma Inv_copy P L M og name c s j sp : Inv P L M og -> og name = Some c -> lfind L name = Some (Sub s) -> lfind L (copy_name name j) = None ->
    used L0 cp t0 c sp -> map fst sp = map fst (sb_params c) -> sb_pins s = sb_pins c ->
    Inv (copy_name name j :: P) (L ++ [Sub (mkSub (copy_name name j) (sb_pins s) sp (sb_elems s))]) (M ++ [copy_name name j]) (og_new og (copy_name name j) c) /\
    ext P L M og (L ++ [Sub (mkSub (copy_name name j) (sb_pins s) sp (sb_elems s))]) (M ++ [copy_name name j]) (og_new og (copy_name name j) c).
  Proof.
    intros I Hog Hs Hno HU Hk Hpi. set (nn := copy_name name j) in *. set (s' := mkSub nn (sb_pins s) sp (sb_elems s)).
    assert (Hogn : og nn = None). { destruct (og nn) as [d|] eqn:E; [|reflexivity]. destruct (sub_of _ _ _ _ _ _ I E) as (x & H & _). congruence. }
    assert (HnM : ~ In nn M). { intros H. destruct (i_res _ _ _ _ I nn H) as (x & ? & H1 & _). congruence. }
    assert (Hold : forall x, x <> nn -> lfind (L ++ [Sub s']) x = lfind L x).
    { intros x Hx. rewrite lfind_app. destruct (lfind L x); [reflexivity|]. unfold lfind. cbn [find cell_name sb_name s']. destruct (String.eqb_spec nn x); congruence. }
    assert (Hnew : lfind (L ++ [Sub s']) nn = Some (Sub s')). { rewrite lfind_app, Hno. unfold lfind. cbn [find cell_name sb_name s']. now rewrite String.eqb_refl. }
    assert (Hin : forall x, In x (M ++ [nn]) <-> In x M \/ x = nn) by (intros x; rewrite in_app_iff; simpl; intuition).
    assert (HX : forall x, In x M -> x <> nn) by (intros x Hx ->; contradiction).
    assert (Hogo : forall x d, og x = Some d -> og_new og nn c x = Some d). { intros x d H. unfold og_new. destruct (String.eqb_spec x nn) as [->|]; [congruence|assumption]. }
    assert (Hogi : forall x d, og_new og nn c x = Some d -> (x = nn /\ d = c) \/ (x <> nn /\ og x = Some d)). { intros x d. unfold og_new. destruct (String.eqb_spec x nn) as [->|]; [intros H; injection H as <-; auto|auto]. }
    assert (Hnn : og_new og nn c nn = Some c) by (unfold og_new; now rewrite String.eqb_refl).
    assert (X : ext P L M og (L ++ [Sub s']) (M ++ [nn]) (og_new og nn c)).
    { constructor; [intros x Hx; apply Hin; auto|auto| |intros x Hx; apply Hold, HX, (i_P _ _ _ _ I), Hx]. intros x sx Hx Hsx. exists sx. rewrite Hold; auto. }
    split; [|exact X]. constructor.
    - rewrite map_app. cbn [map cell_name sb_name s']. apply (Permutation_NoDup (Permutation_cons_append _ nn)). constructor; [|apply I]. now apply lfind_none.
    - intros x l. destruct (String.string_dec x nn) as [->|Hne].
      + rewrite Hnew. split; [discriminate|]. intros H. apply (i_prim _ _ _ _ I) in H. congruence.
      + rewrite Hold by assumption. apply I.
    - intros x sx H. apply Hogo. now apply (i_org0 _ _ _ _ I).
    - intros x sx H. destruct (String.string_dec x nn) as [->|Hne]; [rewrite Hnn; discriminate|]. rewrite Hold in H by assumption. pose proof (i_sub _ _ _ _ I _ _ H) as H1. destruct (og x) as [d|] eqn:E; [|contradiction]. rewrite (Hogo _ _ E). discriminate.
    - intros x d H. destruct (Hogi _ _ H) as [(-> & ->)|(_ & H1)]; [exact (i_c0 _ _ _ _ I _ _ Hog)|exact (i_c0 _ _ _ _ I _ _ H1)].
    - intros x d H HxM. rewrite Hin in HxM. destruct (Hogi _ _ H) as [(-> & ->)|(Hne & H1)]; [tauto|]. rewrite Hold by assumption. apply (i_un _ _ _ _ I); tauto.
    - intros x Hx. apply Hin in Hx as [Hx| ->].
      + destruct (i_res _ _ _ _ I x Hx) as (sx & d & H1 & H2 & H3). exists sx, d. rewrite Hold by auto. auto.
      + exists s', c. auto.
    - intros x [<-|Hx]; apply Hin; [now right|left; now apply (i_P _ _ _ _ I)].
    - intros x Hx HxP. apply Hin in Hx as [Hx| ->]; [|exfalso; apply HxP; now left]. destruct (i_good _ _ _ _ I x Hx) as (sx & d & H1 & H2 & H3); [intros H; apply HxP; now right|].
      exists sx, d. rewrite Hold by auto. repeat split; auto. exact (elems_ok_mono _ _ _ _ _ _ _ _ _ _ X H3).
    - intros x d H H0. destruct (Hogi _ _ H) as [(-> & ->)|(Hne & H1)].
      + split.
        * destruct (lfind L0 name) as [[l|d]|] eqn:E.
          -- apply (i_prim _ _ _ _ I) in E. congruence.
          -- exact (derived_one L0 name d j E).
          -- apply derived_more. exact (proj1 (i_der _ _ _ _ I name c Hog E)).
        * intros m k Em. apply copy_name_inj in Em as (<- & _). now apply Hogo.
      + destruct (i_der _ _ _ _ I x d H1 H0) as (D1 & D2). split; [assumption|]. intros m k Em. apply Hogo, (D2 m k Em).
  Qed.

  Theorem rec_ok_all f : forall r, (r <= f)%nat -> rec_ok f r.
  Proof.
    induction f as [|f IH]; intros r Hr; [intros ? ? ? ? ? c ? ? ? Hc; lia|].
    intros P L M og name c param I Hog Hc HP Hk HU. pose proof (i_c0 _ _ _ _ I _ _ Hog) as Hc0. pose proof (proj1 (lfind_in _ _ _ Hc0)) as HcL.
    assert (HR : rec_ok f (rank (sb_name c))) by (apply IH; lia).
    assert (HnP : ~ In name P). { intros H. destruct (HP _ H) as (cq & H1 & H2). assert (cq = c) by congruence. subst. lia. }
    destruct (sub_of _ _ _ _ _ _ I Hog) as (s & Hs & Ks & Kp & Ku). cbn [resolve]. rewrite Hs. destruct (in_strs name M) eqn:HM.
    - apply in_strs_iff in HM. specialize (Hk HM). destruct (i_res _ _ _ _ I name HM) as (s' & c' & Hs' & Hc' & HU' & _ & _). assert (s' = s) by congruence. assert (c' = c) by congruence. subst s' c'.
      assert (Hnd : NoDup (map fst (sb_params s))) by (rewrite Ks; apply (Hpd (Sub c) HcL)).
      assert (Eb : overwrite (sb_params s) param = bound c param). { apply overwrite_ext; [assumption|]. now rewrite Hk. }
      destruct (forallb _ (sb_params s)) eqn:Esame.
      + apply same_values in Esame; [|assumption|now rewrite Hk]. exists L, (M ++ [name]), og, name, s. split; [reflexivity|].
        assert (Hin : forall x, In x M <-> In x (M ++ [name])) by (intros x; rewrite in_app_iff; simpl; intuition; now subst).
        split; [exact (Inv_same _ _ _ _ _ Hin I)|]. split; [constructor; eauto; intros x Hx; now apply Hin|]. split; [now apply Hin|]. split; [assumption|]. split; [assumption|]. rewrite Esame. exact Eb.
      + assert (Hdiff : sb_params s <> bound c param). { intros E. assert (sb_params s = overwrite (sb_params s) param) as E2 by congruence. apply same_values in E2; [congruence|assumption|now rewrite Hk]. }
        assert (Hnp : ~ passes_on L0 c). { intros H. apply Hdiff. exact (Huniq c _ _ H HU' HU). }
        pose proof (find_name _ _ _ Hs) as Hsn.
        assert (Hpr : forall j, lfind L0 (copy_name name j) = None).
        { intros j. apply Hder. destruct (lfind L0 name) as [[l|d]|] eqn:E; [apply (i_prim _ _ _ _ I) in E; congruence|exact (derived_one L0 name d j E)|]. apply derived_more. exact (proj1 (i_der _ _ _ _ I name c Hog E)). }
        destruct (pick_name_total L s param) as (nn & Hnn). { intros j l H. rewrite Hsn in H. apply (i_prim _ _ _ _ I) in H. rewrite Hpr in H. discriminate. }
        rewrite Hnn. destruct (pick_name_ok _ _ _ _ _ _ Hnn) as (j & -> & Hcase). rewrite Hsn in *. destruct Hcase as [Hno|(ck & Hck & Hdup)].
        * rewrite Hno. rewrite Eb. destruct (Inv_copy P L M og name c s j (bound c param) I Hog Hs Hno HU (overwrite_keys _ _) Kp) as (I1 & X1).
          destruct (i_good _ _ _ _ I name HM HnP) as (s' & c' & Gs & Gc & G). assert (s' = s) by congruence. assert (c' = c) by congruence. subst s' c'.
          set (nn := copy_name name j) in *. set (L1 := L ++ _) in *. set (og1 := og_new og nn c) in *.
          assert (HnnP : ~ In nn P). { intros H. apply (i_P _ _ _ _ I) in H. destruct (i_res _ _ _ _ I _ H) as (? & ? & H1 & _). congruence. }
          assert (Hnew : lfind L1 nn = Some (Sub (mkSub nn (sb_pins s) (bound c param) ([] ++ sb_elems s)))). { unfold L1. rewrite lfind_app, Hno. unfold lfind. cbn [find cell_name sb_name]. now rewrite String.eqb_refl. }
          assert (Hns : map e_name (sb_elems s) = map e_name (sb_elems c)). { clear -G. induction G as [|e e' es es' He HF IHF]; [reflexivity|]. cbn [map]. destruct He as (-> & _). now rewrite IHF. }
          destruct (loop_ok f c nn P HR Hc0 HnnP (sb_elems s) (sb_elems c) [] [] L1 (M ++ [nn]) og1 (bound c param) (sb_pins s) I1) as (L' & M' & og' & els & H1 & H2 & H3 & H4 & H5).
          { intros q [<-|Hq]; [exists c; split; [unfold og1, og_new; now rewrite String.eqb_refl|lia]|]. destruct (HP q Hq) as (cq & Q1 & Q2). exists cq. split; [exact (x_og _ _ _ _ _ _ _ X1 _ _ Q1)|lia]. }
          { exact HU. }
          { auto. }
          { exact Hnew. }
          { cbn [app]. rewrite Hns. apply (proj2 Hwf c HcL). }
          { constructor. }
          { assert (Hsubset : forall e, In e (sb_elems c) -> In e (sb_elems c)) by auto. revert G Hsubset. generalize (sb_elems c) at 1 2 4. generalize (sb_elems s). clear - X1 Hnp Hlit HcL Ks. intros es' es G. induction G as [|e e' es es' He HF IHF]; intros Hsub; [constructor|]. constructor; [|apply IHF; intros x Hx; apply Hsub; now right].
            destruct He as (N1 & N2 & [Hl|(t & s' & T1 & T2 & T3 & T4 & T5 & T6)]); (split; [assumption|split; [assumption|]]); [now left|]. right. exists t. split; [assumption|]. split; [exact (x_og _ _ _ _ _ _ _ X1 _ _ T3)|]. rewrite T6. unfold meanings. rewrite map_map. apply map_ext_in. intros (k, v) Hkv. cbn [fst snd]. f_equal.
            apply (literal_twice c); [assumption| |assumption|apply overwrite_keys]. intros Hv. apply Hnp. exists e, t, k, v. repeat split; auto. apply Hsub. now left. }
          exists L', M', og', nn, (mkSub nn (sb_pins s) (bound c param) els). split; [exact (f_equal (fun r => match r with Some st' => Some (st', nn) | None => None end) H1)|].
          assert (X : ext P L M og L' M' og') by (eapply ext_trans; [exact X1|exact H3]).
          assert (Hog' : og' nn = Some c). { apply (x_og _ _ _ _ _ _ _ H3). unfold og1, og_new. now rewrite String.eqb_refl. }
          split; [apply (Inv_done _ _ _ _ nn H2); exists (mkSub nn (sb_pins s) (bound c param) els), c; auto|]. split; [assumption|]. split; [exact (i_P _ _ _ _ H2 nn (or_introl eq_refl))|]. auto.
        * rewrite Hck. assert (Hogk : og (copy_name name j) = Some c).
          { destruct (og (copy_name name j)) as [d|] eqn:E; [|exfalso; exact (i_sub _ _ _ _ I _ _ Hck E)]. pose proof (proj2 (i_der _ _ _ _ I _ _ E (Hpr j)) name j eq_refl). congruence. }
          assert (HkM : In (copy_name name j) M). { destruct (in_dec String.string_dec (copy_name name j) M) as [|Hno]; [assumption|]. destruct (i_un _ _ _ _ I _ _ Hogk Hno) as (_ & H). rewrite Hpr in H. discriminate. }
          exists L, M, og, (copy_name name j), ck. split; [reflexivity|]. split; [assumption|]. split; [apply ext_refl|]. split; [assumption|]. split; [assumption|]. split; [assumption|].
          destruct (i_res _ _ _ _ I _ HkM) as (ck' & c' & K1 & K2 & _ & K4 & _). assert (ck' = ck) by congruence. assert (c' = c) by congruence. subst ck' c'.
          unfold duplicate in Hdup. apply andb_true_iff in Hdup as (Hdup & _). apply andb_true_iff in Hdup as (_ & Hd). rewrite Eb in Hd. symmetry. apply dict_eq_keys.
          -- change (bound c param) with (overwrite (sb_params c) param). rewrite overwrite_keys. apply (Hpd (Sub c) HcL).
          -- rewrite K4. apply overwrite_keys.
          -- intros k Hk'. exact (dict_eqb_get _ _ _ Hd Hk').
    - assert (HM' : ~ In name M). { intros H. apply in_strs_iff in H. congruence. }
      assert (s = c) by auto. subst s. pose proof (find_name _ _ _ Hs) as Hsn. rewrite Hsn. change (overwrite (sb_params c) param) with (bound c param).
      pose proof (Inv_first P L M og name c param I Hog HM' HU) as I1. set (L1 := set_sub L name _) in *.
      assert (Hnew : lfind L1 name = Some (Sub (mkSub name (sb_pins c) (bound c param) ([] ++ sb_elems c)))) by (unfold L1; now rewrite (lfind_set_same _ _ c)).
      assert (Hold : forall x, x <> name -> lfind L1 x = lfind L x) by (intros x Hx; unfold L1; now rewrite lfind_set_other).
      assert (X1 : ext P L M og L1 (M ++ [name]) og).
      { constructor; [intros x Hx; apply in_or_app; now left|auto| |]; [intros x sx Hx Hsx; exists sx; rewrite Hold; [auto|intros ->; contradiction]|intros x Hx; apply Hold; intros ->; contradiction]. }
      destruct (loop_ok f c name P HR Hc0 HnP (sb_elems c) (sb_elems c) [] [] L1 (M ++ [name]) og (bound c param) (sb_pins c) I1) as (L' & M' & og' & els & H1 & H2 & H3 & H4 & H5).
      { intros q [<-|Hq]; [exists c; split; [assumption|lia]|]. destruct (HP q Hq) as (cq & Q1 & Q2). exists cq. split; [assumption|lia]. }
      { exact HU. }
      { auto. }
      { exact Hnew. }
      { apply (proj2 Hwf c HcL). }
      { constructor. }
      { assert (G : forall es, (forall e, In e es -> In e (sb_elems c)) -> Forall2 (elem_pre og (bound c param)) es es).
        { induction es as [|e es IHe]; intros Hsub; constructor; [|apply IHe; intros x Hx; apply Hsub; now right]. split; [reflexivity|]. split; [reflexivity|].
          destruct (proj2 (proj2 Hwf c HcL) e (Hsub e (or_introl eq_refl))) as (_ & m & Hm & _). destruct m as [l|t]; [left; eauto|]. right. exists t. split; [assumption|]. split; [exact (i_org0 _ _ _ _ I _ _ Hm)|reflexivity]. }
        apply G. auto. }
      exists L', M', og', name, (mkSub name (sb_pins c) (bound c param) els). split; [exact (f_equal (fun r => match r with Some st' => Some (st', name) | None => None end) H1)|].
      assert (X : ext P L M og L' M' og') by (eapply ext_trans; [exact X1|exact H3]).
      assert (Hog' : og' name = Some c) by exact (x_og _ _ _ _ _ _ _ X _ _ Hog).
      split; [apply (Inv_done _ _ _ _ name H2); exists (mkSub name (sb_pins c) (bound c param) els), c; auto|]. split; [assumption|]. split; [exact (i_P _ _ _ _ H2 name (or_introl eq_refl))|]. auto.
  Qed.

  Definition upd_elem (E : dict) (e : elem) : elem := mkElem (e_name e) (e_model e) (e_pins e) (pvalues cp E (e_params e)).
  Definition upd_sub (s : sub) : sub := mkSub (sb_name s) (sb_pins s) (sb_params s) (map (upd_elem (sb_params s)) (sb_elems s)).
  Lemma lfind_leaves L n : lfind (update_leaves cp L) n = option_map (fun c => match c with Prim _ => c | Sub s => Sub (upd_sub s) end) (lfind L n).
  Proof.
    unfold lfind, update_leaves. induction L as [|c L IH]; [reflexivity|]. cbn [map find].
    replace (cell_name match c with Prim _ => c | Sub s => Sub _ end) with (cell_name c) by now destruct c. destruct (String.eqb (cell_name c) n); [now destruct c|exact IH].
  Qed.
  Lemma net_of_pins a b n : sb_pins a = sb_pins b -> net_of a n = net_of b n.
  Proof. unfold net_of. now intros ->. Qed.
  Lemma outside_pins a b e e' r : sb_pins a = sb_pins b -> e_name e = e_name e' -> e_pins e = e_pins e' -> outside a e r = outside b e' r.
  Proof. intros H1 H2 H3. destruct r as [p|path n]; simpl; [|now rewrite H2]. rewrite H3. destruct (sget (e_pins e') p); [|reflexivity]. simpl. f_equal. now apply net_of_pins. Qed.
  Lemma Forall2_in_r {A B} (R : A -> B -> Prop) l l' b : Forall2 R l l' -> In b l' -> exists a, In a l /\ R a b.
  Proof. induction 1 as [|x y l l' H HF IH]; intros []; [subst; eauto using in_eq|]. destruct (IH H0) as (a & ? & ?). exists a. split; [now right|assumption]. Qed.
  Lemma Forall2_in_l {A B} (R : A -> B -> Prop) l l' a : Forall2 R l l' -> In a l -> exists b, In b l' /\ R a b.
  Proof. induction 1 as [|x y l l' H HF IH]; intros []; [subst; eauto using in_eq|]. destruct (IH H0) as (b & ? & ?). exists b. split; [now right|assumption]. Qed.
  Lemma Forall2_weaken {A B} (R Q : A -> B -> Prop) l l' : (forall a b, R a b -> Q a b) -> Forall2 R l l' -> Forall2 Q l l'.
  Proof. intros H HF. induction HF; constructor; auto. Qed.
  Theorem flat_ok L M og : Inv [] L M og -> forall k n c s, (rank (sb_name c) < k)%nat -> In n M -> og n = Some c -> lfind L n = Some (Sub s) -> forall d, device_of (update_leaves cp L) (upd_sub s) d <-> valued L0 cp c (sb_params s) d.
  Proof.
    intros I. induction k as [|k IH]; intros n c s Hk HnM Hog Hs d; [lia|]. pose proof (i_c0 _ _ _ _ I _ _ Hog) as Hc0. pose proof (proj1 (lfind_in _ _ _ Hc0)) as HcL.
    destruct (i_good _ _ _ _ I n HnM (fun H => H)) as (s' & c' & G1 & G2 & G). assert (s' = s) by congruence. assert (c' = c) by congruence. subst s' c'.
    destruct (i_res _ _ _ _ I n HnM) as (s' & c' & R1 & R2 & _ & _ & Rp). assert (s' = s) by congruence. assert (c' = c) by congruence. subst s' c'.
    assert (Hpins : sb_pins (upd_sub s) = sb_pins c) by exact Rp. split; intros H.
    - inversion H as [c1 e1 l He Hl|c1 e1 s1 d1 pins He Hl Hd HF]; subst; cbn [sb_elems upd_sub] in He; apply in_map_iff in He as (e' & <- & He'); destruct (Forall2_in_r _ _ _ _ G He') as (e & He & (N1 & N2 & Hcase)); cbn [e_model e_name e_pins e_params upd_elem] in *; rewrite lfind_leaves in Hl.
      + destruct Hcase as [(l0 & Hl0 & ->)|(t & s1 & T1 & T2 & T3 & T4 & _)]; [|rewrite T4 in Hl; discriminate]. rewrite meanings_pvalues. erewrite map_ext; [exact (val_leaf L0 cp c (sb_params s) e l0 He Hl0)|]. intros pn. cbn beta. f_equal. now apply net_of_pins.
      + destruct Hcase as [(l0 & Hl0 & ->)|(t & s2 & T1 & T2 & T3 & T4 & T5 & T6)]; [apply (i_prim _ _ _ _ I) in Hl0; rewrite Hl0 in Hl; discriminate|]. rewrite T4 in Hl. injection Hl as <-.
        assert (Ht : (rank (sb_name t) < k)%nat). { pose proof (Hrank c t (e_model e) HcL (ex_intro _ e (conj He eq_refl)) T1). lia. }
        apply (IH (e_model e') t s2 Ht T2 T3 T4) in Hd. rewrite T5 in Hd. rewrite N1. apply (val_sub L0 cp c (sb_params s) e t d1 pins He T1 Hd).
        revert HF. apply Forall2_weaken. intros a b (E1 & E2). split; [assumption|]. rewrite <- E2. symmetry. apply outside_pins; [exact Hpins|exact N1|exact N2].
    - inversion H as [c1 E1 e l He Hl|c1 E1 e t d1 pins He Hl Hd HF]; subst; destruct (Forall2_in_l _ _ _ _ G He) as (e' & He' & (N1 & N2 & Hcase)); pose proof (in_map (upd_elem (sb_params s)) _ _ He') as Hu.
      + destruct Hcase as [(l0 & Hl0 & ->)|(t & s1 & T1 & _)]; [|congruence]. assert (Hl' : lfind (update_leaves cp L) (e_model e) = Some (Prim l)). { rewrite lfind_leaves, (proj2 (i_prim _ _ _ _ I _ _) Hl). reflexivity. }
        pose proof (dev_leaf (update_leaves cp L) (upd_sub s) (upd_elem (sb_params s) e) l Hu Hl') as D. cbn [e_model e_name e_pins e_params upd_elem] in D. rewrite meanings_pvalues in D. erewrite map_ext in D; [exact D|]. intros pn. cbn beta. f_equal. now apply net_of_pins.
      + destruct Hcase as [(l0 & Hl0 & _)|(t' & s2 & T1 & T2 & T3 & T4 & T5 & T6)]; [congruence|]. assert (t' = t) by congruence. subst t'.
        assert (Ht : (rank (sb_name t) < k)%nat). { pose proof (Hrank c t (e_model e) HcL (ex_intro _ e (conj He eq_refl)) T1). lia. }
        rewrite <- T5 in Hd. apply (IH (e_model e') t s2 Ht T2 T3 T4) in Hd. assert (Hl' : lfind (update_leaves cp L) (e_model e') = Some (Sub (upd_sub s2))) by (rewrite lfind_leaves, T4; reflexivity).
        rewrite <- N1. refine (dev_sub (update_leaves cp L) (upd_sub s) (upd_elem (sb_params s) e') (upd_sub s2) d1 pins Hu Hl' Hd _).
        revert HF. apply Forall2_weaken. intros a b (E1 & E2). split; [assumption|]. rewrite <- E2. apply outside_pins; [exact Hpins|exact N1|exact N2].
  Qed.
  Hypothesis Htop : lfind L0 (sb_name t0) = Some (Sub t0).
  Lemma Inv_init : Inv [] L0 [] (fun n => match lfind L0 n with Some (Sub s) => Some s | _ => None end).
  Proof.
    constructor; try (intros; contradiction).
    - apply Hwf.
    - intros n l. reflexivity.
    - intros n s H. now rewrite H.
    - intros n s H. rewrite H. discriminate.
    - intros n c H. destruct (lfind L0 n) as [[|s]|] eqn:E; try discriminate. injection H as <-. now rewrite (find_name _ _ _ E).
    - intros n c H _. destruct (lfind L0 n) as [[|s]|] eqn:E; try discriminate. injection H as <-. auto.
    - intros n c H E. rewrite E in H. discriminate.
  Qed.
  Theorem read_ok fuel : (rank (sb_name t0) < fuel)%nat -> exists L' t', read_params fuel cp L0 (sb_name t0) = Some L' /\ lfind L' (sb_name t0) = Some (Sub t') /\ forall d, device_of L' t' d <-> valued L0 cp t0 (bound t0 cp) d.
  Proof.
    intros Hf. unfold read_params. rewrite Htop. set (param := match cp with [] => sb_params t0 | _ :: _ => cp end).
    assert (Eb : bound t0 param = bound t0 cp).
    { unfold param. destruct cp; [|reflexivity]. pose proof (overwrite_self (sb_params t0) (Hpd (Sub t0) (proj1 (lfind_in _ _ _ Htop)))) as E1. change (overwrite (sb_params t0) (sb_params t0) = bound t0 []). rewrite E1. unfold bound. cbn. rewrite <- (map_id (sb_params t0)) at 1. apply map_ext. now intros (k, v). }
    destruct (rec_ok_all fuel fuel (le_n _) [] L0 [] _ (sb_name t0) t0 param Inv_init) as (L' & M' & og' & n' & s' & R & I & X & H1 & H2 & H3 & H4).
    - now rewrite Htop.
    - exact Hf.
    - intros q [].
    - intros [].
    - rewrite Eb. constructor.
    - assert (n' = sb_name t0) as ->. { destruct fuel as [|f]; [lia|]. cbn [resolve] in R. rewrite Htop in R. cbn [in_strs existsb] in R. destruct (foldM _ _ _) as [st|]; [|discriminate]. injection R as _ <-. reflexivity. }
      rewrite R. exists (update_leaves cp L'), (upd_sub s'). split; [reflexivity|]. split; [now rewrite lfind_leaves, H3|]. intros d. rewrite (flat_ok L' M' og' I _ (sb_name t0) t0 s' (le_n _) H1 H2 H3). rewrite H4, Eb. reflexivity.
  Qed.
End Run.
