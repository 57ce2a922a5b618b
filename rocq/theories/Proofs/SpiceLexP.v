(** Reading a SPICE netlist: soundness of the matchers, and how each kind of line is read. *)
From Coq Require Import String Ascii.
From Verif Require Import Base.Prelude Base.PyStr Model.SpiceLex Spec.SpiceSpec.

(** Characters. *)
Definition all_chars : chars := map (fun n => ascii_of_nat n) (List.seq 0 256).
Lemma ascii_all (f : ascii -> bool) : forallb f all_chars = true -> forall c, f c = true.
Proof.
  intros H c. rewrite forallb_forall in H. apply H. unfold all_chars. apply in_map_iff. exists (nat_of_ascii c). split.
  - apply ascii_nat_embedding.
  - apply in_seq. pose proof (nat_ascii_bounded c). lia.
Qed.
Ltac chars256 := match goal with |- forall c, @?f c = true -> @?g c = true =>
  let H := fresh in assert (H : forall c, implb (f c) (g c) = true) by (apply ascii_all; vm_compute; reflexivity);
  let c := fresh "c" in intros c; specialize (H c); cbv beta in H; destruct (f c); [intros _; exact H | discriminate] end.
Ltac chars256n := match goal with |- forall c, @?f c = true -> @?g c = false =>
  let H := fresh in assert (H : forall c, implb (f c) (negb (g c)) = true) by (apply ascii_all; vm_compute; reflexivity);
  let c := fresh "c" in intros c; specialize (H c); cbv beta in H; destruct (f c); [intros _; destruct (g c); [discriminate|reflexivity] | discriminate] end.

Lemma forallb_imp {A} (p q : A -> bool) l : (forall c, p c = true -> q c = true) -> forallb p l = true -> forallb q l = true.
Proof. intros H. induction l as [|a l IH]; cbn; [easy|]. rewrite !andb_true_iff. intros [H1 H2]. auto. Qed.
Lemma span_unique {A} (p : A -> bool) a1 c1 t1 a2 c2 t2 : forallb p a1 = true -> forallb p a2 = true -> p c1 = false -> p c2 = false ->
  a1 ++ c1 :: t1 = a2 ++ c2 :: t2 -> a1 = a2 /\ c1 = c2 /\ t1 = t2.
Proof.
  revert a2. induction a1 as [|x a1 IH]; intros [|y a2] H1 H2 N1 N2 E; cbn in *; injection E as E1 E2; subst.
  - easy.
  - apply andb_true_iff in H2. destruct H2. congruence.
  - apply andb_true_iff in H1. destruct H1. congruence.
  - apply andb_true_iff in H1, H2. destruct H1, H2. destruct (IH a2) as (-> & -> & ->); auto.
Qed.

(** * Matchers only take characters of a given class. *)
Definition sound (P : ascii -> bool) (m : mat) : Prop := forall k s r, m k s = Some r -> exists a b, s = a ++ b /\ forallb P a = true /\ k b = Some r.
(** They take at least one. *)
Definition eats (m : mat) : Prop := forall k s r, m k s = Some r -> exists a b, a <> [] /\ s = a ++ b /\ k b = Some r.
Definition any (c : ascii) : bool := true.
Lemma cls_sound (P p : ascii -> bool) : (forall c, p c = true -> P c = true) -> sound P (cls p).
Proof.
  intros H k [|c t] r E; cbn in E; [discriminate|]. destruct (p c) eqn:Ep; [|discriminate].
  exists [c], t. cbn. rewrite (H c Ep). auto.
Qed.
Lemma star_sound (P p : ascii -> bool) : (forall c, p c = true -> P c = true) -> sound P (star p).
Proof.
  intros H k s. induction s as [|c t IH]; intros r E; cbn in E.
  - exists [], []. auto.
  - destruct (p c) eqn:Ep.
    + destruct (star p k t) eqn:Es.
      * injection E as <-. destruct (IH _ eq_refl) as (a & b & -> & Ha & Hb). exists (c :: a), b. cbn. rewrite (H c Ep). auto.
      * exists [], (c :: t). auto.
    + exists [], (c :: t). auto.
Qed.
Lemma seq_sound P m1 m2 : sound P m1 -> sound P m2 -> sound P (seq m1 m2).
Proof.
  intros H1 H2 k s r E. destruct (H1 _ _ _ E) as (a & b & -> & Ha & E2). destruct (H2 _ _ _ E2) as (a' & b' & -> & Ha' & E3).
  exists (a ++ a'), b'. rewrite app_assoc, forallb_app, Ha, Ha'. auto.
Qed.
Lemma alt_sound P m1 m2 : sound P m1 -> sound P m2 -> sound P (alt m1 m2).
Proof. intros H1 H2 k s r E. unfold alt in E. destruct (m1 k s) eqn:E1; [injection E as <-; eauto|eauto]. Qed.
Lemma id_sound P : sound P (fun k => k).
Proof. intros k s r E. exists [], s. auto. Qed.
Lemma opt_sound P m : sound P m -> sound P (opt m).
Proof. intros H1. apply alt_sound; [exact H1|apply id_sound]. Qed.
Lemma none_sound P : sound P (fun _ _ => None).
Proof. intros k s r E. discriminate. Qed.
Lemma alts_sound P l : Forall (sound P) l -> sound P (alts l).
Proof. induction 1 as [|m l Hm Hl IH]; cbn; [apply none_sound|apply alt_sound; auto]. Qed.
Lemma rounds_sound P m n : sound P m -> sound P (rounds n m).
Proof.
  intros H. induction n as [|n IH]; [apply id_sound|]. intros k s r E. cbn in E. destruct (m (rounds n m k) s) eqn:Em.
  - injection E as <-. destruct (H _ _ _ Em) as (a & b & -> & Ha & Eb). destruct (IH _ _ _ Eb) as (a' & b' & -> & Ha' & Eb').
    exists (a ++ a'), b'. rewrite app_assoc, forallb_app, Ha, Ha'. auto.
  - exists [], s. auto.
Qed.
Lemma many_sound P m : sound P m -> sound P (many m).
Proof. intros H k s r E. exact (rounds_sound P m _ H _ _ _ E). Qed.
Lemma lits_sound P w : (forall d c, In c w -> Ascii.eqb (up d) c = true -> P d = true) -> sound P (lits w).
Proof.
  induction w as [|c w IH]; intros H; cbn; [apply id_sound|]. apply seq_sound.
  - apply cls_sound. intros d Hd. eapply H; [now left|exact Hd].
  - apply IH. intros d c' Hc. apply H. now right.
Qed.
Lemma sound_imp (P Q : ascii -> bool) m : (forall c, P c = true -> Q c = true) -> sound P m -> sound Q m.
Proof. intros H S k s r E. destruct (S _ _ _ E) as (a & b & -> & Ha & Hb). exists a, b. split; [easy|]. split; [|easy]. eapply forallb_imp; eassumption. Qed.

Lemma eats_cls p : eats (cls p).
Proof. intros k [|c t] r E; cbn in E; [discriminate|]. destruct (p c); [|discriminate]. exists [c], t. easy. Qed.
Lemma eats_l P m1 m2 : eats m1 -> sound P m2 -> eats (seq m1 m2).
Proof.
  intros H1 H2 k s r E. destruct (H1 _ _ _ E) as (a & b & Ha & -> & E2). destruct (H2 _ _ _ E2) as (a' & b' & -> & _ & E3).
  exists (a ++ a'), b'. rewrite app_assoc. split; [|auto]. destruct a; [easy|discriminate].
Qed.
Lemma eats_r P m1 m2 : sound P m1 -> eats m2 -> eats (seq m1 m2).
Proof.
  intros H1 H2 k s r E. destruct (H1 _ _ _ E) as (a & b & -> & Ha & E2). destruct (H2 _ _ _ E2) as (a' & b' & Ha' & -> & E3).
  exists (a ++ a'), b'. rewrite app_assoc. split; [|auto]. destruct a; [easy|discriminate].
Qed.
Lemma eats_alt m1 m2 : eats m1 -> eats m2 -> eats (alt m1 m2).
Proof. intros H1 H2 k s r E. unfold alt in E. destruct (m1 k s) eqn:E1; [injection E as <-; eauto|eauto]. Qed.

(** The parts of the patterns. *)
Definition numchar (c : ascii) : bool := is_digit c || letter c || among "+-." c.
Ltac snd1 := match goal with
  | |- sound _ (seq _ _) => apply seq_sound | |- sound _ (alt _ _) => apply alt_sound | |- sound _ (opt _) => apply opt_sound
  | |- sound _ (many _) => apply many_sound | |- sound _ (star _) => apply star_sound | |- sound _ (cls _) => apply cls_sound
  | |- sound _ (alts _) => apply alts_sound end.
Lemma lits_num w : forallb (fun c => (65 <=? code c)%N && (code c <=? 90)%N) w = true -> sound numchar (lits w).
Proof.
  intros H. apply lits_sound. intros d c Hc E. rewrite forallb_forall in H. specialize (H _ Hc). apply Ascii.eqb_eq in E. subst c.
  revert d H Hc. intros d H _. revert d H. chars256.
Qed.
Lemma numericval_sound : sound numchar numericval.
Proof.
  unfold numericval, plus, chr. repeat snd1; try (now chars256); try (apply lits_num; reflexivity).
  unfold units. cbn [map]. repeat constructor; apply lits_num; reflexivity.
Qed.
Lemma numericval_any : sound any numericval.
Proof. apply (sound_imp numchar); [easy|apply numericval_sound]. Qed.
Definition not_brace (c : ascii) : bool := negb (Ascii.eqb c "}").
Lemma exprcontent_sound : sound not_brace exprcontent.
Proof.
  assert (N : sound not_brace operand).
  { unfold operand, plus. apply alt_sound; [apply (sound_imp numchar); [chars256|apply numericval_sound]|]. repeat snd1; chars256. }
  unfold exprcontent, operator. repeat (apply N || snd1); chars256.
Qed.
Lemma exprcontent_any : sound any exprcontent.
Proof. apply (sound_imp not_brace); [easy|apply exprcontent_sound]. Qed.
Ltac anyb := match goal with
  | |- sound _ numericval => apply numericval_any | |- sound _ exprcontent => apply exprcontent_any | |- sound _ _ => snd1
  | |- forall c, _ = true -> any c = true => (intros ? _; reflexivity) end.

Lemma plus_eats p : eats (plus p).
Proof. apply (eats_l any); [apply eats_cls|repeat anyb]. Qed.
Lemma at_end_sound P : sound P at_end.
Proof. intros k s r E. unfold at_end in E. destruct (_ || _); [|discriminate]. exists [], s. auto. Qed.
Lemma numericval_eats : eats numericval.
Proof.
  unfold numericval. apply (eats_r any); [repeat anyb|]. apply (eats_l any).
  - apply eats_alt; [apply eats_cls|]. apply (eats_l any); [apply eats_cls|repeat anyb].
  - assert (L : forall w, sound any (lits w)) by (intros; apply lits_sound; easy).
    unfold plus, chr. repeat (apply L || anyb). unfold units. cbn [map]. repeat constructor; apply L.
Qed.
Lemma commentchars_eats : eats commentchars.
Proof. apply eats_alt; [apply eats_cls|]. apply (eats_l any); [apply eats_cls|unfold chr; repeat anyb]. Qed.
Lemma commentchars_any : sound any commentchars.
Proof. unfold commentchars, chr. repeat anyb. Qed.
Lemma lead_any b : sound any (lead b).
Proof. destruct b; cbn; unfold plus; repeat anyb. Qed.
Lemma patterns_eat b t m : In (t, m) (patterns b) -> eats m.
Proof.
  assert (ST : sound any (star sp)) by repeat anyb. assert (SN : sound any (star not_nl)) by repeat anyb.
  assert (SC : forall c, sound any (chr c)) by (intros; unfold chr; repeat anyb).
  intros H. cbn in H. repeat (destruct H as [[= <- <-]|H]); try contradiction; try (clear H).
  - apply (eats_r any); [exact ST|]. apply (eats_l any); [apply eats_alt; [apply eats_cls|apply commentchars_eats]|].
    repeat (apply ST || apply SN || apply SC || apply commentchars_any || anyb).
  - apply (eats_r any); [apply lead_any|]. apply (eats_l any); [apply eats_cls|exact SN].
  - apply (eats_r any); [exact ST|]. apply (eats_l any); [apply commentchars_eats|exact SN].
  - apply (eats_r any); [apply lead_any|]. apply eats_cls.
  - apply (eats_l any); [apply eats_cls|]. repeat anyb.
  - apply plus_eats.
  - apply (eats_r any); [exact ST|]. apply (eats_l any); [apply eats_cls|exact ST].
  - apply eats_alt.
    + intros k [|c t] r E; cbn in E; [discriminate|]. destruct (_ || _); [|discriminate].
      destruct (exprcontent_any _ _ _ E) as (a & b' & -> & _ & E2). destruct (SC c _ _ _ E2) as (a2 & b2 & -> & _ & E3).
      exists (c :: a ++ a2), b2. split; [discriminate|]. cbn. rewrite app_assoc. auto.
    + apply (eats_l any); [apply eats_cls|]. apply seq_sound; [apply exprcontent_any|apply SC].
  - apply (eats_l any); [apply numericval_eats|apply at_end_sound].
  - apply (eats_l any); [apply eats_cls|unfold plus; repeat anyb].
  - apply plus_eats.
  - apply plus_eats.
Qed.
Lemma first_match_in ps s t r : first_match ps s = Some (t, r) -> exists m, In (t, m) ps /\ m Some s = Some r.
Proof.
  induction ps as [|[t' m] ps IH]; cbn; [discriminate|]. destruct (m Some s) eqn:E.
  - intros [= <- <-]. eauto.
  - intros H. destruct (IH H) as (m' & H1 & H2). eauto.
Qed.
Lemma first_match_eats b s t r : first_match (patterns b) s = Some (t, r) -> exists a, a <> [] /\ s = a ++ r.
Proof.
  intros H. apply first_match_in in H. destruct H as (m & H1 & H2). destruct (patterns_eat _ _ _ H1 _ _ _ H2) as (a & b' & Ha & -> & [= <-]). eauto.
Qed.
Lemma first_match_none ps s : first_match ps s = None -> forall t m, In (t, m) ps -> m Some s = None.
Proof.
  induction ps as [|[t' m'] ps IH]; cbn; [easy|]. destruct (m' Some s) eqn:E; [discriminate|]. intros H t m [[= <- <-]|Hi]; eauto.
Qed.

(** * Steps of the scanner. *)
Inductive steps : bool -> chars -> list (ttype * chars) -> bool -> chars -> Prop :=
| steps_nil b s : steps b s [] b s
| steps_cons b a s t l b' s' : a <> [] -> first_match (patterns b) (a ++ s) = Some (t, s) -> steps false s l b' s' -> steps b (a ++ s) ((t, a) :: l) b' s'.
Lemma steps_app b s l b' s' l2 b2 s2 : steps b s l b' s' -> steps b' s' l2 b2 s2 -> steps b s (l ++ l2) b2 s2.
Proof. induction 1; cbn; [easy|]. intros H3. constructor; auto. Qed.
Lemma steps_one b a s t : a <> [] -> first_match (patterns b) (a ++ s) = Some (t, s) -> steps b (a ++ s) [(t, a)] false s.
Proof. intros. constructor; auto. constructor. Qed.
Lemma lexeme (a s : chars) : firstn (length (a ++ s) - length s) (a ++ s) = a.
Proof. rewrite app_length. replace (length a + length s - length s)%nat with (length a) by lia. rewrite firstn_app, Nat.sub_diag, firstn_all. apply app_nil_r. Qed.
Lemma lex_steps b s l b' s' : steps b s l b' s' -> forall n, exists m, lex (n + length s) b s = (l ++ fst (lex m b' s'), snd (lex m b' s')) /\ (n + length s' <= m)%nat.
Proof.
  induction 1 as [b s|b a s t l b' s' Ha Hf Hs IH]; intros n.
  - exists (n + length s)%nat. cbn. split; [now destruct (lex _ _ _)|lia].
  - destruct a as [|c a]; [easy|]. replace (n + length ((c :: a) ++ s))%nat with (S ((n + length a) + length s)) by (rewrite app_length; cbn; lia).
    cbn [lex]. rewrite Hf, lexeme. destruct (IH (n + length a)%nat) as (m & E & Hm). exists m. split; [|lia].
    rewrite E. reflexivity.
Qed.
Lemma scan_steps s l b' s' : steps true s l b' s' -> first_match (patterns b') s' = None -> scan s = (l, s').
Proof.
  intros H N. destruct (lex_steps _ _ _ _ _ H 1) as (m & E & Hm). unfold scan. change (S (length s)) with (1 + length s)%nat. rewrite E.
  destruct m as [|m]; [lia|]. cbn [lex]. rewrite N. cbn. now rewrite app_nil_r.
Qed.
Lemma lex_is_steps n b s : (length s < n)%nat -> exists b', steps b s (fst (lex n b s)) b' (snd (lex n b s)) /\ first_match (patterns b') (snd (lex n b s)) = None.
Proof.
  revert b s. induction n as [|n IH]; intros b s H; [lia|]. cbn [lex]. destruct (first_match (patterns b) s) as [[t r]|] eqn:E.
  - destruct (first_match_eats _ _ _ _ E) as (a & Ha & ->). rewrite lexeme. destruct (IH false r) as (b' & H1 & H2).
    { rewrite app_length in H. destruct a; [easy|cbn in H; lia]. }
    destruct (lex n false r) as [l rest]. cbn in *. exists b'. split; [constructor; auto|easy].
  - exists b. split; [constructor|easy].
Qed.
Lemma steps_concat b s l b' s' : steps b s l b' s' -> s = concat (map snd l) ++ s' /\ Forall (fun x => snd x <> []) l.
Proof. induction 1 as [|b a s t l b' s' Ha Hf Hs [IH1 IH2]]; cbn; [easy|]. split; [|constructor; auto]. now rewrite IH1, <- app_assoc at 1. Qed.

(** * Greedy runs. *)
Definition stops (p : ascii -> bool) (s : chars) : Prop := match s with [] => True | c :: _ => p c = false end.
Lemma star_stop p k s : stops p s -> star p k s = k s.
Proof. destruct s as [|c t]; cbn; [easy|]. now intros ->. Qed.
Lemma star_ok p k a b r : forallb p a = true -> stops p b -> k b = Some r -> star p k (a ++ b) = Some r.
Proof.
  intros H Hb Hk. induction a as [|c a IH]; cbn in *; [now rewrite star_stop|].
  apply andb_true_iff in H. destruct H as [Hc Ha]. now rewrite Hc, (IH Ha).
Qed.
Lemma star_skip p k a s : forallb p a = true -> (forall x y, p x = true -> k (x :: y) = None) -> star p k (a ++ s) = star p k s.
Proof.
  intros H Hk. induction a as [|c a IH]; cbn in *; [easy|].
  apply andb_true_iff in H. destruct H as [Hc Ha]. rewrite Hc, (IH Ha), (Hk _ _ Hc). now destruct (star p k s).
Qed.
Lemma star_to p k a c t : forallb p a = true -> (forall x y, p x = true -> k (x :: y) = None) -> p c = false -> star p k (a ++ c :: t) = k (c :: t).
Proof. intros H Hk Hc. rewrite star_skip by auto. now rewrite star_stop. Qed.
Lemma star_to_nil p k a : forallb p a = true -> (forall x y, p x = true -> k (x :: y) = None) -> star p k a = k [].
Proof. intros H Hk. rewrite <- (app_nil_r a), star_skip by auto. reflexivity. Qed.
Lemma plus_ok p a b : a <> [] -> forallb p a = true -> stops p b -> plus p Some (a ++ b) = Some b.
Proof.
  intros Ha H Hb. destruct a as [|c a]; [easy|]. cbn in H. apply andb_true_iff in H. destruct H as [Hc H]. unfold plus, seq. cbn [cls app]. rewrite Hc.
  now apply star_ok.
Qed.
Lemma cls_no p k c t : p c = false -> cls p k (c :: t) = None.
Proof. cbn. now intros ->. Qed.
Lemma cls_yes p k c t : p c = true -> cls p k (c :: t) = k t.
Proof. cbn. now intros ->. Qed.
Lemma plus_no p k s : stops p s -> plus p k s = None.
Proof. destruct s as [|c t]; cbn; [easy|]. unfold plus, seq. cbn. now intros ->. Qed.

(** After spaces, comment characters and the like. *)
Lemma cc_sp k x y : sp x = true -> commentchars k (x :: y) = None.
Proof.
  intros H. unfold commentchars, alt, seq, chr. rewrite !cls_no; [reflexivity| |].
  - revert x H. chars256n. 
  - revert x H. chars256n.
Qed.
Definition cstart (c : ascii) : bool := among "*;$/" c.
Lemma cc_no k c t : cstart c = false -> commentchars k (c :: t) = None.
Proof.
  intros H. unfold commentchars, alt, seq, chr. rewrite !cls_no; [reflexivity| |].
  - destruct (Ascii.eqb "/" c) eqn:E; [|easy]. apply Ascii.eqb_eq in E. now subst.
  - destruct (among ";$" c) eqn:E; [|easy]. exfalso. revert c E H. 
    assert (K : forall c, among ";$" c = true -> cstart c = true) by chars256. intros c E H. rewrite (K c E) in H. discriminate.
Qed.
Lemma star_char_no k c t : cstart c = false -> chr "*" k (c :: t) = None.
Proof. intros H. unfold chr. apply cls_no. destruct (Ascii.eqb "*" c) eqn:E; [|easy]. apply Ascii.eqb_eq in E. now subst. Qed.
Lemma sp_cstart : forall c, sp c = true -> cstart c = false.
Proof. chars256n. Qed.
Lemma nl_sp : forall c, nl c = true -> sp c = true.
Proof. chars256. Qed.
Lemma blank_sp : forall c, blank c = true -> sp c = true.
Proof. chars256. Qed.
Lemma blank_nl : forall c, blank c = true -> nl c = false.
Proof. chars256n. Qed.

(** ANNOTATION, COMMENT and EQUALS after spaces. *)
Lemma annotation_no w c t : forallb sp w = true -> sp c = false -> cstart c = false -> m_annotation Some (w ++ c :: t) = None.
Proof.
  intros Hw Hc Hs. unfold m_annotation. unfold seq at 1. rewrite star_to; auto.
  - unfold seq at 1. unfold alt at 1. now rewrite star_char_no, cc_no.
  - intros x y Hx. unfold seq at 1. unfold alt at 1. rewrite star_char_no by now apply sp_cstart. now apply cc_sp.
Qed.
Lemma annotation_nil w : forallb sp w = true -> m_annotation Some w = None.
Proof.
  intros Hw. unfold m_annotation. unfold seq at 1. rewrite star_to_nil; auto.
  intros x y Hx. unfold seq at 1. unfold alt at 1. rewrite star_char_no by now apply sp_cstart. now apply cc_sp.
Qed.
Lemma comment_no w c t : forallb sp w = true -> sp c = false -> cstart c = false \/ c = "*"%char -> m_comment Some (w ++ c :: t) = None.
Proof.
  intros Hw Hc Hs. unfold m_comment. unfold seq at 1. rewrite star_to; auto.
  - unfold seq. destruct Hs as [Hs| ->]; [now rewrite cc_no|reflexivity].
  - intros x y Hx. unfold seq. now apply cc_sp.
Qed.
Lemma comment_nil w : forallb sp w = true -> m_comment Some w = None.
Proof.
  intros Hw. unfold m_comment. unfold seq at 1. rewrite star_to_nil; auto.
  intros x y Hx. unfold seq. now apply cc_sp.
Qed.
Lemma eq_sp k x y : sp x = true -> chr "=" k (x :: y) = None.
Proof. intros H. apply cls_no. revert x H. chars256n. Qed.
Lemma equals_no w c t : forallb sp w = true -> sp c = false -> c <> "="%char -> m_equals Some (w ++ c :: t) = None.
Proof.
  intros Hw Hc Hs. unfold m_equals. unfold seq at 1. rewrite star_to; auto.
  - unfold seq. apply cls_no. apply Ascii.eqb_neq. congruence.
  - intros x y Hx. now apply eq_sp.
Qed.
Lemma annotation_no0 c t : sp c = false -> cstart c = false -> m_annotation Some (c :: t) = None.
Proof. exact (annotation_no [] c t eq_refl). Qed.
Lemma comment_no0 c t : sp c = false -> cstart c = false \/ c = "*"%char -> m_comment Some (c :: t) = None.
Proof. exact (comment_no [] c t eq_refl). Qed.
Lemma equals_no0 c t : sp c = false -> c <> "="%char -> m_equals Some (c :: t) = None.
Proof. exact (equals_no [] c t eq_refl). Qed.
Lemma equals_nil w : forallb sp w = true -> m_equals Some w = None.
Proof. intros Hw. unfold m_equals. unfold seq at 1. rewrite star_to_nil; auto. intros x y Hx. now apply eq_sp. Qed.
(** Lines starts: a mark after newlines. *)
Lemma lead_to b n k c t : (b = true \/ n <> O) -> (forall x y, nl x = true -> k (x :: y) = None) -> nl c = false -> lead b k (repeat newline n ++ c :: t) = k (c :: t).
Proof.
  intros Hb Hk Hc. assert (F : forall m, forallb nl (repeat newline m) = true) by (induction m; cbn; auto).
  destruct b; cbn [lead].
  - apply star_to; auto.
  - destruct Hb as [Hb|Hb]; [discriminate|]. destruct n as [|n]; [easy|]. cbn [repeat app]. unfold plus, seq. rewrite cls_yes by reflexivity. apply star_to; auto.
Qed.
Lemma lead_no b k s : (forall c t, s = c :: t -> nl c = false /\ k s = None) -> k [] = None -> lead b k s = None.
Proof.
  intros H N. destruct s as [|c t].
  - destruct b; cbn [lead]; [exact N|reflexivity].
  - destruct (H c t eq_refl) as [H1 H2]. destruct b; cbn [lead].
    + now rewrite star_stop.
    + apply plus_no. exact H1.
Qed.

Lemma nlcomment_no b c t : nl c = false -> c <> "*"%char -> m_nlcomment b Some (c :: t) = None.
Proof. intros H1 H2. unfold m_nlcomment, seq at 1. apply lead_no; [|reflexivity]. intros ? ? [= <- <-]. split; [exact H1|]. unfold seq. apply cls_no. apply Ascii.eqb_neq. congruence. Qed.
Lemma continue_no b c t : nl c = false -> c <> "+"%char -> m_continue b Some (c :: t) = None.
Proof. intros H1 H2. unfold m_continue, seq at 1. apply lead_no; [|reflexivity]. intros ? ? [= <- <-]. split; [exact H1|]. apply cls_no. apply Ascii.eqb_neq. congruence. Qed.

(** * One word. *)
(** What may follow a value. *)
Definition ends (s : chars) : Prop := match s with [] => True | c :: _ => blank c = true \/ c = newline \/ c = ";"%char end.
Definition ends_eq (s : chars) : Prop := match s with [] => True | c :: _ => blank c = true \/ c = newline \/ c = ";"%char \/ c = "="%char end.
Lemma blank_ident : forall c, blank c = true -> ident c = false.
Proof. chars256n. Qed.
Lemma ends_ident s : ends_eq s -> stops ident s.
Proof. destruct s as [|c t]; cbn; [easy|]. intros [H|[->|[->| ->]]]; try reflexivity. now apply blank_ident. Qed.
Lemma ends_more s : ends s -> ends_eq s.
Proof. destruct s as [|c t]; cbn; [easy|]. tauto. Qed.
Lemma namec : forall c, name_char c = true -> ident c = true.
Proof. chars256. Qed.
Definition plain (c : ascii) : bool := negb (sp c) && negb (cstart c) && negb (among "+\={'"".-" c) && negb (Ascii.eqb c """") && negb (is_digit c).
Lemma start_plain : forall c, name_start c = true -> plain c = true.
Proof. chars256. Qed.
Lemma start_ident : forall c, name_start c = true -> ident c = true.
Proof. chars256. Qed.
Ltac by256 := match goal with H : plain ?c = true |- _ => clear - H; revert c H; chars256n end.
Lemma name_step b w rest : name w -> ends_eq rest -> first_match (patterns b) (w ++ rest) = Some (tNAME, rest).
Proof.
  intros Hw He. destruct w as [|c w]; [easy|]. destruct Hw as [Hc Hw]. pose proof (start_plain _ Hc) as Hp. pose proof (start_ident _ Hc) as Hi. clear Hc.
  assert (P1 : sp c = false) by by256. assert (P2 : cstart c = false) by by256. assert (P3 : nl c = false) by by256.
  assert (P4 : c <> "*"%char) by (intros ->; discriminate). assert (P5 : c <> "+"%char) by (intros ->; discriminate).
  assert (P6 : forall k t, chr "\" k (c :: t) = None) by (intros; apply cls_no; by256).
  assert (P7 : forall k t, chr "{" k (c :: t) = None) by (intros; apply cls_no; by256).
  assert (P8 : forall k t, chr "." k (c :: t) = None) by (intros; apply cls_no; by256).
  assert (P9 : c <> "="%char) by (intros ->; discriminate).
  assert (P10 : (Ascii.eqb c "'" || Ascii.eqb c """")%char = false) by by256.
  assert (P11 : among "+-" c = false) by by256. assert (P12 : forall k t, chr "0" k (c :: t) = None) by (intros; apply cls_no; by256).
  assert (P13 : is_digit c && negb (Ascii.eqb c "0") = false) by by256.
  cbn [patterns first_match app].
  rewrite annotation_no0 by auto. rewrite comment_no0 by auto. rewrite equals_no0 by auto.
  rewrite nlcomment_no by auto. rewrite continue_no by auto.
  unfold m_backslash. unfold seq at 1. rewrite P6. unfold m_newl. rewrite plus_no by exact P3.
  unfold m_expr. unfold alt at 1. unfold m_quoted. rewrite P10. unfold seq at 1. rewrite P7.
  unfold m_number, numericval. unfold seq at 1. unfold seq at 1. unfold opt at 1. rewrite (cls_no _ _ _ _ P11). unfold seq at 1. unfold alt at 1. rewrite P12. unfold seq at 1. rewrite (cls_no _ _ _ _ P13).
  unfold m_decl. unfold seq at 1. rewrite P8.
  change (c :: w ++ rest) with ((c :: w) ++ rest). rewrite plus_ok; [reflexivity|easy| |now apply ends_ident].
  cbn. rewrite Hi. eapply forallb_imp; [exact namec|exact Hw].
Qed.
Lemma decl_step b w rest : all_name w -> ends_eq rest -> first_match (patterns b) (("."%char :: w) ++ rest) = Some (tDECL, rest).
Proof.
  intros [Hn Hw] He. cbn [patterns first_match app].
  rewrite annotation_no0 by auto. rewrite comment_no0 by auto. rewrite equals_no0 by easy.
  rewrite nlcomment_no by easy. rewrite continue_no by easy.
  change (m_backslash Some ("."%char :: w ++ rest)) with (@None chars). change (m_newl Some ("."%char :: w ++ rest)) with (@None chars).
  change (m_expr Some ("."%char :: w ++ rest)) with (@None chars). change (m_number Some ("."%char :: w ++ rest)) with (@None chars).
  unfold m_decl. unfold seq at 1. unfold chr. rewrite cls_yes by reflexivity. rewrite plus_ok; [reflexivity|easy| |now apply ends_ident].
  eapply forallb_imp; [exact namec|exact Hw].
Qed.

(** * Numbers and expressions: a match exists, and its end is determined. *)
Definition complete (m : mat) (L : chars -> Prop) : Prop := forall k a b r, L a -> k b = Some r -> exists r', m k (a ++ b) = Some r'.
Lemma cls_complete p : complete (cls p) (fun a => exists c, a = [c] /\ p c = true).
Proof. intros k a b r (c & -> & Hc) Hk. cbn. rewrite Hc. eauto. Qed.
Lemma star_complete p : complete (star p) (fun a => forallb p a = true).
Proof.
  intros k a b r Ha Hk. induction a as [|c a IH]; cbn in *.
  - destruct b as [|c t]; cbn; [eauto|]. destruct (p c); [|eauto]. destruct (star p k t); eauto.
  - apply andb_true_iff in Ha. destruct Ha as [Hc Ha]. rewrite Hc. destruct (IH Ha) as (r' & ->). eauto.
Qed.
Lemma seq_complete m1 m2 (L1 L2 : chars -> Prop) : complete m1 L1 -> complete m2 L2 -> complete (seq m1 m2) (fun a => exists a1 a2, a = a1 ++ a2 /\ L1 a1 /\ L2 a2).
Proof.
  intros H1 H2 k a b r (a1 & a2 & -> & Ha1 & Ha2) Hk. rewrite <- app_assoc. destruct (H2 _ _ _ _ Ha2 Hk) as (r2 & E2). exact (H1 _ _ _ _ Ha1 E2).
Qed.
Lemma alt_complete m1 m2 (L1 L2 : chars -> Prop) : complete m1 L1 -> complete m2 L2 -> complete (alt m1 m2) (fun a => L1 a \/ L2 a).
Proof.
  intros H1 H2 k a b r [Ha|Ha] Hk; unfold alt.
  - destruct (H1 _ _ _ _ Ha Hk) as (r' & ->). eauto.
  - destruct (m1 k (a ++ b)); [eauto|]. eapply H2; eauto.
Qed.
Lemma opt_complete m (L : chars -> Prop) : complete m L -> complete (opt m) (fun a => L a \/ a = []).
Proof. intros H. apply (alt_complete m (fun k => k) L (fun a => a = [])); [exact H|]. intros k a b r -> Hk. cbn. eauto. Qed.
Lemma alts_complete l m L : In m l -> complete m L -> complete (alts l) L.
Proof.
  intros Hi H. induction l as [|m' l IH]; [easy|]. cbn in *. intros k a b r Ha Hk. unfold alt. destruct Hi as [->|Hi].
  - destruct (H _ _ _ _ Ha Hk) as (r' & ->). eauto.
  - destruct (m' k (a ++ b)); [eauto|]. exact (IH Hi _ _ _ _ Ha Hk).
Qed.
Lemma lits_complete w : complete (lits w) (fun a => map up a = w).
Proof.
  induction w as [|c w IH]; intros k a b r Ha Hk.
  - destruct a; [|discriminate]. cbn. eauto.
  - destruct a as [|d a]; [discriminate|]. cbn in Ha. injection Ha as Hd Ha. cbn [lits fold_right]. unfold seq. cbn [cls app].
    rewrite Hd, Ascii.eqb_refl. exact (IH _ _ _ _ Ha Hk).
Qed.
Lemma rounds_complete m L n : complete m L -> forall k l b r, Forall L l -> (length l <= n)%nat -> k b = Some r -> exists r', rounds n m k (concat l ++ b) = Some r'.
Proof.
  intros H k. induction n as [|n IH]; intros l b r Hl Hn Hk.
  - destruct l; [|cbn in Hn; lia]. cbn. eauto.
  - cbn [rounds]. destruct l as [|a l].
    + cbn [concat app]. destruct (m (rounds n m k) b); eauto.
    + inversion Hl; subst. cbn [concat]. rewrite <- app_assoc. destruct (IH l b r) as (r2 & E2); auto. { cbn in Hn; lia. }
      destruct (H _ _ _ _ H2 E2) as (r' & ->). eauto.
Qed.
Lemma many_complete m (L : chars -> Prop) : (forall a, L a -> a <> []) -> complete m L -> complete (many m) (fun a => exists l, a = concat l /\ Forall L l).
Proof.
  intros Hne H k a b r (l & -> & Hl) Hk. unfold many. eapply rounds_complete; eauto.
  rewrite app_length. eapply Nat.le_trans; [|apply Nat.le_add_r]. clear - Hne Hl. induction Hl as [|a l Ha Hl IH]; cbn; [lia|].
  rewrite app_length. specialize (Hne _ Ha). destruct a; [easy|cbn; lia].
Qed.
Lemma complete_imp m (L L' : chars -> Prop) : (forall a, L' a -> L a) -> complete m L -> complete m L'.
Proof. intros H C k a b r Ha Hk. eapply C; eauto. Qed.
Lemma plus_complete p : complete (plus p) (fun a => a <> [] /\ forallb p a = true).
Proof.
  eapply complete_imp; [|exact (seq_complete _ _ _ _ (cls_complete p) (star_complete p))].
  intros [|c a] [Hn Ha]; [easy|]. cbn in Ha. apply andb_true_iff in Ha. exists [c], a. split; [easy|]. split; [exists c|]; tauto.
Qed.
Lemma upper_up c : upper_char c = up c.
Proof. apply Ascii.eqb_eq. revert c. apply ascii_all. vm_compute. reflexivity. Qed.
Lemma sign_complete : complete (opt (cls (among "+-"))) (fun a => exists c, sign_ok c /\ a = opt_chars c).
Proof.
  eapply complete_imp; [|exact (opt_complete _ _ (cls_complete _))]. intros a ([c|] & Hc & ->); cbn; [|now right].
  left. exists c. split; [easy|]. cbn in Hc. destruct Hc as [->| ->]; reflexivity.
Qed.
Lemma numericval_complete : complete numericval (fun a => exists n, numeral_ok n /\ a = num_chars n).
Proof.
  unfold numericval.
  pose proof (plus_complete is_digit) as D.
  assert (C1 : complete (alt (chr "0") (seq (cls (fun c => is_digit c && negb (Ascii.eqb c "0"))) (star is_digit)))
                 (fun a => a = str "0" \/ digits a /\ hd "0"%char a <> "0"%char)).
  { eapply complete_imp; [|exact (alt_complete _ _ _ _ (cls_complete _) (seq_complete _ _ _ _ (cls_complete _) (star_complete _)))].
    intros a [->|[[Hn Ha] Hh]]; [left; now exists "0"%char|]. right. destruct a as [|c a]; [easy|]. cbn in Ha, Hh. apply andb_true_iff in Ha. destruct Ha as [Hc Ha].
    exists [c], a. split; [easy|]. split; [|easy]. exists c. split; [easy|]. rewrite Hc. apply Ascii.eqb_neq in Hh. now rewrite Hh. }
  assert (C2 : complete (opt (seq (chr ".") (plus is_digit))) (fun a => exists f, match f with None => True | Some f => digits f end /\ a = match f with Some f => str "." ++ f | None => [] end)).
  { eapply complete_imp; [|exact (opt_complete _ _ (seq_complete _ _ _ _ (cls_complete _) D))].
    intros a ([f|] & Hf & ->); [|now right]. left. exists (str "."), f. split; [easy|]. split; [now exists "."%char|exact Hf]. }
  assert (C3 : complete (opt (seq (lits (str "E")) (seq (opt (cls (among "+-"))) (plus is_digit))))
                 (fun a => exists x, match x with None => True | Some (e, s, d) => (e = "e"%char \/ e = "E"%char) /\ sign_ok s /\ digits d end /\
                                     a = match x with Some (e, s, d) => e :: opt_chars s ++ d | None => [] end)).
  { eapply complete_imp; [|exact (opt_complete _ _ (seq_complete _ _ _ _ (lits_complete _) (seq_complete _ _ _ _ sign_complete D)))].
    intros a ([[[e s] d]|] & Hx & ->); [|now right]. destruct Hx as (He & Hs & Hd). left. exists [e], (opt_chars s ++ d). split; [easy|].
    split; [destruct He as [->| ->]; reflexivity|]. exists (opt_chars s), d. split; [easy|]. split; [now exists s|exact Hd]. }
  assert (C4 : complete (opt (alts (map lits units))) (fun a => exists u, match u with None => True | Some u => In (map upper_char u) unit_names end /\ a = match u with Some u => u | None => [] end)).
  { intros k a b r (u & Hu & ->) Hk. destruct u as [u|].
    - unfold opt. destruct (alts_complete (map lits units) (lits (map up u)) (fun a => map up a = map up u)) with (k := k) (a := u) (b := b) (r := r) as (r' & ->); eauto.
      + rewrite (map_ext _ _ upper_up) in Hu. apply in_map_iff. exists (map up u). split; [easy|exact Hu].
      + apply lits_complete.
    - unfold opt. cbn [app]. destruct (alts _ k b); eauto. }
  eapply complete_imp; [|exact (seq_complete _ _ _ _ sign_complete (seq_complete _ _ _ _ C1 (seq_complete _ _ _ _ C2 (seq_complete _ _ _ _ C3 C4))))].
  intros a (n & (H1 & H2 & H3 & H4 & H5) & ->). unfold num_chars.
  eexists _, _. split; [reflexivity|]. split; [exists (n_sign n); auto|].
  eexists _, _. split; [reflexivity|]. split; [exact H2|].
  eexists _, _. split; [reflexivity|]. split; [exists (n_frac n); auto|].
  eexists _, _. split; [reflexivity|]. split; [exists (n_exp n); auto|]. exists (n_unit n). auto.
Qed.
Lemma num_numchar n : numeral_ok n -> forallb numchar (num_chars n) = true.
Proof.
  intros H. destruct (numericval_complete (fun s => match s with [] => Some [] | _ => None end) (num_chars n) [] []) as (r & E); [now exists n|easy|].
  destruct (numericval_sound _ _ _ E) as (a & b & E2 & Ha & Hb). destruct b; [|discriminate]. rewrite !app_nil_r in E2. now rewrite E2.
Qed.
Definition numhead (c : ascii) : bool := is_digit c || among "+-" c.
Lemma num_head n : numeral_ok n -> exists c t, num_chars n = c :: t /\ numhead c = true.
Proof.
  intros (H1 & H2 & _). unfold num_chars. destruct (n_sign n) as [c|]; cbn in H1 |- *.
  - eexists c, _. split; [reflexivity|]. destruct H1 as [->| ->]; reflexivity.
  - destruct H2 as [->|[[Hn Hd] _]].
    + eexists _, _. split; [reflexivity|]. reflexivity.
    + destruct (n_int n) as [|c t]; [easy|]. eexists c, _. split; [reflexivity|]. cbn in Hd. apply andb_true_iff in Hd. destruct Hd as [Hd _].
      unfold numhead. now rewrite Hd.
Qed.
Lemma at_end_ends s : ends s -> at_end Some s = Some s.
Proof.
  destruct s as [|c t]; cbn; [easy|]. intros [H|[->| ->]]; [|reflexivity|reflexivity]. unfold at_end. now rewrite (blank_sp _ H).
Qed.
Ltac by256h := match goal with H : numhead ?c = true |- _ => clear - H; revert c H; chars256n end.
Lemma num_step n rest : numeral_ok n -> ends rest -> first_match (patterns false) (num_chars n ++ rest) = Some (tNUMBER, rest).
Proof.
  intros Hn He.
  assert (E : m_number Some (num_chars n ++ rest) = Some rest).
  { destruct (numericval_complete (at_end Some) (num_chars n) rest rest) as (r & E); [now exists n|now apply at_end_ends|].
    unfold m_number, seq. rewrite E. f_equal. destruct (numericval_sound _ _ _ E) as (a & b & E2 & Ha & Hb). pose proof (num_numchar n Hn) as Hc.
    unfold at_end in Hb. destruct (_ || _) eqn:Eb in Hb; [|discriminate]. injection Hb as <-.
    assert (Nb : match b with [] => True | c :: _ => numchar c = false end).
    { destruct b as [|c t]; [easy|]. destruct (sp c) eqn:Es.
      - clear - Es. revert c Es. chars256n.
      - cbn [orb] in Eb. destruct (numchar c) eqn:En; [|easy]. rewrite cc_no in Eb; [discriminate|]. clear - En. revert c En. chars256n. }
    assert (Nr : match rest with [] => True | c :: _ => numchar c = false end).
    { destruct rest as [|c t]; [easy|]. cbn in He. destruct He as [He|[->| ->]]; [|reflexivity|reflexivity]. clear - He. revert c He. chars256n. }
    clear - E2 Ha Hc Nb Nr. revert a Ha E2. induction (num_chars n) as [|x l IH]; intros a Ha E2; cbn in *.
    - destruct a as [|y a]; [easy|]. cbn in E2, Ha. subst rest. apply andb_true_iff in Ha. destruct Ha. congruence.
    - apply andb_true_iff in Hc. destruct Hc as [Hx Hc]. destruct a as [|y a]; cbn in E2.
      + subst b. congruence.
      + injection E2 as -> E2. cbn in Ha. apply andb_true_iff in Ha. destruct Ha. eapply IH; eauto. }
  destruct (num_head n Hn) as (c & t & Ec & Hc). rewrite Ec in *. cbn [app] in *.
  assert (P1 : sp c = false) by by256h. assert (P2 : cstart c = false) by by256h. assert (P3 : nl c = false) by by256h.
  assert (P4 : c <> "*"%char) by (intros ->; discriminate). assert (P9 : c <> "="%char) by (intros ->; discriminate).
  assert (P10 : (Ascii.eqb c "'" || Ascii.eqb c """")%char = false) by by256h.
  assert (P6 : forall k t, chr "\" k (c :: t) = None) by (intros; apply cls_no; by256h).
  assert (P7 : forall k t, chr "{" k (c :: t) = None) by (intros; apply cls_no; by256h).
  cbn [patterns first_match]. rewrite annotation_no0 by auto. rewrite comment_no0 by auto. rewrite equals_no0 by auto. rewrite nlcomment_no by auto.
  unfold m_continue. unfold seq at 1. unfold lead. rewrite plus_no by exact P3.
  unfold m_backslash. unfold seq at 1. rewrite P6. unfold m_newl. rewrite plus_no by exact P3.
  unfold m_expr. unfold alt at 1. unfold m_quoted. rewrite P10. unfold seq at 1. rewrite P7. now rewrite E.
Qed.

Lemma operand_complete : complete operand all_name.
Proof.
  eapply complete_imp; [|exact (alt_complete _ _ _ _ numericval_complete (plus_complete ident))].
  intros a [Hn Ha]. right. split; [easy|]. eapply forallb_imp; [exact namec|exact Ha].
Qed.
Lemma exprcontent_complete : complete exprcontent (fun a => exists w more, all_name w /\ Forall piece_ok more /\ a = w ++ concat (map piece_chars more)).
Proof.
  assert (C : complete (seq operator operand) (fun a => exists p, piece_ok p /\ a = piece_chars p)).
  { unfold operator. eapply complete_imp; [|exact (seq_complete _ _ _ _ (seq_complete _ _ _ _ (star_complete sp) (seq_complete _ _ _ _ (cls_complete opchar) (star_complete sp))) operand_complete)].
    intros a ([[[b1 o] b2] w] & (H1 & H2 & H3 & H4) & ->). exists (b1 ++ [o] ++ b2), w. split; [cbn; now rewrite <- app_assoc|]. split; [|exact H4].
    exists b1, ([o] ++ b2). split; [easy|]. split; [now apply (forallb_imp _ _ _ blank_sp)|]. exists [o], b2. split; [easy|]. split; [|now apply (forallb_imp _ _ _ blank_sp)].
    exists o. split; [easy|]. clear - H2. revert o H2. chars256. }
  eapply complete_imp; [|refine (seq_complete _ _ _ _ operand_complete (many_complete _ _ _ C))].
  - intros a (w & more & Hw & Hm & ->). exists w, (concat (map piece_chars more)). split; [easy|]. split; [easy|]. exists (map piece_chars more). split; [easy|].
    apply Forall_forall. intros x Hx. apply in_map_iff in Hx. destruct Hx as (p & <- & Hp). rewrite Forall_forall in Hm. eauto.
  - intros a ([[[b1 o] b2] w] & _ & ->) E. cbn in E. now apply app_eq_nil in E.
Qed.
Lemma name_not_brace : forall c, name_char c = true -> not_brace c = true.
Proof. chars256. Qed.
Lemma blank_not_brace : forall c, blank c = true -> not_brace c = true.
Proof. chars256. Qed.
Lemma op_not_brace : forall c, arith_op c = true -> not_brace c = true.
Proof. chars256. Qed.
Lemma expr_step b w more rest : value_ok (VExpr w more) -> first_match (patterns b) (value_chars (VExpr w more) ++ rest) = Some (tEXPR, rest).
Proof.
  intros [Hw Hm]. cbn [value_chars].
  replace (("{"%char :: w ++ concat (map piece_chars more) ++ ["}"%char]) ++ rest) with ("{"%char :: (w ++ concat (map piece_chars more)) ++ "}"%char :: rest) by (cbn; rewrite <- !app_assoc; reflexivity).
  assert (Hb : forallb not_brace (w ++ concat (map piece_chars more)) = true).
  { rewrite forallb_app. apply andb_true_iff. split; [destruct Hw; eapply forallb_imp; [exact name_not_brace|eassumption]|].
    induction Hm as [|[[[b1 o] b2] v] more (H1 & H2 & H3 & _ & H4) Hm IH]; [easy|]. cbn [map concat piece_chars]. rewrite forallb_app, IH, forallb_app. cbn [forallb].
    rewrite forallb_app, (forallb_imp _ _ _ blank_not_brace H1), (op_not_brace _ H2), (forallb_imp _ _ _ blank_not_brace H3), (forallb_imp _ _ _ name_not_brace H4). reflexivity. }
  cbn [patterns first_match]. rewrite annotation_no0 by auto. rewrite comment_no0 by auto. rewrite equals_no0 by easy. rewrite nlcomment_no by easy. rewrite continue_no by easy.
  set (u := w ++ concat (map piece_chars more)) in *.
  change (m_backslash Some ("{"%char :: u ++ "}"%char :: rest)) with (@None chars). change (m_newl Some ("{"%char :: u ++ "}"%char :: rest)) with (@None chars).
  enough (E : m_expr Some ("{"%char :: u ++ "}"%char :: rest) = Some rest) by now rewrite E.
  change (m_expr Some ("{"%char :: u ++ "}"%char :: rest)) with (exprcontent (chr "}" Some) (u ++ "}"%char :: rest)).
  destruct (exprcontent_complete (chr "}" Some) u ("}"%char :: rest) rest) as (r & E); [now exists w, more|reflexivity|]. rewrite E. f_equal.
  destruct (exprcontent_sound _ _ _ E) as (a & c & E2 & Ha & Hc). unfold chr in Hc. destruct c as [|c t]; [discriminate|]. cbn [cls] in Hc.
  destruct (Ascii.eqb "}" c) eqn:Ec; [|discriminate]. injection Hc as <-. apply Ascii.eqb_eq in Ec. subst c.
  symmetry. now destruct (span_unique not_brace u "}"%char rest a "}"%char t Hb Ha eq_refl eq_refl E2) as (_ & _ & ->).
Qed.

(** * Between words. *)
Definition wstart (c : ascii) : bool := negb (sp c) && negb (cstart c) && negb (Ascii.eqb c "=").
Lemma blanks_sp w : forallb blank w = true -> forallb sp w = true.
Proof. apply forallb_imp. exact blank_sp. Qed.
Ltac by256w := match goal with H : wstart ?c = true |- _ => clear - H; revert c H; chars256n end.
Ltac by256b := match goal with H : blank ?c = true |- _ => clear - H; revert c H; chars256n end.
Lemma blank_head b x t : blank x = true -> m_nlcomment b Some (x :: t) = None /\ m_continue b Some (x :: t) = None /\ m_backslash Some (x :: t) = None /\ m_newl Some (x :: t) = None /\
  m_expr Some (x :: t) = None /\ m_number Some (x :: t) = None /\ m_decl Some (x :: t) = None /\ plus ident Some (x :: t) = None.
Proof.
  intros H. assert (P3 : nl x = false) by by256b.
  assert (P6 : forall k t, chr "\" k (x :: t) = None) by (intros; apply cls_no; by256b).
  assert (P7 : forall k t, chr "{" k (x :: t) = None) by (intros; apply cls_no; by256b).
  assert (P8 : forall k t, chr "." k (x :: t) = None) by (intros; apply cls_no; by256b).
  assert (P10 : (Ascii.eqb x "'" || Ascii.eqb x """")%char = false) by by256b.
  assert (P11 : among "+-" x = false) by by256b. assert (P12 : forall k t, chr "0" k (x :: t) = None) by (intros; apply cls_no; by256b).
  assert (P13 : is_digit x && negb (Ascii.eqb x "0") = false) by by256b.
  repeat split.
  - apply nlcomment_no; [easy|]. intros ->; discriminate.
  - apply continue_no; [easy|]. intros ->; discriminate.
  - unfold m_backslash, seq at 1. apply P6.
  - apply plus_no. exact P3.
  - unfold m_expr. unfold alt at 1. unfold m_quoted. rewrite P10. unfold seq at 1. apply P7.
  - unfold m_number, numericval. unfold seq at 1. unfold seq at 1. unfold opt at 1. rewrite (cls_no _ _ _ _ P11). unfold seq at 1. unfold alt at 1. rewrite P12. unfold seq at 1. now rewrite (cls_no _ _ _ _ P13).
  - unfold m_decl. unfold seq at 1. apply P8.
  - apply plus_no. now apply blank_ident.
Qed.
(** A run of white space that starts with a blank, before a word: also over line ends. *)
Lemma ws_step b x w c t : blank x = true -> forallb sp w = true -> wstart c = true -> first_match (patterns b) ((x :: w) ++ c :: t) = Some (tWS, c :: t).
Proof.
  intros Hx Hw Hc. pose proof (blank_sp _ Hx) as Hs. assert (Ha : forallb sp (x :: w) = true) by (cbn; now rewrite Hs).
  assert (P1 : sp c = false) by by256w. assert (P2 : cstart c = false) by by256w. assert (P9 : c <> "="%char) by (intros ->; discriminate).
  pose proof (annotation_no (x :: w) c t Ha P1 P2) as A1. pose proof (comment_no (x :: w) c t Ha P1 (or_introl P2)) as A2. pose proof (equals_no (x :: w) c t Ha P1 P9) as A3.
  pose proof (plus_ok sp (x :: w) (c :: t) ltac:(discriminate) Ha P1) as A4.
  destruct (blank_head b x (w ++ c :: t) Hx) as (E1 & E2 & E3 & E4 & E5 & E6 & E7 & E8). cbn [app] in *.
  cbn [patterns first_match]. now rewrite A1, E1, A2, E2, E3, E4, A3, E5, E6, E7, E8, A4.
Qed.
(** '=' with blanks around it. *)
Lemma equals_step b w1 w2 c t : forallb blank w1 = true -> forallb blank w2 = true -> sp c = false -> first_match (patterns b) ((w1 ++ "="%char :: w2) ++ c :: t) = Some (tEQUALS, c :: t).
Proof.
  intros H1 H2 Hc. rewrite <- app_assoc. cbn [app]. pose proof (blanks_sp _ H1) as S1. pose proof (blanks_sp _ H2) as S2.
  pose proof (annotation_no w1 "="%char (w2 ++ c :: t) S1 eq_refl eq_refl) as A1. pose proof (comment_no w1 "="%char (w2 ++ c :: t) S1 eq_refl (or_introl eq_refl)) as A2.
  assert (A3 : m_equals Some (w1 ++ "="%char :: w2 ++ c :: t) = Some (c :: t)).
  { unfold m_equals. unfold seq at 1. rewrite star_to; [|exact S1|intros; now apply eq_sp|reflexivity]. unfold seq, chr. rewrite cls_yes by reflexivity. now apply star_ok. }
  assert (B : m_nlcomment b Some (w1 ++ "="%char :: w2 ++ c :: t) = None /\ m_continue b Some (w1 ++ "="%char :: w2 ++ c :: t) = None /\
              m_backslash Some (w1 ++ "="%char :: w2 ++ c :: t) = None /\ m_newl Some (w1 ++ "="%char :: w2 ++ c :: t) = None).
  { destruct w1 as [|x w1]; cbn [app].
    - rewrite nlcomment_no, continue_no by easy. repeat split.
    - cbn in H1. apply andb_true_iff in H1. destruct (blank_head b x (w1 ++ "="%char :: w2 ++ c :: t)) as (E1 & E2 & E3 & E4 & _); tauto. }
  destruct B as (B1 & B2 & B3 & B4). cbn [patterns first_match]. now rewrite A1, B1, A2, B2, B3, B4, A3.
Qed.

(** * Line ends. *)
Lemma nls_nl n : forallb nl (repeat newline n) = true.
Proof. induction n; cbn; auto. Qed.
Lemma nls_sp n : forallb sp (repeat newline n) = true.
Proof. induction n; cbn; auto. Qed.
Lemma star_nl k x y : nl x = true -> chr "*" k (x :: y) = None.
Proof. intros H. apply cls_no. revert x H. chars256n. Qed.
Lemma plus_nl k x y : nl x = true -> chr "+" k (x :: y) = None.
Proof. intros H. apply cls_no. revert x H. chars256n. Qed.
Lemma lead_mark b n k s : stops nl s -> (forall x y, nl x = true -> k (x :: y) = None) -> k s = None -> lead b k (repeat newline n ++ s) = None.
Proof.
  intros St Hk Hn. destruct b; cbn [lead].
  - rewrite star_skip; [now rewrite star_stop|apply nls_nl|exact Hk].
  - destruct n as [|n]; cbn [repeat app]; [now apply plus_no|]. unfold plus, seq. rewrite cls_yes by reflexivity. rewrite star_skip; [now rewrite star_stop|apply nls_nl|exact Hk].
Qed.
(** Newlines, then a statement or the end of the text. *)
Lemma newl_step b n w s : forallb blank w = true -> match s with [] => w = [] | c :: _ => wstart c = true /\ c <> "+"%char end ->
  first_match (patterns b) (repeat newline (S n) ++ w ++ s) = Some (tNEWL, w ++ s).
Proof.
  intros Hw Hs.
  assert (N : stops nl (w ++ s)).
  { destruct w as [|x w]; cbn in *; [|apply andb_true_iff in Hw; destruct Hw; now apply blank_nl]. destruct s as [|c t]; cbn; [easy|]. destruct Hs as [Hs _]. by256w. }
  assert (A1 : m_annotation Some (repeat newline (S n) ++ w ++ s) = None /\ m_comment Some (repeat newline (S n) ++ w ++ s) = None).
  { rewrite app_assoc. assert (Sp : forallb sp (repeat newline (S n) ++ w) = true) by (rewrite forallb_app, nls_sp, blanks_sp; auto).
    destruct s as [|c t].
    - rewrite app_nil_r. now rewrite annotation_nil, comment_nil.
    - destruct Hs as [Hs _]. assert (P1 : sp c = false) by by256w. assert (P2 : cstart c = false) by by256w. now rewrite annotation_no, comment_no by auto. }
  assert (A2 : m_nlcomment b Some (repeat newline (S n) ++ w ++ s) = None /\ m_continue b Some (repeat newline (S n) ++ w ++ s) = None).
  { unfold m_nlcomment, m_continue. unfold seq at 1 3. split; apply lead_mark; auto.
    - intros; unfold seq; now apply star_nl.
    - destruct w as [|x w]; cbn [app forallb] in *.
      + destruct s as [|c t]; [easy|]. destruct Hs as [Hs _]. unfold seq. apply cls_no. by256w.
      + apply andb_true_iff in Hw. destruct Hw as [Hx _]. unfold seq. apply cls_no. by256b.
    - intros; now apply plus_nl.
    - destruct w as [|x w]; cbn [app forallb] in *.
      + destruct s as [|c t]; [easy|]. destruct Hs as [_ Hs]. apply cls_no. apply Ascii.eqb_neq. congruence.
      + apply andb_true_iff in Hw. destruct Hw as [Hx _]. apply cls_no. by256b. }
  destruct A1 as [A1 A1'], A2 as [A2 A2'].
  assert (A3 : m_backslash Some (repeat newline (S n) ++ w ++ s) = None) by reflexivity.
  assert (A4 : m_newl Some (repeat newline (S n) ++ w ++ s) = Some (w ++ s)) by (apply plus_ok; [discriminate|apply nls_nl|exact N]).
  cbn [patterns first_match]. now rewrite A1, A2, A1', A2', A3, A4.
Qed.
(** Newlines, then '+'. *)
Lemma continue_step b n s : b = true \/ n <> O -> first_match (patterns b) ((repeat newline n ++ ["+"%char]) ++ s) = Some (tCONTINUE, s).
Proof.
  intros Hb. rewrite <- app_assoc. cbn [app].
  assert (A1 : m_annotation Some (repeat newline n ++ "+"%char :: s) = None) by (apply annotation_no; auto using nls_sp).
  assert (A2 : m_comment Some (repeat newline n ++ "+"%char :: s) = None) by (apply comment_no; auto using nls_sp).
  assert (A3 : m_nlcomment b Some (repeat newline n ++ "+"%char :: s) = None).
  { unfold m_nlcomment. unfold seq at 1. apply lead_mark; [reflexivity| |reflexivity]. intros; unfold seq; now apply star_nl. }
  assert (A4 : m_continue b Some (repeat newline n ++ "+"%char :: s) = Some s).
  { unfold m_continue. unfold seq at 1. rewrite lead_to; auto. intros; now apply plus_nl. }
  cbn [patterns first_match]. now rewrite A1, A3, A2, A4.
Qed.

(** * Comments and annotations. *)
Definition cspace (c : ascii) : bool := sp c || cstart c.
(** An annotation has '@' after white space and comment characters. *)
Lemma annotation_at s r : m_annotation Some s = Some r -> exists a b, s = a ++ "@"%char :: b /\ forallb cspace a = true.
Proof.
  intros E.
  change (seq (star sp) (seq (alt (chr "*") commentchars) (seq (many (alt (chr "*") commentchars)) (star sp)))
            (fun u => seq (chr "@") (seq (chr ":") (seq (star sp) (star not_nl))) Some u) s = Some r) in E.
  assert (Sd : sound cspace (seq (star sp) (seq (alt (chr "*") commentchars) (seq (many (alt (chr "*") commentchars)) (star sp))))).
  { unfold commentchars, chr. repeat snd1; chars256. }
  destruct (Sd _ _ _ E) as (a & b & -> & Ha & Hb). unfold seq at 1 in Hb. unfold chr at 1 in Hb. destruct b as [|c t]; [discriminate|]. cbn [cls] in Hb.
  destruct (Ascii.eqb "@" c) eqn:Ec; [|discriminate]. apply Ascii.eqb_eq in Ec. subst c. eauto.
Qed.
Lemma annotation_none pre c t : forallb cspace pre = true -> cspace c = false -> c <> "@"%char -> m_annotation Some (pre ++ c :: t) = None.
Proof.
  intros Hp Hc Hn. destruct (m_annotation Some (pre ++ c :: t)) eqn:E; [|easy]. destruct (annotation_at _ _ E) as (a & b & E2 & Ha).
  destruct (span_unique cspace pre c t a "@"%char b Hp Ha Hc eq_refl E2) as (_ & H & _). easy.
Qed.
Definition line_end (s : chars) : Prop := match s with [] => True | c :: _ => c = newline end.
Definition not_end (c : ascii) : bool := negb (Ascii.eqb c newline) && negb (Ascii.eqb c (ascii_of_N 13)).
Lemma not_end_nl : forall c, not_end c = true -> not_nl c = true.
Proof. chars256. Qed.
Lemma to_end txt rest : forallb not_end txt = true -> line_end rest -> star not_nl Some (txt ++ rest) = Some rest.
Proof. intros H1 H2. apply star_ok; [eapply forallb_imp; [exact not_end_nl|exact H1]| |easy]. destruct rest as [|c t]; cbn in *; [easy|]. now subst. Qed.
Lemma comment_no_note pre txt rest : forallb cspace pre = true -> comment_ok txt -> m_annotation Some (pre ++ txt ++ rest) = None.
Proof.
  intros Hp (_ & p & c & post & -> & Hp2 & Hc & Hn). replace (pre ++ (p ++ c :: post) ++ rest) with ((pre ++ p) ++ c :: post ++ rest) by (rewrite <- !app_assoc; reflexivity).
  apply annotation_none; auto.
  - rewrite forallb_app, Hp. eapply forallb_imp; [|exact Hp2]. chars256.
  - clear - Hc. revert c Hc. chars256n.
Qed.
(** A comment on its own line. *)
Lemma nlcomment_step b n txt rest : b = true \/ n <> O -> comment_ok txt -> line_end rest ->
  first_match (patterns b) ((repeat newline n ++ "*"%char :: txt) ++ rest) = Some (tNLCOMMENT, rest).
Proof.
  intros Hb Hc Hr.
  assert (A1 : m_annotation Some ((repeat newline n ++ "*"%char :: txt) ++ rest) = None).
  { replace ((repeat newline n ++ "*"%char :: txt) ++ rest) with ((repeat newline n ++ ["*"%char]) ++ txt ++ rest) by (rewrite <- !app_assoc; reflexivity).
    apply comment_no_note; auto. rewrite forallb_app. rewrite (forallb_imp sp cspace); [reflexivity|chars256|apply nls_sp]. }
  assert (A2 : m_nlcomment b Some ((repeat newline n ++ "*"%char :: txt) ++ rest) = Some rest).
  { rewrite <- app_assoc. cbn [app]. unfold m_nlcomment. unfold seq at 1. rewrite lead_to; auto.
    - unfold seq, chr. rewrite cls_yes by reflexivity. destruct Hc as [Hc _]. now apply to_end.
    - intros; unfold seq; now apply star_nl. }
  cbn [patterns first_match]. now rewrite A1, A2.
Qed.
(** A comment after the items of a line. *)
Lemma comment_step w txt rest : forallb blank w = true -> comment_ok txt -> line_end rest ->
  first_match (patterns false) ((w ++ ";"%char :: txt) ++ rest) = Some (tCOMMENT, rest).
Proof.
  intros Hw Hc Hr. pose proof (blanks_sp _ Hw) as Sp.
  assert (A1 : m_annotation Some ((w ++ ";"%char :: txt) ++ rest) = None).
  { replace ((w ++ ";"%char :: txt) ++ rest) with ((w ++ [";"%char]) ++ txt ++ rest) by (rewrite <- !app_assoc; reflexivity).
    apply comment_no_note; auto. rewrite forallb_app. rewrite (forallb_imp sp cspace); [reflexivity|chars256|exact Sp]. }
  rewrite <- app_assoc in *. cbn [app] in *.
  assert (A2 : m_nlcomment false Some (w ++ ";"%char :: txt ++ rest) = None).
  { destruct w as [|x w]; [reflexivity|]. cbn in Hw. apply andb_true_iff in Hw. now apply blank_head. }
  assert (A3 : m_comment Some (w ++ ";"%char :: txt ++ rest) = Some rest).
  { unfold m_comment. unfold seq at 1. rewrite star_to; [|exact Sp|intros; unfold seq; now apply cc_sp|reflexivity].
    unfold seq. unfold commentchars, alt. rewrite cls_yes by reflexivity. destruct Hc as [Hc _]. now rewrite to_end. }
  cbn [patterns first_match]. now rewrite A1, A2, A3.
Qed.
(** Annotations. *)
Lemma note_step b w m w2 w3 txt rest : forallb sp w = true -> m = "*"%char \/ m = ";"%char -> forallb blank w2 = true -> forallb blank w3 = true -> note_ok txt -> line_end rest ->
  first_match (patterns b) ((w ++ m :: w2 ++ "@"%char :: ":"%char :: w3 ++ txt) ++ rest) = Some (tANNOTATION, rest).
Proof.
  intros Hw Hm H2 H3 ((c0 & t0 & -> & Hc0) & _ & Ht) Hr. pose proof (blanks_sp _ H2) as S2. pose proof (blanks_sp _ H3) as S3.
  enough (A : m_annotation Some ((w ++ m :: w2 ++ "@"%char :: ":"%char :: w3 ++ c0 :: t0) ++ rest) = Some rest) by (cbn [patterns first_match]; now rewrite A).
  replace ((w ++ m :: w2 ++ "@"%char :: ":"%char :: w3 ++ c0 :: t0) ++ rest) with (w ++ m :: w2 ++ "@"%char :: ":"%char :: w3 ++ (c0 :: t0) ++ rest)
    by (repeat (rewrite <- app_assoc; cbn [app]); reflexivity).
  unfold m_annotation. unfold seq at 1. rewrite star_to; [|exact Hw| |destruct Hm as [->| ->]; reflexivity].
  2:{ intros x y Hx. unfold seq at 1. unfold alt at 1. rewrite star_char_no by now apply sp_cstart. now apply cc_sp. }
  set (u := w2 ++ "@"%char :: ":"%char :: w3 ++ (c0 :: t0) ++ rest).
  assert (E : seq (many (alt (chr "*") commentchars)) (seq (star sp) (seq (chr "@") (seq (chr ":") (seq (star sp) (star not_nl))))) Some u = Some rest).
  { unfold seq at 1. unfold many. assert (R : forall n k, rounds n (alt (chr "*") commentchars) k u = k u).
    { intros [|n] k; [reflexivity|]. cbn [rounds]. unfold alt at 1. unfold u. destruct w2 as [|x w2']; cbn [app].
      - reflexivity.
      - cbn in S2. apply andb_true_iff in S2. destruct S2 as [Sx _]. rewrite star_char_no by now apply sp_cstart. now rewrite cc_sp. }
    rewrite R. unfold u. unfold seq at 1. rewrite star_to; [|exact S2| |reflexivity].
    2:{ intros x y Hx. unfold seq. apply cls_no. clear - Hx. revert x Hx. chars256n. }
    unfold seq, chr. rewrite cls_yes by reflexivity. rewrite cls_yes by reflexivity. apply star_ok; [exact S3| |].
    - cbn. clear - Hc0. revert c0 Hc0. chars256n.
    - apply to_end; [|exact Hr]. eapply forallb_imp; [|exact Ht]. chars256. }
  unfold seq at 1. unfold alt at 1. destruct Hm as [->| ->].
  - unfold chr at 1. rewrite cls_yes by reflexivity. fold u in E |- *. now rewrite E.
  - unfold chr at 1. rewrite cls_no by reflexivity. unfold commentchars at 1. unfold alt at 1. rewrite cls_yes by reflexivity. now rewrite E.
Qed.
