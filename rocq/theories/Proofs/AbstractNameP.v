(** Lemmas on the names of primitives. *)
From Coq Require Import String Ascii.
From Verif Require Import Base.Prelude Base.PyDict Base.PyStr Model.AbstractName Spec.AbstractNameSpec.
From Coq Require Import ZifyBool.
Local Open Scope Z_scope.

Lemma code_inj a b : code a = code b -> a = b.
Proof. unfold code. intros H. rewrite <- (ascii_N_embedding a), <- (ascii_N_embedding b). now rewrite H. Qed.
Lemma leb_total a : forall b, chars_leb a b = true \/ chars_leb b a = true.
Proof. induction a as [|x a IH]; intros [|y b]; simpl; auto. destruct (N.ltb_spec (code x) (code y)), (N.ltb_spec (code y) (code x)); auto. Qed.
Lemma leb_antisym a : forall b, chars_leb a b = true -> chars_leb b a = true -> a = b.
Proof.
  induction a as [|x a IH]; intros [|y b]; simpl; try discriminate; [reflexivity|]. destruct (N.ltb_spec (code x) (code y)), (N.ltb_spec (code y) (code x)); try discriminate; try lia. intros H1 H2.
  assert (code x = code y) as E by lia. apply code_inj in E as ->. f_equal. auto.
Qed.
Lemma leb_trans a : forall b c, chars_leb a b = true -> chars_leb b c = true -> chars_leb a c = true.
Proof.
  induction a as [|x a IH]; intros [|y b] [|z c]; simpl; try discriminate; try reflexivity. intros H1 H2.
  destruct (N.ltb_spec (code x) (code y)), (N.ltb_spec (code y) (code z)), (N.ltb_spec (code x) (code z)), (N.ltb_spec (code y) (code x)), (N.ltb_spec (code z) (code y)), (N.ltb_spec (code z) (code x)); try discriminate; try reflexivity; try lia.
  exact (IH b c H1 H2).
Qed.
Lemma sinsert_perm x l : Permutation (sinsert x l) (x :: l).
Proof. induction l as [|y l IH]; simpl; [reflexivity|]. destruct (chars_leb x y); [reflexivity|]. rewrite IH. apply perm_swap. Qed.
Lemma ssorted_perm l : Permutation (ssorted l) l.
Proof. induction l as [|x l IH]; simpl; [reflexivity|]. now rewrite sinsert_perm, IH. Qed.
Lemma sinsert_sorted x l : StronglySorted (fun a b => chars_leb a b = true) l -> StronglySorted (fun a b => chars_leb a b = true) (sinsert x l).
Proof.
  induction 1 as [|y l Hs IH Hf]; simpl; [repeat constructor|]. destruct (chars_leb x y) eqn:E.
  - constructor; [now constructor|]. constructor; [assumption|]. rewrite Forall_forall in *. intros z Hz. exact (leb_trans x y z E (Hf z Hz)).
  - constructor; [assumption|]. rewrite Forall_forall in *. intros z Hz. apply (Permutation_in z (sinsert_perm x l)) in Hz. destruct Hz as [<-|Hz]; [destruct (leb_total x y); congruence|auto].
Qed.
Lemma ssorted_sorted l : StronglySorted (fun a b => chars_leb a b = true) (ssorted l).
Proof. induction l as [|x l IH]; simpl; [constructor|]. now apply sinsert_sorted. Qed.
Lemma sorted_unique l1 : forall l2, StronglySorted (fun a b => chars_leb a b = true) l1 -> StronglySorted (fun a b => chars_leb a b = true) l2 -> Permutation l1 l2 -> l1 = l2.
Proof.
  induction l1 as [|x l1 IH]; intros l2 S1 S2 P; [apply Permutation_nil in P; now subst|]. destruct l2 as [|y l2]; [apply Permutation_sym, Permutation_nil in P; discriminate|].
  inversion S1 as [|? ? S1' F1]; subst. inversion S2 as [|? ? S2' F2]; subst. rewrite Forall_forall in F1, F2.
  assert (x = y) as ->.
  { assert (Hx : In x (y :: l2)) by (apply (Permutation_in x P); now left). assert (Hy : In y (x :: l1)) by (apply (Permutation_in y (Permutation_sym P)); now left).
    destruct Hx as [->|Hx]; [reflexivity|]. destruct Hy as [->|Hy]; [reflexivity|]. apply leb_antisym; [exact (F1 y Hy)|exact (F2 x Hx)]. }
  f_equal. apply IH; [assumption|assumption|]. exact (Permutation_cons_inv P).
Qed.

Lemma pget_in d k v : pget d k = Some v -> In (k, v) d. Proof. apply dget_in, chars_eqb_ok. Qed.
Lemma in_pget d k v : NoDup (map fst d) -> In (k, v) d -> pget d k = Some v. Proof. apply in_dget, chars_eqb_ok. Qed.
Lemma pget_key d k : In k (map fst d) -> exists v, pget d k = Some v. Proof. apply dget_some_in, chars_eqb_ok. Qed.

(** Order of the parameters. *)
Lemma arg_str_order d1 d2 : NoDup (map fst d1) -> NoDup (map fst d2) -> same_params d1 d2 -> arg_str d1 = arg_str d2.
Proof.
  intros N1 N2 S. unfold arg_str.
  assert (E : ssorted (map fst d1) = ssorted (map fst d2)).
  { apply sorted_unique; [apply ssorted_sorted|apply ssorted_sorted|]. rewrite !ssorted_perm. apply NoDup_Permutation; [assumption|assumption|]. intros k. rewrite !in_map_iff. split; intros ((a, v) & <- & H); exists (a, v); (split; [reflexivity|]); now apply S. }
  rewrite E. f_equal. apply map_ext_in. intros k Hk. apply (Permutation_in k (ssorted_perm _)) in Hk. do 2 f_equal. destruct (pget_key _ _ Hk) as (v & Hv). rewrite Hv. f_equal. apply in_pget; [assumption|]. apply S. now apply pget_in.
Qed.

Lemma split_first {A} (c : A) a : forall b x y, ~ In c a -> ~ In c b -> a ++ c :: x = b ++ c :: y -> a = b /\ x = y.
Proof.
  induction a as [|u a IH]; intros [|w b] x y Ha Hb E; simpl in E.
  - injection E as ->. auto.
  - injection E as -> _. exfalso. apply Hb. now left.
  - injection E as -> _. exfalso. apply Ha. now left.
  - injection E as -> E. destruct (IH b x y (fun H => Ha (or_intror H)) (fun H => Hb (or_intror H)) E) as (-> & ->). auto.
Qed.
Lemma split_last {A} (c : A) a b x y : ~ In c x -> ~ In c y -> a ++ c :: x = b ++ c :: y -> a = b /\ x = y.
Proof.
  intros Hx Hy E. apply (f_equal (@rev A)) in E. rewrite !rev_app_distr in E. simpl in E. rewrite <- !app_assoc in E. cbn [app] in E. apply split_first in E as (E1 & E2); [|rewrite <- in_rev; assumption|rewrite <- in_rev; assumption].
  split; [rewrite <- (rev_involutive a), <- (rev_involutive b); now f_equal|rewrite <- (rev_involutive x), <- (rev_involutive y); now f_equal].
Qed.
(** The string determines the list of names and values. *)
Definition enc (l : list (chars * chars)) : chars := join_us (map (fun kv => fst kv ++ ":"%char :: snd kv) l).
Lemma enc_cons k v l : enc ((k, v) :: l) = k ++ ":"%char :: v ++ match l with [] => [] | _ => "_"%char :: enc l end.
Proof. unfold enc. destruct l; cbn [map join_us fst snd]; [now rewrite app_nil_r|]. now rewrite <- app_assoc. Qed.
Lemma enc_inj l1 : forall l2, plain l1 -> plain l2 -> enc l1 = enc l2 -> l1 = l2.
Proof.
  induction l1 as [|(k1, v1) l1 IH]; intros l2 P1 P2 E.
  - destruct l2 as [|(k2, v2) l2]; [reflexivity|]. rewrite enc_cons in E. unfold enc in E. simpl in E. destruct k2; discriminate.
  - destruct l2 as [|(k2, v2) l2]; [rewrite enc_cons in E; unfold enc in E; simpl in E; destruct k1; discriminate|].
    rewrite !enc_cons in E. destruct (P1 k1 v1 (or_introl eq_refl)) as (U1 & C1 & W1). destruct (P2 k2 v2 (or_introl eq_refl)) as (U2 & C2 & W2).
    apply split_first in E as (-> & E); [|assumption|assumption]. assert (Q1 : plain l1) by (intros k v H; apply (P1 k v); now right). assert (Q2 : plain l2) by (intros k v H; apply (P2 k v); now right).
    destruct l1 as [|(a1, b1) r1].
    + rewrite app_nil_r in E. destruct l2 as [|(a2, b2) r2]; [rewrite app_nil_r in E; now subst|]. exfalso. rewrite enc_cons in E. apply W1. rewrite E. apply in_app_iff. right. right. apply in_app_iff. right. now left.
    + destruct l2 as [|(a2, b2) r2]; [exfalso; rewrite app_nil_r in E; rewrite enc_cons in E; apply W2; rewrite <- E; apply in_app_iff; right; right; apply in_app_iff; right; now left|].
      assert (E' := E). rewrite !enc_cons in E'. destruct (Q1 a1 b1 (or_introl eq_refl)) as (Ua1 & Ca1 & _). destruct (Q2 a2 b2 (or_introl eq_refl)) as (Ua2 & Ca2 & _).
      remember (match r1 with [] => [] | _ => "_"%char :: enc r1 end) as t1. remember (match r2 with [] => [] | _ => "_"%char :: enc r2 end) as t2.
      assert (R : forall (v a b t : chars), v ++ "_"%char :: a ++ ":"%char :: b ++ t = (v ++ "_"%char :: a) ++ ":"%char :: (b ++ t)) by (intros; now rewrite <- app_assoc). rewrite !R in E'. apply split_first in E' as (E1 & _).
      * apply split_last in E1 as (-> & _); [|assumption|assumption]. apply app_inv_head in E. injection E as E. f_equal. exact (IH _ Q1 Q2 E).
      * intros H. apply in_app_iff in H as [H|[H|H]]; [exact (W1 H)|discriminate|exact (Ca1 H)].
      * intros H. apply in_app_iff in H as [H|[H|H]]; [exact (W2 H)|discriminate|exact (Ca2 H)].
Qed.
Lemma arg_str_enc d : arg_str d = enc (map (fun k => (k, opt_chars (pget d k))) (ssorted (map fst d))).
Proof. unfold arg_str, enc. rewrite map_map. reflexivity. Qed.
Lemma arg_str_inj d1 d2 : NoDup (map fst d1) -> NoDup (map fst d2) -> plain d1 -> plain d2 -> arg_str d1 = arg_str d2 -> same_params d1 d2.
Proof.
  intros N1 N2 P1 P2 E. rewrite !arg_str_enc in E.
  assert (K : forall d, NoDup (map fst d) -> forall k v, In (k, v) (map (fun k => (k, opt_chars (pget d k))) (ssorted (map fst d))) <-> In (k, v) d).
  { intros d N k v. rewrite in_map_iff. split.
    - intros (x & Ex & Hx). injection Ex as -> Ev. apply (Permutation_in _ (ssorted_perm _)) in Hx. destruct (pget_key _ _ Hx) as (w & Hw). rewrite Hw in Ev. simpl in Ev. subst w. now apply pget_in.
    - intros H. exists k. rewrite (in_pget _ _ _ N H). split; [reflexivity|]. apply (Permutation_in _ (Permutation_sym (ssorted_perm _))). apply in_map_iff. exists (k, v). auto. }
  apply enc_inj in E.
  - intros k v. rewrite <- (K d1 N1), <- (K d2 N2), E. tauto.
  - intros k v H. apply (K d1 N1) in H. exact (P1 k v H).
  - intros k v H. apply (K d2 N2) in H. exact (P2 k v H).
Qed.

Lemma digits_no_us l : forallb is_digit l = true -> ~ In "_"%char l.
Proof. intros H Hi. rewrite forallb_forall in H. specialize (H _ Hi). discriminate. Qed.
Lemma print_nonneg z : 0 <= z -> ~ In "_"%char (print_Z z).
Proof.
  intros _ H. destruct (print_Z_form z) as ([|] & ds & E & _ & D); rewrite E in H; apply in_app_iff in H as [H|H]; try (exact (digits_no_us _ D H)).
  - destruct H as [H|[]]. discriminate.
  - destruct H.
Qed.
Lemma name_parts hash m1 m2 d1 d2 : m1 ++ gen_key hash d1 = m2 ++ gen_key hash d2 -> m1 = m2 /\ hash (arg_str d1) mod 10 ^ 8 = hash (arg_str d2) mod 10 ^ 8.
Proof.
  unfold gen_key. intros E. apply split_last in E as (-> & E).
  - split; [reflexivity|]. now apply print_Z_inj.
  - apply print_nonneg. apply Z.mod_pos_bound. lia.
  - apply print_nonneg. apply Z.mod_pos_bound. lia.
Qed.

(** * The library *)

Definition uname (hash : chars -> Z) (d : dev) : chars := dv_model d ++ gen_key hash (dv_params d).
Lemma pfind_app P Q n : pfind (P ++ Q) n = match pfind P n with Some e => Some e | None => pfind Q n end.
Proof. unfold pfind. induction P as [|e P IH]; simpl; [reflexivity|]. destruct (chars_eqb _ _); [reflexivity|exact IH]. Qed.
Lemma pfind_some P n e : pfind P n = Some e -> In e P /\ entry_name e = n.
Proof. unfold pfind. intros H. apply find_some in H as (H1 & H2). split; [assumption|]. now apply chars_eqb_ok. Qed.
Definition grows (P Q : plib) : Prop := exists R, Q = P ++ R.
Lemma grows_trans P Q R : grows P Q -> grows Q R -> grows P R. Proof. intros (A & ->) (B & ->). exists (A ++ B). now rewrite app_assoc. Qed.
Lemma grows_find P Q n e : grows P Q -> pfind P n = Some e -> pfind Q n = Some e. Proof. intros (R & ->) H. now rewrite pfind_app, H. Qed.

Section All.
  Variables (hash : chars -> Z) (deps : chars -> list chars).
  Lemma deps_step l : forall P, exists R, fold_left (fun Q m => match pfind Q m with Some _ => Q | None => Q ++ [Copied m] end) l P = P ++ R /\ forall e, In e R -> exists m, e = Copied m /\ In m l.
  Proof.
    induction l as [|m l IH]; intros P; simpl; [exists []; split; [now rewrite app_nil_r|intros e []]|]. destruct (pfind P m).
    - destruct (IH P) as (R & -> & H). exists R. split; [reflexivity|]. intros x Hx. destruct (H x Hx) as (m' & -> & Hm). eauto.
    - destruct (IH (P ++ [Copied m])) as (R & -> & H). exists (Copied m :: R). split; [now rewrite <- app_assoc|]. intros x [<-|Hx]; [eauto|]. destruct (H x Hx) as (m' & -> & Hm). eauto.
  Qed.
  Lemma add_step P n : exists R, add_primitive deps P n = P ++ R /\ forall e, In e R -> exists m, e = Copied m /\ (m = n \/ In m (deps n)).
  Proof.
    unfold add_primitive. destruct (pfind P n); [exists []; split; [now rewrite app_nil_r|intros e' []]|]. destruct (deps_step (deps n) P) as (R & -> & H). exists (R ++ [Copied n]). split; [now rewrite app_assoc|].
    intros e He. apply in_app_iff in He as [He|[<-|[]]]; [destruct (H e He) as (m & -> & Hm); eauto|eauto].
  Qed.
  Definition made_by (d : dev) (e : entry) : Prop := e = Made (uname hash d) (dv_pins d) (dv_model d) (dv_name d) (dv_model d) (dv_params d).
  Lemma gen_step P d n P' : gen_primitive_def hash deps P d = Some (n, P') ->
    grows P P' /\ (forall e, In e P' -> In e P \/ (exists m, e = Copied m /\ (m = dv_model d \/ In m (deps (dv_model d)))) \/ (dv_sub d = None /\ made_by d e)) /\
    (dv_sub d = None -> n = uname hash d /\ dv_gen d = true /\ exists e, pfind P' n = Some e).
  Proof.
    unfold gen_primitive_def. destruct (dv_sub d) as [[|]|] eqn:Es.
    - intros E. injection E as <- <-. destruct (add_step P (dv_model d)) as (R & -> & H). split; [now exists R|]. split; [|discriminate]. intros e He. apply in_app_iff in He as [He|He]; [auto|]. right. left. exact (H e He).
    - intros E. injection E as <- <-. split; [exists []; now rewrite app_nil_r|]. split; [auto|discriminate].
    - destruct (dv_gen d) eqn:Eg; [|discriminate]. intros E. injection E as <- <-. destruct (add_step P (dv_model d)) as (R & -> & H). fold (uname hash d). unfold create_subckt. destruct (pfind (P ++ R) (uname hash d)) as [e|] eqn:F.
      + split; [now exists R|]. split; [|intros _; split; [reflexivity|split; [reflexivity|eauto]]]. intros x Hx. apply in_app_iff in Hx as [Hx|Hx]; [auto|]. right. left. exact (H x Hx).
      + split; [eexists; now rewrite <- app_assoc|]. split.
        * intros x Hx. apply in_app_iff in Hx as [Hx|[<-|[]]]; [|right; right; split; reflexivity]. apply in_app_iff in Hx as [Hx|Hx]; [auto|]. right. left. exact (H x Hx).
        * intros _. split; [reflexivity|]. split; [reflexivity|]. eexists. rewrite pfind_app, F. unfold pfind. simpl. replace (chars_eqb (uname hash d) (uname hash d)) with true by (symmetry; now apply chars_eqb_ok). reflexivity.
  Qed.
  Lemma gen_all_facts l : forall P ns P', gen_all hash deps P l = Some (ns, P') ->
    grows P P' /\ length ns = length l /\
    (forall e, In e P' -> In e P \/ (exists d m, In d l /\ e = Copied m /\ (m = dv_model d \/ In m (deps (dv_model d)))) \/ (exists d, In d l /\ dv_sub d = None /\ made_by d e)) /\
    (forall i d n, nth_error l i = Some d -> nth_error ns i = Some n -> dv_sub d = None -> n = uname hash d /\ dv_gen d = true /\ exists e, pfind P' n = Some e).
  Proof.
    induction l as [|d l IH]; intros P ns P' E; cbn [gen_all] in E.
    - injection E as <- <-. split; [exists []; now rewrite app_nil_r|]. split; [reflexivity|]. split; [auto|]. intros [|i] ? ?; discriminate.
    - destruct (gen_primitive_def hash deps P d) as [(n, P1)|] eqn:E1; [|discriminate]. destruct (gen_all hash deps P1 l) as [(ns', P2)|] eqn:E2; [|discriminate]. injection E as <- <-.
      destruct (gen_step _ _ _ _ E1) as (G1 & M1 & N1). destruct (IH _ _ _ E2) as (G2 & Ln & M2 & N2). split; [exact (grows_trans _ _ _ G1 G2)|]. split; [simpl; now rewrite Ln|]. split.
      + intros e He. destruct (M2 e He) as [He1|[(d' & m & Hd & Em)|(d' & Hd & Em)]].
        * destruct (M1 e He1) as [He2|[(m & Em & Hm)|(Es & Em)]]; [auto|right; left; exists d, m; split; [now left|auto]|right; right; exists d; split; [now left|auto]].
        * right. left. exists d', m. split; [now right|assumption].
        * right. right. exists d'. split; [now right|assumption].
      + intros [|i] d' n' Hd Hn Hs; cbn [nth_error] in Hd, Hn; [|exact (N2 i d' n' Hd Hn Hs)]. injection Hd as ->. injection Hn as ->. destruct (N1 Hs) as (X1 & X2 & e & X3). split; [assumption|]. split; [assumption|]. exists e. exact (grows_find _ _ _ _ G2 X3).
  Qed.
End All.

(** * Counting *)
Lemma dup_or (g : nat -> Z) l : NoDup l -> NoDup (map g l) \/ exists i j, In i l /\ In j l /\ i <> j /\ g i = g j.
Proof.
  induction 1 as [|x l Hx Hl IH]; [left; constructor|]. destruct IH as [IH|(i & j & Hi & Hj & Hn & E)]; [|right; exists i, j; simpl; auto]. destruct (in_dec Z.eq_dec (g x) (map g l)) as [Hi|Hi].
  - right. apply in_map_iff in Hi as (j & Ej & Hj). exists x, j. split; [now left|]. split; [now right|]. split; [intros ->; contradiction|now symmetry].
  - left. simpl. now constructor.
Qed.
Lemma pigeonhole (g : nat -> Z) M : 0 < M -> (forall i, 0 <= g i < M) -> exists i j, i <> j /\ g i = g j.
Proof.
  intros HM Hg. destruct (dup_or g (seq 0 (Datatypes.S (Z.to_nat M)))) as [N|(i & j & _ & _ & Hn & E)]; [apply seq_NoDup| |eauto]. exfalso.
  assert (I : incl (map g (seq 0 (Datatypes.S (Z.to_nat M)))) (map Z.of_nat (seq 0 (Z.to_nat M)))).
  { intros z Hz. apply in_map_iff in Hz as (i & <- & _). specialize (Hg i). apply in_map_iff. exists (Z.to_nat (g i)). split; [lia|]. apply in_seq. lia. }
  pose proof (NoDup_incl_length N I) as H. rewrite !map_length, !seq_length in H. lia.
Qed.
