From Coq Require Import String Ascii.
From Verif Require Import Base.Prelude Base.PyDict Model.Transformation Model.UnionFind Model.PySort
  Model.RemoveDuplicates Spec.RemoveDuplicatesSpec Proofs.UnionFindP Proofs.PySortP.
From Coq Require Import ZifyBool.
Local Open Scope Z_scope.
Notation len := List.length.

(** * Small facts *)

Lemma nth_upd {A} (l : list A) i j v d :
  nth i (upd l j v) d = if ((i =? j) && (j <? len l))%nat then v else nth i l d.
Proof.
  revert i j; induction l as [|a l IH]; intros [|i] [|j]; simpl; auto.
  - rewrite Bool.andb_false_r. reflexivity.
  - rewrite IH. change (Datatypes.S j <? Datatypes.S (len l))%nat with (j <? len l)%nat. reflexivity.
Qed.

Lemma nth_snoc {A} (l : list A) x i d : nth i (l ++ [x]) d = if (i =? len l)%nat then x else nth i l d.
Proof.
  destruct (Nat.eqb_spec i (len l)) as [->|H].
  - rewrite app_nth2 by lia. now rewrite Nat.sub_diag.
  - destruct (Nat.lt_ge_cases i (len l)).
    + now rewrite app_nth1 by lia.
    + rewrite app_nth2 by lia. rewrite (nth_overflow l) by lia.
      destruct (i - len l)%nat as [|[|m]] eqn:E; simpl; auto. lia.
Qed.

Lemma foldM_app {S E} (f : S -> E -> option S) l1 l2 s :
  foldM f (l1 ++ l2) s = match foldM f l1 s with Some s' => foldM f l2 s' | None => None end.
Proof.
  revert s; induction l1 as [|e l1 IH]; intros s; simpl; auto. destruct (f s e); auto.
Qed.

Lemma foldM_snoc {S E} (f : S -> E -> option S) l x s s' :
  foldM f (l ++ [x]) s = Some s' -> exists s1, foldM f l s = Some s1 /\ f s1 x = Some s'.
Proof.
  rewrite foldM_app. destruct (foldM f l s) as [s1|]; [|discriminate]. simpl.
  destruct (f s1 x) eqn:Ef; [|discriminate]. intros [= <-]. eauto.
Qed.

(** Invariant rule: [P processed state]. *)
Lemma foldM_inv {S E} (f : S -> E -> option S) (P : list E -> S -> Prop) l s s' :
  P [] s -> (forall pre e post s1 s2, l = pre ++ e :: post -> P pre s1 -> f s1 e = Some s2 -> P (pre ++ [e]) s2) ->
  foldM f l s = Some s' -> P l s'.
Proof.
  intros H0 Hstep.
  assert (G : forall post pre s1, l = pre ++ post -> P pre s1 -> foldM f post s1 = Some s' -> P l s').
  { induction post as [|e post IH]; intros pre s1 Hl HP; simpl.
    - intros [= <-]. rewrite app_nil_r in Hl. now subst.
    - destruct (f s1 e) as [s2|] eqn:Ef; [|discriminate]. intros H. apply IH with (pre ++ [e]) s2.
      + now rewrite <- app_assoc.
      + eapply Hstep; eauto.
      + assumption. }
  apply (G l []); auto.
Qed.

Lemma foldM_total {S E} (f : S -> E -> option S) (P : S -> Prop) l s :
  P s -> (forall e s1, In e l -> P s1 -> exists s2, f s1 e = Some s2 /\ P s2) ->
  exists s', foldM f l s = Some s' /\ P s'.
Proof.
  revert s; induction l as [|e l IH]; intros s HP Hs; simpl; [eauto|].
  destruct (Hs e s) as (s2 & -> & H2); [now left|assumption|]. apply IH; auto. intros; apply Hs; auto. now right.
Qed.

Lemma str_eqb_ok a b : String.eqb a b = true <-> a = b.
Proof. apply String.eqb_eq. Qed.

Lemma zeqb_ok a b : Z.eqb a b = true <-> a = b.
Proof. apply Z.eqb_eq. Qed.

Lemma in_strs_ok x l : in_strs x l = true <-> In x l.
Proof.
  unfold in_strs. rewrite existsb_exists. split.
  - intros (y & H1 & H2). apply String.eqb_eq in H2. congruence.
  - intros H. exists x. split; auto. apply String.eqb_refl.
Qed.

Lemma split_colon_no s : no_colon s -> split_colon s = [s].
Proof.
  induction s as [|c s IH]; simpl; [reflexivity|]. intros [Hc Hs].
  apply Ascii.eqb_neq in Hc. rewrite Hc, (IH Hs). reflexivity.
Qed.

Lemma parse_name_plain n : (forall s, n = Some s -> no_colon s) -> parse_name n = Some (n, None).
Proof.
  destruct n as [s|]; simpl; [|reflexivity]. intros H. now rewrite (split_colon_no s (H s eq_refl)).
Qed.

Lemma parse_name_some n m t : parse_name n = Some (m, t) -> (m = n /\ t = None) \/ (m = None /\ t <> None).
Proof.
  destruct n as [s|]; simpl.
  - destruct (split_colon s) as [|a [|b [|]]]; intros [= <- <-]; [now left|now left|right; split; congruence].
  - intros [= <- <-]. now left.
Qed.

(** * Well-formed states *)

Record wf (s : rst) (rep : nat -> nat) : Prop := {
  wf_inv : Inv (s_dad s) rep;
  wf_rect : len (s_rect s) = len (s_dad s);
  wf_net : len (s_net s) = len (s_dad s);
  wf_type : len (s_type s) = len (s_dad s);
  wf_term : len (s_term s) = len (s_dad s);
  wf_ported : len (s_ported s) = len (s_dad s) }.

Definition size (s : rst) := len (s_dad s).

(** Same objects, rectangles, types, terminals, ported flags. *)
Record geo (s s' : rst) : Prop := {
  geo_size : size s' = size s;
  geo_rect : s_rect s' = s_rect s;
  geo_type : s_type s' = s_type s;
  geo_term : s_term s' = s_term s;
  geo_ported : s_ported s' = s_ported s }.

Lemma geo_refl s : geo s s.
Proof. split; reflexivity. Qed.

Lemma geo_trans a b c : geo a b -> geo b c -> geo a c.
Proof. intros [] []; split; congruence. Qed.

Lemma geo_rect_of s s' i : geo s s' -> rect_of s' i = rect_of s i.
Proof. intros []. unfold rect_of. congruence. Qed.
Lemma geo_type_of s s' i : geo s s' -> type_of s' i = type_of s i.
Proof. intros []. unfold type_of. congruence. Qed.
Lemma geo_term_of s s' i : geo s s' -> term_of s' i = term_of s i.
Proof. intros []. unfold term_of. congruence. Qed.
Lemma geo_ported_of s s' i : geo s s' -> ported_of s' i = ported_of s i.
Proof. intros []. unfold ported_of. congruence. Qed.

Lemma wf0 : wf rst0 (fun x => x).
Proof. split; try reflexivity. intros x Hx. simpl in Hx. lia. Qed.

Lemma alloc_ok s rep r n ty t p i s' :
  wf s rep -> alloc s r n ty t p = (i, s') ->
  i = size s /\ wf s' (addrep (size s) rep) /\ size s' = Datatypes.S (size s) /\
  s_shorts s' = s_shorts s /\ s_pins s' = s_pins s /\
  (forall j, rect_of s' j = if (j =? size s)%nat then r else rect_of s j) /\
  (forall j, net_of s' j = if (j =? size s)%nat then n else net_of s j) /\
  (forall j, type_of s' j = if (j =? size s)%nat then ty else type_of s j) /\
  (forall j, term_of s' j = if (j =? size s)%nat then t else term_of s j) /\
  (forall j, ported_of s' j = if (j =? size s)%nat then p else ported_of s j).
Proof.
  intros [H1 H2 H3 H4 H5 H6]. unfold alloc. intros [= <- <-]. unfold size in *. simpl.
  split; [reflexivity|]. split.
  { split; simpl; unfold uf_new; rewrite ?app_length; simpl; try congruence.
    now apply uf_new_ok. }
  split; [unfold uf_new; rewrite app_length; simpl; lia|]. split; [reflexivity|]. split; [reflexivity|].
  unfold rect_of, net_of, type_of, term_of, ported_of. simpl.
  repeat split; intros j; rewrite nth_snoc, ?H2, ?H3, ?H4, ?H5, ?H6; reflexivity.
Qed.

Lemma st_root_ok s rep x : wf s rep -> (x < size s)%nat ->
  exists s', st_root s x = Some (rep x, s') /\ wf s' rep /\ geo s s' /\
             s_net s' = s_net s /\ s_shorts s' = s_shorts s /\ s_pins s' = s_pins s.
Proof.
  intros [H1 H2 H3 H4 H5 H6] Hx. unfold st_root.
  destruct (uf_root_ok _ _ _ H1 Hx) as (d' & -> & L & I).
  exists (set_dad s d'). split; [reflexivity|]. split; [split; simpl; try assumption; congruence|].
  split; [split; simpl; auto|]. auto.
Qed.

Lemma st_connect_ok s rep a b : wf s rep -> (a < size s)%nat -> (b < size s)%nat ->
  exists s', st_connect s a b = Some s' /\ wf s' (join rep a b) /\ geo s s' /\
             s_net s' = s_net s /\ s_shorts s' = s_shorts s /\ s_pins s' = s_pins s.
Proof.
  intros [H1 H2 H3 H4 H5 H6] Ha Hb. unfold st_connect.
  destruct (uf_connect_ok _ _ _ _ H1 Ha Hb) as (d' & -> & L & I).
  exists (set_dad s d'). split; [reflexivity|]. split; [split; simpl; try assumption; congruence|].
  split; [split; simpl; auto|]. auto.
Qed.

Lemma wf_set_net s rep i n : wf s rep -> wf (set_net s i n) rep.
Proof. intros []. split; simpl; auto. now rewrite upd_length. Qed.

Lemma geo_set_net s i n : geo s (set_net s i n).
Proof. split; reflexivity. Qed.

Lemma geo_add_pin s i : geo s (add_pin s i).
Proof. unfold add_pin. destruct (term_of s i); split; reflexivity. Qed.

Lemma wf_add_pin s rep i : wf s rep -> wf (add_pin s i) rep.
Proof. intros []. unfold add_pin. destruct (term_of s i); split; assumption. Qed.

Lemma add_pin_net s i : s_net (add_pin s i) = s_net s.
Proof. unfold add_pin. destruct (term_of s i); reflexivity. Qed.
Lemma add_pin_shorts s i : s_shorts (add_pin s i) = s_shorts s.
Proof. unfold add_pin. destruct (term_of s i); reflexivity. Qed.

Definition no_term (s : rst) a : bool := match term_of s a with None => true | Some _ => false end.

(** What [connectPair] does. *)
Definition cp_short layer s s' a b (rep rep' : nat -> nat) (ok : bool) : Prop :=
  exists x y, net_of s a = Some x /\ net_of s b = Some y /\ x <> y /\ rep' = rep /\
    s_net s' = s_net s /\ s_shorts s' = s_shorts s ++ [SPair layer x y] /\ ok = false.

Definition cp_join s s' a b (rep rep' : nat -> nat) (ok : bool) : Prop :=
  rep' = join rep a b /\ s_shorts s' = s_shorts s /\ ok = no_term s a && no_term s b /\
  ((net_of s a = None /\ s_net s' = upd (s_net s) a (net_of s b)) \/
   (exists x, net_of s a = Some x /\ (net_of s b = None \/ net_of s b = Some x) /\
              s_net s' = upd (s_net s) b (Some x))).

Lemma connectPair_spec layer s rep a b :
  wf s rep -> (a < size s)%nat -> (b < size s)%nat ->
  exists ok s' rep', connectPair layer s a b = Some (ok, s') /\ wf s' rep' /\ geo s s' /\
    (cp_short layer s s' a b rep rep' ok \/ cp_join s s' a b rep rep' ok).
Proof.
  intros Hwf Ha Hb.
  assert (Tail : forall s0 ok0 rep0, wf s0 rep0 -> geo s s0 ->
     exists ok s', match term_of s0 a, term_of s0 b with
       | None, None => Some (ok0, s0)
       | _, _ => Some (false, add_pin (add_pin s0 a) b) end = Some (ok, s') /\
       wf s' rep0 /\ geo s s' /\ s_net s' = s_net s0 /\ s_shorts s' = s_shorts s0 /\
       ok = ok0 && (no_term s a && no_term s b)).
  { intros s0 ok0 rep0 H1 H2.
    assert (T : wf (add_pin (add_pin s0 a) b) rep0 /\ geo s (add_pin (add_pin s0 a) b) /\
                s_net (add_pin (add_pin s0 a) b) = s_net s0 /\ s_shorts (add_pin (add_pin s0 a) b) = s_shorts s0).
    { split; [now repeat apply wf_add_pin|]. split.
      - eapply geo_trans; [eassumption|]. eapply geo_trans; apply geo_add_pin.
      - now rewrite !add_pin_net, !add_pin_shorts. }
    destruct T as (T1 & T2 & T3 & T4).
    unfold no_term. rewrite <- !(geo_term_of s s0 _ H2).
    destruct (term_of s0 a), (term_of s0 b); simpl; rewrite ?Bool.andb_false_r, ?Bool.andb_true_r;
      eexists _, _; split; try reflexivity; auto 10. }
  unfold connectPair.
  assert (Join : forall i n,
     exists s1, st_connect (set_net s i n) a b = Some s1 /\ wf s1 (join rep a b) /\ geo s s1 /\
       s_net s1 = upd (s_net s) i n /\ s_shorts s1 = s_shorts s).
  { intros i n. destruct (st_connect_ok (set_net s i n) rep a b) as (s1 & E & W & G & N1 & N2 & _); auto.
    - now apply wf_set_net.
    - exists s1. split; [assumption|]. split; [assumption|]. split; [eapply geo_trans; [apply geo_set_net|eassumption]|].
      split; auto. }
  destruct (net_of s a) as [x|] eqn:Ea.
  - destruct (net_of s b) as [y|] eqn:Eb.
    + destruct (String.eqb x y) eqn:E.
      * apply String.eqb_eq in E. subst y.
        destruct (Join b (Some x)) as (s1 & -> & W & G & N1 & N2).
        destruct (Tail s1 true _ W G) as (ok & s' & -> & W' & G' & M1 & M2 & Hok).
        exists ok, s', (join rep a b). split; [reflexivity|]. split; [assumption|]. split; [assumption|].
        right. repeat split; try congruence; [exact Hok|]. right. exists x. repeat split; auto; congruence.
      * apply String.eqb_neq in E.
        assert (W1 : wf (add_short s (SPair layer x y)) rep) by (destruct Hwf; split; assumption).
        destruct (Tail (add_short s (SPair layer x y)) false rep W1) as (ok & s' & -> & W' & G' & M1 & M2 & Hok); [split; reflexivity|].
        exists ok, s', rep. split; [reflexivity|]. split; [assumption|]. split; [assumption|].
        left. exists x, y. repeat split; auto.
    + destruct (Join b (Some x)) as (s1 & -> & W & G & N1 & N2).
      destruct (Tail s1 true _ W G) as (ok & s' & -> & W' & G' & M1 & M2 & Hok).
      exists ok, s', (join rep a b). split; [reflexivity|]. split; [assumption|]. split; [assumption|].
      right. repeat split; try congruence; [exact Hok|]. right. exists x. repeat split; auto; congruence.
  - destruct (Join a (net_of s b)) as (s1 & E1 & W & G & N1 & N2).
    destruct (Tail s1 true _ W G) as (ok & s' & E2 & W' & G' & M1 & M2 & Hok).
    assert (CJ : cp_join s s' a b rep (join rep a b) ok).
    { repeat split; try congruence; [exact Hok|]. left. split; congruence. }
    exists ok, s', (join rep a b). destruct (net_of s b) eqn:Eb; rewrite E1, E2; auto.
Qed.

(** * One step of the scan-line loop *)

(** Net names after [connectPair] on the current object [c] and the new object (number
    [size s], own name [n]). *)
Definition NETS (s s' : rst) (c : nat) (n : name) : Prop :=
  (forall j, j <> c -> j <> size s -> net_of s' j = net_of s j) /\
  net_of s' c = match net_of s c with Some x => Some x | None => n end /\
  net_of s' (size s) = match n with Some x => Some x | None => match net_of s c with Some x => Some x | None => None end end.

Definition merged_rects (d : sdir) (s s' : rst) (c : nat) (e : entry) : Prop :=
  (forall j, rect_of s' j = if (j =? c)%nat then set_dhi d (rect_of s c) (Z.max (dhi d (rect_of s c)) (dhi d (e_rect e)))
                            else if (j =? size s)%nat then e_rect e else rect_of s j) /\
  (forall j, ported_of s' j = if (j =? c)%nat then ported_of s c || e_ported e
                              else if (j =? size s)%nat then e_ported e else ported_of s j).

Definition added_rects (s s' : rst) (e : entry) : Prop :=
  (forall j, rect_of s' j = if (j =? size s)%nat then e_rect e else rect_of s j) /\
  (forall j, ported_of s' j = if (j =? size s)%nat then e_ported e else ported_of s j).

Definition continues (d : sdir) (s : rst) (c : nat) (e : entry) : Prop :=
  dlo d (e_rect e) <= dhi d (rect_of s c) /\ same_width d (e_rect e) (rect_of s c) = true.

Inductive step_kind (layer : string) (d : sdir) (cur : option nat) (ids : list nat) (s : rst) (rep : nat -> nat)
  (e : entry) (n : name) (t : option (string * string)) (cur' : option nat) (ids' : list nat) (s' : rst) (rep' : nat -> nat) : Prop :=
| SK_alone :
    cur' = Some (size s) -> ids' = ids ++ [size s] -> added_rects s s' e ->
    rep' = addrep (size s) rep -> s_shorts s' = s_shorts s ->
    (forall j, net_of s' j = if (j =? size s)%nat then n else net_of s j) ->
    (forall c, cur = Some c -> ~ continues d s c e) ->
    step_kind layer d cur ids s rep e n t cur' ids' s' rep'
| SK_short c x y :
    cur = Some c -> continues d s c e ->
    cur' = Some (size s) -> ids' = ids ++ [size s] -> added_rects s s' e ->
    rep' = addrep (size s) rep -> s_shorts s' = s_shorts s ++ [SPair layer x y] ->
    net_of s c = Some x -> n = Some y -> x <> y -> NETS s s' c n ->
    step_kind layer d cur ids s rep e n t cur' ids' s' rep'
| SK_joined c :
    cur = Some c -> continues d s c e ->
    cur' = Some (size s) -> ids' = ids ++ [size s] -> added_rects s s' e ->
    rep' = join (addrep (size s) rep) c (size s) -> s_shorts s' = s_shorts s -> NETS s s' c n ->
    (term_of s c <> None \/ t <> None \/ is_blockage (e_type e) = true \/ is_blockage (type_of s c) = true) ->
    (net_of s c = None \/ n = None \/ net_of s c = n) ->
    step_kind layer d cur ids s rep e n t cur' ids' s' rep'
| SK_merged c :
    cur = Some c -> continues d s c e ->
    cur' = Some c -> ids' = ids -> merged_rects d s s' c e ->
    rep' = join (addrep (size s) rep) c (size s) -> s_shorts s' = s_shorts s -> NETS s s' c n ->
    term_of s c = None -> t = None -> is_blockage (e_type e) = false -> is_blockage (type_of s c) = false ->
    (net_of s c = None \/ n = None \/ net_of s c = n) ->
    step_kind layer d cur ids s rep e n t cur' ids' s' rep'.

Lemma merge_slr_ok d s rep c p : wf s rep -> (c < size s)%nat ->
  let s' := merge_slr d s c p in
  wf s' rep /\ size s' = size s /\ s_net s' = s_net s /\ s_type s' = s_type s /\ s_term s' = s_term s /\
  s_shorts s' = s_shorts s /\
  (forall j, rect_of s' j = if (j =? c)%nat then set_dhi d (rect_of s c) (Z.max (dhi d (rect_of s c)) (dhi d (rect_of s p))) else rect_of s j) /\
  (forall j, ported_of s' j = if (j =? c)%nat then ported_of s c || ported_of s p else ported_of s j).
Proof.
  intros [H1 H2 H3 H4 H5 H6] Hc. unfold merge_slr. simpl. unfold size in *. simpl.
  split; [split; simpl; rewrite ?upd_length; auto|].
  repeat split; auto; intros j; unfold rect_of, ported_of; simpl; rewrite nth_upd.
  - rewrite H2. replace (c <? len (s_dad s))%nat with true by (symmetry; now apply Nat.ltb_lt).
    rewrite Bool.andb_true_r. reflexivity.
  - rewrite H6. replace (c <? len (s_dad s))%nat with true by (symmetry; now apply Nat.ltb_lt).
    rewrite Bool.andb_true_r. reflexivity.
Qed.

Lemma net_of_upd s s' i n : len (s_net s) = size s -> (i < size s)%nat -> s_net s' = upd (s_net s) i n ->
  forall j, net_of s' j = if (j =? i)%nat then n else net_of s j.
Proof.
  intros Hl Hi E j. unfold net_of. rewrite E, nth_upd, Hl.
  replace (i <? size s)%nat with true by (symmetry; now apply Nat.ltb_lt).
  rewrite Bool.andb_true_r. reflexivity.
Qed.

Lemma step_cases layer d cur ids s rep e cur' ids' s' :
  wf s rep -> (forall c, cur = Some c -> (c < size s)%nat) ->
  line_step layer d (cur, ids, s) e = Some (cur', ids', s') ->
  exists n t rep', parse_name (e_net e) = Some (n, t) /\ wf s' rep' /\ size s' = Datatypes.S (size s) /\
    (forall j, type_of s' j = if (j =? size s)%nat then e_type e else type_of s j) /\
    (forall j, term_of s' j = if (j =? size s)%nat then t else term_of s j) /\
    step_kind layer d cur ids s rep e n t cur' ids' s' rep'.
Proof.
  intros Hwf Hc. unfold line_step.
  destruct (parse_name (e_net e)) as [[n t]|] eqn:Ep; [|discriminate].
  destruct (alloc s (e_rect e) n (e_type e) t (e_ported e)) as [p s1] eqn:Ea.
  destruct (alloc_ok _ _ _ _ _ _ _ _ _ Hwf Ea) as (-> & W1 & Z1 & Sh1 & Pi1 & R1 & N1 & T1 & M1 & P1).
  assert (Alone : forall c', (forall c, cur = Some c -> ~ continues d s c e) ->
     Some (Some (size s), ids ++ [size s], s1) = Some c' -> c' = (cur', ids', s') ->
     exists n0 t0 rep', Some (n, t) = Some (n0, t0) /\ wf s' rep' /\ size s' = Datatypes.S (size s) /\
       (forall j, type_of s' j = if (j =? size s)%nat then e_type e else type_of s j) /\
       (forall j, term_of s' j = if (j =? size s)%nat then t0 else term_of s j) /\
       step_kind layer d cur ids s rep e n0 t0 cur' ids' s' rep').
  { intros c' Hnc [= <-] [= <- <- <-]. exists n, t, (addrep (size s) rep). repeat split; auto; try apply W1.
    apply SK_alone; auto. split; auto. }
  destruct cur as [c|].
  2:{ intros [= <- <- <-]. eapply Alone; eauto. discriminate. }
  assert (Hcs : (c < size s)%nat) by auto.
  assert (Hne : (c =? size s)%nat = false) by (apply Nat.eqb_neq; lia).
  assert (Rc : rect_of s1 c = rect_of s c) by (rewrite R1, Hne; reflexivity).
  rewrite Rc.
  destruct ((dlo d (e_rect e) <=? dhi d (rect_of s c)) && same_width d (e_rect e) (rect_of s c)) eqn:Econt.
  2:{ intros [= <- <- <-]. eapply Alone; eauto. intros c0 [= <-] [H1 H2]. rewrite H2 in Econt. lia. }
  assert (Cont : continues d s c e).
  { apply andb_true_iff in Econt as [H1 H2]. split; [lia|assumption]. }
  destruct (connectPair_spec layer s1 (addrep (size s) rep) c (size s)) as (ok & s2 & rep' & -> & W2 & G & K); auto; try lia.
  assert (T2 : forall j, type_of s2 j = if (j =? size s)%nat then e_type e else type_of s j)
    by (intros j; rewrite (geo_type_of _ _ _ G); apply T1).
  assert (M2 : forall j, term_of s2 j = if (j =? size s)%nat then t else term_of s j)
    by (intros j; rewrite (geo_term_of _ _ _ G); apply M1).
  assert (Z2 : size s2 = Datatypes.S (size s)) by (rewrite (geo_size _ _ G); assumption).
  assert (A2 : added_rects s s2 e).
  { split; intros j; [rewrite (geo_rect_of _ _ _ G); apply R1|rewrite (geo_ported_of _ _ _ G); apply P1]. }
  assert (Nc : net_of s1 c = net_of s c) by (rewrite N1, Hne; reflexivity).
  assert (Np : net_of s1 (size s) = n) by (rewrite N1, Nat.eqb_refl; reflexivity).
  assert (Hl1 : len (s_net s1) = size s1) by apply W1.
  assert (Nets : NETS s s2 c n).
  { destruct K as [(x & y & K1 & K2 & K3 & K4 & K5 & K6 & K7)|(K1 & K2 & K3 & K4)].
    - assert (EN : forall j, net_of s2 j = net_of s1 j) by (intros j; unfold net_of; congruence).
      rewrite Nc in K1. rewrite Np in K2. subst n. repeat split.
      + intros j H1 H2. rewrite EN, N1. apply Nat.eqb_neq in H2. now rewrite H2.
      + rewrite EN, Nc, K1. reflexivity.
      + rewrite EN, Np. reflexivity.
    - destruct K4 as [[K4 K5]|(x & K4 & K5 & K6)].
      + pose proof (net_of_upd s1 s2 c _ Hl1 ltac:(lia) K5) as EN. repeat split.
        * intros j H1 H2. rewrite EN. apply Nat.eqb_neq in H1. apply Nat.eqb_neq in H2. now rewrite H1, N1, H2.
        * rewrite EN, Nat.eqb_refl, Np. rewrite <- Nc, K4. reflexivity.
        * rewrite EN. rewrite Nat.eqb_sym, Hne, Np. rewrite <- Nc, K4. destruct n; reflexivity.
      + pose proof (net_of_upd s1 s2 (size s) _ Hl1 ltac:(lia) K6) as EN. repeat split.
        * intros j H1 H2. rewrite EN, N1. apply Nat.eqb_neq in H2. now rewrite H2.
        * rewrite EN, Hne, Nc. rewrite <- Nc, K4. reflexivity.
        * rewrite EN, Nat.eqb_refl. rewrite <- Nc, K4. rewrite Np in K5. destruct K5 as [->| ->]; reflexivity. }
  rewrite (T2 (size s)), Nat.eqb_refl, (T2 c), Hne.
  destruct (ok && negb (is_blockage (e_type e)) && negb (is_blockage (type_of s c))) eqn:Em.
  - (* merged *)
    apply andb_true_iff in Em as [Em E3]. apply andb_true_iff in Em as [E1 E2].
    destruct K as [(x & y & K1 & K2 & K3 & K4 & K5 & K6 & K7)|(K1 & K2 & K3 & K4)]; [congruence|].
    destruct (merge_slr_ok d s2 rep' c (size s) W2) as (W3 & Z3 & N3 & T3 & M3 & S3 & R3 & P3); [lia|].
    intros [= <- <- <-]. exists n, t, rep'. split; [reflexivity|]. split; [assumption|]. split; [congruence|].
    split; [intros j; unfold type_of; rewrite T3; apply T2|].
    split; [intros j; unfold term_of; rewrite M3; apply M2|].
    assert (NT : term_of s c = None /\ t = None).
    { rewrite E1 in K3. symmetry in K3. apply andb_true_iff in K3 as [H1 H2]. unfold no_term in *.
      rewrite M1, Hne in H1. rewrite M1, Nat.eqb_refl in H2. split.
      - destruct (term_of s c); congruence.
      - destruct t; congruence. }
    apply SK_merged with c; try reflexivity; try assumption; try tauto.
    + destruct A2 as [A2 A3]. split; intros j.
      * rewrite R3. destruct (j =? c)%nat; [|apply A2].
        rewrite !A2, Hne, Nat.eqb_refl. reflexivity.
      * rewrite P3. destruct (j =? c)%nat; [|apply A3].
        rewrite !A3, Hne, Nat.eqb_refl. reflexivity.
    + congruence.
    + now apply negb_true_iff.
    + now apply negb_true_iff.
    + rewrite Nc, Np in K4. destruct K4 as [[K4 _]|(x & K4 & [K5|K5] & _)]; auto. right. right. congruence.
  - (* not merged *)
    intros [= <- <- <-]. exists n, t, rep'. repeat split; auto; try apply W2.
    destruct K as [(x & y & K1 & K2 & K3 & K4 & K5 & K6 & K7)|(K1 & K2 & K3 & K4)].
    + eapply (SK_short layer d (Some c) ids s rep e n t _ _ _ _ c x y); eauto; congruence.
    + eapply (SK_joined layer d (Some c) ids s rep e n t _ _ _ _ c); eauto; try congruence.
      * rewrite K3 in Em. unfold no_term in Em. rewrite !M1, Hne, Nat.eqb_refl in Em.
        destruct (term_of s c); [left; discriminate|]. destruct t; [right; left; discriminate|].
        simpl in Em. right. right. destruct (is_blockage (e_type e)); auto.
        destruct (is_blockage (type_of s c)); auto; discriminate.
      * rewrite Nc, Np in K4. destruct K4 as [[K4 _]|(x & K4 & [K5|K5] & _)]; auto. right. right. congruence.
Qed.
