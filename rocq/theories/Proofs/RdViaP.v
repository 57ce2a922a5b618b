(** The via phase and the queries of the removeDuplicates pass. *)
From Coq Require Import String Ascii.
From Verif Require Import Base.Prelude Base.PyDict Model.Transformation Model.UnionFind Model.PySort
  Model.RemoveDuplicates Spec.RemoveDuplicatesSpec Proofs.UnionFindP Proofs.PySortP Proofs.RemoveDuplicatesP
  Proofs.RdLineP Proofs.RdPassP.
From Coq Require Import ZifyBool.
Local Open Scope Z_scope.

(** * The pairs connected by the via phase depend on the geometry only *)
Definition vpair := (string * nat * nat)%type.

Fixpoint concatM {A B} (f : A -> option (list B)) (l : list A) : option (list B) :=
  match l with
  | [] => Some []
  | a :: tl => match f a, concatM f tl with Some x, Some y => Some (x ++ y) | _, _ => None end
  end.

Section Pairs.
  Variable R : nat -> Rect.

  Definition ftouch (ids : list nat) (v : nat) : option nat := find (fun m => touching (R v) (R m)) ids.

  Definition pair_mv (via : string) (mids : list nat) (v : nat) : option (list vpair) :=
    match ftouch mids v with None => None | Some m => Some [(via, m, v)] end.

  Definition pair_mh (via : string) (hl : lines) (v : nat) : option (list vpair) :=
    match dget Z.eqb hl (lly (R v) + ury (R v)) with
    | None => Some []
    | Some mids => match ftouch mids v with None => None | Some m => Some [(via, v, m)] end
    end.

  Definition pairs_h (via : string) (st : store) (mh : option string) (vs : list nat) : option (list vpair) :=
    match mh with None => Some [] | Some h => concatM (pair_mh via (get_lines st h)) vs end.

  Definition pairs_line (via : string) (st : store) (mv mh : option string) (l : Z * list nat) : option (list vpair) :=
    match mv with
    | None => pairs_h via st mh (snd l)
    | Some m =>
      match dget Z.eqb (get_lines st m) (fst l) with
      | None => Some []
      | Some mids =>
        match concatM (pair_mv via mids) (snd l), pairs_h via st mh (snd l) with
        | Some a, Some b => Some (a ++ b)
        | _, _ => None
        end
      end
    end.

  Definition pairs_via (st : store) (e : string * (option string * option string)) : option (list vpair) :=
    let '(via, (mv, mh)) := e in
    match mv, mh with
    | None, None => Some []
    | _, _ => match dget String.eqb st via with
              | None => Some []
              | Some ls => concatM (pairs_line via st mv mh) ls
              end
    end.

  Definition via_pairs (cf : rdcfg) (st : store) : option (list vpair) := concatM (pairs_via st) (cf_stack cf).
End Pairs.

(** Connect the roots of one pair. *)
Definition link (s : rst) (p : vpair) : option rst :=
  let '(via, a, b) := p in
  match st_root s a with
  | None => None
  | Some (ra, s1) =>
    match st_root s1 b with
    | None => None
    | Some (rb, s2) => option_map snd (connectPair via s2 ra rb)
    end
  end.

(** What a link does. *)
Definition link_kind (via : string) (a b : nat) (s s' : rst) (rep rep' : nat -> nat) : Prop :=
  (exists x y, net_of s (rep a) = Some x /\ net_of s (rep b) = Some y /\ x <> y /\ rep' = rep /\
     (forall i, net_of s' i = net_of s i) /\ s_shorts s' = s_shorts s ++ [SPair via x y]) \/
  (rep' = join rep (rep a) (rep b) /\ s_shorts s' = s_shorts s /\
   ((net_of s (rep a) = None /\ forall i, net_of s' i = if (i =? rep a)%nat then net_of s (rep b) else net_of s i) \/
    (exists x, net_of s (rep a) = Some x /\ (net_of s (rep b) = None \/ net_of s (rep b) = Some x) /\
       forall i, net_of s' i = if (i =? rep b)%nat then Some x else net_of s i))).

Lemma link_ok s rep via a b : wf s rep -> (a < size s)%nat -> (b < size s)%nat ->
  exists s' rep', link s (via, a, b) = Some s' /\ wf s' rep' /\ geo s s' /\ link_kind via a b s s' rep rep'.
Proof.
  intros W Ha Hb. unfold link.
  destruct (st_root_ok s rep a W Ha) as (s1 & -> & W1 & G1 & N1 & S1 & _).
  destruct (st_root_ok s1 rep b W1) as (s2 & -> & W2 & G2 & N2 & S2 & _); [rewrite (geo_size _ _ G1); assumption|].
  assert (G : geo s s2) by (eapply geo_trans; eauto).
  assert (Hra : (rep a < size s2)%nat).
  { rewrite (geo_size _ _ G). eapply Inv_rep_lt; [apply W|assumption]. }
  assert (Hrb : (rep b < size s2)%nat).
  { rewrite (geo_size _ _ G). eapply Inv_rep_lt; [apply W|assumption]. }
  assert (EN : forall i, net_of s2 i = net_of s i) by (intros i; unfold net_of; congruence).
  destruct (connectPair_spec via s2 rep (rep a) (rep b) W2 Hra Hrb) as (ok & s3 & rep' & -> & W3 & G3 & K).
  exists s3, rep'. split; [reflexivity|]. split; [assumption|]. split; [eapply geo_trans; eauto|].
  assert (Hl : List.length (s_net s2) = size s2) by apply W2.
  destruct K as [(x & y & K1 & K2 & K3 & K4 & K5 & K6 & K7)|(K1 & K2 & K3 & K4)].
  - left. exists x, y. rewrite <- !EN. repeat split; auto.
    + intros i. rewrite <- EN. unfold net_of. congruence.
    + congruence.
  - right. split; [assumption|]. split; [congruence|].
    destruct K4 as [[K4 K5]|(x & K4 & K5 & K6)].
    + left. rewrite <- !EN. split; [assumption|]. intros i. rewrite (net_of_upd s2 s3 _ _ Hl Hra K5), !EN. reflexivity.
    + right. exists x. rewrite <- !EN. split; [assumption|]. split; [assumption|].
      intros i. rewrite (net_of_upd s2 s3 _ _ Hl Hrb K6), !EN. reflexivity.
Qed.

Definition pair_valid (n : nat) (p : vpair) : Prop := (snd (fst p) < n)%nat /\ (snd p < n)%nat.

(** Generic: a loop whose body links the pairs given by the geometry. *)
Definition okst (N : nat) (Rs : list Rect) (s : rst) : Prop :=
  (exists rep, wf s rep) /\ size s = N /\ s_rect s = Rs.

Lemma links_total N Rs ps : (forall p, In p ps -> pair_valid N p) ->
  forall s, okst N Rs s -> exists s', foldM link ps s = Some s' /\ okst N Rs s'.
Proof.
  intros Hv s Hs. apply foldM_total; [assumption|].
  intros [[via a] b] s1 Hp ((rep & W) & Z1 & R1). destruct (Hv _ Hp) as [Ha Hb]. simpl in Ha, Hb.
  destruct (link_ok s1 rep via a b W) as (s2 & rep' & E & W2 & G & _); try lia.
  exists s2. split; [assumption|]. split; [eauto|]. split; [rewrite (geo_size _ _ G); assumption|rewrite (geo_rect _ _ G); assumption].
Qed.

Lemma foldM_links {E} (f : rst -> E -> option rst) (g : E -> option (list vpair)) N Rs (l : list E) :
  (forall x ps, In x l -> g x = Some ps -> forall p, In p ps -> pair_valid N p) ->
  (forall x s, In x l -> okst N Rs s -> f s x = match g x with None => None | Some ps => foldM link ps s end) ->
  forall s, okst N Rs s ->
  foldM f l s = match concatM g l with None => None | Some ps => foldM link ps s end.
Proof.
  induction l as [|x l IH]; intros Hv Hf s Hs; simpl; [reflexivity|].
  rewrite (Hf x s (or_introl eq_refl) Hs).
  destruct (g x) as [ps|] eqn:Eg; [|reflexivity].
  destruct (links_total N Rs ps (Hv x ps (or_introl eq_refl) Eg) s Hs) as (s1 & E1 & Hs1). rewrite E1.
  rewrite IH; auto.
  - destruct (concatM g l) as [qs|]; [|reflexivity]. rewrite foldM_app, E1. reflexivity.
  - intros; eapply Hv; eauto. now right.
  - intros; apply Hf; auto. now right.
Qed.

Lemma concatM_in {A B} (f : A -> option (list B)) l r y :
  concatM f l = Some r -> In y r -> exists x q, In x l /\ f x = Some q /\ In y q.
Proof.
  revert r; induction l as [|a l IH]; simpl; intros r; [intros [= <-] []|].
  destruct (f a) as [x|] eqn:Ef; [|discriminate]. destruct (concatM f l) as [z|]; [|discriminate].
  intros [= <-] Hy. apply in_app_iff in Hy as [Hy|Hy]; [eauto 6|].
  destruct (IH z eq_refl Hy) as (u & q & H1 & H2 & H3). eauto 6.
Qed.

Definition store_valid (N : nat) (st : store) : Prop :=
  forall layer ls c ids i, In (layer, ls) st -> In (c, ids) ls -> In i ids -> (i < N)%nat.

Section Valid.
  Variables (R : nat -> Rect) (N : nat) (st : store).
  Hypothesis HV : store_valid N st.

  Lemma get_lines_valid layer c ids i : dget Z.eqb (get_lines st layer) c = Some ids -> In i ids -> (i < N)%nat.
  Proof.
    unfold get_lines. destruct (dget String.eqb st layer) as [ls|] eqn:E; [|discriminate].
    intros H Hi. eapply HV; [eapply (dget_in _ str_eqb_ok); eauto|eapply (dget_in _ zeqb_ok); eauto|assumption].
  Qed.

  Lemma ftouch_in ids v m : ftouch R ids v = Some m -> In m ids.
  Proof. unfold ftouch. intros H. now apply find_some in H. Qed.

  Lemma pair_mv_valid via mids v ps :
    (forall i, In i mids -> (i < N)%nat) -> (v < N)%nat -> pair_mv R via mids v = Some ps ->
    forall p, In p ps -> pair_valid N p.
  Proof.
    unfold pair_mv. intros Hm Hv. destruct (ftouch R mids v) as [m|] eqn:E; [|discriminate].
    intros [= <-] p [<-|[]]. apply ftouch_in in E. split; simpl; auto.
  Qed.

  Lemma pair_mh_valid via layer v ps :
    (v < N)%nat -> pair_mh R via (get_lines st layer) v = Some ps -> forall p, In p ps -> pair_valid N p.
  Proof.
    unfold pair_mh. intros Hv. destruct (dget Z.eqb (get_lines st layer) _) as [mids|] eqn:E; [|intros [= <-] p []].
    destruct (ftouch R mids v) as [m|] eqn:E2; [|discriminate]. intros [= <-] p [<-|[]].
    apply ftouch_in in E2. split; simpl; auto. eapply get_lines_valid; eauto.
  Qed.

  Lemma pairs_h_valid via mh vs ps :
    (forall i, In i vs -> (i < N)%nat) -> pairs_h R via st mh vs = Some ps -> forall p, In p ps -> pair_valid N p.
  Proof.
    unfold pairs_h. intros Hv. destruct mh as [h|]; [|intros [= <-] p []].
    intros H p Hp. destruct (concatM_in _ _ _ _ H Hp) as (x & q & H1 & H2 & H3). eapply pair_mh_valid; eauto.
  Qed.

  Lemma pairs_line_valid via mv mh l ps :
    (forall i, In i (snd l) -> (i < N)%nat) -> pairs_line R via st mv mh l = Some ps -> forall p, In p ps -> pair_valid N p.
  Proof.
    unfold pairs_line. intros Hv. destruct mv as [m|]; [|now apply pairs_h_valid].
    destruct (dget Z.eqb (get_lines st m) (fst l)) as [mids|] eqn:E; [|intros [= <-] p []].
    destruct (concatM (pair_mv R via mids) (snd l)) as [a|] eqn:Ea; [|discriminate].
    destruct (pairs_h R via st mh (snd l)) as [b|] eqn:Eb; [|discriminate].
    intros [= <-] p Hp. apply in_app_iff in Hp as [Hp|Hp].
    - destruct (concatM_in _ _ _ _ Ea Hp) as (x & q & H1 & H2 & H3).
      apply (pair_mv_valid via mids x q); auto. intros; eapply get_lines_valid; eauto.
    - eapply pairs_h_valid; eauto.
  Qed.

  Lemma pairs_via_valid e ps : pairs_via R st e = Some ps -> forall p, In p ps -> pair_valid N p.
  Proof.
    destruct e as [via [mv mh]]. unfold pairs_via.
    assert (G : match dget String.eqb st via with None => Some [] | Some ls => concatM (pairs_line R via st mv mh) ls end = Some ps ->
              forall p, In p ps -> pair_valid N p).
    { destruct (dget String.eqb st via) as [ls|] eqn:E; [|intros [= <-] p []].
      intros H p Hp. destruct (concatM_in _ _ _ _ H Hp) as ([c ids] & q & H1 & H2 & H3).
      eapply pairs_line_valid; [|eassumption|eassumption]. intros i Hi.
      eapply HV; [eapply (dget_in _ str_eqb_ok); eauto|eassumption|assumption]. }
    destruct mv, mh; auto. intros [= <-] p [].
  Qed.

  Lemma via_pairs_valid cf ps : via_pairs R cf st = Some ps -> forall p, In p ps -> pair_valid N p.
  Proof.
    intros H p Hp. destruct (concatM_in _ _ _ _ H Hp) as (x & q & H1 & H2 & H3). eapply pairs_via_valid; eauto.
  Qed.
End Valid.

Lemma rect_of_okst N Rs s i : okst N Rs s -> rect_of s i = nth i Rs (mkRect 0 0 0 0).
Proof. intros (_ & _ & H). unfold rect_of. now rewrite H. Qed.

Lemma find_ext {A} (f g : A -> bool) l : (forall x, f x = g x) -> find f l = find g l.
Proof. intros H. induction l as [|a l IH]; simpl; auto. rewrite H, IH. reflexivity. Qed.

Section Equiv.
  Variables (N : nat) (Rs : list Rect) (st : store).
  Hypothesis HV : store_valid N st.
  Let R i := nth i Rs (mkRect 0 0 0 0).

  Lemma find_touching_R s ids v : okst N Rs s -> find_touching s ids v = ftouch R ids v.
  Proof.
    intros Hs. unfold find_touching, ftouch. apply find_ext. intros m.
    rewrite !(rect_of_okst N Rs s _ Hs). reflexivity.
  Qed.

  Lemma foldM1 s p : foldM link [p] s = link s p.
  Proof. simpl. destruct (link s p); reflexivity. Qed.

  Lemma via_mv_eq via mids s v : okst N Rs s ->
    via_mv via mids s v = match pair_mv R via mids v with None => None | Some ps => foldM link ps s end.
  Proof.
    intros Hs. unfold via_mv, pair_mv. rewrite (find_touching_R s mids v Hs).
    destruct (ftouch R mids v); [|reflexivity]. rewrite foldM1. reflexivity.
  Qed.

  Lemma via_mh_eq via hl s v : okst N Rs s ->
    via_mh via hl s v = match pair_mh R via hl v with None => None | Some ps => foldM link ps s end.
  Proof.
    intros Hs. unfold via_mh, pair_mh. rewrite !(rect_of_okst N Rs s _ Hs). fold (R v).
    destruct (dget Z.eqb hl (lly (R v) + ury (R v))) as [mids|]; [|reflexivity].
    rewrite (find_touching_R s mids v Hs). destruct (ftouch R mids v); [|reflexivity]. rewrite foldM1. reflexivity.
  Qed.

  Lemma horizontal_eq via mh vs s : okst N Rs s -> (forall i, In i vs -> (i < N)%nat) ->
    match mh with None => Some s | Some h => foldM (via_mh via (get_lines st h)) vs s end =
    match pairs_h R via st mh vs with None => None | Some ps => foldM link ps s end.
  Proof.
    intros Hs Hv. unfold pairs_h. destruct mh as [h|]; [|reflexivity].
    apply (foldM_links _ _ N Rs); auto.
    - intros x ps Hx Hp. eapply pair_mh_valid; eauto.
    - intros x s1 Hx Hs1. now apply via_mh_eq.
  Qed.

  Lemma via_line_eq via mv mh l s : okst N Rs s -> (forall i, In i (snd l) -> (i < N)%nat) ->
    via_line via st mv mh s l = match pairs_line R via st mv mh l with None => None | Some ps => foldM link ps s end.
  Proof.
    intros Hs Hv. unfold via_line, pairs_line. destruct mv as [m|]; [|now apply horizontal_eq].
    destruct (dget Z.eqb (get_lines st m) (fst l)) as [mids|] eqn:E; [|reflexivity].
    assert (Hm : forall i, In i mids -> (i < N)%nat) by (intros; eapply get_lines_valid; eauto).
    rewrite (foldM_links _ (pair_mv R via mids) N Rs); auto.
    - destruct (concatM (pair_mv R via mids) (snd l)) as [a|] eqn:Ea; [|reflexivity].
      destruct (links_total N Rs a) with (s := s) as (s1 & E1 & Hs1); auto.
      { intros p Hp. destruct (concatM_in _ _ _ _ Ea Hp) as (x & q & H1 & H2 & H3). eapply pair_mv_valid; eauto. }
      rewrite E1, horizontal_eq by assumption.
      destruct (pairs_h R via st mh (snd l)) as [b|]; [|reflexivity]. rewrite foldM_app, E1. reflexivity.
    - intros x ps Hx Hp. eapply pair_mv_valid; eauto.
    - intros x s1 Hx Hs1. now apply via_mv_eq.
  Qed.

  Lemma check_vias_eq cf s : okst N Rs s ->
    check_vias cf st s = match via_pairs R cf st with None => None | Some ps => foldM link ps s end.
  Proof.
    intros Hs. unfold check_vias, via_pairs. apply (foldM_links _ _ N Rs); auto.
    - intros x ps Hx Hp. eapply pairs_via_valid; eauto.
    - intros [via [mv mh]] s1 Hx Hs1. unfold pairs_via.
      assert (G : match dget String.eqb st via with None => Some s1 | Some ls => foldM (via_line via st mv mh) ls s1 end =
        match match dget String.eqb st via with None => Some [] | Some ls => concatM (pairs_line R via st mv mh) ls end with
        | None => None | Some ps => foldM link ps s1 end).
      { destruct (dget String.eqb st via) as [ls|] eqn:E; [|reflexivity].
        assert (Hls : forall l, In l ls -> forall i, In i (snd l) -> (i < N)%nat).
        { intros [c ids] Hl i Hi. eapply HV; [eapply (dget_in _ str_eqb_ok); eauto|eassumption|assumption]. }
        apply (foldM_links _ _ N Rs); auto.
        - intros l ps Hl Hp. apply (pairs_line_valid R N st HV via mv mh l ps (Hls l Hl) Hp).
        - intros l s2 Hl Hs2. apply via_line_eq; [assumption|apply (Hls l Hl)]. }
      destruct mv, mh; auto.
  Qed.
End Equiv.

(** * Effect of all links *)

(** Names only become known, known names are known at the root ([J]), and names and shorts come
    from [Nm]. *)
Lemma links_inv (Nm : string -> Prop) N ps : (forall p, In p ps -> pair_valid N p) ->
  forall s rep s', wf s rep -> size s = N -> names_from Nm s -> shorts_from Nm s ->
  foldM link ps s = Some s' ->
  exists rep', wf s' rep' /\ geo s s' /\ names_from Nm s' /\ shorts_from Nm s' /\
    (exists new, s_shorts s' = s_shorts s ++ new) /\
    (forall x n, net_of s x = Some n -> net_of s' x = Some n) /\
    (forall x, (x < N)%nat -> (forall n, net_of s x = Some n -> net_of s (rep x) = Some n) ->
               (forall n, net_of s' x = Some n -> net_of s' (rep' x) = Some n)) /\
    (forall x y, (x < N)%nat -> (y < N)%nat -> rep x = rep y -> rep' x = rep' y) /\
    (s_shorts s' = s_shorts s -> forall via a b, In (via, a, b) ps -> rep' a = rep' b).
Proof.
  induction ps as [|[[via a] b] ps IH]; intros Hv s rep s' W Hsz HN HS; simpl.
  - intros [= <-]. exists rep. split; [assumption|]. split; [apply geo_refl|]. split; [assumption|]. split; [assumption|].
    split; [exists []; now rewrite app_nil_r|]. split; [auto|]. split; [auto|]. split; [auto|]. intros _ ? ? ? [].
  - destruct (Hv (via, a, b) (or_introl eq_refl)) as [Ha Hb]. simpl in Ha, Hb.
    destruct (link_ok s rep via a b W) as (s1 & rep1 & E & W1 & G1 & K); try lia.
    unfold link in E. rewrite E. clear E. intros HF.
    assert (Hra : (rep a < N)%nat) by (subst N; eapply Inv_rep_lt; [apply W|assumption]).
    assert (Hrb : (rep b < N)%nat) by (subst N; eapply Inv_rep_lt; [apply W|assumption]).
    assert (Haa : rep (rep a) = rep a) by (eapply Inv_rep_idem; [apply W|unfold size in Hsz; lia]).
    assert (Hbb : rep (rep b) = rep b) by (eapply Inv_rep_idem; [apply W|unfold size in Hsz; lia]).
    assert (HN1 : names_from Nm s1).
    { intros i n Hi. destruct K as [(x & y & _ & _ & _ & _ & EN & _)|(_ & _ & [[_ EN]|(x & Ex & _ & EN)])]; rewrite EN in Hi.
      - eauto.
      - destruct (i =? rep a)%nat; eauto.
      - destruct (i =? rep b)%nat; [|eauto]. injection Hi as <-. eauto. }
    assert (HS1 : shorts_from Nm s1).
    { intros z Hz. destruct K as [(x & y & E1 & E2 & Hxy & _ & _ & ES)|(_ & ES & _)]; rewrite ES in Hz; [|auto].
      apply in_app_iff in Hz as [Hz|[<-|[]]]; [auto|]. simpl. eauto. }
    assert (Hpre : exists new, s_shorts s1 = s_shorts s ++ new).
    { destruct K as [(x & y & _ & _ & _ & _ & _ & ES)|(_ & ES & _)]; [eauto|exists []; now rewrite app_nil_r]. }
    assert (Mono : forall x n, net_of s x = Some n -> net_of s1 x = Some n).
    { intros i n Hi. destruct K as [(x & y & _ & _ & _ & _ & EN & _)|(_ & _ & [[En EN]|(x & Ex & En & EN)])]; rewrite EN.
      - assumption.
      - destruct (Nat.eqb_spec i (rep a)) as [->|]; [congruence|assumption].
      - destruct (Nat.eqb_spec i (rep b)) as [->|]; [|assumption]. destruct En; congruence. }
    assert (Repmono : forall x y, (x < N)%nat -> (y < N)%nat -> rep x = rep y -> rep1 x = rep1 y).
    { intros x y Hx Hy Exy. destruct K as [(? & ? & _ & _ & _ & -> & _)|(-> & _)]; [assumption|].
      unfold join. rewrite Exy. reflexivity. }
    assert (HJ : forall x, (x < N)%nat -> (forall n, net_of s x = Some n -> net_of s (rep x) = Some n) ->
                 forall n, net_of s1 x = Some n -> net_of s1 (rep1 x) = Some n).
    { intros z Hz HJz n Hn. assert (Hzz : rep (rep z) = rep z) by (eapply Inv_rep_idem; [apply W|unfold size in Hsz; lia]).
      destruct K as [(x & y & _ & _ & _ & -> & EN & _)|(-> & _ & K)].
      - rewrite EN in *. auto.
      - unfold join. rewrite Hbb, Haa. destruct K as [[En EN]|(x & Ex & En & EN)].
        + rewrite EN in Hn. rewrite EN. destruct (Nat.eqb_spec z (rep a)) as [->|Hza].
          * rewrite Haa. destruct (Nat.eqb_spec (rep a) (rep b)); rewrite Nat.eqb_refl; assumption.
          * specialize (HJz n Hn). destruct (Nat.eqb_spec (rep z) (rep b)) as [Erb|Hnb].
            -- rewrite Nat.eqb_refl. congruence.
            -- destruct (Nat.eqb_spec (rep z) (rep a)) as [Era|Hna]; congruence.
        + rewrite EN in Hn. rewrite EN. destruct (Nat.eqb_spec z (rep b)) as [->|Hzb].
          * injection Hn as <-. rewrite Hbb, Nat.eqb_refl. destruct (rep a =? rep b)%nat; congruence.
          * specialize (HJz n Hn). destruct (Nat.eqb_spec (rep z) (rep b)) as [Erb|Hnb].
            -- assert (x = n) by (destruct En; congruence). subst x. destruct (rep a =? rep b)%nat; congruence.
            -- apply Nat.eqb_neq in Hnb. rewrite Hnb. assumption. }
    destruct (IH ltac:(intros; apply Hv; now right) s1 rep1 s' W1 ltac:(rewrite (geo_size _ _ G1); assumption) HN1 HS1 HF)
      as (rep' & I1 & I2 & I3 & I4 & (new & I5) & I6 & I7 & I8 & I9).
    destruct Hpre as [new0 Hpre].
    exists rep'. split; [assumption|]. split; [eapply geo_trans; eauto|]. split; [assumption|]. split; [assumption|].
    split; [exists (new0 ++ new); rewrite I5, Hpre; now rewrite app_assoc|].
    split; [auto|]. split; [intros; eapply I7; eauto|]. split; [auto|].
    intros Hs' v0 a0 b0 [H|H].
    + injection H as <- <- <-. apply I8; auto.
      assert (new0 = []) as ->.
      { rewrite I5, Hpre, <- app_assoc in Hs'.
        assert (HL : List.length (s_shorts s ++ new0 ++ new) = List.length (s_shorts s)) by congruence.
        rewrite !app_length in HL. destruct new0; [reflexivity|simpl in HL; lia]. }
      destruct K as [(x & y & _ & _ & _ & _ & _ & ES)|(-> & _)].
      * exfalso. rewrite app_nil_r in Hpre. rewrite Hpre in ES. apply (f_equal (@List.length _)) in ES.
        rewrite app_length in ES. simpl in ES. lia.
      * unfold join. rewrite Haa, Hbb, Nat.eqb_refl. destruct (rep a =? rep b)%nat; reflexivity.
    + eapply I9; eauto. rewrite I5.
      assert (new = []) as ->; [|now rewrite app_nil_r].
      rewrite I5, Hpre, <- app_assoc in Hs'.
      assert (HL : List.length (s_shorts s ++ new0 ++ new) = List.length (s_shorts s)) by congruence.
      rewrite !app_length in HL. destruct new; [reflexivity|simpl in HL; lia].
Qed.

(** * Queries: terminals, opens, output *)

(** Same objects, names and classes. *)
Record same (s s' : rst) (rep : nat -> nat) : Prop := {
  sm_wf : wf s' rep; sm_geo : geo s s'; sm_net : s_net s' = s_net s }.

Lemma same_trans a b c rep : same a b rep -> same b c rep -> same a c rep.
Proof. intros [] []; split; auto; [eapply geo_trans; eauto|congruence]. Qed.

Lemma same_net_of a b rep i : same a b rep -> net_of b i = net_of a i.
Proof. intros []. unfold net_of. congruence. Qed.

Lemma st_root_same s rep x : wf s rep -> (x < size s)%nat ->
  exists s', st_root s x = Some (rep x, s') /\ same s s' rep /\ s_shorts s' = s_shorts s /\ s_pins s' = s_pins s.
Proof.
  intros W Hx. destruct (st_root_ok s rep x W Hx) as (s' & E & W' & G & N & S & P).
  exists s'. split; [assumption|]. split; [split; auto|]. auto.
Qed.

Lemma root_name_same s rep x : wf s rep -> (x < size s)%nat ->
  exists s', root_name s x = Some (net_of s (rep x), s') /\ same s s' rep /\ s_shorts s' = s_shorts s /\ s_pins s' = s_pins s.
Proof.
  intros W Hx. unfold root_name. destruct (st_root_same s rep x W Hx) as (s' & -> & S & S1 & S2).
  exists s'. rewrite (same_net_of _ _ _ _ S). auto.
Qed.

Lemma root_names_same xs : forall s rep, wf s rep -> (forall x, In x xs -> (x < size s)%nat) ->
  exists s', root_names s xs = Some (map (fun x => net_of s (rep x)) xs, s') /\ same s s' rep /\
             s_shorts s' = s_shorts s /\ s_pins s' = s_pins s.
Proof.
  induction xs as [|x xs IH]; intros s rep W Hx; simpl.
  - exists s. split; [reflexivity|]. split; [split; auto; apply geo_refl|auto].
  - destruct (root_name_same s rep x W) as (s1 & -> & S1 & A1 & B1); [apply Hx; now left|].
    destruct (IH s1 rep (sm_wf _ _ _ S1)) as (s2 & -> & S2 & A2 & B2).
    { intros y Hy. rewrite (geo_size _ _ (sm_geo _ _ _ S1)). apply Hx. now right. }
    exists s2. split.
    + f_equal. f_equal. f_equal. apply map_ext. intros y. apply (same_net_of _ _ _ _ S1).
    + split; [eapply same_trans; eauto|]. split; congruence.
Qed.

Lemma out_term_same s s1 rep ly i : same s s1 rep -> (i < size s)%nat ->
  exists s2, out_term s1 ly i =
    Some (mkTerm ly (net_of s (rep i)) (rect_of s i) (if ported_of s i then "pin"%string else type_of s i) (term_of s i), s2)
    /\ same s s2 rep /\ s_shorts s2 = s_shorts s1.
Proof.
  intros S1 Hi. unfold out_term. destruct (root_name_same s1 rep i (sm_wf _ _ _ S1)) as (s2 & -> & S2 & A2 & _).
  { rewrite (geo_size _ _ (sm_geo _ _ _ S1)). assumption. }
  assert (S12 : same s s2 rep) by (eapply same_trans; eauto).
  exists s2.
  rewrite (same_net_of _ _ _ _ S1), (geo_rect_of _ _ _ (sm_geo _ _ _ S12)), (geo_ported_of _ _ _ (sm_geo _ _ _ S12)),
          (geo_type_of _ _ _ (sm_geo _ _ _ S12)), (geo_term_of _ _ _ (sm_geo _ _ _ S12)).
  auto.
Qed.

Lemma generate_spec cf ts st s rep :
  wf s rep -> store_valid (size s) st ->
  exists s', generate_rectangles cf ts st s =
    Some (filter (fun d => in_strs (t_layer d) (cf_skip cf)) ts ++
          map (fun li => mkTerm (fst li) (net_of s (rep (snd li))) (rect_of s (snd li))
                 (if ported_of s (snd li) then "pin"%string else type_of s (snd li)) (term_of s (snd li))) (layer_ids st), s')
    /\ s_shorts s' = s_shorts s.
Proof.
  intros W HV. unfold generate_rectangles.
  assert (Hids : forall li, In li (layer_ids st) -> (snd li < size s)%nat).
  { unfold layer_ids. intros li Hli. apply in_flat_map in Hli as ([ly ls] & H1 & H2).
    apply in_map_iff in H2 as (i & <- & H2). apply in_concat in H2 as (ids & H2 & H3).
    apply in_map_iff in H2 as ([c ids'] & <- & H2). simpl. eapply HV; eauto. }
  revert Hids. generalize (layer_ids st) as lis.
  assert (G : forall lis acc s1, same s s1 rep -> (forall li, In li lis -> (snd li < size s)%nat) ->
     exists s', foldM (fun (acc : list term * rst) (li : string * nat) =>
           match out_term (snd acc) (fst li) (snd li) with
           | None => None
           | Some (t, s') => Some (fst acc ++ [t], s')
           end) lis (acc, s1) =
      Some (acc ++ map (fun li => mkTerm (fst li) (net_of s (rep (snd li))) (rect_of s (snd li))
                 (if ported_of s (snd li) then "pin"%string else type_of s (snd li)) (term_of s (snd li))) lis, s')
      /\ s_shorts s' = s_shorts s1).
  { induction lis as [|[ly i] lis IH]; intros acc s1 S1 Hids; simpl.
    - exists s1. rewrite app_nil_r. auto.
    - destruct (out_term_same s s1 rep ly i S1) as (s2 & -> & S12 & A2); [apply (Hids (ly, i)); now left|]. simpl.
      destruct (IH (acc ++ [mkTerm ly (net_of s (rep i)) (rect_of s i) (if ported_of s i then "pin"%string else type_of s i) (term_of s i)]) s2 S12)
        as (s' & -> & A3); [intros; apply Hids; now right|].
      exists s'. rewrite <- app_assoc. split; [reflexivity|congruence]. }
  intros lis Hids. apply G; auto. split; auto. apply geo_refl.
Qed.

Lemma opens_spec cf st s rep ops s' :
  wf s rep -> store_valid (size s) st -> check_opens cf st s = Some (ops, s') ->
  same s s' rep /\ s_shorts s' = s_shorts s.
Proof.
  intros W HV. unfold check_opens.
  destruct (foldM opens_step (all_ids st) ([], [], s)) as [[[tb o] s1]|] eqn:E; [|discriminate].
  intros [= <- <-].
  pose (Q := fun (_ : list nat) (acc : list (string * list nat) * list open_ * rst) =>
     same s (snd acc) rep /\ s_shorts (snd acc) = s_shorts s).
  apply (foldM_inv _ Q) in E; [exact E| |].
  - split; [split; auto; apply geo_refl|reflexivity].
  - clear E. intros pre x post [[tb1 o1] s2] [[tb2 o2] s3] El [S2 A2] H. unfold Q in *. simpl in *.
    assert (Hx : (x < size s2)%nat).
    { rewrite (geo_size _ _ (sm_geo _ _ _ S2)). assert (Hin : In x (all_ids st)) by (rewrite El; apply in_app_iff; right; now left).
      unfold all_ids in Hin. apply in_concat in Hin as (ids & H2 & H3). apply in_map_iff in H2 as ([c ids'] & <- & H2).
      apply in_concat in H2 as (ls & H2 & H4). apply in_map_iff in H2 as ([ly ls'] & <- & H2). simpl in *. eapply HV; eauto. }
    destruct (st_root_same s2 rep x (sm_wf _ _ _ S2) Hx) as (s4 & E4 & S4 & A4 & _). rewrite E4 in H.
    assert (Goal4 : same s s4 rep /\ s_shorts s4 = s_shorts s) by (split; [eapply same_trans; eauto|congruence]).
    destruct (net_of s4 (rep x)); [injection H as <- <- <-; assumption|].
    destruct (term_of s4 x); injection H as <- <- <-; assumption.
Qed.

(** [check_opens] never fails on a valid store. *)
Lemma opens_total cf st s rep : wf s rep -> store_valid (size s) st -> exists r, check_opens cf st s = Some r.
Proof.
  intros W HV. unfold check_opens.
  destruct (foldM_total opens_step (fun acc => same s (snd acc) rep) (all_ids st) ([], [], s)) as ([[tb o] s1] & -> & _); [| |eauto].
  - split; auto. apply geo_refl.
  - intros x [[tb1 o1] s2] Hin S2. simpl in *.
    assert (Hx : (x < size s2)%nat).
    { rewrite (geo_size _ _ (sm_geo _ _ _ S2)).
      unfold all_ids in Hin. apply in_concat in Hin as (ids & H2 & H3). apply in_map_iff in H2 as ([c ids'] & <- & H2).
      apply in_concat in H2 as (ls & H2 & H4). apply in_map_iff in H2 as ([ly ls'] & <- & H2). simpl in *. eapply HV; eauto. }
    destruct (st_root_same s2 rep x (sm_wf _ _ _ S2) Hx) as (s4 & E4 & S4 & A4 & _). rewrite E4.
    assert (same s s4 rep) by (eapply same_trans; eauto).
    destruct (net_of s4 (rep x)); [eauto|]. destruct (term_of s4 x); eauto.
Qed.
