(** The router's walk top down makes a tree of fresh nodes that unfolds the design. *)
From Coq Require Import String Ascii.
From Verif Require Import Base.Prelude Base.PyDict Base.PyStr Model.PnrGeom Proofs.PnrGeomP Proofs.RouteNamesP Model.RouteHier Spec.Unfold.
Local Open Scope list_scope.

Definition ksize (ks : list ((chars * omark * bbox) * option htree)) : nat := fold_right (fun k n => let '(_, o) := k in match o with None => n | Some t' => hsize t' + n end)%nat 0%nat ks.
Lemma hsize_eq nm ks : hsize (HT nm ks) = Datatypes.S (ksize ks).
Proof. reflexivity. Qed.
Lemma F2_impl {A B} (P Q : A -> B -> Prop) l m : (forall a b, In a l -> In b m -> P a b -> Q a b) -> Forall2 P l m -> Forall2 Q l m.
Proof. intros H F. induction F as [|a b l m Hab F IH]; constructor; [apply H; cbn; auto|apply IH; intros; apply H; cbn; auto]. Qed.

(** Frame: only the nodes below [k] and the node itself, its parent aside, matter *)
Definition unparent (n : hnode) : hnode := set_parent n [].
Lemma routed_frame d db db' p p' lo lo' k box ort path t : routed d db p lo k box ort path t -> (lo' <= lo)%nat ->
  (forall j, (lo <= j < k)%nat -> nth_error db' j = nth_error db j) -> option_map unparent (nth_error db' k) = option_map unparent (nth_error db k) ->
  (forall j, (lo <= j <= k)%nat -> p' j = p j) -> (lo <= k)%nat -> routed d db' p' lo' k box ort path t.
Proof.
  revert lo k box ort path t. induction d as [|d IH]; [intros lo k box ort path t []|]. intros lo k box ort path t (n & Hn & Ht & Hb & Ho & Hp & F) Hlo Hf Hk Hp' Hlk. rewrite Hn in Hk. destruct (nth_error db' k) as [n'|] eqn:En; [|discriminate]. cbn [option_map] in Hk.
  assert (U : h_name n' = h_name n /\ h_box n' = h_box n /\ h_ort n' = h_ort n /\ h_blocks n' = h_blocks n) by (destruct n, n'; unfold unparent, set_parent in Hk; cbn in *; injection Hk; intros; subst; auto). destruct U as (U1 & U2 & U3 & U4).
  exists n'. rewrite U1, U2, U3, U4, (Hp' k) by lia. split; [exact En|]. split; [exact Ht|]. split; [exact Hb|]. split; [exact Ho|]. split; [exact Hp|]. destruct (node_size box ort) as (w & h).
  eapply F2_impl; [|exact F]. intros b kd _ _ (Ei & G). split; [exact Ei|]. destruct (b_child b) as [c|], (snd kd) as [t'|]; try exact G. destruct G as (Hc & (m & Hm & Hpm) & R). split; [lia|]. split; [exists m; rewrite Hf by lia; auto|].
  eapply IH; [exact R|lia|intros j Hj; apply Hf; lia|now rewrite Hf by lia|intros j Hj; apply Hp'; lia|lia].
Qed.

(** Facts about updates *)
Lemma hupd_length db i f : length (hupd db i f) = length db.
Proof. revert i. induction db as [|n db IH]; intros [|i]; cbn; auto. Qed.
Lemma hupd_nth db i f j : nth_error (hupd db i f) j = if Nat.eqb i j then option_map f (nth_error db j) else nth_error db j.
Proof. revert i j. induction db as [|n db IH]; intros [|i] [|j]; cbn; try reflexivity; [now destruct (Nat.eqb i j)|apply IH]. Qed.
Lemma adopt_length k db bs : length (adopt k db bs) = length db.
Proof. unfold adopt. revert db. induction bs as [|b bs IH]; intros db; [reflexivity|]. cbn [fold_left]. rewrite IH. destruct (b_child b); [apply hupd_length|reflexivity]. Qed.
Lemma adopt_other k db bs j : (forall b, In b bs -> b_child b <> Some j) -> nth_error (adopt k db bs) j = nth_error db j.
Proof.
  unfold adopt. revert db. induction bs as [|b bs IH]; intros db H; [reflexivity|]. cbn [fold_left]. rewrite IH by (intros b' Hb'; apply H; now right). destruct (b_child b) as [c|] eqn:E; [|reflexivity]. rewrite hupd_nth.
  destruct (Nat.eqb_spec c j) as [->|]; [destruct (H b (or_introl eq_refl) E)|reflexivity].
Qed.
Lemma adopt_any k db bs j : option_map unparent (nth_error (adopt k db bs) j) = option_map unparent (nth_error db j).
Proof.
  unfold adopt. revert db. induction bs as [|b bs IH]; intros db; [reflexivity|]. cbn [fold_left]. rewrite IH. destruct (b_child b) as [c|]; [|reflexivity]. rewrite hupd_nth. destruct (Nat.eqb c j); [|reflexivity]. now destruct (nth_error db j).
Qed.
Lemma adopt_child k db bs j n : (exists b, In b bs /\ b_child b = Some j) -> nth_error db j = Some n -> exists m, nth_error (adopt k db bs) j = Some m /\ h_parent m = [k].
Proof.
  revert db n. induction bs as [|b bs IH]; intros db n (b0 & Hb & E) Hn; [destruct Hb|]. unfold adopt. cbn [fold_left]. fold (adopt k (match b_child b with None => db | Some c => hupd db c (fun n => set_parent n [k]) end) bs).
  assert (D : (exists b', In b' bs /\ b_child b' = Some j) \/ forall b', In b' bs -> b_child b' <> Some j).
  { clear. induction bs as [|b bs [(b' & Hb & E)|IH]]; [right; intros ? []|left; exists b'; cbn; auto|]. destruct (b_child b) as [c|] eqn:Eb; [destruct (Nat.eq_dec c j) as [->|E]; [left; exists b; cbn; auto|]|]; right; intros b' [<-|H]; auto; congruence. }
  destruct D as [D|D].
  - destruct (b_child b) as [c|]; [|now apply (IH db n)]. destruct (Nat.eqb_spec c j) as [->|Hc]; [apply (IH _ (set_parent n [k]) D); now rewrite hupd_nth, Nat.eqb_refl, Hn|]. apply (IH _ n D). rewrite hupd_nth. destruct (Nat.eqb_spec c j); [contradiction|exact Hn].
  - rewrite adopt_other by exact D. destruct Hb as [->|Hb]; [|destruct (D b0 Hb E)]. rewrite E, hupd_nth, Nat.eqb_refl, Hn. cbn. eexists. split; reflexivity.
Qed.

(** What the walk leaves of the given cells *)
Definition frozen (n : hnode) : hnode := mkHnode (h_name n) (h_top n) 0 (h_parent n) (match h_as n with [] => h_blocks n | _ => [] end) (h_as n) (h_box n) (h_ort n).
Definition same (L : nat) (db db' : hdb) : Prop := forall i, (i < L)%nat -> option_map frozen (nth_error db' i) = option_map frozen (nth_error db i).
Definition children (bs : list tblk) : list nat := flat_map (fun b => match b_child b with Some c => [c] | None => [] end) bs.
Definition wf (db : hdb) : Prop := forall i n sel bs, nth_error db i = Some n -> placement n sel = Some bs ->
  forall c, In c (children bs) -> exists m, nth_error db c = Some m /\ h_top m = false.
Lemma frozen_placement n n' sel : frozen n = frozen n' -> placement n sel = placement n' sel.
Proof. destruct n as [a b c d e f g h], n' as [a' b' c' d' e' f' g' h']. unfold frozen, placement. cbn. intros [= -> -> -> E -> -> ->]. destruct f'; [now subst|reflexivity]. Qed.
Lemma same_trans L a b c : same L a b -> same L b c -> same L a c.
Proof. intros H1 H2 i Hi. now rewrite H2, H1. Qed.
Lemma same_hupd L db i f : (forall n, nth_error db i = Some n -> frozen (f n) = frozen n) -> same L db (hupd db i f).
Proof. intros H j _. rewrite hupd_nth. destruct (Nat.eqb_spec i j) as [->|]; [|reflexivity]. destruct (nth_error db j) as [n|]; [|reflexivity]. cbn. now rewrite H. Qed.
Lemma same_append L db l : (L <= length db)%nat -> same L db (db ++ l).
Proof. intros H i Hi. now rewrite nth_error_app1 by lia. Qed.
Lemma same_adopt L k db bs : (forall b c, In b bs -> b_child b = Some c -> (L <= c)%nat) -> same L db (adopt k db bs).
Proof. intros H i Hi. rewrite adopt_other; [reflexivity|]. intros b Hb E. specialize (H b i Hb E). lia. Qed.
Lemma frozen_set n sel bs : placement n sel = Some bs -> frozen (set_blocks n bs) = frozen n.
Proof. unfold placement, frozen, set_blocks. cbn. destruct (h_as n); [intros [= <-]; reflexivity|reflexivity]. Qed.

(** The routed children of a node being built, in order, each right after the other *)
Inductive kidsok (d : nat) (db : hdb) (p : nat -> list chars) (ort : omark) (path : list chars) : nat -> list tblk -> list tblk -> list (option htree) -> nat -> Prop :=
| ko_nil a : kidsok d db p ort path a [] [] [] a
| ko_leaf a b bs bs' ks e : b_child b = None -> kidsok d db p ort path a bs bs' ks e -> kidsok d db p ort path a (b :: bs) (b :: bs') (None :: ks) e
| ko_kid a b bs bs' ks e c i t : b_child b = Some i -> (c + 1 = a + hsize t)%nat -> (a <= c)%nat -> (exists m, nth_error db c = Some m) -> routed d db p a c (b_box b) (rel2abs ort (b_ort b)) (path ++ [b_name b]) t ->
    kidsok d db p ort path (Datatypes.S c) bs bs' ks e -> kidsok d db p ort path a (b :: bs) (set_child b c :: bs') (Some t :: ks) e.
Definition osize (ks : list (option htree)) : nat := fold_right (fun o n => match o with None => n | Some t' => hsize t' + n end)%nat 0%nat ks.
Lemma kidsok_le d db p ort path a bs bs' ks e : kidsok d db p ort path a bs bs' ks e -> (e = a + osize ks)%nat.
Proof. induction 1 as [a|a b bs bs' ks e _ _ IH|a b bs bs' ks e c i t _ E Hc _ _ _ IH]; cbn [osize fold_right]; [lia|exact IH|fold (osize ks); lia]. Qed.
Lemma kidsok_length d db p ort path a bs bs' ks e : kidsok d db p ort path a bs bs' ks e -> length bs' = length bs /\ length ks = length bs.
Proof. induction 1; cbn; intuition congruence. Qed.
Lemma kidsok_frame d db db' p p' ort path a bs bs' ks e : kidsok d db p ort path a bs bs' ks e -> (forall j, (a <= j < e)%nat -> nth_error db' j = nth_error db j) -> (forall j, (a <= j < e)%nat -> p' j = p j) -> kidsok d db' p' ort path a bs bs' ks e.
Proof.
  induction 1 as [a|a b bs bs' ks e N K IH|a b bs bs' ks e c i t N E Hc (m & Hm) R K IH]; intros Hf Hp; [constructor|constructor; auto|]. pose proof (kidsok_le _ _ _ _ _ _ _ _ _ _ K).
  econstructor; [exact N|exact E|exact Hc|exists m; rewrite Hf by lia; exact Hm| |apply IH; intros j Hj; [apply Hf|apply Hp]; lia]. eapply routed_frame; [exact R|lia|intros j Hj; apply Hf; lia|now rewrite Hf by lia|intros j Hj; apply Hp; lia|lia].
Qed.
Lemma kidsok_child d db p ort path a bs bs' ks e b c : kidsok d db p ort path a bs bs' ks e -> In b bs' -> b_child b = Some c -> (a <= c < e)%nat /\ exists m, nth_error db c = Some m.
Proof.
  induction 1 as [a|a b0 bs bs' ks e N K IH|a b0 bs bs' ks e c0 i t N E Hc Hm R K IH]; intros Hb Eb; [destruct Hb|destruct Hb as [->|Hb]; [congruence|auto]|]. pose proof (kidsok_le _ _ _ _ _ _ _ _ _ _ K).
  destruct Hb as [<-|Hb]; [injection Eb as <-; split; [lia|exact Hm]|]. destruct (IH Hb Eb). split; [lia|auto].
Qed.
(** Nodes between the children are no children *)
Lemma kidsok_adopt d db p ort path a bs bs' ks e k all : kidsok d db p ort path a bs bs' ks e -> (forall b c, In b all -> b_child b = Some c -> In b bs' \/ (c < a)%nat) -> (forall b, In b bs' -> In b all) ->
  Forall2 (fun b o => match b_child b, o with None, None => True | Some c, Some t' => (a <= c < e)%nat /\ (exists m, nth_error (adopt k db all) c = Some m /\ h_parent m = [k]) /\ routed d (adopt k db all) p a c (b_box b) (rel2abs ort (b_ort b)) (path ++ [b_name b]) t' | _, _ => False end) bs' ks.
Proof.
  induction 1 as [a|a b0 bs bs' ks e N K IH|a b0 bs bs' ks e c0 i t N E Hc Hm R K IH]; intros Hall Hin; [constructor| |].
  - constructor; [now rewrite N|]. apply IH; [|intros b Hb; apply Hin; now right]. intros b c Hb Eb. destruct (Hall b c Hb Eb) as [[<-|G]|G]; [congruence|auto|auto].
  - pose proof (kidsok_le _ _ _ _ _ _ _ _ _ _ K). constructor.
    + cbn [set_child b_child b_box b_ort b_name]. split; [lia|]. destruct Hm as (m & Hm). split; [eapply adopt_child; [exists (set_child b0 c0); split; [apply Hin; now left|reflexivity]|exact Hm]|].
      eapply routed_frame; [exact R|lia| |apply adopt_any|reflexivity|exact Hc]. intros j Hj. apply adopt_other. intros b Hb Eb. destruct (Hall b j Hb Eb) as [[<-|G]|G]; [injection Eb; lia| |lia]. destruct (kidsok_child _ _ _ _ _ _ _ _ _ _ _ _ K G Eb). lia.
    + assert (F := IH). clear IH. specialize (F ltac:(intros b c Hb Eb; destruct (Hall b c Hb Eb) as [[<-|G]|G]; [injection Eb; lia|auto|right; lia]) ltac:(intros b Hb; apply Hin; now right)).
      eapply F2_impl; [|exact F]. intros b o _ _ G. cbv beta in G |- *. revert G; destruct (b_child b) as [c|], o as [t0|]; intros G; try exact G.  destruct G as (G1 & G2 & G3). split; [lia|]. split; [exact G2|]. eapply routed_frame; [exact G3|lia|reflexivity|reflexivity|reflexivity|lia].
Qed.
Lemma combine_F2 {A B C} (P : A -> B -> C -> Prop) (f : A -> B) l : forall m, length m = length l -> Forall2 (fun a o => P a (f a) o) l m -> Forall2 (fun a k => fst k = f a /\ P a (fst k) (snd k)) l (combine (map f l) m).
Proof. induction l as [|a l IH]; intros [|o m] E F; cbn in *; try discriminate; [constructor|]. inversion_clear F. constructor; [cbn; auto|]. apply IH; [congruence|assumption]. Qed.
Lemma ksize_combine {A} (f : A -> chars * omark * bbox) l : forall m, length m = length l -> ksize (combine (map f l) m) = osize m.
Proof. induction l as [|a l IH]; intros [|o m] E; cbn in *; try discriminate; [reflexivity|]. fold (ksize (combine (map f l) m)). rewrite (IH m) by congruence. reflexivity. Qed.

Definition fwd (n : hnode) (bs : list tblk) (d : ttype) : list tblk :=
  map (fun b => set_bbox b (let '(w, h) := node_size (h_box n) (h_ort n) in transform_bbox (b_box b) (fst (h_box n)) w h (h_ort n) d)) bs.
Lemma transform_node_eq d n : transform_node d n = set_blocks n (fwd n (h_blocks n) d).
Proof. unfold transform_node, fwd. now destruct (node_size (h_box n) (h_ort n)). Qed.

(** The entries that a range of new nodes gets in the results *)
Definition record (lidx : nat) (db : hdb) (p : nat -> list chars) (l : list nat) (r : results) : results :=
  fold_left (fun r j => match nth_error db j with Some m => dset chars_eqb r (result_name m lidx) (p j, j) | None => r end) l r.
Lemma record_app lidx db p l l' r : record lidx db p (l ++ l') r = record lidx db p l' (record lidx db p l r).
Proof. apply fold_left_app. Qed.
Lemma record_ext lidx db db' p p' l r : (forall j, In j l -> option_map unparent (nth_error db' j) = option_map unparent (nth_error db j) /\ p' j = p j) -> record lidx db' p' l r = record lidx db p l r.
Proof.
  revert r. induction l as [|j l IH]; intros r H; [reflexivity|]. unfold record. cbn [fold_left]. destruct (H j (or_introl eq_refl)) as (E & ->).
  assert (Er : (match nth_error db' j with Some m => dset chars_eqb r (result_name m lidx) (p j, j) | None => r end) = match nth_error db j with Some m => dset chars_eqb r (result_name m lidx) (p j, j) | None => r end).
  { destruct (nth_error db' j) as [m'|], (nth_error db j) as [m|]; try discriminate E; [|reflexivity]. cbn in E. destruct m, m'. unfold unparent, set_parent in E. cbn in E. injection E as -> -> -> -> -> -> ->. reflexivity. }
  rewrite Er. apply IH. intros j' Hj'. apply H. now right.
Qed.
Section Walk.
  Variables (db0 : hdb).
  Hypothesis W : wf db0.
  Let L := length db0.
  Definition call (fuel : nat) : Prop := forall s box ort idx lidx sel path s' k n0, top_down fuel s box ort idx lidx sel path = Some (s', k) ->
    same L db0 (fst s) -> (L <= length (fst s))%nat -> nth_error db0 idx = Some n0 -> (h_top n0 = true -> ort = oN /\ fst box = (0, 0)%Z) ->
    exists t p, design fuel db0 idx sel t /\ routed fuel (fst s') p (length (fst s)) k box ort path t /\ same L db0 (fst s') /\
      (k + 1 = length (fst s'))%nat /\ (length (fst s') = length (fst s) + hsize t)%nat /\ (forall j, (L <= j < length (fst s))%nat -> nth_error (fst s') j = nth_error (fst s) j) /\
      snd s' = record lidx (fst s') p (seq (length (fst s)) (hsize t)) (snd s).
  Definition loop fuel lidx ort path := fun (s : hdb * results) b =>
                        match b_child b with
                        | None => Some (s, b)
                        | Some c => match top_down fuel s (b_box b) (rel2abs ort (b_ort b)) c lidx (b_sel b) (path ++ [b_name b]) with
                                    | None => None
                                    | Some (s', k) => Some (s', set_child b k)
                                    end
                        end.
  Lemma each_ok fuel lidx ort path : call fuel -> forall bs s s' bs', each (loop fuel lidx ort path) s bs = Some (s', bs') -> same L db0 (fst s) -> (L <= length (fst s))%nat ->
    (forall c, In c (children bs) -> exists m, nth_error db0 c = Some m /\ h_top m = false) ->
    exists ks p, kidsok fuel (fst s') p ort path (length (fst s)) bs bs' ks (length (fst s')) /\ same L db0 (fst s') /\ (length (fst s) <= length (fst s'))%nat /\
      (forall j, (L <= j < length (fst s))%nat -> nth_error (fst s') j = nth_error (fst s) j) /\
      snd s' = record lidx (fst s') p (seq (length (fst s)) (osize ks)) (snd s) /\
      Forall2 (fun b o => match b_child b, o with None, None => True | Some c, Some t => design fuel db0 c (b_sel b) t | _, _ => False end) bs ks.
  Proof.
    intros HC bs. induction bs as [|b bs IH]; intros s s' bs' E Hs HL Hc; cbn [each] in E.
    - injection E as <- <-. exists [], (fun _ => []). repeat split; try constructor; auto.
    - unfold loop at 1 in E. destruct (b_child b) as [c|] eqn:Eb.
      + destruct (top_down fuel s _ _ c lidx _ _) as [(s1 & k)|] eqn:Et; [|discriminate]. destruct (each _ s1 bs) as [(s2 & bs2)|] eqn:Ee; [|discriminate]. injection E as <- <-.
        destruct (Hc c) as (m & Hm & Hmt); [cbn [children flat_map]; rewrite Eb; now left|].
        destruct (HC s _ _ c lidx _ _ s1 k m Et Hs HL Hm ltac:(congruence)) as (t & p1 & D1 & R1 & S1 & K1 & Z1 & F1 & Q1).
        assert (Pt : (0 < hsize t)%nat) by (destruct t; cbn; lia).
        destruct (IH s1 s2 bs2 Ee S1 ltac:(lia)) as (ks & p2 & K2 & S2 & L2 & F2 & Q2 & D2); [intros c' H'; apply Hc; cbn [children flat_map]; apply in_or_app; now right|].
        exists (Some t :: ks), (fun j => if (j <? length (fst s1))%nat then p1 j else p2 j). split; [|split; [exact S2|split; [lia|split; [intros j Hj; rewrite F2, F1 by lia; reflexivity|split; [|constructor; [rewrite Eb; exact D1|exact D2]]]]]].
        2: { cbn [osize fold_right]. fold (osize ks). rewrite seq_app, record_app, Q2, <- Z1. pose proof (kidsok_le _ _ _ _ _ _ _ _ _ _ K2) as K2'. rewrite (record_ext _ _ (fst s2) p2 (fun j => if (j <? length (fst s1))%nat then p1 j else p2 j)) by (intros j Hj; apply in_seq in Hj; split; [reflexivity|destruct (Nat.ltb_spec j (length (fst s1))); [lia|reflexivity]]). f_equal. rewrite Q1. apply record_ext. intros j Hj. apply in_seq in Hj. split; [now rewrite F2 by lia|destruct (Nat.ltb_spec j (length (fst s1))); [reflexivity|lia]]. }
        econstructor; [exact Eb|lia|lia| | |].
        * destruct (nth_error (fst s2) k) as [x|] eqn:X; [exists x; reflexivity|]. apply nth_error_None in X. lia.
        * eapply routed_frame; [exact R1|lia|intros j Hj; apply F2; lia|now rewrite F2 by lia|intros j Hj; destruct (Nat.ltb_spec j (length (fst s1))); [reflexivity|lia]|lia].
        * replace (Datatypes.S k) with (length (fst s1)) by lia. eapply kidsok_frame; [exact K2|reflexivity|]. intros j Hj. destruct (Nat.ltb_spec j (length (fst s1))); [lia|reflexivity].
      + destruct (each _ s bs) as [(s2 & bs2)|] eqn:Ee; [|discriminate]. injection E as <- <-. destruct (IH s s2 bs2 Ee Hs HL) as (ks & p2 & K2 & S2 & L2 & F2 & Q2 & D2); [intros c' H'; apply Hc; cbn [children flat_map]; apply in_or_app; now right|].
        exists (None :: ks), p2. split; [constructor; assumption|]. repeat split; auto. constructor; [now rewrite Eb|exact D2].
  Qed.
  Lemma adopt_map k db (g : tblk -> tblk) bs : (forall b, b_child (g b) = b_child b) -> adopt k db (map g bs) = adopt k db bs.
  Proof. intros H. unfold adopt. revert db. induction bs as [|b bs IH]; intros db; [reflexivity|]. cbn [map fold_left]. now rewrite IH, H. Qed.
  Lemma kidsok_info d db p ort path a bs bs' ks e : kidsok d db p ort path a bs bs' ks e -> map info bs' = map info bs.
  Proof. induction 1 as [| |? ? ? ? ? ? ? ? ? ? ? ? ? ? ? IH]; cbn [map]; [reflexivity|congruence|rewrite IH; reflexivity]. Qed.
  Lemma F2_map_l {A A' B} (f : A -> A') (P : A' -> B -> Prop) l m : Forall2 P (map f l) m <-> Forall2 (fun a b => P (f a) b) l m.
  Proof.
    split; [revert m; induction l as [|a l IH]; intros m F; cbn in F; inversion_clear F; constructor; auto|induction 1; cbn; constructor; auto].
  Qed.
  Lemma children_fwd n bs d : children (fwd n bs d) = children bs.
  Proof. unfold children, fwd. induction bs as [|b bs IH]; [reflexivity|]. cbn. now rewrite IH. Qed.

  Lemma call_ok fuel : call fuel.
  Proof.
    induction fuel as [|fuel IH]; intros s box ort idx lidx sel path s' k n0 E Hs HL Hn0 Ht; [discriminate E|]. cbn [top_down] in E. unfold checkout in E.
    assert (Hi : (idx < L)%nat) by (apply nth_error_Some; congruence).
    pose proof (Hs idx Hi) as Ef. rewrite Hn0 in Ef. destruct (nth_error (fst s) idx) as [n1|] eqn:En; [|discriminate]. cbn [option_map] in Ef. assert (Ef1 : frozen n1 = frozen n0) by congruence. clear Ef. rename Ef1 into Ef.
    assert (Fr : h_name n1 = h_name n0 /\ h_top n1 = h_top n0) by (unfold frozen in Ef; split; congruence). destruct Fr as (Fn & Ftop).
    rewrite (frozen_placement n1 n0 sel) in E by exact Ef. destruct (placement n0 sel) as [bs|] eqn:Ep; [|discriminate].
    assert (Ep1 : placement n1 sel = Some bs) by (rewrite <- Ep; apply frozen_placement; exact Ef).
    rewrite transform_node_eq in E. cbn [h_blocks set_pose set_blocks] in E. set (cur0 := set_pose (set_blocks n1 bs) box ort) in *.
    change (h_blocks (set_blocks cur0 (fwd cur0 bs Forward))) with (fwd cur0 bs Forward) in E.
    change (fun (s : hdb * results) (b : tblk) => match b_child b with Some c => match top_down fuel s (b_box b) (rel2abs ort (b_ort b)) c lidx (b_sel b) (path ++ [b_name b]) with Some (s', k) => Some (s', set_child b k) | None => None end | None => Some (s, b) end) with (loop fuel lidx ort path) in E.
    set (s1 := (hupd (hupd (fst s) idx (fun n => set_blocks n bs)) idx bump, snd s)) in E.
    destruct (each (loop fuel lidx ort path) s1 (fwd cur0 bs Forward)) as [((db2 & res2) & bs2)|] eqn:Ee; [|discriminate].
    assert (L1 : length (fst s1) = length (fst s)) by (unfold s1; cbn [fst]; now rewrite !hupd_length).
    assert (S1 : same L (fst s) (fst s1)).
    { unfold s1. cbn [fst]. eapply same_trans; [apply same_hupd|apply same_hupd]; [intros n Hn; replace n with n1 by congruence; eapply frozen_set; exact Ep1|reflexivity]. }
    assert (N1 : forall j, (L <= j)%nat -> nth_error (fst s1) j = nth_error (fst s) j) by (intros j Hj; unfold s1; cbn [fst]; rewrite !hupd_nth; destruct (Nat.eqb_spec idx j); [lia|reflexivity]).
    destruct (each_ok fuel lidx ort path IH _ s1 _ _ Ee (same_trans _ _ _ _ Hs S1) ltac:(lia)) as (ks & p & K & S2 & Le & F & Q & D); [rewrite children_fwd; intros c Hc; eapply W; [exact Hn0|exact Ep|exact Hc]|].
    cbn [fst snd] in *. rewrite L1 in *.
    set (cur1 := set_blocks (set_blocks cur0 (fwd cur0 bs Forward)) bs2) in *.
    set (g := fun b => set_bbox b (let '(w, h) := node_size box ort in transform_bbox (b_box b) (fst box) w h ort Backward)).
    assert (Efin : (if h_top cur1 then cur1 else transform_node Backward cur1) = set_blocks cur1 (map g bs2)).
    { change (h_top cur1) with (h_top n1). rewrite Ftop. destruct (h_top n0) eqn:Etop; [|rewrite transform_node_eq; reflexivity].
      destruct (Ht eq_refl) as (-> & Ebox). replace (map g bs2) with bs2; [reflexivity|]. unfold g. rewrite Ebox. transitivity (map (fun b : tblk => b) bs2); [symmetry; apply map_id|]. apply map_ext. intros [c sl nm o ((x & y) & (x' & y'))]. unfold set_bbox. cbn [b_box b_child b_sel b_name b_ort]. destruct (node_size box oN). cbn. now rewrite !Z.sub_0_r. }
    rewrite Efin in E. change (h_blocks (set_blocks cur1 (map g bs2))) with (map g bs2) in E. rewrite adopt_map in E by reflexivity. injection E as <- <-.
    pose proof (kidsok_length _ _ _ _ _ _ _ _ _ _ K) as (KL1 & KL2). unfold fwd in KL1, KL2. rewrite map_length in KL1, KL2.
    pose proof (kidsok_le _ _ _ _ _ _ _ _ _ _ K) as Kl. set (curf := set_blocks cur1 (map g bs2)) in *. set (k := length db2) in *.
    assert (Hch : forall b c, In b bs2 -> b_child b = Some c -> (length (fst s) <= c < k)%nat) by (intros b c Hb Eb; apply (kidsok_child _ _ _ _ _ _ _ _ _ _ _ _ K Hb Eb)).
    assert (Nk : nth_error (adopt k (db2 ++ [curf]) bs2) k = Some curf) by (rewrite adopt_other by (intros b Hb Eb; specialize (Hch b k Hb Eb); lia); rewrite nth_error_app2 by lia; now rewrite Nat.sub_diag).
    assert (Nl : forall j, (j < k)%nat -> nth_error (db2 ++ [curf]) j = nth_error db2 j) by (intros j Hj; now apply nth_error_app1).
    set (p' := fun j => if Nat.eqb j k then path else p j).
    exists (HT (h_name n0) (combine (map info bs) ks)), p'. rewrite hsize_eq, ksize_combine by congruence. cbn [fst snd]. rewrite adopt_length, app_length. cbn [length].
    split; [|split; [|split; [|split; [|split; [|split]]]]].
    - exists n0, bs. split; [exact Hn0|]. split; [exact Ep|]. split; [reflexivity|]. cbn [t_kids]. unfold fwd in D. apply F2_map_l in D.
      apply (combine_F2 (fun b _ o => match b_child b, o with None, None => True | Some c, Some t' => design fuel db0 c (b_sel b) t' | _, _ => False end)); [congruence|exact D].
    - exists curf. split; [exact Nk|]. split; [cbn [t_name]; symmetry; exact Fn|]. split; [reflexivity|]. split; [reflexivity|]. split; [unfold p'; now rewrite Nat.eqb_refl|]. cbn [t_kids]. change (h_blocks curf) with (map g bs2).
      assert (K' : kidsok fuel (db2 ++ [curf]) p' ort path (length (fst s)) (fwd cur0 bs Forward) bs2 ks k) by (eapply kidsok_frame; [exact K|intros j Hj; apply Nl; lia|intros j Hj; unfold p'; destruct (Nat.eqb_spec j k); [lia|reflexivity]]).
      pose proof (kidsok_adopt _ _ _ _ _ _ _ _ _ _ k bs2 K' ltac:(auto) ltac:(auto)) as A.
      assert (Ei : map info bs = map info (map g bs2)).
      { rewrite map_map. set (hh := fun i : chars * omark * bbox => (fst i, let '(w, h) := node_size box ort in transform_bbox (snd i) (fst box) w h ort Backward)). transitivity (map hh (map info bs2)); [|rewrite map_map; reflexivity]. rewrite (kidsok_info _ _ _ _ _ _ _ _ _ _ K). unfold fwd. rewrite !map_map. apply map_ext. intros b. unfold hh, info. cbn [b_name b_ort b_box set_bbox fst snd]. cbn [h_box h_ort cur0 set_pose set_blocks]. destruct (node_size box ort) as (w & h). now rewrite (proj1 (box_inverse _ _ _ _ _)). }
      rewrite Ei. destruct (node_size box ort) as (w & h) eqn:Ew.
      apply (combine_F2 (fun b _ o => match b_child b, o with
        | None, None => True
        | Some c, Some t' => (length (fst s) <= c < k)%nat /\ (exists m, nth_error (adopt k (db2 ++ [curf]) bs2) c = Some m /\ h_parent m = [k]) /\
            routed fuel (adopt k (db2 ++ [curf]) bs2) p' (length (fst s)) c (transform_bbox (b_box b) (fst box) w h ort Forward) (rel2abs ort (b_ort b)) (path ++ [b_name b]) t'
        | _, _ => False
        end)); [rewrite map_length; congruence|]. apply F2_map_l. eapply F2_impl; [|exact A]. intros b o _ _ G. unfold g. cbn [b_child b_box b_ort b_name set_bbox]. now rewrite (proj2 (box_inverse _ _ _ _ _)).
    - eapply same_trans; [exact S2|]. eapply same_trans; [apply (same_append L db2 [curf]); lia|]. apply same_adopt. intros b c Hb Eb. specialize (Hch b c Hb Eb). lia.
    - reflexivity.
    - lia.
    - intros j Hj. rewrite adopt_other by (intros b Hb Eb; specialize (Hch b j Hb Eb); lia). rewrite Nl by lia. rewrite F by lia. apply N1. lia.
    - replace (Datatypes.S (osize ks)) with (osize ks + 1)%nat by lia. rewrite seq_app, record_app. cbn [seq]. rewrite <- Kl. unfold record at 1. cbn [fold_left]. rewrite Nk. replace (p' k) with path by (unfold p'; now rewrite Nat.eqb_refl). rewrite Q.
      rewrite (record_ext lidx db2 (adopt k (db2 ++ [curf]) bs2) p p'); [reflexivity|]. intros j Hj. apply in_seq in Hj. rewrite adopt_any, Nl by lia. split; [reflexivity|]. unfold p'. destruct (Nat.eqb_spec j k); [lia|reflexivity].
  Qed.

  (** The names and copy numbers of the new nodes *)
  Definition sig (db : hdb) (j : nat) := option_map (fun m => (h_name m, h_top m, h_copies m)) (nth_error db j).
  Definition cp (db : hdb) (i : nat) : nat := match sig db i with Some (_, _, c) => c | None => 0%nat end.
  Lemma sig_unparent db db' j : option_map unparent (nth_error db' j) = option_map unparent (nth_error db j) -> sig db' j = sig db j.
  Proof. unfold sig. destruct (nth_error db' j) as [m'|], (nth_error db j) as [m|]; try discriminate; [|reflexivity]. cbn. destruct m, m'. unfold unparent, set_parent. cbn. intros E. injection E as -> -> -> _ _ _ _. reflexivity. Qed.
  Definition counted (T : nat -> Prop) (db db' : hdb) : Prop :=
    (forall i, (i < L)%nat -> (cp db i <= cp db' i)%nat) /\
    (forall j, (length db <= j < length db')%nat -> exists i n0 c, nth_error db0 i = Some n0 /\ sig db' j = Some (h_name n0, h_top n0, c) /\ (cp db i <= c < cp db' i)%nat /\ (h_top n0 = true -> T j)) /\
    (forall j j' nm b b' c c', (length db <= j)%nat -> (j < j' < length db')%nat -> sig db' j = Some (nm, b, c) -> sig db' j' = Some (nm, b', c') -> c <> c').
  Hypothesis Names : NoDup (map h_name db0).
  Lemma names_inj i j n m : nth_error db0 i = Some n -> nth_error db0 j = Some m -> h_name n = h_name m -> i = j.
  Proof.
    intros Hi Hj E. assert (Hl : (i < length (map h_name db0))%nat) by (rewrite map_length; apply nth_error_Some; congruence). apply (proj1 (NoDup_nth_error _) Names i j Hl). rewrite !nth_error_map, Hi, Hj; cbn; congruence.
  Qed.
  Lemma counted_impl (T T' : nat -> Prop) db db' : counted T db db' -> (forall j, (length db <= j < length db')%nat -> T j -> T' j) -> counted T' db db'.
  Proof. intros (A1 & A2 & A3) H. split; [exact A1|]. split; [|exact A3]. intros j Hj. destruct (A2 j Hj) as (i & n0 & c & X1 & X2 & X3 & X4). exists i, n0, c. split; [exact X1|]. split; [exact X2|]. split; [exact X3|auto]. Qed.
  Lemma counted_refl T db : counted T db db.
  Proof. split; [auto|]. split; [intros j Hj; lia|intros; lia]. Qed.
  Lemma counted_trans T db db1 db2 : counted T db db1 -> counted T db1 db2 -> (forall j, (L <= j < length db1)%nat -> nth_error db2 j = nth_error db1 j) -> (L <= length db)%nat -> (length db <= length db1)%nat -> counted T db db2.
  Proof.
    intros (A1 & A2 & A3) (B1 & B2 & B3) F HL Hl. assert (FS : forall j, (L <= j < length db1)%nat -> sig db2 j = sig db1 j) by (intros j Hj; unfold sig; now rewrite F). split; [|split].
    - intros i Hi. specialize (A1 i Hi). specialize (B1 i Hi). lia.
    - intros j Hj. destruct (Nat.lt_ge_cases j (length db1)) as [H|H].
      + destruct (A2 j ltac:(lia)) as (i & n0 & c & Hi & Sj & Hc & HT). exists i, n0, c. rewrite FS by lia. split; [exact Hi|]. split; [exact Sj|]. assert (i < L)%nat by (apply nth_error_Some; congruence). specialize (B1 i ltac:(lia)). split; [lia|exact HT].
      + destruct (B2 j ltac:(lia)) as (i & n0 & c & Hi & Sj & Hc & HT). exists i, n0, c. split; [exact Hi|]. split; [exact Sj|]. assert (i < L)%nat by (apply nth_error_Some; congruence). specialize (A1 i ltac:(lia)). split; [lia|exact HT].
    - intros j j' nm b b' c c' Hj Hj' S1 S2. destruct (Nat.lt_ge_cases j' (length db1)) as [H|H]; [rewrite FS in S1, S2 by lia; eapply (A3 j j'); eauto; lia|]. destruct (Nat.lt_ge_cases j (length db1)) as [H'|H']; [|eapply (B3 j j'); eauto; lia].
      rewrite FS in S1 by lia. destruct (A2 j ltac:(lia)) as (i & n0 & c1 & Hi & Sj & Hc & _). destruct (B2 j' ltac:(lia)) as (i' & n0' & c1' & Hi' & Sj' & Hc' & _). rewrite S1 in Sj. rewrite S2 in Sj'. injection Sj as -> -> ->. injection Sj' as E -> ->. assert (i = i') as <- by (eapply names_inj; eauto). lia.
  Qed.
  Lemma each_counted fuel lidx ort path :
    (forall s box ort idx lidx sel path s' k n0, top_down fuel s box ort idx lidx sel path = Some (s', k) -> same L db0 (fst s) -> (L <= length (fst s))%nat -> nth_error db0 idx = Some n0 -> (h_top n0 = true -> ort = oN /\ fst box = (0, 0)%Z) -> counted (fun j => h_top n0 = true /\ (j + 1 = length (fst s'))%nat) (fst s) (fst s')) ->
    forall bs s s' bs', each (loop fuel lidx ort path) s bs = Some (s', bs') -> same L db0 (fst s) -> (L <= length (fst s))%nat -> (forall c, In c (children bs) -> exists m, nth_error db0 c = Some m /\ h_top m = false) -> counted (fun _ => False) (fst s) (fst s').
  Proof.
    intros HC bs. induction bs as [|b bs IH]; intros s s' bs' E Hs HL Hc; cbn [each] in E; [injection E as <- <-; apply counted_refl|].
    unfold loop at 1 in E. destruct (b_child b) as [c|] eqn:Eb.
    - destruct (top_down fuel s _ _ c lidx _ _) as [(s1 & k)|] eqn:Et; [|discriminate]. destruct (each _ s1 bs) as [(s2 & bs2)|] eqn:Ee; [|discriminate]. injection E as <- <-.
      destruct (Hc c) as (m & Hm & Hmt); [cbn [children flat_map]; rewrite Eb; now left|].
      destruct (call_ok fuel s _ _ c lidx _ _ s1 k m Et Hs HL Hm ltac:(congruence)) as (t & p1 & D1 & R1 & S1 & K1 & Z1 & F1 & Q1).
      assert (Hc' : forall c, In c (children bs) -> exists m, nth_error db0 c = Some m /\ h_top m = false) by (intros c' H'; apply Hc; cbn [children flat_map]; apply in_or_app; now right).
      destruct (each_ok fuel lidx ort path (call_ok fuel) bs s1 s2 bs2 Ee S1 ltac:(lia) Hc') as (ks & p2 & K2 & S2 & L2 & F2 & Q2 & D2).
      eapply counted_trans; [eapply counted_impl; [eapply HC; [exact Et|exact Hs|exact HL|exact Hm|congruence]|intros j _ (X & _); congruence]|apply (IH s1 s2 bs2 Ee S1 ltac:(lia) Hc')|intros j Hj; apply F2; lia|exact HL|lia].
    - destruct (each _ s bs) as [(s2 & bs2)|] eqn:Ee; [|discriminate]. injection E as <- <-. apply (IH s s2 bs2 Ee Hs HL). intros c' H'; apply Hc; cbn [children flat_map]; apply in_or_app; now right.
  Qed.
  Lemma call_counted fuel s box ort idx lidx sel path s' k n0 : top_down fuel s box ort idx lidx sel path = Some (s', k) -> same L db0 (fst s) -> (L <= length (fst s))%nat -> nth_error db0 idx = Some n0 -> (h_top n0 = true -> ort = oN /\ fst box = (0, 0)%Z) -> counted (fun j => h_top n0 = true /\ (j + 1 = length (fst s'))%nat) (fst s) (fst s').
  Proof.
    revert s box ort idx lidx sel path s' k n0. induction fuel as [|fuel IH]; intros s box ort idx lidx sel path s' k n0 E Hs HL Hn0 Ht; [discriminate E|].
    destruct (call_ok (Datatypes.S fuel) s box ort idx lidx sel path s' k n0 E Hs HL Hn0 Ht) as (_ & _ & _ & _ & _ & Hk & _).
    cbn [top_down] in E. unfold checkout in E.
    assert (Hi : (idx < L)%nat) by (apply nth_error_Some; congruence).
    pose proof (Hs idx Hi) as Ef. rewrite Hn0 in Ef. destruct (nth_error (fst s) idx) as [n1|] eqn:En; [|discriminate]. cbn [option_map] in Ef. assert (Ef1 : frozen n1 = frozen n0) by congruence. clear Ef. rename Ef1 into Ef.
    assert (Fr : h_name n1 = h_name n0 /\ h_top n1 = h_top n0) by (unfold frozen in Ef; split; congruence). destruct Fr as (Fn & Ftop).
    rewrite (frozen_placement n1 n0 sel) in E by exact Ef. destruct (placement n0 sel) as [bs|] eqn:Ep; [|discriminate].
    assert (Ep1 : placement n1 sel = Some bs) by (rewrite <- Ep; apply frozen_placement; exact Ef).
    rewrite transform_node_eq in E. cbn [h_blocks set_pose set_blocks] in E. set (cur0 := set_pose (set_blocks n1 bs) box ort) in *.
    change (h_blocks (set_blocks cur0 (fwd cur0 bs Forward))) with (fwd cur0 bs Forward) in E.
    change (fun (s : hdb * results) (b : tblk) => match b_child b with Some c => match top_down fuel s (b_box b) (rel2abs ort (b_ort b)) c lidx (b_sel b) (path ++ [b_name b]) with Some (s', k) => Some (s', set_child b k) | None => None end | None => Some (s, b) end) with (loop fuel lidx ort path) in E.
    set (s1 := (hupd (hupd (fst s) idx (fun n => set_blocks n bs)) idx bump, snd s)) in E.
    destruct (each (loop fuel lidx ort path) s1 (fwd cur0 bs Forward)) as [((db2 & res2) & bs2)|] eqn:Ee; [|discriminate].
    assert (L1 : length (fst s1) = length (fst s)) by (unfold s1; cbn [fst]; now rewrite !hupd_length).
    assert (S1 : same L (fst s) (fst s1)).
    { unfold s1. cbn [fst]. eapply same_trans; [apply same_hupd|apply same_hupd]; [intros n Hn; replace n with n1 by congruence; eapply frozen_set; exact Ep1|reflexivity]. }
    assert (Hcs : forall c, In c (children (fwd cur0 bs Forward)) -> exists m, nth_error db0 c = Some m /\ h_top m = false) by (rewrite children_fwd; intros c Hc; eapply W; [exact Hn0|exact Ep|exact Hc]).
    pose proof (each_counted fuel lidx ort path IH _ s1 _ _ Ee (same_trans _ _ _ _ Hs S1) ltac:(lia) Hcs) as (C1 & C2 & C3). cbn [fst] in C1, C2, C3. rewrite L1 in *.
    assert (Cs1 : cp (fst s1) idx = Datatypes.S (h_copies n1)) by (unfold cp, sig, s1; cbn [fst]; rewrite !hupd_nth, Nat.eqb_refl, En; reflexivity).
    assert (Cs : cp (fst s) idx = h_copies n1) by (unfold cp, sig; now rewrite En).
    assert (Co : forall i, i <> idx -> cp (fst s1) i = cp (fst s) i) by (intros i Hne; unfold cp, sig, s1; cbn [fst]; rewrite !hupd_nth; destruct (Nat.eqb_spec idx i); [congruence|reflexivity]).
    set (cur1 := set_blocks (set_blocks cur0 (fwd cur0 bs Forward)) bs2) in *.
    set (curf := if h_top cur1 then cur1 else transform_node Backward cur1) in *. injection E as <- <-. cbn [fst] in *. rewrite adopt_length, app_length in Hk. cbn [length] in Hk.
    set (k := length db2) in *. set (dbf := adopt k (db2 ++ [curf]) (h_blocks curf)) in *.
    assert (Lf : length dbf = (k + 1)%nat) by (unfold dbf; rewrite adopt_length, app_length; reflexivity).
    assert (Sf : forall j, (j < k)%nat -> sig dbf j = sig db2 j) by (intros j Hj; unfold dbf; rewrite (sig_unparent (db2 ++ [curf])) by apply adopt_any; unfold sig; now rewrite nth_error_app1).
    assert (Sk : sig dbf k = Some (h_name n0, h_top n0, h_copies n1)).
    { unfold dbf. rewrite (sig_unparent (db2 ++ [curf])) by apply adopt_any. unfold sig. rewrite nth_error_app2 by lia. rewrite Nat.sub_diag. cbn [nth_error option_map]. unfold curf. destruct (h_top cur1) eqn:X; [|rewrite transform_node_eq]; cbn; rewrite Fn, Ftop; reflexivity. }
    assert (k0 : (length (fst s) <= k)%nat) by (destruct (each_ok fuel lidx ort path (call_ok fuel) _ s1 _ _ Ee (same_trans _ _ _ _ Hs S1) ltac:(lia) Hcs) as (? & ? & _ & _ & Le & _); cbn [fst] in Le; lia).
    assert (Cf : forall i, (i < L)%nat -> cp dbf i = cp db2 i) by (intros i Hii; unfold cp; now rewrite Sf by lia).
    assert (Cm : forall i, (i < L)%nat -> (cp (fst s) i <= cp (fst s1) i)%nat) by (intros i Hii; destruct (Nat.eq_dec i idx) as [->|Hne]; [lia|rewrite Co by exact Hne; lia]).
    split; [|split].
    - intros i Hii. rewrite Cf by exact Hii. specialize (C1 i Hii). specialize (Cm i Hii). lia.
    - intros j Hj. destruct (Nat.eq_dec j k) as [->|Hne].
      + exists idx, n0, (h_copies n1). split; [exact Hn0|]. split; [exact Sk|]. rewrite Cf by exact Hi. specialize (C1 idx Hi). split; [lia|intros HT; split; [exact HT|lia]].
      + destruct (C2 j ltac:(lia)) as (i & m0 & c & Hii & Sj & Hc & HT). assert (i < L)%nat by (apply nth_error_Some; congruence). exists i, m0, c. split; [exact Hii|]. split; [rewrite Sf by lia; exact Sj|]. rewrite Cf by assumption. specialize (Cm i ltac:(assumption)). split; [lia|intros X; destruct (HT X)].
    - intros j j' nm b b' c c' Hj Hj' E1 E2. rewrite Sf in E1 by lia. destruct (Nat.eq_dec j' k) as [->|Hne].
      + rewrite Sk in E2. injection E2 as <- <- <-. destruct (C2 j ltac:(lia)) as (i & m0 & c0 & Hii & Sj & Hc & _). rewrite E1 in Sj. injection Sj as E3 _ <-. assert (i = idx) as -> by (eapply names_inj; eauto). lia.
      + rewrite Sf in E2 by lia. eapply (C3 j j'); eauto; lia.
  Qed.


  (** The walk succeeds on every design *)
  Lemma call_total fuel : forall s box ort idx lidx sel path n0 t, design fuel db0 idx sel t -> same L db0 (fst s) -> (L <= length (fst s))%nat -> nth_error db0 idx = Some n0 -> (h_top n0 = true -> ort = oN /\ fst box = (0, 0)%Z) -> top_down fuel s box ort idx lidx sel path <> None.
  Proof.
    induction fuel as [|fuel IH]; intros s box ort idx lidx sel path n0 t D Hs HL Hn0 Ht; [destruct D|]. destruct D as (n & bs & Hn & Ep & _ & F). assert (n = n0) as -> by congruence. clear Hn.
    cbn [top_down]. unfold checkout. assert (Hi : (idx < L)%nat) by (apply nth_error_Some; congruence).
    pose proof (Hs idx Hi) as Ef. rewrite Hn0 in Ef. destruct (nth_error (fst s) idx) as [n1|] eqn:En; [|discriminate]. cbn [option_map] in Ef. assert (Ef1 : frozen n1 = frozen n0) by congruence. clear Ef. rename Ef1 into Ef.
    rewrite (frozen_placement n1 n0 sel) by exact Ef. rewrite Ep. assert (Ep1 : placement n1 sel = Some bs) by (rewrite <- Ep; apply frozen_placement; exact Ef).
    rewrite transform_node_eq. cbn [h_blocks set_pose set_blocks]. set (cur0 := set_pose (set_blocks n1 bs) box ort) in *.
    change (h_blocks (set_blocks cur0 (fwd cur0 bs Forward))) with (fwd cur0 bs Forward).
    change (fun (s : hdb * results) (b : tblk) => match b_child b with Some c => match top_down fuel s (b_box b) (rel2abs ort (b_ort b)) c lidx (b_sel b) (path ++ [b_name b]) with Some (s', k) => Some (s', set_child b k) | None => None end | None => Some (s, b) end) with (loop fuel lidx ort path).
    set (s1 := (hupd (hupd (fst s) idx (fun n => set_blocks n bs)) idx bump, snd s)).
    assert (S1 : same L db0 (fst s1)).
    { eapply same_trans; [exact Hs|]. unfold s1. cbn [fst]. eapply same_trans; [apply same_hupd|apply same_hupd]; [intros n Hn; replace n with n1 by congruence; eapply frozen_set; exact Ep1|reflexivity]. }
    assert (L1 : (L <= length (fst s1))%nat) by (unfold s1; cbn [fst]; now rewrite !hupd_length).
    assert (Hc : forall c, In c (children bs) -> exists m, nth_error db0 c = Some m /\ h_top m = false) by (intros c Hc; eapply W; [exact Hn0|exact Ep|exact Hc]).
    assert (G : each (loop fuel lidx ort path) s1 (fwd cur0 bs Forward) <> None); [|destruct (each _ s1 _) as [((db2 & res2) & bs2)|]; [discriminate|contradiction]].
    clearbody s1. clear Ep Ep1 Hn0 Hs HL En. revert s1 S1 L1. generalize (t_kids t) F Hc. clear F Hc. generalize bs. intros l. unfold fwd. induction l as [|b l IHl]; intros ks F Hc s1 S1 L1; [discriminate|]. inversion_clear F as [|? k0 ? ks' Hb F']. cbn [map each].
    assert (Hc' : forall c, In c (children l) -> exists m, nth_error db0 c = Some m /\ h_top m = false) by (intros c H'; apply Hc; cbn [children flat_map]; apply in_or_app; now right).
    unfold loop at 1. cbn [b_child set_bbox b_box b_ort b_sel b_name]. destruct (b_child b) as [c|] eqn:Eb.
    - destruct Hb as (_ & Hb). destruct (snd k0) as [t'|]; [|destruct Hb]. destruct (Hc c) as (m & Hm & Hmt); [cbn [children flat_map]; rewrite Eb; now left|].
      set (bx := let '(w, h) := node_size (h_box cur0) (h_ort cur0) in _). specialize (IH s1 bx (rel2abs ort (b_ort b)) c lidx (b_sel b) (path ++ [b_name b]) m t' Hb S1 L1 Hm ltac:(congruence)).
      destruct (top_down fuel s1 bx _ c lidx (b_sel b) _) as [(s2 & k)|] eqn:Et; [|contradiction]. destruct (call_ok fuel s1 _ _ c lidx _ _ s2 k m Et S1 L1 Hm ltac:(congruence)) as (t2 & p1 & _ & _ & S2 & _ & Z1 & _).
      specialize (IHl ks' F' Hc' s2 S2 ltac:(lia)). destruct (each (loop fuel lidx ort path) s2 _) as [(s3 & bs3)|]; [discriminate|contradiction].
    - specialize (IHl ks' F' Hc' s1 S1 L1). destruct (each (loop fuel lidx ort path) s1 _) as [(s3 & bs3)|]; [discriminate|contradiction].
  Qed.
  (** Several placements of the top, one after the other *)
  Definition records (lx : nat -> nat) (db : hdb) (p : nat -> list chars) (l : list nat) (r : results) : results :=
    fold_left (fun r j => match nth_error db j with Some m => dset chars_eqb r (result_name m (lx j)) (p j, j) | None => r end) l r.
  Lemma records_ext lx lx' db db' p p' l r : (forall j, In j l -> nth_error db' j = nth_error db j /\ p' j = p j /\ lx' j = lx j) -> records lx' db' p' l r = records lx db p l r.
  Proof. revert r. induction l as [|j l IH]; intros r H; [reflexivity|]. unfold records. cbn [fold_left]. destruct (H j (or_introl eq_refl)) as (-> & -> & ->). apply IH. intros j' Hj'. apply H. now right. Qed.
  Variables (idx : nat) (n0 : hnode).
  Hypothesis Hidx : nth_error db0 idx = Some n0.
  Lemma runs_ok fuel runs : forall s s' ks, route_top_down fuel s idx runs = Some (s', ks) -> same L db0 (fst s) -> (L <= length (fst s))%nat ->
    same L db0 (fst s') /\ (length (fst s) <= length (fst s'))%nat /\ (forall j, (L <= j < length (fst s))%nat -> nth_error (fst s') j = nth_error (fst s) j) /\
    counted (fun j => In j ks) (fst s) (fst s') /\
    exists lx p, snd s' = records lx (fst s') p (seq (length (fst s)) (length (fst s') - length (fst s))) (snd s) /\
      (forall j, (length (fst s) <= j < length (fst s'))%nat -> In (lx j) runs) /\ map lx ks = runs /\ (forall k, In k ks -> (length (fst s) <= k < length (fst s'))%nat) /\
      Forall2 (fun l k => exists w h bs t lo, nth_error (h_as n0) l = Some (w, h, bs) /\ design fuel db0 idx l t /\ (length (fst s) <= lo <= k)%nat /\ (k + 1 = lo + hsize t)%nat /\
        routed fuel (fst s') p lo k ((0, 0)%Z, (w, h)) oN (start_path n0 l) t /\ forall j, (lo <= j <= k)%nat -> lx j = l) runs ks.
  Proof.
    induction runs as [|l runs IH]; intros s s' ks E Hs HL; cbn [route_top_down] in E.
    - injection E as <- <-. split; [exact Hs|]. split; [lia|]. split; [reflexivity|]. split; [apply counted_refl|]. exists (fun _ => 0%nat), (fun _ => []). rewrite Nat.sub_diag. split; [reflexivity|]. split; [intros; lia|]. split; [reflexivity|]. split; [intros k []|constructor].
    - unfold run_one in E. assert (Hi : (idx < L)%nat) by (apply nth_error_Some; congruence). pose proof (Hs idx Hi) as Ef. rewrite Hidx in Ef. destruct (nth_error (fst s) idx) as [n1|] eqn:En; [|discriminate].
      assert (Ef1 : frozen n1 = frozen n0) by (cbn in Ef; congruence). assert (Ea : h_as n1 = h_as n0 /\ h_name n1 = h_name n0) by (unfold frozen in Ef1; split; congruence). destruct Ea as (Ea & Enm). rewrite Ea in E.
      destruct (nth_error (h_as n0) l) as [((w & h) & bs)|] eqn:El; [|discriminate]. destruct (top_down fuel s _ oN idx l l _) as [(s1 & k)|] eqn:Et; [|discriminate]. destruct (route_top_down fuel s1 idx runs) as [(s2 & ks2)|] eqn:Er; [|discriminate]. injection E as <- <-.
      destruct (call_ok fuel s _ _ idx l l _ s1 k n0 Et Hs HL Hidx ltac:(auto)) as (t & p1 & D1 & R1 & S1 & K1 & Z1 & F1 & Q1).
      pose proof (call_counted fuel s _ _ idx l l _ s1 k n0 Et Hs HL Hidx ltac:(auto)) as C1.
      assert (Pt : (0 < hsize t)%nat) by (destruct t; cbn; lia).
      destruct (IH s1 s2 ks2 Er S1 ltac:(lia)) as (S2 & L2 & F2 & C2 & lx & p2 & Q2 & X2 & M2 & B2 & D2).
      split; [exact S2|]. split; [lia|]. split; [intros j Hj; rewrite F2, F1 by lia; reflexivity|]. split.
      { eapply counted_trans; [eapply counted_impl; [exact C1|]|eapply counted_impl; [exact C2|]|intros j Hj; apply F2; lia|exact HL|lia]; [intros j Hj (_ & X); left; lia|intros j _ X; now right]. }
      set (lx' := fun j => if (j <? length (fst s1))%nat then l else lx j). set (p' := fun j => if (j <? length (fst s1))%nat then p1 j else p2 j).
      assert (P1 : forall j, (j < length (fst s1))%nat -> lx' j = l /\ p' j = p1 j) by (intros j Hj; unfold lx', p'; destruct (Nat.ltb_spec j (length (fst s1))); [auto|lia]).
      assert (P2 : forall j, (length (fst s1) <= j)%nat -> lx' j = lx j /\ p' j = p2 j) by (intros j Hj; unfold lx', p'; destruct (Nat.ltb_spec j (length (fst s1))); [lia|auto]).
      exists lx', p'. split; [|split; [|split; [|split]]].
      + replace (length (fst s2) - length (fst s))%nat with (hsize t + (length (fst s2) - length (fst s1)))%nat by lia. rewrite seq_app. unfold records. rewrite fold_left_app. rewrite <- Z1.
        transitivity (records lx (fst s2) p2 (seq (length (fst s1)) (length (fst s2) - length (fst s1))) (snd s1)); [exact Q2|].
        transitivity (records lx' (fst s2) p' (seq (length (fst s1)) (length (fst s2) - length (fst s1))) (snd s1)).
        { symmetry. apply records_ext. intros j Hj. apply in_seq in Hj. destruct (P2 j ltac:(lia)). auto. }
        unfold records at 1. f_equal. rewrite Q1. change (record l (fst s1) p1 (seq (length (fst s)) (hsize t)) (snd s)) with (records (fun _ => l) (fst s1) p1 (seq (length (fst s)) (hsize t)) (snd s)).
        symmetry. apply records_ext. intros j Hj. apply in_seq in Hj. destruct (P1 j ltac:(lia)). split; [apply F2; lia|auto].
      + intros j Hj. destruct (Nat.lt_ge_cases j (length (fst s1))) as [H|H]; [left; symmetry; now apply P1|right]. rewrite (proj1 (P2 j H)). apply X2. lia.
      + cbn [map]. rewrite (proj1 (P1 k ltac:(lia))). f_equal. rewrite <- M2. apply map_ext_in. intros j Hj. apply P2. apply B2 in Hj. lia.
      + intros j [<-|Hj]; [lia|]. apply B2 in Hj. lia.
      + constructor.
        * exists w, h, bs, t, (length (fst s)). split; [exact El|]. split; [exact D1|]. split; [lia|]. split; [lia|]. split; [|intros j Hj; apply P1; lia].
          unfold start_path in *. rewrite Enm in R1. eapply routed_frame; [exact R1|lia|intros j Hj; apply F2; lia|now rewrite F2 by lia|intros j Hj; apply P1; lia|lia].
        * eapply F2_impl; [|exact D2]. intros l' k' _ Hk' (w' & h' & bs' & t' & lo & G1 & G2 & G3 & G4 & G5 & G6). exists w', h', bs', t', lo. split; [exact G1|]. split; [exact G2|]. split; [lia|]. split; [exact G4|]. split; [|intros j Hj; rewrite (proj1 (P2 j ltac:(lia))); apply G6; lia].
          eapply routed_frame; [exact G5|lia|reflexivity|reflexivity|intros j Hj; apply P2; lia|lia].
  Qed.
End Walk.

(** Result names *)
Lemma num_digits k : forallb is_digit (num k) = true.
Proof. apply (print_nonneg (Z.of_nat k)). lia. Qed.
Lemma num_inj k k' : num k = num k' -> k = k'.
Proof. intros E. apply print_Z_inj in E. lia. Qed.
Lemma us_inj (a b c d : chars) : forallb is_digit b = true -> forallb is_digit d = true -> a ++ us :: b = c ++ us :: d -> a = c /\ b = d.
Proof.
  revert b c d. induction a as [|x a IH]; intros b [|y c] d Hb Hd E; simpl in E.
  - now injection E.
  - injection E as _ E. exfalso. subst b. rewrite forallb_app in Hb. apply andb_true_iff in Hb as (_ & Hb). discriminate.
  - injection E as _ E. exfalso. subst d. rewrite forallb_app in Hd. apply andb_true_iff in Hd as (_ & Hd). discriminate.
  - injection E as -> E. destruct (IH b c d Hb Hd E) as (-> & ->). now split.
Qed.
Lemma result_inj m m' l l' : result_name m l = result_name m' l' -> l = l' /\
  match h_top m, h_top m' with
  | true, true => h_name m = h_name m'
  | false, false => h_name m = h_name m' /\ h_copies m = h_copies m'
  | true, false => h_name m = h_name m' ++ us :: num (h_copies m')
  | false, true => h_name m' = h_name m ++ us :: num (h_copies m)
  end.
Proof.
  unfold result_name. destruct (h_top m), (h_top m'); intros E.
  - apply us_inj in E as (E1 & E2); try apply num_digits. split; [now apply num_inj|exact E1].
  - rewrite (app_assoc (h_name m') (us :: num (h_copies m')) (us :: num l') : h_name m' ++ us :: num (h_copies m') ++ us :: num l' = _) in E. apply us_inj in E as (E1 & E2); try apply num_digits. split; [now apply num_inj|exact E1].
  - rewrite (app_assoc (h_name m) (us :: num (h_copies m)) (us :: num l) : h_name m ++ us :: num (h_copies m) ++ us :: num l = _) in E. apply us_inj in E as (E1 & E2); try apply num_digits. split; [now apply num_inj|now symmetry].
  - rewrite (app_assoc (h_name m) (us :: num (h_copies m)) (us :: num l) : h_name m ++ us :: num (h_copies m) ++ us :: num l = _), (app_assoc (h_name m') (us :: num (h_copies m')) (us :: num l') : h_name m' ++ us :: num (h_copies m') ++ us :: num l' = _) in E.
    apply us_inj in E as (E1 & E2); try apply num_digits. apply us_inj in E1 as (E1 & E3); try apply num_digits. split; [now apply num_inj|]. split; [exact E1|now apply num_inj].
Qed.
Lemma records_get lx db p l r j m : NoDup l -> In j l -> nth_error db j = Some m -> (forall j' m', In j' l -> j' <> j -> nth_error db j' = Some m' -> result_name m' (lx j') <> result_name m (lx j)) ->
  dget chars_eqb (records lx db p l r) (result_name m (lx j)) = Some (p j, j).
Proof.
  revert r. induction l as [|x l IH] using rev_ind; intros r Hn Hj Hm Hd; [destruct Hj|]. unfold records. rewrite fold_left_app. fold (records lx db p l r). cbn [fold_left]. apply NoDup_remove in Hn as (Hn & Hx). rewrite app_nil_r in *.
  destruct (Nat.eq_dec x j) as [->|Hne].
  - rewrite Hm. unfold dset. now rewrite (dget_dupd_same _ chars_eqb_ok).
  - apply in_app_iff in Hj as [Hj|[Hj|[]]]; [|congruence]. assert (G := IH r Hn Hj Hm ltac:(intros j' m' Hj' N' Hm'; apply Hd; [apply in_or_app; now left|exact N'|exact Hm'])).
    destruct (nth_error db x) as [mx|] eqn:Ex; [|exact G]. unfold dset. rewrite (dget_dupd_other _ chars_eqb_ok); [exact G|]. intros E. apply (Hd x mx (in_or_app l [x] x (or_intror (or_introl eq_refl))) Hne Ex). congruence.
Qed.
Lemma dset_in {V} (d : list (chars * V)) k v x w : In (x, w) (dset chars_eqb d k v) -> (x = k /\ w = v) \/ In (x, w) d.
Proof.
  unfold dset. induction d as [|(k' & v') d IH]; cbn [dupd]; [intros [E|[]]; injection E as <- <-; now left|]. destruct (chars_eqb k k') eqn:E; cbn [In].
  - apply chars_eqb_ok in E. subst k'. intros [E|H]; [injection E as <- <-; now left|right; now right].
  - intros [E'|H]; [right; now left|]. destruct (IH H) as [G|G]; auto.
Qed.
Lemma records_in lx db p l r x v : In (x, v) (records lx db p l r) -> In (x, v) r \/ exists j m, In j l /\ nth_error db j = Some m /\ x = result_name m (lx j) /\ v = (p j, j).
Proof.
  revert r. induction l as [|j l IH]; intros r H; [now left|]. unfold records in H. cbn [fold_left] in H. apply IH in H as [H|(j' & m & Hj & G)]; [|right; exists j', m; cbn; auto].
  destruct (nth_error db j) as [m|] eqn:E; [|now left]. destruct (dset_in _ _ _ _ _ H) as [(-> & ->)|H']; [right; exists j, m; cbn; auto|now left].
Qed.
