(** Proofs about the preprocessing of one circuit (Model/Preprocess.v). *)
From Coq Require Import String Ascii.
From Verif Require Import Base.Prelude Base.PyDict Base.PyStr Model.RemoveDuplicates Model.Netlist Model.DefineSD Model.Preprocess Spec.NetlistSpec Spec.ChannelSpec Spec.PhysicsSpec.
From Verif Require Import Proofs.RemoveDuplicatesP Proofs.NetlistP Proofs.ParallelP Proofs.SeriesP Proofs.SeriesSemP Proofs.SymConstP.

(** * The end of the chain *)
Inductive rootn (L : models) : nat -> string -> string -> Prop :=
| rn_end m : dget String.eqb L m = Some (MDev None) \/ (exists l, dget String.eqb L m = Some (MCkt l)) -> rootn L 0 m m
| rn_step n m b r : dget String.eqb L m = Some (MDev (Some b)) -> rootn L n b r -> rootn L (Datatypes.S n) m r.
Lemma root_n L m r : root L m r <-> exists n, rootn L n m r.
Proof.
  split.
  - induction 1 as [m H|m b r H _ (n & IH)]; [exists 0%nat; now constructor|]. exists (Datatypes.S n). now apply (rn_step L n m b).
  - intros (n & H). induction H as [m H|n m b r H _ IH]; [now constructor|now apply (root_step L m b)].
Qed.
Lemma rootn_det L n m r n' r' : rootn L n m r -> rootn L n' m r' -> n = n' /\ r = r'.
Proof.
  intros H. revert n' r'. induction H as [m H|n m b r H _ IH]; intros n' r' H'; inversion H' as [? G|? ? b' ? G G']; subst; auto.
  - destruct H as [H|(l & H)]; congruence.
  - destruct G as [G|(l & G)]; congruence.
  - assert (b' = b) as -> by congruence. destruct (IH _ _ G') as (-> & ->). auto.
Qed.
Lemma rootn_path L n m r : rootn L n m r -> exists l, length l = Datatypes.S n /\ NoDup l /\ incl l (map fst L) /\ forall x, In x l -> exists k, (k <= n)%nat /\ rootn L k x r.
Proof.
  assert (K : forall m v, dget String.eqb L m = Some v -> In m (map fst L)).
  { intros x v H. apply (dget_in _ String.eqb_eq) in H. apply (in_map fst) in H. exact H. }
  induction 1 as [m H|n m b r H Hr (l & E & Hn & Hi & Hk)].
  - exists [m]. split; [reflexivity|]. split; [repeat constructor; intros []|]. split.
    + intros x [<-|[]]. destruct H as [H|(l & H)]; exact (K _ _ H).
    + intros x [<-|[]]. exists 0%nat. split; [lia|now constructor].
  - exists (m :: l). split; [cbn; now rewrite E|]. split; [|split].
    + constructor; [|exact Hn]. intros Hm. destruct (Hk m Hm) as (k & Lk & Hmk). pose proof (rn_step L n m b r H Hr) as G. destruct (rootn_det _ _ _ _ _ _ G Hmk). lia.
    + intros x [<-|Hx]; [exact (K _ _ H)|now apply Hi].
    + intros x [<-|Hx]; [exists (Datatypes.S n); split; [lia|now apply (rn_step L n m b)]|]. destruct (Hk x Hx) as (k & Lk & G). exists k. split; [lia|exact G].
Qed.
Lemma root_go_ok L m r : find_base_model L m = Some r <-> root L m r.
Proof.
  unfold find_base_model. split.
  - generalize (Datatypes.S (length L)) as fuel. intros fuel. revert m. induction fuel as [|fuel IH]; intros m; cbn [root_go]; [discriminate|].
    destruct (dget String.eqb L m) as [[[b|]|l]|] eqn:E; [|intros [= <-]; apply root_end; auto|intros [= <-]; apply root_end; eauto|discriminate]. intros H. apply (root_step L m b); auto.
  - intros H. apply root_n in H as (n & H).
    assert (Hn : (n < Datatypes.S (length L))%nat).
    { destruct (rootn_path L n m r H) as (l & E & Hd & Hi & _). pose proof (NoDup_incl_length Hd Hi) as Hl. rewrite map_length in Hl. lia. }
    clear - H Hn. revert Hn. generalize (Datatypes.S (length L)) as fuel. induction H as [m H|n m b r H _ IH]; intros fuel Hf; (destruct fuel as [|fuel]; [lia|]); cbn [root_go].
    + destruct H as [->|(l & ->)]; reflexivity.
    + rewrite H. apply IH. lia.
Qed.

(** * Dummies *)
Lemma is_dummy_ok L power gnd b e : find_base_model L (e_model e) = Some b -> is_dummy power gnd b e = true <-> dummy L power gnd e.
Proof.
  intros Hb. apply root_go_ok in Hb. unfold is_dummy, dummy.
  assert (R : forall r, root L (e_model e) r <-> b = r).
  { intros r. split; [|intros <-; exact Hb]. intros H. apply root_n in H as (n & H). apply root_n in Hb as (n' & Hb). now destruct (rootn_det _ _ _ _ _ _ Hb H). }
  split.
  - destruct (sget (e_pins e) "D") as [d|], (sget (e_pins e) "G") as [g|], (sget (e_pins e) "S") as [s|]; try discriminate. intros H. exists d, g, s.
    split; [reflexivity|]. split; [reflexivity|]. split; [reflexivity|]. rewrite !R. apply orb_true_iff in H as [H|H]; [apply orb_true_iff in H as [H|H]|].
    + apply andb_true_iff in H as (H1 & H2). apply String.eqb_eq in H1. apply in_strs_ok in H2. auto.
    + apply andb_true_iff in H as (H1 & H2). apply String.eqb_eq in H1. apply in_strs_ok in H2. auto.
    + apply andb_true_iff in H as (H & H3). apply andb_true_iff in H as (H1 & H2). apply String.eqb_eq in H2, H3. apply in_strs_ok in H1. cbn in H1. right; right. split; [intuition auto|auto].
  - intros (d & g & s & -> & -> & -> & H). rewrite !R in H. destruct H as [(-> & H)|[(-> & H)|(H & -> & ->)]].
    + apply in_strs_ok in H. now rewrite H.
    + apply in_strs_ok in H. rewrite H. now rewrite orb_comm, orb_true_r.
    + rewrite !String.eqb_refl. assert (E : in_strs b ["NMOS"; "PMOS"]%string = true) by (apply in_strs_ok; cbn; destruct H as [->| ->]; auto). rewrite E. now rewrite orb_true_r.
Qed.
Definition keep (L : models) (power gnd : list string) (e : elem) : bool :=
  match find_base_model L (e_model e) with Some b => negb (is_dummy power gnd b e) | None => true end.
Lemma dummies_ok L power gnd els rm : dummies L power gnd els = Some rm ->
  rm = filter (fun e => negb (keep L power gnd e)) els /\ (forall e, In e els -> exists r, root L (e_model e) r).
Proof.
  revert rm. induction els as [|e els IH]; intros rm; cbn [dummies].
  - intros [= <-]. split; [reflexivity|intros e []].
  - destruct (find_base_model L (e_model e)) as [b|] eqn:Eb; [|discriminate]. destruct (dummies L power gnd els) as [l|]; [|discriminate]. intros [= <-].
    destruct (IH l eq_refl) as (-> & Hr). cbn [filter]. assert (Ke : negb (keep L power gnd e) = is_dummy power gnd b e) by (unfold keep; now rewrite Eb, negb_involutive). rewrite Ke. split; [destruct (is_dummy power gnd b e); reflexivity|].
    intros x [<-|Hx]; [exists b; now apply root_go_ok|now apply Hr].
Qed.
Lemma dummies_none L power gnd els : dummies L power gnd els = None <-> exists e, In e els /\ forall r, ~ root L (e_model e) r.
Proof.
  induction els as [|e els IH]; cbn [dummies].
  - split; [discriminate|intros (e & [] & _)].
  - destruct (find_base_model L (e_model e)) as [b|] eqn:Eb.
    + destruct (dummies L power gnd els) as [l|].
      * split; [discriminate|]. intros (x & [<-|Hx] & H); [apply root_go_ok in Eb; now apply H in Eb|]. assert (F : Some l = None) by (apply IH; eauto). discriminate.
      * split; [|reflexivity]. intros _. destruct (proj1 IH eq_refl) as (x & Hx & H). exists x. split; [now right|exact H].
    + split; [|reflexivity]. intros _. exists e. split; [now left|]. intros r Hr. apply root_go_ok in Hr. congruence.
Qed.
Lemma keep_ok L power gnd e : (exists r, root L (e_model e) r) -> keep L power gnd e = true <-> ~ dummy L power gnd e.
Proof.
  intros (r & Hr). apply root_go_ok in Hr. unfold keep. rewrite Hr. rewrite <- (is_dummy_ok L power gnd r e Hr). destruct (is_dummy power gnd r e); cbn; split; intros H; [discriminate|now exfalso; apply H|discriminate|reflexivity].
Qed.
Lemma remove_ok L power gnd els out : NoDup (map e_name els) -> remove_dummy_devices L power gnd els = Some out ->
  (power = [] /\ gnd = [] /\ out = els) \/ (out = filter (keep L power gnd) els /\ (forall e, In e els -> exists r, root L (e_model e) r)).
Proof.
  intros Hnd. unfold remove_dummy_devices. intros H.
  assert (G : match dummies L power gnd els with None => None | Some rm => if (1 <? length els)%nat && (length els =? length rm)%nat then None else Some (fold_left remove_elem (map e_name rm) els) end = Some out ->
              out = filter (keep L power gnd) els /\ (forall e, In e els -> exists r, root L (e_model e) r)).
  { destruct (dummies L power gnd els) as [rm|] eqn:E; [|discriminate]. destruct (_ && _); [discriminate|]. intros [= <-]. destruct (dummies_ok _ _ _ _ _ E) as (-> & Hr). split; [|exact Hr].
    rewrite remove_fold by exact Hnd. apply filter_ext_in. intros e He. destruct (keep L power gnd e) eqn:K.
    - apply negb_true_iff. apply inb_false. intros Hi. apply in_map_iff in Hi as (x & Ex & Hx). apply filter_In in Hx as (Hx & Kx). assert (x = e) as -> by now apply (in_name_inj els). rewrite K in Kx. discriminate.
    - apply negb_false_iff. apply inb_ok. apply in_map_iff. exists e. split; [reflexivity|]. apply filter_In. split; [exact He|now rewrite K]. }
  destruct power as [|p0 power]; [|right; now apply G]. destruct gnd as [|g0 gnd]; [left; injection H; auto|right; now apply G].
Qed.
Lemma filter_full {A} (f : A -> bool) l : length (filter f l) = length l <-> forall x, In x l -> f x = true.
Proof.
  induction l as [|a l IH]; cbn; [split; [intros _ x []|reflexivity]|]. assert (Hl : (length (filter f l) <= length l)%nat) by (clear; induction l as [|b l IH]; cbn; [lia|]; destruct (f b); cbn; lia).
  destruct (f a) eqn:E; cbn.
  - split; [intros [= H] x [<-|Hx]; [exact E|now apply IH]|]. intros H. f_equal. apply IH. auto.
  - split; [lia|]. intros H. rewrite (H a (or_introl eq_refl)) in E. discriminate.
Qed.
Lemma remove_fails L power gnd els : remove_dummy_devices L power gnd els = None <->
  (power <> [] \/ gnd <> []) /\ ((exists e, In e els /\ forall r, ~ root L (e_model e) r) \/ (1 < length els)%nat /\ forall e, In e els -> dummy L power gnd e).
Proof.
  assert (G : match dummies L power gnd els with None => None | Some rm => if (1 <? length els)%nat && (length els =? length rm)%nat then None else Some (fold_left remove_elem (map e_name rm) els) end = None <->
     ((exists e, In e els /\ forall r, ~ root L (e_model e) r) \/ (1 < length els)%nat /\ forall e, In e els -> dummy L power gnd e)).
  { destruct (dummies L power gnd els) as [rm|] eqn:E.
    - destruct (dummies_ok _ _ _ _ _ E) as (-> & Hr).
      assert (No : ~ exists e, In e els /\ forall r, ~ root L (e_model e) r) by (intros (e & He & H); destruct (Hr e He) as (r & R); exact (H r R)).
      assert (Hall : (length els =? length (filter (fun e => negb (keep L power gnd e)) els))%nat = true <-> forall e, In e els -> dummy L power gnd e).
      { rewrite Nat.eqb_eq. split.
        - intros H e He. symmetry in H. apply (proj1 (filter_full _ _)) with (x := e) in H; [|exact He]. destruct (Hr e He) as (r & R). apply root_go_ok in R. unfold keep in H. rewrite R, negb_involutive in H. now apply (is_dummy_ok L power gnd r).
        - intros H. symmetry. apply filter_full. intros e He. destruct (Hr e He) as (r & R). apply root_go_ok in R. unfold keep. rewrite R, negb_involutive. apply (is_dummy_ok L power gnd r); auto. }
      destruct (1 <? length els)%nat eqn:El; cbn [andb].
      + apply Nat.ltb_lt in El. destruct (length els =? _)%nat eqn:Ea.
        * split; [|reflexivity]. intros _. right. split; [exact El|]. now apply Hall.
        * split; [discriminate|]. intros [H|(_ & H)]; [contradiction|]. apply Hall in H. congruence.
      + apply Nat.ltb_ge in El. split; [discriminate|]. intros [H|(H & _)]; [contradiction|lia].
    - apply dummies_none in E. tauto. }
  unfold remove_dummy_devices. destruct power as [|p0 power].
  - destruct gnd as [|g0 gnd]; [split; [discriminate|intros ([H|H] & _); contradiction]|]. rewrite G. intuition discriminate.
  - rewrite G. intuition discriminate.
Qed.
