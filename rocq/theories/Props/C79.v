(** C79: the index tables handed to the placer describe exactly the module's connections. *)
From Coq Require Import String Ascii.
From Verif Require Import Base.Prelude Base.PyDict Model.PnrInput Proofs.PnrInputP.
Local Open Scope string_scope. Local Open Scope list_scope.

(** Reading fails exactly for an instance that names no template. *)
Theorem C79_total m : read_module m = None <-> exists i, In i (vm_insts m) /\ in_tmpl i = None /\ in_atmpl i = None.
Proof.
  assert (Hm : forall i, master i = None <-> in_tmpl i = None /\ in_atmpl i = None) by (intros i; unfold master; destruct (in_tmpl i); intuition congruence).
  assert (G : forall is s b ix, read_insts s b ix is = None <-> exists i, In i is /\ master i = None).
  { induction is as [|i is IH]; intros s b ix; cbn [read_insts]; [split; [discriminate|intros (i & [] & _)]|]. destruct (master i) as [t|] eqn:E; [|split; [intros _; exists i; split; [now left|exact E]|reflexivity]].
    destruct (read_pins s 0 b (in_fa i)) as (s1 & rs). specialize (IH s1 (Datatypes.S b) (dset String.eqb ix (in_name i) b)). destruct (read_insts s1 _ _ is) as [((? & ?) & ?)|].
    - split; [discriminate|]. intros (j & [<-|Hj] & Ej); [congruence|]. discriminate (proj2 IH (ex_intro _ j (conj Hj Ej))).
    - split; [|reflexivity]. intros _. destruct (proj1 IH eq_refl) as (j & Hj & Ej). exists j. split; [now right|exact Ej]. }
  unfold read_module. specialize (G (vm_insts m) ([], []) 0%nat []). destruct (read_insts ([], []) 0 [] (vm_insts m)) as [((s & bs) & ix)|].
  - split; [discriminate|]. intros (i & Hi & Ei). apply Hm in Ei. discriminate (proj2 G (ex_intro _ i (conj Hi Ei))).
  - split; [|reflexivity]. intros _. destruct (proj1 G eq_refl) as (i & Hi & Ei). exists i. split; [exact Hi|now apply Hm].
Qed.
Print Assumptions C79_total.

Lemma F2_length {A B} (P : A -> B -> Prop) l m : Forall2 P l m -> length l = length m.
Proof. induction 1; cbn; congruence. Qed.
Lemma F2_nth {A B} (P : A -> B -> Prop) l m k a : Forall2 P l m -> nth_error l k = Some a -> exists b, nth_error m k = Some b /\ P a b.
Proof. intros F. revert k. induction F as [|x y l m H F IH]; intros [|k] E; try discriminate E; [injection E as <-; exists y; auto|exact (IH k E)]. Qed.

(** Block b is instance b; its pin k is the instance's formal k and points to the net with the actual's name. *)
Theorem C79_pins m n b i : read_module m = Some n -> nth_error (vm_insts m) b = Some i ->
  length (pn_blocks n) = length (vm_insts m) /\
  exists p, nth_error (pn_blocks n) b = Some p /\ pb_name p = in_name i /\
    Some (pb_master p) = (if in_tmpl i then in_tmpl i else in_atmpl i) /\ length (pb_pins p) = length (in_fa i) /\
    forall k f a, nth_error (in_fa i) k = Some (f, a) -> exists j c, nth_error (pb_pins p) k = Some (f, j) /\ nth_error (pn_nets n) j = Some (a, c).
Proof.
  intros H Hb. destruct (module_good m n H) as (N & B & _). split; [symmetry; exact (F2_length _ _ _ B)|]. destruct (F2_nth _ _ _ _ _ B Hb) as (p & Hp & M & Hn & F). exists p.
  split; [exact Hp|]. split; [exact Hn|]. split; [rewrite <- M; unfold master; now destruct (in_tmpl i)|]. split; [symmetry; exact (F2_length _ _ _ F)|].
  intros k f a Hk. destruct (F2_nth _ _ _ _ _ F Hk) as ((f' & j) & Hr & Ef & Ej). cbn [fst snd] in Ef, Ej. subst f'. exists j, (of_net a (pins_from 0 (vm_insts m))). split; [exact Hr|]. rewrite N. rewrite nth_error_map, Ej. reflexivity.
Qed.
Print Assumptions C79_pins.
(** A net's connections are exactly the pins of that name, each once; net names are distinct, and each net has a connection. *)
Theorem C79_nets m n : read_module m = Some n ->
  NoDup (map fst (pn_nets n)) /\
  forall a c, In (a, c) (pn_nets n) -> NoDup c /\ c <> [] /\
    forall k b, In (k, b) c <-> exists i f, nth_error (vm_insts m) b = Some i /\ nth_error (in_fa i) k = Some (f, a).
Proof.
  intros H. destruct (module_good m n H) as (N & _). rewrite N. split; [rewrite map_map, map_id; apply firsts_nodup|]. intros a c Hc. apply in_map_iff in Hc as (a' & E & Ha). injection E as -> <-. apply (proj1 (in_firsts _ _)) in Ha.
  assert (K : forall k b, In (k, b) (of_net a (pins_from 0 (vm_insts m))) <-> exists i f, nth_error (vm_insts m) b = Some i /\ nth_error (in_fa i) k = Some (f, a)).
  { intros k b. rewrite <- in_pins. unfold of_net. rewrite in_map_iff. split; [intros (p & E & Hp); apply filter_In in Hp as (Hp & Ep); apply String.eqb_eq in Ep; destruct p as (kb & a'); cbn [fst snd] in *; now subst|intros Hp; exists ((k, b), a); split; [reflexivity|apply filter_In; split; [exact Hp|apply String.eqb_refl]]]. }
  split; [apply map_filter_nodup, pins_keys_nodup|]. split; [|exact K]. apply in_map_iff in Ha as (((k & b) & a') & Ea & Ha). cbn [snd] in Ea. subst a'. apply in_pins in Ha. apply K in Ha. destruct (of_net _ _); [destruct Ha|discriminate].
Qed.
Print Assumptions C79_nets.
(** The index by instance name is right if the names are distinct; of equal names only the last is found. *)
Lemma index_get (is : list vinst) b d x : dget String.eqb (fold_left (fun d p => dset String.eqb d (in_name (snd p)) (fst p)) (enum_from b is) d) x =
  match find (fun p => String.eqb (in_name (snd p)) x) (rev (enum_from b is)) with Some p => Some (fst p) | None => dget String.eqb d x end.
Proof.
  revert d. generalize (enum_from b is). intros l. induction l as [|p l IH] using rev_ind; intros d; [reflexivity|]. rewrite fold_left_app, rev_app_distr. cbn [fold_left rev app find].
  destruct (String.eqb_spec (in_name (snd p)) x) as [<-|D]; unfold dset at 1; [now rewrite (dget_dupd_same _ String.eqb_eq)|]. rewrite (dget_dupd_other _ String.eqb_eq) by congruence. apply IH.
Qed.
Theorem C79_index m n x b : read_module m = Some n -> NoDup (map in_name (vm_insts m)) ->
  (dget String.eqb (pn_index n) x = Some b <-> exists i, nth_error (vm_insts m) b = Some i /\ in_name i = x).
Proof.
  intros H Hn. destruct (module_good m n H) as (_ & _ & X & _). rewrite X, index_get. cbn [dget].
  destruct (find _ (rev (enum_from 0 (vm_insts m)))) as [(b' & i')|] eqn:F.
  - apply find_some in F as (F & E). apply in_rev in F. apply in_enum in F as (j & -> & Hj). cbn [fst snd plus] in *. apply String.eqb_eq in E. split.
    + intros [= <-]. exists i'. auto.
    + intros (i & Hb & Ei). f_equal. assert (Hl : (j < length (map in_name (vm_insts m)))%nat) by (rewrite map_length; apply nth_error_Some; congruence).
      apply (proj1 (NoDup_nth_error _) Hn j b Hl). rewrite !nth_error_map, Hj, Hb; cbn; congruence.
  - split; [discriminate|]. intros (i & Hb & Ei). assert (G : In (b, i) (rev (enum_from 0 (vm_insts m)))) by (rewrite <- in_rev; apply in_enum; exists b; auto). pose proof (find_none _ _ F _ G) as E. cbn [snd] in E. rewrite Ei, String.eqb_refl in E. discriminate.
Qed.
Print Assumptions C79_index.
Definition amp (nm : string) : vinst := mkVinst None (Some "AMP") nm [("IN", "A"); ("OUT", "B"); ("REF", "A")].
Definition top : vmod := mkVmod "TOP" ["A"; "B"; "VDD"] [amp "X1"; mkVinst (Some "BUF_0") (Some "BUF") "X2" [("IN", "B"); ("OUT", "C")]].
Theorem C79_index_refuted : exists m n b i, read_module m = Some n /\ nth_error (vm_insts m) b = Some i /\ dget String.eqb (pn_index n) (in_name i) <> Some b.
Proof. exists (mkVmod "TOP" [] [amp "X1"; amp "X1"]). eexists. exists 0%nat, (amp "X1"). split; [reflexivity|]. split; [reflexivity|]. vm_compute. discriminate. Qed.
Print Assumptions C79_index_refuted.
(** A port that no instance uses is a terminal but not a net. *)
Theorem C79_port m n x : read_module m = Some n -> (In x (map fst (pn_nets n)) <-> exists i f, In i (vm_insts m) /\ In (f, x) (in_fa i)).
Proof.
  intros H. destruct (module_good m n H) as (N & _). rewrite N, map_map, map_id, in_firsts, in_map_iff. split.
  - intros (((k & b) & a) & E & Hp). cbn [snd] in E. subst a. apply in_pins in Hp as (i & f & Hb & Hk). exists i, f. split; [eapply nth_error_In, Hb|eapply nth_error_In, Hk].
  - intros (i & f & Hi & Hf). apply In_nth_error in Hi as (b & Hb). apply In_nth_error in Hf as (k & Hk). exists ((k, b), x). split; [reflexivity|]. apply in_pins. exists i, f. auto.
Qed.
Print Assumptions C79_port.
Theorem C79_port_refuted : exists m n x, read_module m = Some n /\ In x (pn_terms n) /\ ~ In x (map fst (pn_nets n)).
Proof. exists top. eexists. exists "VDD". split; [reflexivity|]. split; [cbn; auto|]. cbn. intuition discriminate. Qed.
Print Assumptions C79_port_refuted.
Example C79_nonvacuous : read_module top = Some (mkPnode "TOP" ["A"; "B"; "VDD"]
  [mkPblock "AMP" "X1" [("IN", 0); ("OUT", 1); ("REF", 0)]%nat; mkPblock "BUF_0" "X2" [("IN", 1); ("OUT", 2)]%nat]
  [("A", [(0, 0); (2, 0)]); ("B", [(1, 0); (0, 1)]); ("C", [(1, 1)])]%nat [("X1", 0); ("X2", 1)]%nat).
Proof. reflexivity. Qed.
