(** Reading the netlist into indices; leaf cells; subsets of modules. *)
From Coq Require Import String Ascii.
From Verif Require Import Base.Prelude Base.PyDict Model.PnrInput.

(** Elements with their positions. *)
Definition enum_from {A} (n : nat) (l : list A) : list (nat * A) := combine (seq n (length l)) l.
(** The pins of a list of instances: pin index, block index, net. *)
Definition pins_from (b : nat) (is : list vinst) : list ((nat * nat) * string) :=
  flat_map (fun p => map (fun q => ((fst q, fst p), snd (snd q))) (enum_from 0 (in_fa (snd p)))) (enum_from b is).
(** First occurrences. *)
Fixpoint firsts (l : list string) : list string :=
  match l with [] => [] | x :: l => x :: filter (fun y => negb (String.eqb x y)) (firsts l) end.

Lemma in_firsts l x : In x (firsts l) <-> In x l.
Proof.
  induction l as [|y l IH]; [reflexivity|]. cbn [firsts In]. rewrite filter_In, IH. destruct (String.eqb_spec y x) as [->|D]; cbn [negb]; intuition.
Qed.
Lemma firsts_nodup l : NoDup (firsts l).
Proof. induction l as [|y l IH]; [constructor|]. cbn [firsts]. constructor; [rewrite filter_In, String.eqb_refl; now intros (_ & H)|now apply NoDup_filter]. Qed.
Lemma firsts_snoc l x : firsts (l ++ [x]) = if in_s x l then firsts l else firsts l ++ [x].
Proof.
  induction l as [|y l IH]; [reflexivity|]. cbn [app firsts in_s existsb]. fold (in_s x l). rewrite IH. rewrite (String.eqb_sym x y). destruct (in_s x l); [now rewrite orb_true_r|]. rewrite orb_false_r.
  rewrite filter_app. cbn [filter]. destruct (String.eqb y x); cbn [negb]; [now rewrite app_nil_r|reflexivity].
Qed.
Lemma in_s_ok x l : in_s x l = true <-> In x l.
Proof. unfold in_s. rewrite existsb_exists. split; [intros (y & H & E); apply String.eqb_eq in E; now subst|intros H; exists x; split; [exact H|apply String.eqb_refl]]. Qed.

Definition of_net (n : string) (ps : list ((nat * nat) * string)) : list (nat * nat) := map fst (filter (fun p => String.eqb n (snd p)) ps).
Definition good (s : netst) (ps : list ((nat * nat) * string)) : Prop :=
  fst s = map (fun n => (n, of_net n ps)) (firsts (map snd ps)) /\
  snd s = combine (firsts (map snd ps)) (seq 0 (length (firsts (map snd ps)))).

Lemma get_combine l b n : NoDup l -> dget String.eqb (combine l (seq b (length l))) n = None /\ ~ In n l \/
  exists i, dget String.eqb (combine l (seq b (length l))) n = Some (b + i)%nat /\ nth_error l i = Some n.
Proof.
  revert b. induction l as [|x l IH]; intros b Hn; [left; split; [reflexivity|intros []]|]. inversion Hn as [|? ? Hx Hl]; subst. cbn [length seq combine dget].
  destruct (String.eqb_spec n x) as [->|D]; [right; exists 0%nat; split; [f_equal; lia|reflexivity]|].
  destruct (IH (Datatypes.S b) Hl) as [(E & H)|(i & E & H)]; [left; split; [exact E|intros [->|H']; [now apply D|contradiction]]|right; exists (Datatypes.S i); split; [rewrite E; f_equal; lia|exact H]].
Qed.
Lemma update_map {A B} (g : A -> B) (f : B -> B) (h : A -> B) l i x : NoDup l -> nth_error l i = Some x -> f (g x) = h x -> (forall y, y <> x -> g y = h y) -> update_nth (map g l) i f = map h l.
Proof.
  intros Hn Hi E Ho. revert i Hi. induction l as [|y l IH]; intros [|i] Hi; try discriminate Hi; inversion Hn as [|? ? Hy Hl]; subst; cbn [map update_nth nth_error] in *.
  - injection Hi as ->. rewrite E. f_equal. apply map_ext_in. intros z Hz. apply Ho. intros ->. contradiction.
  - rewrite (IH Hl i Hi), Ho; [reflexivity|]. intros ->. apply Hy. eapply nth_error_In, Hi.
Qed.
Lemma of_net_snoc n ps p : of_net n (ps ++ [p]) = of_net n ps ++ (if String.eqb n (snd p) then [fst p] else []).
Proof. unfold of_net. rewrite filter_app, map_app. cbn [filter]. now destruct (String.eqb n (snd p)). Qed.
Lemma of_net_none n ps : ~ In n (map snd ps) -> of_net n ps = [].
Proof.
  intros H. unfold of_net. induction ps as [|p ps IH]; [reflexivity|]. cbn [filter]. destruct (String.eqb_spec n (snd p)) as [->|D]; [destruct H; now left|]. apply IH. intros H'. apply H. now right.
Qed.

Lemma connect_good s ps iter b net : good s ps -> let r := connect s iter b net in
  good (fst r) (ps ++ [((iter, b), net)]) /\ nth_error (firsts (map snd (ps ++ [((iter, b), net)]))) (snd r) = Some net.
Proof.
  intros (H1 & H2). unfold connect. rewrite H2. set (l := firsts (map snd ps)) in *. assert (Hn : NoDup l) by apply firsts_nodup.
  assert (Es : firsts (map snd (ps ++ [((iter, b), net)])) = if in_s net (map snd ps) then l else l ++ [net]) by (rewrite map_app; apply firsts_snoc).
  destruct (get_combine l 0 net Hn) as [(E & Hi)|(i & E & Hi)]; rewrite E; cbn [fst snd plus].
  - assert (Hf : in_s net (map snd ps) = false) by (destruct (in_s net (map snd ps)) eqn:F; [|reflexivity]; apply in_s_ok in F; apply in_firsts in F; contradiction).
    assert (Hni : ~ In net (map snd ps)) by (intros F; apply in_firsts in F; contradiction).
    unfold good. rewrite Es, Hf. cbn [fst snd]. split; [split|].
    + rewrite H1, map_app. cbn [map]. f_equal.
      * apply map_ext_in. intros n Hin. rewrite of_net_snoc. cbn [snd]. destruct (String.eqb_spec n net) as [->|D]; [contradiction|now rewrite app_nil_r].
      * rewrite of_net_snoc, of_net_none by exact Hni. cbn [snd fst]. now rewrite String.eqb_refl.
    + rewrite H1, map_length, app_length. cbn [length]. rewrite seq_app. cbn [seq plus].
      assert (G : forall (d : list (string * nat)) v, dget String.eqb d net = None -> dset String.eqb d net v = d ++ [(net, v)]).
      { intros d v. unfold dset. induction d as [|(k & w) d IH]; [reflexivity|]. cbn [dget dupd app]. destruct (String.eqb net k); [discriminate|]. intros Hd. f_equal. now apply IH. }
      rewrite G by exact E. assert (C : forall (a : list string) b0, combine (a ++ [net]) (seq b0 (length a) ++ [(b0 + length a)%nat]) = combine a (seq b0 (length a)) ++ [(net, (b0 + length a)%nat)]).
      { intros a. induction a as [|x a IH]; intros b0; [cbn; now rewrite Nat.add_0_r|]. cbn [length seq app combine]. f_equal. replace (b0 + Datatypes.S (length a))%nat with (Datatypes.S b0 + length a)%nat by lia. apply IH. }
      pose proof (C l 0%nat) as C0. cbn [plus] in C0. now rewrite C0.
    + rewrite H1, map_length, nth_error_app2 by lia. now rewrite Nat.sub_diag.
  - assert (Hf : in_s net (map snd ps) = true) by (apply in_s_ok, in_firsts; eapply nth_error_In, Hi). unfold good. rewrite Es, Hf. cbn [fst snd]. split; [split|exact Hi].
    + rewrite H1. apply update_map with net; [exact Hn|exact Hi|cbn [fst snd]; rewrite of_net_snoc; cbn [snd]; now rewrite String.eqb_refl|].
      intros y D. rewrite of_net_snoc. cbn [snd]. destruct (String.eqb_spec y net); [contradiction|now rewrite app_nil_r].
    + reflexivity.
Qed.
Lemma firsts_grow l m i x : nth_error (firsts l) i = Some x -> nth_error (firsts (l ++ m)) i = Some x.
Proof.
  revert l. induction m as [|y m IH]; intros l H; [now rewrite app_nil_r|]. change (l ++ y :: m) with (l ++ [y] ++ m). rewrite app_assoc. apply IH. rewrite firsts_snoc.
  destruct (in_s y l); [exact H|]. rewrite nth_error_app1; [exact H|]. apply nth_error_Some. congruence.
Qed.
Definition pin_at (names : list string) (q : string * string) (r : string * nat) : Prop := fst r = fst q /\ nth_error names (snd r) = Some (snd q).
Lemma pins_good s ps iter b fa : good s ps -> let r := read_pins s iter b fa in
  let ps' := ps ++ map (fun q => ((fst q, b), snd (snd q))) (enum_from iter fa) in
  good (fst r) ps' /\ Forall2 (pin_at (firsts (map snd ps'))) fa (snd r).
Proof.
  revert s ps iter. induction fa as [|(f & a) fa IH]; intros s ps iter H; cbv zeta; [cbn; rewrite app_nil_r; split; [exact H|constructor]|].
  cbn [read_pins]. pose proof (connect_good s ps iter b a H) as (H1 & H2). destruct (connect s iter b a) as (s1 & n). cbn [fst snd] in H1, H2.
  pose proof (IH s1 _ (Datatypes.S iter) H1) as (H3 & H4). destruct (read_pins s1 (Datatypes.S iter) b fa) as (s2 & rs). cbn [fst snd] in H3, H4 |- *.
  unfold enum_from in *. cbn [length seq combine map fst snd]. rewrite <- app_assoc in H3, H4. cbn [app] in H3, H4. split; [exact H3|]. constructor; [|exact H4]. split; [reflexivity|]. cbn [snd].
  replace (ps ++ (iter, b, a) :: map (fun q => (fst q, b, snd (snd q))) (combine (seq (Datatypes.S iter) (length fa)) fa)) with ((ps ++ [(iter, b, a)]) ++ map (fun q => (fst q, b, snd (snd q))) (combine (seq (Datatypes.S iter) (length fa)) fa)) by (rewrite <- app_assoc; reflexivity).
  rewrite (map_app snd (ps ++ [(iter, b, a)])). now apply firsts_grow.
Qed.
Definition block_at (names : list string) (i : vinst) (p : pblock) : Prop :=
  master i = Some (pb_master p) /\ pb_name p = in_name i /\ Forall2 (pin_at names) (in_fa i) (pb_pins p).
Lemma F2_impl {A B} (P Q : A -> B -> Prop) l m : (forall a b, P a b -> Q a b) -> Forall2 P l m -> Forall2 Q l m.
Proof. intros H F. induction F; constructor; auto. Qed.
Lemma insts_good is : forall s ps b ix s2 bs ix2, good s ps -> read_insts s b ix is = Some (s2, bs, ix2) ->
  good s2 (ps ++ pins_from b is) /\ Forall2 (block_at (firsts (map snd (ps ++ pins_from b is)))) is bs /\
  ix2 = fold_left (fun d p => dset String.eqb d (in_name (snd p)) (fst p)) (enum_from b is) ix.
Proof.
  induction is as [|i is IH]; intros s ps b ix s2 bs ix2 H E; cbn [read_insts] in E.
  - injection E as <- <- <-. cbn. rewrite app_nil_r. split; [exact H|]. split; [constructor|reflexivity].
  - destruct (master i) as [m|] eqn:Em; [|discriminate]. pose proof (pins_good s ps 0 b (in_fa i) H) as (H1 & H2). destruct (read_pins s 0 b (in_fa i)) as (s1 & rs). cbn [fst snd] in H1, H2.
    destruct (read_insts s1 (Datatypes.S b) _ is) as [((s2' & bs') & ix')|] eqn:E2; [|discriminate]. injection E as <- <- <-.
    destruct (IH _ _ _ _ _ _ _ H1 E2) as (H3 & H4 & H5). rewrite <- app_assoc in H3, H4.
    assert (Ep : pins_from b (i :: is) = map (fun q => (fst q, b, snd (snd q))) (enum_from 0 (in_fa i)) ++ pins_from (Datatypes.S b) is) by reflexivity.
    rewrite Ep. split; [exact H3|]. split; [|exact H5]. constructor; [|exact H4]. split; [exact Em|]. split; [reflexivity|]. cbn [pb_pins].
    eapply F2_impl; [|exact H2]. intros q r (Q1 & Q2). split; [exact Q1|]. rewrite app_assoc, (map_app snd (ps ++ _)). now apply firsts_grow.
Qed.
Lemma read_insts_some is : (forall i, In i is -> master i <> None) -> forall s b ix, read_insts s b ix is <> None.
Proof.
  induction is as [|i is IH]; intros H s b ix; cbn [read_insts]; [discriminate|]. destruct (master i) as [m|] eqn:E; [|exfalso; apply (H i); [now left|exact E]].
  destruct (read_pins s 0 b (in_fa i)) as (s1 & rs). specialize (IH (fun j Hj => H j (or_intror Hj)) s1 (Datatypes.S b) (dset String.eqb ix (in_name i) b)).
  destruct (read_insts s1 _ _ is) as [((? & ?) & ?)|]; [discriminate|contradiction].
Qed.
Theorem module_good m n : read_module m = Some n ->
  let names := firsts (map snd (pins_from 0 (vm_insts m))) in
  pn_nets n = map (fun x => (x, of_net x (pins_from 0 (vm_insts m)))) names /\ Forall2 (block_at names) (vm_insts m) (pn_blocks n) /\
  pn_index n = fold_left (fun d p => dset String.eqb d (in_name (snd p)) (fst p)) (enum_from 0 (vm_insts m)) [] /\ pn_name n = vm_name m /\ pn_terms n = vm_params m.
Proof.
  unfold read_module. destruct (read_insts _ _ _ _) as [((s & bs) & ix)|] eqn:E; [|discriminate]. intros [= <-]. cbn [pn_nets pn_blocks pn_index pn_name pn_terms].
  assert (G0 : good ([], []) []) by (split; reflexivity). destruct (insts_good _ _ _ _ _ _ _ _ G0 E) as ((G1 & _) & G2 & G3). cbn [app] in G1, G2. split; [exact G1|]. split; [exact G2|]. split; [exact G3|]. split; reflexivity.
Qed.

Lemma in_enum {A} (l : list A) n i x : In (i, x) (enum_from n l) <-> exists j, i = (n + j)%nat /\ nth_error l j = Some x.
Proof.
  revert n. induction l as [|y l IH]; intros n; unfold enum_from in *; cbn [length seq combine In].
  - split; [intros []|intros ([|j] & _ & H); discriminate H].
  - rewrite IH. split.
    + intros [[= <- <-]|(j & -> & H)]; [exists 0%nat; split; [lia|reflexivity]|exists (Datatypes.S j); split; [lia|exact H]].
    + intros ([|j] & -> & H); [left; injection H as ->; f_equal; lia|right; exists j; split; [lia|exact H]].
Qed.
Lemma in_pins is k b a : In ((k, b), a) (pins_from 0 is) <-> exists i f, nth_error is b = Some i /\ nth_error (in_fa i) k = Some (f, a).
Proof.
  unfold pins_from. rewrite in_flat_map. split.
  - intros ((b' & i) & Hb & H). apply in_map_iff in H as ((k' & (f & a')) & E & Hk). cbn [fst snd] in *. injection E as <- <- <-. apply in_enum in Hb as (j & -> & Hb). apply in_enum in Hk as (j' & -> & Hk). exists i, f. split; [exact Hb|exact Hk].
  - intros (i & f & Hb & Hk). exists (b, i). split; [apply in_enum; exists b; auto|]. apply in_map_iff. exists (k, (f, a)). split; [reflexivity|]. apply in_enum. exists k; auto.
Qed.
Lemma enum_nodup {A} (l : list A) n : NoDup (map fst (enum_from n l)).
Proof.
  revert n. induction l as [|x l IH]; intros n; unfold enum_from in *; cbn [length seq combine map fst]; [constructor|]. constructor; [|apply IH]. intros H. apply in_map_iff in H as ((i & y) & E & H). apply (in_enum l (Datatypes.S n)) in H as (j & -> & _). cbn [fst] in E. lia.
Qed.
Lemma nodup_app2 {A} (l m : list A) : NoDup l -> NoDup m -> (forall x, In x l -> ~ In x m) -> NoDup (l ++ m).
Proof.
  intros Hl Hm H. induction l as [|x l IH]; [exact Hm|]. inversion Hl as [|? ? Hx Hl']; subst. cbn. constructor; [rewrite in_app_iff; intros [G|G]; [contradiction|exact (H x (or_introl eq_refl) G)]|].
  apply IH; [exact Hl'|]. intros y Hy. exact (H y (or_intror Hy)).
Qed.
Lemma pins_keys_nodup is b : NoDup (map fst (pins_from b is)).
Proof.
  revert b. induction is as [|i is IH]; intros b; [constructor|]. change (pins_from b (i :: is)) with (map (fun q => (fst q, b, snd (snd q))) (enum_from 0 (in_fa i)) ++ pins_from (Datatypes.S b) is). rewrite map_app. apply nodup_app2; [|apply IH|].
  - rewrite map_map. cbn [fst]. pose proof (enum_nodup (in_fa i) 0) as H. induction (enum_from 0 (in_fa i)) as [|q l IHl]; [constructor|]. cbn [map] in *. inversion H as [|? ? Hq Hl]; subst. constructor; [|now apply IHl]. intros G. apply Hq. apply in_map_iff in G as (q' & E & G). injection E as E. rewrite <- E. now apply in_map.
  - intros (k & b') H H'. rewrite map_map in H. apply in_map_iff in H as (q & E & _). cbn [fst] in E. injection E as _ <-. apply in_map_iff in H' as (((k' & b'') & a) & E & H'). cbn [fst] in E. injection E as -> ->.
    unfold pins_from in H'. apply in_flat_map in H' as ((b3 & i3) & H3 & H'). apply in_map_iff in H' as (q' & E & _). cbn [fst] in E. injection E as _ -> _. apply in_enum in H3 as (j & E & _). lia.
Qed.
Lemma map_filter_nodup {A B} (f : A -> B) (p : A -> bool) l : NoDup (map f l) -> NoDup (map f (filter p l)).
Proof.
  induction l as [|x l IH]; [intros _; constructor|]. cbn [map filter]. intros H. inversion H as [|? ? Hx Hl]; subst. destruct (p x); [|now apply IH]. cbn [map]. constructor; [|now apply IH].
  intros G. apply Hx. apply in_map_iff in G as (y & <- & G). apply filter_In in G as (G & _). now apply in_map.
Qed.

(** * Leaf cells *)
Definition dgroup (l : list (string * (string * string))) d := fold_left (fun d p => dappend String.eqb d (fst p) (snd p)) l d.
Definition dhas (d : list (string * list (string * string))) k v := exists vs, In (k, vs) d /\ In v vs.
Lemma dappend_has d k x k' v : dhas (dappend String.eqb d k x) k' v <-> dhas d k' v \/ (k' = k /\ v = x).
Proof.
  unfold dappend, dhas. induction d as [|(k0 & vs0) d IH]; cbn [dupd].
  - split; [intros (vs & [[= <- <-]|[]] & [<-|[]]); now right|intros [(vs & [] & _)|(-> & ->)]; exists [x]; split; now left].
  - destruct (String.eqb_spec k k0) as [<-|D]; split.
    + intros (vs & [[= <- <-]|H] & Hv); [apply in_app_iff in Hv as [Hv|[<-|[]]]; [left; exists vs0; split; [now left|exact Hv]|now right]|left; exists vs; split; [now right|exact Hv]].
    + intros [(vs & [[= <- <-]|H] & Hv)|(-> & ->)]; [exists (vs0 ++ [x]); split; [now left|apply in_app_iff; now left]|exists vs; split; [now right|exact Hv]|exists (vs0 ++ [x]); split; [now left|apply in_app_iff; right; now left]].
    + intros (vs & [[= <- <-]|H] & Hv); [left; exists vs0; split; [now left|exact Hv]|]. assert (G : exists vs, In (k', vs) (dupd String.eqb d k (fun o => match o with Some l => l ++ [x] | None => [x] end)) /\ In v vs) by (exists vs; split; assumption).
      apply IH in G as [(ws & G1 & G2)|G]; [left; exists ws; split; [now right|exact G2]|now right].
    + intros [(vs & [[= <- <-]|H] & Hv)|G]; [exists vs0; split; [now left|exact Hv]| |].
      * assert (G : exists vs, In (k', vs) d /\ In v vs) by (exists vs; split; assumption). destruct (proj2 IH (or_introl G)) as (ws & G1 & G2). exists ws; split; [now right|exact G2].
      * destruct (proj2 IH (or_intror G)) as (ws & G1 & G2). exists ws; split; [now right|exact G2].
Qed.
Lemma dgroup_has l d k v : dhas (dgroup l d) k v <-> dhas d k v \/ In (k, v) l.
Proof.
  revert d. induction l as [|(k0 & v0) l IH]; intros d; unfold dgroup in *; cbn [fold_left]; [cbn [In]; tauto|]. rewrite IH, dappend_has. cbn [fst snd In]. split; [intros [[H|(-> & ->)]|H]; auto|intros [H|[[= -> ->]|H]]; auto].
Qed.
Definition nonempty (d : list (string * list (string * string))) := forall k vs, In (k, vs) d -> vs <> [].
Lemma dappend_nonempty d k x : nonempty d -> nonempty (dappend String.eqb d k x).
Proof.
  intros H k' vs. unfold dappend. induction d as [|(k0 & vs0) d IH]; cbn [dupd]; [intros [[= <- <-]|[]]; discriminate|].
  destruct (String.eqb k k0); intros [[= <- <-]|G]; [now destruct vs0|apply (H k' vs); now right|apply (H k0 vs0); now left|apply IH; [intros a b Hab; apply (H a b); now right|exact G]].
Qed.
Lemma dgroup_nonempty l d : nonempty d -> nonempty (dgroup l d).
Proof. revert d. induction l as [|p l IH]; intros d H; [exact H|]. cbn [dgroup fold_left]. apply IH. now apply dappend_nonempty. Qed.
Lemma dgroup_keys l k : In k (map fst (dgroup l [])) <-> exists v, In (k, v) l.
Proof.
  assert (N : nonempty (dgroup l [])) by (apply dgroup_nonempty; intros ? ? []). split.
  - intros H. apply in_map_iff in H as ((k' & vs) & E & H). cbn in E. subst k'. destruct vs as [|v vs]; [destruct (N k [] H eq_refl)|]. exists v. assert (G : dhas (dgroup l []) k v) by (exists (v :: vs); split; [exact H|now left]). apply dgroup_has in G as [(ws & [] & _)|G]. exact G.
  - intros (v & H). assert (G : dhas (dgroup l []) k v) by (apply dgroup_has; now right). destruct G as (vs & G & _). apply in_map_iff. exists (k, vs). auto.
Qed.
Section Leaves.
  Variables (ms : pmods) (ds : pcons).
  Definition calls : list (string * (string * string)) :=
    flat_map (fun m => flat_map (fun i => if in_s (snd i) (non_leaves ms) then [] else [(snd i, (fst m, fst i))]) (snd m)) ms.
  Lemma fold_flat {A B} (f : A -> list B) (g : list (string * list (string * string)) -> B -> list (string * list (string * string))) l d : fold_left (fun d x => fold_left g (f x) d) l d = fold_left g (flat_map f l) d.
  Proof. revert d. induction l as [|x l IH]; intros d; [reflexivity|]. cbn [fold_left flat_map]. now rewrite IH, fold_left_app. Qed.
  Lemma leaf_calls_is : leaf_calls ms = dgroup calls [].
  Proof.
    unfold leaf_calls, dgroup, calls. rewrite <- fold_flat. generalize (@nil (string * list (string * string))). generalize (non_leaves ms). intros nl. generalize ms. clear. intros ms. induction ms as [|m l IH]; intros d; [reflexivity|]. cbn [fold_left]. rewrite IH. clear IH. f_equal.
    rewrite <- fold_flat. generalize (snd m). clear l. intros l. revert d. induction l as [|i l IHl]; intros d; [reflexivity|]. cbn [fold_left]. rewrite IHl. f_equal. now destruct (in_s (snd i) nl).
  Qed.
  Lemma capacitors_is : capacitors ms ds = dgroup (flat_map (fun p => flat_map (fun q => if is_cap ds (fst q) (snd q) then [(fst p, q)] else []) (snd p)) (leaf_calls ms)) [].
  Proof.
    unfold capacitors, dgroup. rewrite <- fold_flat. generalize (@nil (string * list (string * string))). generalize (leaf_calls ms). intros l. induction l as [|p l IH]; intros d; [reflexivity|]. cbn [fold_left]. rewrite IH. clear IH. f_equal.
    rewrite <- fold_flat. generalize (snd p). clear l. intros l. revert d. induction l as [|q l IHl]; intros d; [reflexivity|]. cbn [fold_left]. rewrite IHl. f_equal. now destruct (is_cap ds (fst q) (snd q)).
  Qed.
  Lemma in_calls l nm inst : In (l, (nm, inst)) calls <-> exists is, In (nm, is) ms /\ In (inst, l) is /\ ~ In l (map fst ms).
  Proof.
    unfold calls. rewrite in_flat_map. split.
    - intros ((nm' & is) & Hm & H). apply in_flat_map in H as ((inst' & l') & Hi & H). cbn [fst snd] in *. destruct (in_s l' (non_leaves ms)) eqn:E; [destruct H|]. destruct H as [[= -> -> ->]|[]]. exists is. split; [exact Hm|]. split; [exact Hi|]. intros G. apply in_s_ok in G. unfold non_leaves in E. congruence.
    - intros (is & Hm & Hi & Hn). exists (nm, is). split; [exact Hm|]. apply in_flat_map. exists (inst, l). split; [exact Hi|]. cbn [fst snd]. destruct (in_s l (non_leaves ms)) eqn:E; [apply in_s_ok in E; contradiction|now left].
  Qed.
  Lemma called l : In l (map fst (leaf_calls ms)) <-> exists nm inst is, In (nm, is) ms /\ In (inst, l) is /\ ~ In l (map fst ms).
  Proof.
    rewrite leaf_calls_is, dgroup_keys. split; [intros ((nm & inst) & H); apply in_calls in H as (is & H); exists nm, inst, is; exact H|intros (nm & inst & is & H); exists (nm, inst); apply in_calls; exists is; exact H].
  Qed.
  Lemma cap_called l : In l (map fst (capacitors ms ds)) <-> exists nm inst is, In (nm, is) ms /\ In (inst, l) is /\ ~ In l (map fst ms) /\ is_cap ds nm inst = true.
  Proof.
    rewrite capacitors_is, dgroup_keys. split.
    - intros ((nm & inst) & H). apply in_flat_map in H as ((l' & vs) & Hl & H). apply in_flat_map in H as (q & Hq & H). cbn [fst snd] in *. destruct (is_cap ds (fst q) (snd q)) eqn:E; [|destruct H]. destruct H as [[= -> ->]|[]]. cbn [fst snd] in E.
      rewrite leaf_calls_is in Hl. assert (G : dhas (dgroup calls []) l (nm, inst)) by (exists vs; split; assumption). apply dgroup_has in G as [(ws & [] & _)|G]. apply in_calls in G as (is & G1 & G2 & G3). exists nm, inst, is. auto.
    - intros (nm & inst & is & H1 & H2 & H3 & H4). exists (nm, inst). assert (G : dhas (dgroup calls []) l (nm, inst)) by (apply dgroup_has; right; apply in_calls; exists is; auto). destruct G as (vs & G1 & G2).
      apply in_flat_map. exists (l, vs). split; [now rewrite leaf_calls_is|]. apply in_flat_map. exists (nm, inst). split; [exact G2|]. cbn [fst snd]. rewrite H4. now left.
  Qed.
  Lemma get_map {V W} (f : V -> W) (d : list (string * V)) k : dget String.eqb (map (fun p => (fst p, f (snd p))) d) k = option_map f (dget String.eqb d k).
  Proof. induction d as [|(k' & v) d IH]; [reflexivity|]. cbn [map dget fst snd]. destruct (String.eqb k k'); [reflexivity|exact IH]. Qed.
  Lemma caps_fold cs d : forall k u, In (k, u) (fold_left (fun d c => match c with CC n u => dset String.eqb d (up n) u | _ => d end) cs d) -> In (k, u) d \/ exists n, In (CC n u) cs /\ up n = k.
  Proof.
    revert d. induction cs as [|c cs IH]; intros d k u H; [now left|]. cbn [fold_left] in H. apply IH in H as [H|(n & Hn & E)]; [|right; exists n; split; [now right|exact E]]. destruct c as [n v|r|]; [|now left|now left].
    assert (G : In (k, u) d \/ (k = up n /\ u = v)).
    { clear IH. revert H. unfold dset. induction d as [|(k0 & v0) d IHd]; cbn [dupd]; [intros [[= <- <-]|[]]; now right|]. destruct (String.eqb_spec (up n) k0) as [<-|D]; intros [[= <- <-]|G]; [now right|left; now right|left; now left|destruct (IHd G) as [|]; [left; now right|now right]]. }
    destruct G as [G|(-> & ->)]; [now left|right; exists n; split; [now left|reflexivity]].
  Qed.
  Lemma caps_keys cs d : forall k, dmem String.eqb (fold_left (fun d c => match c with CC n u => dset String.eqb d (up n) u | _ => d end) cs d) k = true <-> dmem String.eqb d k = true \/ exists n u, In (CC n u) cs /\ up n = k.
  Proof.
    revert d. induction cs as [|c cs IH]; intros d k; cbn [fold_left]; [split; [now left|intros [H|(? & ? & [] & _)]; exact H]|]. rewrite IH. destruct c as [n v|r|].
    - assert (E : dmem String.eqb (dset String.eqb d (up n) v) k = true <-> up n = k \/ dmem String.eqb d k = true).
      { unfold dmem, dset. destruct (String.eqb_spec (up n) k) as [<-|D]; [rewrite (dget_dupd_same _ String.eqb_eq); split; [now left|reflexivity]|]. rewrite (dget_dupd_other _ String.eqb_eq) by (intros G; apply D; congruence). split; [now right|intros [G|G]; [contradiction|exact G]]. }
      rewrite E. split; [intros [[<-|H]|(m & u & H & G)]; [right; exists n, v; split; [now left|reflexivity]|now left|right; exists m, u; split; [now right|exact G]]|intros [H|(m & u & [[= -> ->]|H] & G)]; [left; now right|left; now left|right; exists m, u; auto]].
    - split; [intros [H|(m & u & H & G)]; [now left|right; exists m, u; split; [now right|exact G]]|intros [H|(m & u & [H|H] & G)]; [now left|discriminate H|right; exists m, u; auto]].
    - split; [intros [H|(m & u & H & G)]; [now left|right; exists m, u; split; [now right|exact G]]|intros [H|(m & u & [H|H] & G)]; [now left|discriminate H|right; exists m, u; auto]].
  Qed.
  Lemma is_cap_ok nm inst : is_cap ds nm inst = true <-> exists cs n u, dget String.eqb ds nm = Some cs /\ In (CC n u) cs /\ up n = inst.
  Proof.
    unfold is_cap, cap_constraints. rewrite (get_map caps_of). destruct (dget String.eqb ds nm) as [cs|]; cbn [option_map]; [|split; [discriminate|intros (? & ? & ? & H & _); discriminate H]].
    unfold caps_of. rewrite caps_keys. split; [intros [H|(n & u & H & G)]; [discriminate H|exists cs, n, u; auto]|intros (cs' & n & u & [= <-] & H & G); right; exists n, u; auto].
  Qed.
  Lemma caps_all cs d : NoDup (flat_map (fun c => match c with CC n _ => [up n] | _ => [] end) cs) -> forall n u, In (CC n u) cs -> (forall k v, In (k, v) d -> ~ In k (flat_map (fun c => match c with CC n _ => [up n] | _ => [] end) cs)) ->
    In (up n, u) (fold_left (fun d c => match c with CC n u => dset String.eqb d (up n) u | _ => d end) cs d).
  Proof.
    revert d. induction cs as [|c cs IH]; intros d Hn n u H Hd; [destruct H|]. cbn [fold_left].
    assert (K : forall cs d k v, In (k, v) d -> ~ In k (flat_map (fun c => match c with CC n _ => [up n] | _ => [] end) cs) -> In (k, v) (fold_left (fun d c => match c with CC n u => dset String.eqb d (up n) u | _ => d end) cs d)).
    { clear. induction cs as [|c cs IH]; intros d k v H Hn; [exact H|]. cbn [fold_left]. apply IH; [|intros G; apply Hn; cbn [flat_map]; apply in_app_iff; now right]. destruct c as [m w|r|]; [|exact H|exact H].
      assert (D : up m <> k) by (intros E; apply Hn; cbn [flat_map]; apply in_app_iff; left; now left). unfold dset. clear Hn IH. induction d as [|(k0 & v0) d IHd]; [destruct H|]. cbn [dupd]. destruct (String.eqb_spec (up m) k0) as [<-|D']; destruct H as [[= <- <-]|H]; [contradiction|now right|now left|right; now apply IHd]. }
    assert (A : forall (d : list (string * string)) k v, In (k, v) (dset String.eqb d k v)).
    { clear. intros d k v. unfold dset. induction d as [|(k0 & v0) d IH]; cbn [dupd]; [now left|]. destruct (String.eqb_spec k k0) as [<-|D]; [now left|right; exact IH]. }
    destruct H as [->|H].
    - cbn [flat_map app] in Hn. inversion Hn as [|? ? Hx Hl]; subst. apply K; [apply A|exact Hx].
    - apply IH; [|exact H|].
      + cbn [flat_map] in Hn. destruct c; cbn [app] in Hn; [now inversion Hn|exact Hn|exact Hn].
      + intros k v Hk G. destruct c as [m w|r|]; [|apply (Hd k v Hk); exact G|apply (Hd k v Hk); exact G].
        cbn [flat_map app] in Hn. inversion Hn as [|? ? Hx Hl]; subst.
        assert (E : In (k, v) d \/ k = up m).
        { clear - Hk. revert Hk. unfold dset. induction d as [|(k0 & v0) d IHd]; cbn [dupd]; [intros [[= <- <-]|[]]; now right|]. destruct (String.eqb_spec (up m) k0) as [<-|D]; intros [[= <- <-]|G]; [now right|left; now right|left; now left|destruct (IHd G) as [|]; [left; now right|now right]]. }
        destruct E as [E|E]; [apply (Hd k v E); cbn [flat_map app]; now right|subst k; contradiction].
  Qed.
End Leaves.

(** * Subsets of modules *)
Section Subset.
  Variable ms : smods.
  Definition below (a b : string) : Prop := exists ts, last_def ms a = Some ts /\ In b ts.
  Inductive path : nat -> string -> string -> Prop :=
  | path_0 a : path 0 a a
  | path_S n a b c : below a b -> path n b c -> path (Datatypes.S n) a c.
  Definition reach (a b : string) : Prop := exists n, path n a b.
  Lemma subset_ok fuel : forall found nm f, subset_aux ms fuel found nm = Some f ->
    (forall x, In x f <-> In x found \/ reach nm x) /\ forall n x, path n nm x -> (n < fuel)%nat.
  Proof.
    induction fuel as [|fuel IH]; intros found nm f H; [discriminate|]. cbn [subset_aux] in H. destruct (last_def ms nm) as [ts|] eqn:E.
    - assert (G : forall ts0 f0 f1, incl ts0 ts -> fold_left (fun o t => match o with Some f => subset_aux ms fuel f t | None => None end) ts0 (Some f0) = Some f1 ->
        (forall x, In x f1 <-> In x f0 \/ exists t, In t ts0 /\ reach t x) /\ forall t n x, In t ts0 -> path n t x -> (n < fuel)%nat).
      { induction ts0 as [|t ts0 IHt]; intros f0 f1 Hi Hf; cbn [fold_left] in Hf; [injection Hf as <-; split; [intros x; split; [now left|intros [Hx|(t & [] & _)]; exact Hx]|intros t n x []]|].
        destruct (subset_aux ms fuel f0 t) as [f2|] eqn:Et; [|exfalso; revert Hf; clear; induction ts0 as [|? ? IHn]; [discriminate|exact IHn]].
        destruct (IH _ _ _ Et) as (R1 & R2). destruct (IHt f2 f1 (fun y Hy => Hi y (or_intror Hy)) Hf) as (R3 & R4). split.
        - intros x. rewrite R3, R1. split; [intros [[Hx|Hx]|(t' & Ht' & Hx)]; [now left|right; exists t; split; [now left|exact Hx]|right; exists t'; split; [now right|exact Hx]]|intros [Hx|(t' & [->|Ht'] & Hx)]; [left; now left|left; now right|right; exists t'; auto]].
        - intros t' n x [<-|Ht'] Hp; [exact (R2 n x Hp)|exact (R4 t' n x Ht' Hp)]. }
      destruct (G ts (nm :: found) f (fun x Hx => Hx) H) as (R1 & R2). split.
      + intros x. rewrite R1. cbn [In]. split.
        * intros [[<-|Hx]|(t & Ht & n & Hp)]; [right; exists 0%nat; constructor|now left|right; exists (Datatypes.S n); econstructor; [exists ts; split; [exact E|exact Ht]|exact Hp]].
        * intros [Hx|(n & Hp)]; [left; now right|]. inversion Hp as [a|n' a b c (ts' & E' & Hb) Hp']; subst; [left; now left|]. rewrite E in E'. injection E' as <-. right. exists b. split; [exact Hb|exists n'; exact Hp'].
      + intros n x Hp. inversion Hp as [a|n' a b c (ts' & E' & Hb) Hp']; subst; [lia|]. rewrite E in E'. injection E' as <-. specialize (R2 b n' x Hb Hp'). lia.
    - injection H as <-. split.
      + intros x. cbn [In]. split; [intros [<-|Hx]; [right; exists 0%nat; constructor|now left]|intros [Hx|(n & Hp)]; [now right|]]. inversion Hp as [a|n' a b c (ts' & E' & Hb) Hp']; subst; [now left|congruence].
      + intros n x Hp. inversion Hp as [a|n' a b c (ts' & E' & Hb) Hp']; subst; [lia|congruence].
  Qed.
  Lemma subset_ends (rank : string -> nat) : (forall a b, below a b -> (rank b < rank a)%nat) -> forall fuel found nm, (rank nm < fuel)%nat -> subset_aux ms fuel found nm <> None.
  Proof.
    intros Hr. induction fuel as [|fuel IH]; intros found nm Hf; [lia|]. cbn [subset_aux]. destruct (last_def ms nm) as [ts|] eqn:E; [|discriminate].
    assert (G : forall ts0 f0, incl ts0 ts -> fold_left (fun o t => match o with Some f => subset_aux ms fuel f t | None => None end) ts0 (Some f0) <> None).
    { induction ts0 as [|t ts0 IHt]; intros f0 Hi; cbn [fold_left]; [discriminate|]. assert (B : below nm t) by (exists ts; split; [exact E|apply Hi; now left]). specialize (Hr _ _ B). specialize (IH f0 t ltac:(lia)).
      destruct (subset_aux ms fuel f0 t) as [f2|]; [|contradiction]. apply IHt. intros y Hy. apply Hi. now right. }
    apply G. intros x Hx. exact Hx.
  Qed.
  Lemma path_app n m a b c : path n a b -> path m b c -> path (n + m) a c.
  Proof. intros H H'. induction H; [exact H'|]. cbn. econstructor; [eassumption|auto]. Qed.
  Lemma subset_cycle nm x k : reach nm x -> (0 < k)%nat -> path k x x -> forall fuel found, subset_aux ms fuel found nm = None.
  Proof.
    intros (n & Hn) Hk Hp fuel found. destruct (subset_aux ms fuel found nm) as [f|] eqn:E; [|reflexivity]. destruct (subset_ok _ _ _ _ E) as (_ & R).
    assert (P : forall j, path (j * k) x x) by (induction j as [|j IH]; [constructor|]; cbn; now apply path_app with x). specialize (R (n + fuel * k)%nat x (path_app _ _ _ _ _ Hn (P fuel))). nia.
  Qed.
End Subset.
