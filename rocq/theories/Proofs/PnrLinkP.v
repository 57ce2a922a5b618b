(** The linked netlist. *)
From Coq Require Import String Ascii.
From Verif Require Import Base.Prelude Base.PyDict Model.PnrInput Model.PnrLink Model.UpdateConst Model.Canvas Spec.Links Proofs.PnrInputP Proofs.CanvasP.
Local Open Scope list_scope.

(** * Lists *)
Lemma nth_ext {A} (l l' : list A) : (forall i, nth_error l i = nth_error l' i) -> l = l'.
Proof.
  revert l'. induction l as [|x l IH]; intros [|y l'] H; [reflexivity|specialize (H 0%nat); discriminate|specialize (H 0%nat); discriminate|].
  f_equal; [specialize (H 0%nat); now injection H|]. apply IH. intros i. exact (H (Datatypes.S i)).
Qed.
Lemma nth_update {A} (l : list A) i f j : nth_error (update_nth l i f) j = if Nat.eqb i j then option_map f (nth_error l j) else nth_error l j.
Proof.
  revert i j. induction l as [|x l IH]; intros [|i] [|j]; cbn; try reflexivity; [now destruct (Nat.eqb i j)|apply IH].
Qed.
Lemma nth_mapped {A B} (f : A -> B) l j : nth_error (map f l) j = option_map f (nth_error l j).
Proof. revert j. induction l as [|x l IH]; intros [|j]; cbn; auto. Qed.
Lemma numbered_enum {A} (l : list A) : numbered l = enum_from 0 l.
Proof. reflexivity. Qed.
Lemma nth_numbered {A} (l : list A) j : nth_error (numbered l) j = option_map (fun x => (j, x)) (nth_error l j).
Proof.
  unfold numbered. assert (G : forall b, nth_error (combine (seq b (List.length l)) l) j = option_map (fun x => ((b + j)%nat, x)) (nth_error l j)); [|exact (G 0%nat)].
  revert j. induction l as [|x l IH]; intros [|j] b; cbn; try reflexivity; [now rewrite Nat.add_0_r|]. rewrite IH. now rewrite <- plus_n_Sm.
Qed.
Lemma in_numbered {A} (l : list A) i x : In (i, x) (numbered l) <-> nth_error l i = Some x.
Proof. rewrite numbered_enum, in_enum. split; [intros (j & -> & H); exact H|intros H; exists i; auto]. Qed.
Lemma numbered_length {A} (l : list A) : List.length (numbered l) = List.length l.
Proof. unfold numbered. rewrite combine_length, seq_length. lia. Qed.
Lemma update_length {A} (l : list A) i f : List.length (update_nth l i f) = List.length l.
Proof. revert i. induction l as [|x l IH]; intros [|i]; cbn; auto. Qed.
Lemma numbered_names {A B} (f : A -> B) (l : list A) : map (fun q => (fst q, f (snd q))) (numbered l) = numbered (map f l).
Proof. apply nth_ext. intros i. rewrite nth_mapped, !nth_numbered, nth_mapped. now destruct (nth_error l i). Qed.
Lemma firstn_snoc {A} (l : list A) m x : nth_error l m = Some x -> firstn (Datatypes.S m) l = firstn m l ++ [x].
Proof. revert m. induction l as [|y l IH]; intros [|m] H; try discriminate; cbn in *; [injection H as ->; reflexivity|]. now rewrite (IH m H). Qed.

(** * semantic0 *)
Definition pick_last (p : string -> bool) (l : list (nat * string)) (o : option nat) : option nat :=
  fold_left (fun o q => if p (snd q) then Some (fst q) else o) l o.
Lemma pick_last_snoc p l q o : pick_last p (l ++ [q]) o = if p (snd q) then Some (fst q) else pick_last p l o.
Proof. unfold pick_last. now rewrite fold_left_app. Qed.
Lemma pick_last_none p l : pick_last p l None = None <-> forall q, In q l -> p (snd q) = false.
Proof.
  induction l as [|q l IH] using rev_ind; [split; [intros _ ? []|reflexivity]|]. rewrite pick_last_snoc. destruct (p (snd q)) eqn:E.
  - split; [discriminate|]. intros H. rewrite (H q) in E; [discriminate|apply in_app_iff; right; now left].
  - rewrite IH. split; intros H r Hr; [apply in_app_iff in Hr as [Hr|[<-|[]]]; auto|apply H, in_app_iff; auto].
Qed.
Lemma pick_last_some p l i : pick_last p l None = Some i -> exists x, In (i, x) l /\ p x = true.
Proof.
  induction l as [|q l IH] using rev_ind; [discriminate|]. rewrite pick_last_snoc. destruct (p (snd q)) eqn:E.
  - intros [= <-]. exists (snd q). split; [apply in_app_iff; right; left; now destruct q|exact E].
  - intros H. destruct (IH H) as (x & G & F). exists x. split; [apply in_app_iff; auto|exact F].
Qed.
(** With distinct names, the only one. *)
Lemma pick_last_nodup l x i : NoDup l -> pick_last (String.eqb x) (numbered l) None = Some i <-> nth_error l i = Some x.
Proof.
  intros N. split.
  - intros H. apply pick_last_some in H as (y & G & F). apply String.eqb_eq in F as <-. now apply in_numbered.
  - intros H. destruct (pick_last (String.eqb x) (numbered l) None) as [j|] eqn:E.
    + apply pick_last_some in E as (y & G & F). apply String.eqb_eq in F as <-. apply in_numbered in G. f_equal. apply (proj1 (NoDup_nth_error l) N); [apply nth_error_Some; congruence|congruence].
    + rewrite pick_last_none in E. specialize (E (i, x) (proj2 (in_numbered l i x) H)). cbn in E. rewrite String.eqb_refl in E. discriminate.
Qed.

Definition lnames (t : ltree) : list string := map ld_name t.
Definition child_upto (t : ltree) (m : nat) (b : lblock) : lblock :=
  mkLblock (lb_master b) (lb_pins b) (pick_last (String.eqb (lb_master b)) (firstn m (numbered (lnames t))) (lb_child b)) (lb_leaf b).
Definition state (top : string) (t : ltree) (m : nat) (q : nat * lnode) : lnode :=
  let n := snd q in let done := Nat.ltb (fst q) m in
  mkLnode (ld_name n) (if done then map (join_term (ld_nets n)) (ld_terms n) else ld_terms n) (map (child_upto t m) (ld_blocks n))
    (if done then map (join_net (ld_terms n)) (ld_nets n) else ld_nets n) (ld_power n)
    (if done then add_parents (ld_name n) t (ld_parents n) else ld_parents n)
    (if done then ld_top n || String.eqb (ld_name n) top else ld_top n) (ld_syms n).
Definition states (top : string) (t : ltree) (m : nat) : ltree := map (state top t m) (numbered t).
Lemma nth_states top t m j : nth_error (states top t m) j = option_map (fun n => state top t m (j, n)) (nth_error t j).
Proof. unfold states. rewrite nth_mapped, nth_numbered. now destruct (nth_error t j). Qed.
Lemma states_0 top t : states top t 0 = t.
Proof.
  apply nth_ext. intros j. rewrite nth_states. destruct (nth_error t j) as [n|]; [|reflexivity]. cbn. f_equal. unfold state. cbn. destruct n as [nm ts bs ns pw ps tp sy]. cbn. f_equal.
  rewrite <- (map_id bs) at 2. apply map_ext. intros []. reflexivity.
Qed.
Definition masters (n : lnode) : list string := map lb_master (ld_blocks n).
Lemma add_parents_masters nm t t' ps : map masters t = map masters t' -> add_parents nm t ps = add_parents nm t' ps.
Proof.
  unfold add_parents. intros H.
  assert (G : forall u, fold_left (fun ps q => fold_left (fun ps b => if String.eqb (lb_master b) nm then (if in_ns (fst q) ps then ps else ps ++ [fst q]) else ps) (ld_blocks (snd q)) ps) (numbered u) ps
    = fold_left (fun ps q => fold_left (fun ps b => if String.eqb b nm then (if in_ns (fst q) ps then ps else ps ++ [fst q]) else ps) (snd q) ps) (numbered (map masters u)) ps).
  { intros u. rewrite <- numbered_names. generalize (numbered u) as l. intros l. revert ps. induction l as [|(j & n) l IH]; intros ps; [reflexivity|]. cbn [map fold_left fst snd]. rewrite <- IH. f_equal.
    unfold masters. generalize (ld_blocks n) as bs. intros bs. revert ps. induction bs as [|b bs IHb]; intros ps; [reflexivity|]. cbn [map fold_left]. apply IHb. }
  rewrite (G t), (G t'). now rewrite H.
Qed.
Lemma states_masters top t m : map masters (states top t m) = map masters t.
Proof.
  apply nth_ext. intros j. rewrite !nth_mapped, nth_states. destruct (nth_error t j) as [n|]; [|reflexivity]. cbn. f_equal. unfold masters. cbn. rewrite map_map. apply map_ext. reflexivity.
Qed.
Lemma step0 top t m : (m < List.length t)%nat -> sem0_one top (states top t m) m = states top t (Datatypes.S m).
Proof.
  intros L. destruct (nth_error t m) as [nm|] eqn:E; [|apply nth_error_None in E; lia].
  unfold sem0_one. rewrite nth_states, E. cbn [option_map]. change (ld_name (state top t m (m, nm))) with (ld_name nm).
  assert (En : firstn (Datatypes.S m) (numbered (lnames t)) = firstn m (numbered (lnames t)) ++ [(m, ld_name nm)]) by (apply firstn_snoc; rewrite nth_numbered; unfold lnames; rewrite nth_mapped, E; reflexivity).
  assert (Eb : forall n, ld_blocks (set_child (ld_name nm) m (state top t m n)) = map (child_upto t (Datatypes.S m)) (ld_blocks (snd n))).
  { intros n. unfold set_child, state. cbn [ld_blocks]. rewrite map_map. apply map_ext. intros b. unfold child_upto. cbn [lb_master lb_pins lb_leaf lb_child]. rewrite En, pick_last_snoc. cbn [fst snd]. now destruct (String.eqb (lb_master b) (ld_name nm)). }
  apply nth_ext. intros j. rewrite nth_update, nth_mapped, !nth_states. destruct (nth_error t j) as [n|] eqn:Ej; [|now destruct (Nat.eqb m j)]. cbn [option_map].
  destruct (Nat.eqb_spec m j) as [<-|Hj].
  - rewrite E in Ej. injection Ej as <-. f_equal. rewrite Eb. cbn [ld_name ld_terms ld_nets ld_power ld_parents ld_top ld_syms set_child state fst snd].
    rewrite (add_parents_masters (ld_name nm) (states top t m) t) by apply states_masters.
    unfold state. cbn [fst snd]. rewrite Nat.ltb_irrefl. replace (Nat.ltb m (Datatypes.S m)) with true by (symmetry; apply Nat.ltb_lt; lia). reflexivity.
  - f_equal. specialize (Eb (j, n)). unfold set_child, state in *. cbn [fst snd ld_blocks ld_name ld_terms ld_nets ld_power ld_parents ld_top ld_syms] in *. rewrite Eb.
    replace (Nat.ltb j (Datatypes.S m)) with (Nat.ltb j m); [reflexivity|]. destruct (Nat.ltb_spec j m), (Nat.ltb_spec j (Datatypes.S m)); try reflexivity; lia.
Qed.
Lemma sem0_states top t : sem0 top t = map set_leaf (states top t (List.length t)).
Proof.
  unfold sem0. f_equal. assert (G : forall m, (m <= List.length t)%nat -> fold_left (sem0_one top) (seq 0 m) t = states top t m); [|now apply G].
  induction m as [|m IH]; intros L; [symmetry; apply states_0|]. rewrite seq_S, fold_left_app, IH by lia. cbn [fold_left]. apply step0. lia.
Qed.

Lemma numbered_snoc {A} (l : list A) x : numbered (l ++ [x]) = numbered l ++ [(List.length l, x)].
Proof.
  apply nth_ext. intros i. rewrite nth_numbered. destruct (Nat.lt_ge_cases i (List.length l)) as [L|L].
  - rewrite !nth_error_app1 by (rewrite ?numbered_length; lia). now rewrite nth_numbered.
  - rewrite !nth_error_app2 by (rewrite ?numbered_length; lia). rewrite numbered_length. destruct (i - List.length l)%nat as [|d] eqn:E; [cbn; do 2 f_equal; lia|]. cbn. now destruct d.
Qed.
Lemma in_ns_ok x l : in_ns x l = true <-> In x l.
Proof. unfold in_ns. rewrite existsb_exists. split; [intros (y & H & E); apply Nat.eqb_eq in E; now subst|intros H; exists x; split; [exact H|apply Nat.eqb_refl]]. Qed.
Lemma sorted_snoc l j : StronglySorted lt l -> (forall x, In x l -> (x < j)%nat) -> StronglySorted lt (l ++ [j]).
Proof.
  induction l as [|x l IH]; intros H L; [repeat constructor|]. inversion H as [|? ? H1 H2]; subst. cbn. constructor; [apply IH; [exact H1|intros y Hy; apply L; now right]|].
  apply Forall_app. split; [exact H2|]. repeat constructor. apply L. now left.
Qed.
Lemma add_parents_spec nm t : StronglySorted lt (add_parents nm t []) /\
  forall p, In p (add_parents nm t []) <-> exists n, nth_error t p = Some n /\ In nm (masters n).
Proof.
  induction t as [|n t IH] using rev_ind; [split; [constructor|]; intros p; cbn; split; [intros []|intros (n & H & _); now destruct p]|].
  destruct IH as (S1 & S2). unfold add_parents in *. rewrite numbered_snoc, fold_left_app. cbn [fold_left fst snd].
  set (ps := fold_left _ (numbered t) []) in *. set (j := List.length t).
  assert (L : forall x, In x ps -> (x < j)%nat) by (intros x Hx; apply S2 in Hx as (n' & Hn & _); apply nth_error_Some; congruence).
  set (F := fold_left _ (ld_blocks n)). 
  assert (G : F ps = if existsb (String.eqb nm) (masters n) then ps ++ [j] else ps).
  { unfold F, masters. clear - L. assert (G2 : forall bs, fold_left (fun ps0 b => if String.eqb (lb_master b) nm then if in_ns j ps0 then ps0 else ps0 ++ [j] else ps0) bs (ps ++ [j]) = ps ++ [j]).
    { induction bs as [|b bs IH]; [reflexivity|]. cbn [fold_left]. replace (in_ns j (ps ++ [j])) with true by (symmetry; apply in_ns_ok, in_app_iff; right; now left). now destruct (String.eqb (lb_master b) nm). }
    induction (ld_blocks n) as [|b bs IH]; [reflexivity|]. cbn [fold_left map existsb]. rewrite (String.eqb_sym nm). destruct (String.eqb (lb_master b) nm); [|exact IH]. cbn [orb].
    replace (in_ns j ps) with false; [apply G2|]. symmetry. apply not_true_is_false. intros H. apply in_ns_ok in H. specialize (L j H). lia. }
  assert (Ex : existsb (String.eqb nm) (masters n) = true <-> In nm (masters n)) by (rewrite existsb_exists; split; [intros (y & H & E); apply String.eqb_eq in E; now subst|intros H; exists nm; split; [exact H|apply String.eqb_refl]]).
  rewrite G. split; [destruct (existsb _ _); [now apply sorted_snoc|exact S1]|].
  intros p. assert (In p (if existsb (String.eqb nm) (masters n) then ps ++ [j] else ps) <-> In p ps \/ p = j /\ In nm (masters n)) as ->.
  { rewrite <- Ex. destruct (existsb _ _); [rewrite in_app_iff; cbn; intuition|intuition discriminate]. }
  rewrite S2. split.
  - intros [(n' & H & K)|(-> & K)]; [exists n'; split; [rewrite nth_error_app1; [exact H|apply nth_error_Some; congruence]|exact K]|exists n; split; [unfold j; rewrite nth_error_app2, Nat.sub_diag by lia; reflexivity|exact K]].
  - intros (n' & H & K). destruct (Nat.lt_ge_cases p j) as [Hp|Hp]; [left; exists n'; split; [now rewrite nth_error_app1 in H|exact K]|]. right. rewrite nth_error_app2 in H by exact Hp.
    fold j in H. destruct (p - j)%nat as [|d] eqn:E; [|cbn in H; now destruct d]. cbn in H. injection H as <-. split; [lia|exact K].
Qed.

(** * Nodes after semantic0 *)
(** A net of the module: its connections are those of the netlist. *)
Definition okn (m : vmod) (q : lnet) : Prop :=
  NoDup (ln_conn q) /\ (forall c, In c (ln_conn q) <-> on m (ln_name q) c) /\ ln_degree q = List.length (ln_conn q) /\ (ln_sink q = true <-> In (ln_name q) (vm_params m)) /\ ln_conn q <> [].
Lemma in_term_conns ts x c : In c (term_conns ts x) <-> exists t o, c = ToTerm t /\ nth_error ts t = Some (x, o).
Proof.
  unfold term_conns. rewrite in_flat_map. split.
  - intros ((t & (y & o)) & H & G). cbn [fst snd] in G. destruct (String.eqb_spec x y) as [->|]; [|destruct G]. destruct G as [<-|[]]. apply in_numbered in H. exists t, o. auto.
  - intros (t & o & -> & H). exists (t, (x, o)). split; [now apply in_numbered|]. cbn. rewrite String.eqb_refl. now left.
Qed.
Lemma term_conns_nodup ts x : NoDup (term_conns ts x).
Proof.
  unfold term_conns. rewrite numbered_enum. pose proof (enum_nodup ts 0) as H. induction (enum_from 0 ts) as [|(t & s) l IH]; [constructor|]. cbn [map flat_map fst snd] in *. inversion H as [|? ? H1 H2]; subst.
  destruct (String.eqb x (fst s)); [|now apply IH]. cbn. constructor; [|now apply IH]. intros G. apply in_flat_map in G as ((t' & s') & G & G'). cbn [fst snd] in G'. destruct (String.eqb x (fst s')); [|destruct G']. destruct G' as [[= ->]|[]]. apply H1. apply in_map_iff. exists (t, s'). auto.
Qed.
Lemma of_net_nodup x ps : NoDup (map fst ps) -> NoDup (of_net x ps).
Proof. apply map_filter_nodup. Qed.
Lemma in_of_net x ps c : In c (of_net x ps) <-> In (c, x) ps.
Proof.
  unfold of_net. rewrite in_map_iff. split.
  - intros ((c' & y) & <- & H). apply filter_In in H as (H & E). apply String.eqb_eq in E. cbn in *. now subst.
  - intros H. exists (c, x). split; [reflexivity|]. apply filter_In. split; [exact H|apply String.eqb_refl].
Qed.
Lemma map_inj_nodup {A B} (f : A -> B) l : (forall x y, f x = f y -> x = y) -> NoDup l -> NoDup (map f l).
Proof. intros I. induction 1 as [|x l H N IH]; cbn; constructor; [|exact IH]. intros G. apply in_map_iff in G as (y & E & G). apply I in E. now subst. Qed.
(** The node of a module after semantic0. *)
Definition node0 (top : string) (syms : string -> list (string * string)) (ms : list vmod) (m : vmod) (n : lnode) : Prop :=
  ld_name n = vm_name m /\ ld_syms n = syms (vm_name m) /\ ld_power n = [] /\ (ld_top n = true <-> vm_name m = top) /\
  StronglySorted lt (ld_parents n) /\
  (forall p, In p (ld_parents n) <-> exists mp i, nth_error ms p = Some mp /\ In i (vm_insts mp) /\ tmpl i (vm_name m)) /\
  map fst (ld_terms n) = vm_params m /\
  (forall t o, nth_error (ld_terms n) t = Some o -> snd o = None \/ exists q, In q (ld_nets n) /\ ln_name q = fst o) /\
  Forall2 (fun i b => tmpl i (lb_master b) /\ map fst (lb_pins b) = map fst (in_fa i) /\
             lb_child b = pick_last (String.eqb (lb_master b)) (numbered (map vm_name ms)) None /\ (lb_leaf b = true <-> lb_child b = None)) (vm_insts m) (ld_blocks n) /\
  NoDup (map ln_name (ld_nets n)) /\ (forall x, In x (map ln_name (ld_nets n)) <-> net_of m x) /\ Forall (okn m) (ld_nets n) /\ Forall (fun q => ln_sym q = None) (ld_nets n).
Lemma master_tmpl i x : master i = Some x <-> tmpl i x.
Proof. unfold master, tmpl. destruct (in_tmpl i); split; try (intros [= ->]; auto); intros [H|(H & K)]; congruence. Qed.
Lemma mapM_nth {A B} (f : A -> option B) l bs : mapM f l = Some bs -> forall j, match nth_error l j with Some a => exists b, nth_error bs j = Some b /\ f a = Some b | None => nth_error bs j = None end.
Proof.
  revert bs. induction l as [|a l IH]; intros bs E j; cbn in E; [injection E as <-; now destruct j|]. destruct (f a) as [b|] eqn:Ef; [|discriminate]. destruct (mapM f l) as [bs'|]; [|discriminate]. injection E as <-.
  destruct j as [|j]; cbn; [eauto|exact (IH bs' eq_refl j)].
Qed.
Lemma F2_nth {A B} (P : A -> B -> Prop) l l' : Forall2 P l l' -> forall j, match nth_error l j, nth_error l' j with Some a, Some b => P a b | None, None => True | _, _ => False end.
Proof. induction 1 as [|a b l l' H F IH]; intros [|j]; cbn; auto. exact (IH j). Qed.
Lemma F2_map {A B C D} (f : A -> C) (g : B -> D) (P : C -> D -> Prop) l l' : Forall2 (fun a b => P (f a) (g b)) l l' -> Forall2 P (map f l) (map g l').
Proof. induction 1; cbn; constructor; auto. Qed.
Lemma firstn_all_numbered {A} (l : list A) n : (List.length l <= n)%nat -> firstn n (numbered l) = numbered l.
Proof. intros H. apply firstn_all2. now rewrite numbered_length. Qed.
Lemma join_term_pick ns t : snd (join_term ns t) = pick_last (fun y => String.eqb y (fst t)) (numbered (map ln_name ns)) (snd t).
Proof.
  unfold join_term, pick_last. cbn [snd]. rewrite <- numbered_names. generalize (snd t) as o, (numbered ns) as l. intros o l. revert o. induction l as [|a l IH]; intros o; [reflexivity|]. cbn [map fold_left fst snd]. apply IH.
Qed.
Lemma node0_ok top syms ms ns : mapM read_module ms = Some ns -> let t := sem0 top (map (init_node syms) ns) in
  List.length t = List.length ms /\ forall j m, nth_error ms j = Some m -> exists n, nth_error t j = Some n /\ node0 top syms ms m n.
Proof.
  intros E t. pose proof (mapM_length _ _ _ E) as El. pose proof (mapM_nth _ _ _ E) as En.
  set (t0 := map (init_node syms) ns) in *.
  assert (Lt : List.length t0 = List.length ms) by (unfold t0; rewrite map_length; lia).
  unfold t. rewrite sem0_states. split; [rewrite map_length; unfold states; rewrite map_length, numbered_length; exact Lt|].
  intros j m Hj. pose proof (En j) as Ej. rewrite Hj in Ej. destruct Ej as (pn & Hpn & Er). apply module_good in Er. cbn zeta in Er. set (ps := pins_from 0 (vm_insts m)) in *. destruct Er as (R1 & R2 & _ & R4 & R5).
  assert (Hn : nth_error t0 j = Some (init_node syms pn)) by (unfold t0; rewrite nth_mapped, Hpn; reflexivity).
  eexists. split; [rewrite nth_mapped, nth_states, Hn; reflexivity|].
  assert (Lj : Nat.ltb j (List.length t0) = true) by (apply Nat.ltb_lt; apply nth_error_Some; congruence).
  assert (Nm : lnames t0 = map vm_name ms).
  { apply nth_ext. intros i. unfold lnames, t0. rewrite map_map, !nth_mapped. specialize (En i). destruct (nth_error ms i) as [mi|]; [|now rewrite En]. destruct En as (b & -> & Hb). apply module_good in Hb as (_ & _ & _ & Hb & _). cbn. now rewrite Hb. }
  unfold node0, state, set_leaf. cbn [fst snd ld_name ld_syms ld_power ld_top ld_parents ld_terms ld_blocks ld_nets init_node]. rewrite Lj, R4, R5. cbn [orb].
  split; [reflexivity|]. split; [reflexivity|]. split; [reflexivity|]. split; [apply String.eqb_eq|]. destruct (add_parents_spec (vm_name m) t0) as (P1 & P2). split; [exact P1|]. split.
  { intros p. rewrite P2. split.
    - intros (n & Hp & Hi). unfold t0 in Hp. rewrite nth_mapped in Hp. specialize (En p). destruct (nth_error ms p) as [mp|]; [|rewrite En in Hp; discriminate]. destruct En as (b & Eb & Hb). rewrite Eb in Hp. injection Hp as <-. apply module_good in Hb as (_ & Hb & _).
      unfold masters in Hi. cbn in Hi. rewrite map_map in Hi. cbn in Hi. apply in_map_iff in Hi as (pb & Epb & Hi). apply In_nth_error in Hi as (k & Hk). pose proof (F2_nth _ _ _ Hb k) as Hb'. rewrite Hk in Hb'. destruct (nth_error (vm_insts mp) k) as [i|] eqn:Ei; [|contradiction].
      exists mp, i. split; [reflexivity|]. split; [now apply nth_error_In in Ei|]. apply master_tmpl. destruct Hb' as (Hb' & _). congruence.
    - intros (mp & i & Hp & Hi & Ht). specialize (En p). rewrite Hp in En. destruct En as (b & Eb & Hb). exists (init_node syms b). split; [unfold t0; rewrite nth_mapped, Eb; reflexivity|]. apply module_good in Hb as (_ & Hb & _).
      apply In_nth_error in Hi as (k & Hk). pose proof (F2_nth _ _ _ Hb k) as Hb'. rewrite Hk in Hb'. destruct (nth_error (pn_blocks b) k) as [pb|] eqn:Ei; [|contradiction]. unfold masters. cbn. rewrite map_map. cbn. apply in_map_iff. exists pb. split; [|now apply nth_error_In in Ei].
      apply master_tmpl in Ht. destruct Hb' as (Hb' & _). congruence. }
  split; [rewrite !map_map; cbn; apply map_id|]. split.
  { intros k o Hk. rewrite !map_map, nth_mapped in Hk. destruct (nth_error (vm_params m) k) as [x|]; [|discriminate]. cbn [option_map join_term fst snd] in Hk. injection Hk as <-. cbn [fst snd].
    match goal with |- ?a = None \/ _ => destruct a as [l|] eqn:F; [right|now left] end.
    assert (F' : pick_last (fun y => String.eqb y x) (numbered (map ln_name (map (fun q => mkLnet (fst q) (List.length (snd q)) (map (fun c => ToBlk (fst c) (snd c)) (snd q)) false None) (pn_nets pn)))) None = Some l).
    { rewrite <- F. symmetry. apply (join_term_pick _ (x, None)). }
    apply pick_last_some in F' as (y & Hy & Ey). apply String.eqb_eq in Ey as ->. apply in_numbered in Hy. rewrite nth_mapped in Hy. match type of Hy with option_map _ (nth_error ?L l) = _ => destruct (nth_error L l) as [q|] eqn:Eq; [|discriminate]; exists (join_net (map (fun t1 => (t1, None)) (vm_params m)) q) end.
    split; [apply in_map; apply nth_error_In in Eq; exact Eq|]. cbn in Hy |- *. congruence. }
  split.
  { rewrite !map_map. rewrite <- (map_id (vm_insts m)). apply F2_map. eapply F2_impl; [|exact R2]. intros i pb (B1 & B2 & B3). cbn [lb_master lb_pins lb_child lb_leaf child_upto]. split; [now apply master_tmpl|]. split.
    - rewrite map_map. cbn. clear - B3. induction B3 as [|a b l l' (H & _) F IH]; [reflexivity|]. cbn. now f_equal.
    - rewrite Nm, firstn_all_numbered by (rewrite map_length; lia). split; [reflexivity|]. now destruct (pick_last _ _ _). }
  rewrite R1. rewrite !map_map. cbn [ln_name join_net fst snd]. rewrite map_id. split; [apply firsts_nodup|]. split.
  { intros x. rewrite in_firsts. split.
    - intros H. apply in_map_iff in H as (((k & b) & y) & <- & H). exists k, b. now apply in_pins.
    - intros (k & b & H). apply in_pins in H. apply in_map_iff. now exists (k, b, x). }
  split; [|apply Forall_forall; intros q Hq; apply in_map_iff in Hq as (x & <- & _); reflexivity].
  apply Forall_forall. intros q Hq. apply in_map_iff in Hq as (x & <- & Hx). unfold okn. cbn [ln_name ln_conn ln_degree ln_sink join_net fst snd orb].
  set (tc := term_conns _ x). assert (Htc : forall c, In c tc <-> exists k, c = ToTerm k /\ nth_error (vm_params m) k = Some x).
  { intros c. unfold tc. rewrite in_term_conns. split; [intros (k & o & -> & H)|intros (k & -> & H)].
    - exists k. rewrite nth_mapped in H. destruct (nth_error (vm_params m) k); [|discriminate]. injection H as -> _. auto.
    - exists k, None. rewrite nth_mapped, H. auto. }
  split.
  { apply nodup_app2; [apply map_inj_nodup; [intros (? & ?) (? & ?) [= -> ->]; reflexivity|apply of_net_nodup, pins_keys_nodup]|apply term_conns_nodup|].
    intros c H G. apply Htc in G as (k & -> & _). apply in_map_iff in H as (? & ? & _). discriminate. }
  split.
  { intros c. rewrite in_app_iff, Htc. destruct c as [k b|k]; cbn [on].
    - split; [intros [H|(? & H & _)]; [|discriminate]|]; [apply in_map_iff in H as ((k' & b') & [= -> ->] & H); apply in_of_net in H; now apply in_pins|].
      intros H. left. apply in_map_iff. exists (k, b). split; [reflexivity|]. apply in_of_net. now apply in_pins.
    - split; [intros [H|(k' & [= ->] & H)]; [apply in_map_iff in H as (? & ? & _); discriminate|exact H]|]. intros H. right. exists k. auto. }
  split; [rewrite app_length, map_length; reflexivity|]. split.
  { split.
    - intros H. clearbody tc. destruct tc as [|c0 tc']; [discriminate|]. destruct (proj1 (Htc c0) (or_introl eq_refl)) as (k & _ & Hk). now apply nth_error_In in Hk.
    - intros H. apply In_nth_error in H as (k & Hk). pose proof (proj2 (Htc (ToTerm k)) (ex_intro _ k (conj eq_refl Hk))) as G. clearbody tc. destruct tc; [destruct G|reflexivity]. }
  apply in_firsts, in_map_iff in Hx as ((kb & y) & Ey & Hx). cbn in Ey. subst y. intros G. assert (Hi : In kb (of_net x ps)) by now apply in_of_net.
  apply (in_map (fun c => ToBlk (fst c) (snd c))) in Hi. assert (K : forall l (c : conn), In c l -> l ++ tc <> []) by (intros [|? ?] ? Hc; [destruct Hc|discriminate]). exact (K _ _ Hi G).
Qed.

(** * semantic1 *)
Definition kd (s : gsig) : bool := match kind_of (snd (fst s)) with Some v => v | None => false end.
Definition splits (sigs : list gsig) (n : lnode) : lnode := fold_left (fun n s => split_power s (kd s) n) sigs n.
Lemma sem1_ok sigs t : sem1 sigs t = if forallb (fun s => match kind_of (snd (fst s)) with Some _ => true | None => false end) sigs then Some (map (splits sigs) t) else None.
Proof.
  unfold sem1. revert t. induction sigs as [|s sigs IH]; intros t; cbn [foldO forallb]; [cbn; f_equal; symmetry; apply map_id|].
  unfold sem1_one at 1. assert (K : forall v, kind_of (snd (fst s)) = Some v -> kd s = v) by (intros v Hv; unfold kd; now rewrite Hv). destruct (kind_of (snd (fst s))) as [v|]; [|reflexivity]. cbn [andb]. rewrite IH. match goal with |- (if ?b then _ else _) = _ => destruct b; [|reflexivity] end. rewrite map_map. f_equal. apply map_ext. intros n. unfold splits. cbn [fold_left]. now rewrite (K v eq_refl).
Qed.
Definition nonemp (p : pwr) : bool := match pw_conn p with [] => false | _ => true end.
Definition supplyb (sigs : list gsig) (x : string) : bool := existsb (fun s => sig_hits s x) sigs.
Definition vddb (sigs : list gsig) (x : string) : bool := match find (fun s => sig_hits s x) sigs with Some s => kd s | None => false end.
Definition as_pwr (sigs : list gsig) (q : lnet) : pwr := mkPwr (ln_name q) (vddb sigs (ln_name q)) (ln_conn q) [].
Lemma sig_hits_ok s x : sig_hits s x = true <-> names s x.
Proof. unfold sig_hits, names. rewrite orb_true_iff, !String.eqb_eq. tauto. Qed.
Lemma supplyb_ok sigs x : supplyb sigs x = true <-> supply sigs x.
Proof. unfold supplyb, supply. rewrite existsb_exists. split; intros (s & H & G); exists s; (split; [exact H|]); now apply sig_hits_ok. Qed.
Lemma filter_split {A} (p q : A -> bool) l : Permutation (filter (fun x => p x || q x) l) (filter p l ++ filter (fun x => negb (p x) && q x) l).
Proof.
  induction l as [|x l IH]; [constructor|]. cbn [filter]. destruct (p x); cbn [orb negb andb].
  - cbn. now constructor.
  - destruct (q x); [|exact IH]. transitivity (x :: filter p l ++ filter (fun x => negb (p x) && q x) l); [now constructor|apply Permutation_middle].
Qed.
Lemma filter_filter {A} (p q : A -> bool) l : filter p (filter q l) = filter (fun x => q x && p x) l.
Proof. induction l as [|x l IH]; [reflexivity|]. cbn. destruct (q x); cbn; [destruct (p x); now rewrite IH|exact IH]. Qed.
Lemma vddb_snoc_old sigs s x : supplyb sigs x = true -> vddb (sigs ++ [s]) x = vddb sigs x.
Proof.
  unfold supplyb, vddb. induction sigs as [|s' sigs IH]; [discriminate|]. cbn. destruct (sig_hits s' x); [reflexivity|exact IH].
Qed.
Lemma vddb_snoc_new sigs s x : supplyb sigs x = false -> sig_hits s x = true -> vddb (sigs ++ [s]) x = kd s.
Proof. unfold supplyb, vddb. induction sigs as [|s' sigs IH]; cbn; [now intros _ ->|]. destruct (sig_hits s' x); [discriminate|exact IH]. Qed.
Lemma splits_ok sigs n : ld_power n = [] -> Forall (fun q => ln_conn q <> []) (ld_nets n) ->
  let n' := splits sigs n in
  (ld_name n' = ld_name n /\ ld_terms n' = ld_terms n /\ ld_blocks n' = ld_blocks n /\ ld_parents n' = ld_parents n /\ ld_top n' = ld_top n /\ ld_syms n' = ld_syms n) /\
  ld_nets n' = filter (fun q => negb (supplyb sigs (ln_name q))) (ld_nets n) /\
  Permutation (filter nonemp (ld_power n')) (map (as_pwr sigs) (filter (fun q => supplyb sigs (ln_name q)) (ld_nets n))) /\
  (forall p, In p (ld_power n') -> pw_pins p = [] /\ (nonemp p = false -> exists s, In s sigs /\ pw_name p = snd s /\ pw_vdd p = kd s)).
Proof.
  intros P0 Ne. induction sigs as [|s sigs IH] using rev_ind; cbn zeta.
  - cbn. split; [now repeat split|]. split; [symmetry; clear; induction (ld_nets n) as [|q l IH]; [reflexivity|]; cbn; now f_equal|]. rewrite P0. split; [|intros p []]. replace (filter _ (ld_nets n)) with (@nil lnet); [constructor|]. clear. induction (ld_nets n); auto.
  - unfold splits in *. rewrite fold_left_app. cbn [fold_left]. set (m := fold_left _ sigs n) in *. cbn zeta in IH. destruct IH as (I1 & I2 & I3 & I4).
    unfold split_power. cbn [ld_name ld_terms ld_blocks ld_parents ld_top ld_syms ld_nets ld_power]. split; [exact I1|].
    assert (Es : forall x, supplyb (sigs ++ [s]) x = supplyb sigs x || sig_hits s x) by (intros x; unfold supplyb; rewrite existsb_app; cbn; now rewrite orb_false_r).
    split; [rewrite I2, filter_filter; apply filter_ext; intros q; rewrite Es; now rewrite negb_orb|].
    set (hit := filter (fun q => sig_hits s (ln_name q)) (ld_nets m)).
    assert (Eh : hit = filter (fun q => negb (supplyb sigs (ln_name q)) && sig_hits s (ln_name q)) (ld_nets n)) by (unfold hit; rewrite I2; apply filter_filter).
    set (pw := map (fun q => mkPwr (ln_name q) (kd s) (ln_conn q) []) hit).
    assert (Ep : filter nonemp pw = map (as_pwr (sigs ++ [s])) hit).
    { unfold pw. assert (Hh : forall q, In q hit -> ln_conn q <> [] /\ supplyb sigs (ln_name q) = false /\ sig_hits s (ln_name q) = true).
      { rewrite Eh. intros q Hq. apply filter_In in Hq as (Hq & E). apply andb_true_iff in E as (E1 & E2). apply negb_true_iff in E1. rewrite Forall_forall in Ne. auto. }
      clear - Hh. induction hit as [|q l IH]; [reflexivity|]. cbn [map filter]. destruct (Hh q (or_introl eq_refl)) as (H1 & H2 & H3). unfold nonemp at 1. cbn [pw_conn]. destruct (ln_conn q) as [|c cs] eqn:Ec; [contradiction|]. f_equal; [|apply IH; intros r Hr; apply Hh; now right].
      unfold as_pwr. rewrite Ec. now rewrite (vddb_snoc_new sigs s _ H2 H3). }
    assert (Er : filter nonemp match hit with [] => [mkPwr (snd s) (kd s) [] []] | _ => pw end = map (as_pwr (sigs ++ [s])) hit) by (rewrite <- Ep; unfold pw; clear; destruct hit; reflexivity).
    split.
    + rewrite filter_app. fold pw. rewrite Er, I3.
      transitivity (map (as_pwr (sigs ++ [s])) (filter (fun q => supplyb sigs (ln_name q)) (ld_nets n) ++ hit)).
      * rewrite map_app. apply Permutation_app_tail. apply Permutation_refl'. apply map_ext_in. intros q Hq. apply filter_In in Hq as (_ & Hq). unfold as_pwr. now rewrite (vddb_snoc_old sigs s _ Hq).
      * apply Permutation_map. rewrite Eh. symmetry. rewrite <- filter_split. apply Permutation_refl'. apply filter_ext. intros q. apply Es.
    + intros p Hp. apply in_app_iff in Hp as [Hp|Hp].
      * destruct (I4 p Hp) as (A & B). split; [exact A|]. intros H. destruct (B H) as (s' & Hs & G). exists s'. split; [apply in_app_iff; now left|exact G].
      * assert (In p [mkPwr (snd s) (kd s) [] []] \/ In p pw) as [Hq|Hq] by (clear - Hp; fold pw in Hp; destruct hit; auto).
        -- destruct Hq as [<-|[]]. split; [reflexivity|]. intros _. exists s. split; [apply in_app_iff; right; now left|auto].
        -- unfold pw in Hq. apply in_map_iff in Hq as (q & <- & Hq). split; [reflexivity|]. unfold nonemp. cbn [pw_conn]. intros E. exfalso. rewrite Eh in Hq. apply filter_In in Hq as (Hq & _). rewrite Forall_forall in Ne. apply (Ne q Hq). now destruct (ln_conn q).
Qed.

(** * semantic2 *)
Definition conn_eq_dec (c d : conn) : {c = d} + {c <> d}.
Proof. decide equality; apply Nat.eq_dec. Defined.
Definition get (s : slots) (c : conn) : option (option nat) :=
  match c with
  | ToBlk k b => match nth_error (snd s) b with Some bl => option_map snd (nth_error (lb_pins bl) k) | None => None end
  | ToTerm t => option_map snd (nth_error (fst s) t)
  end.
Lemma get_put s c v d : get (put s (c, v)) d = if conn_eq_dec c d then option_map (fun _ => v) (get s d) else get s d.
Proof.
  destruct (conn_eq_dec c d) as [<-|N].
  - destruct c as [k b|t]; cbn [put get fst snd]; rewrite nth_update, Nat.eqb_refl.
    + destruct (nth_error (snd s) b) as [bl|]; [|reflexivity]. cbn [option_map lb_pins set_pin]. rewrite nth_update, Nat.eqb_refl. now destruct (nth_error (lb_pins bl) k).
    + now destruct (nth_error (fst s) t).
  - destruct c as [k b|t], d as [k' b'|t']; cbn [put get fst snd]; try reflexivity; rewrite nth_update.
    + destruct (Nat.eqb_spec b b') as [<-|]; [|reflexivity]. destruct (nth_error (snd s) b) as [bl|]; [|reflexivity]. cbn [option_map lb_pins set_pin]. rewrite nth_update. destruct (Nat.eqb_spec k k') as [<-|]; [now destruct N|reflexivity].
    + destruct (Nat.eqb_spec t t') as [<-|]; [now destruct N|reflexivity].
Qed.
Lemma fold_put ws s c v : (forall w, In w ws -> fst w = c -> snd w = v) -> get s c <> None -> (exists w, In w ws /\ fst w = c) \/ get s c = Some v -> get (fold_left put ws s) c = Some v.
Proof.
  revert s. induction ws as [|(d & u) ws IH]; intros s H D O; [destruct O as [(w & [] & _)|O]; exact O|]. cbn [fold_left]. apply IH.
  - intros w Hw. apply H. now right.
  - rewrite get_put. destruct (conn_eq_dec d c); [|exact D]. now destruct (get s c).
  - rewrite get_put. destruct (conn_eq_dec d c) as [->|N].
    + right. rewrite <- (H (c, u) (or_introl eq_refl) eq_refl). destruct (get s c); [reflexivity|contradiction].
    + destruct O as [(w & [<-|Hw] & E)|O]; [contradiction|left; exists w; auto|right; exact O].
Qed.
Definition bsig (b : lblock) := (lb_master b, map fst (lb_pins b), lb_child b, lb_leaf b).
Lemma map_update {A B} (g : A -> B) f l i : (forall x, g (f x) = g x) -> map g (update_nth l i f) = map g l.
Proof. intros H. revert i. induction l as [|x l IH]; intros [|i]; cbn; [reflexivity|reflexivity|now rewrite H|now rewrite IH]. Qed.
Lemma put_sig ws s : map fst (fst (fold_left put ws s)) = map fst (fst s) /\ map bsig (snd (fold_left put ws s)) = map bsig (snd s).
Proof.
  revert s. induction ws as [|(c & v) ws IH]; intros s; [split; reflexivity|]. cbn [fold_left]. destruct (IH (put s (c, v))) as (-> & ->). destruct c as [k b|t]; cbn [put fst snd].
  - split; [reflexivity|]. apply map_update. intros bl. unfold bsig. cbn. now rewrite map_update.
  - split; [now apply map_update|reflexivity].
Qed.

Definition erase (q : lnet) : lnet := mkLnet (ln_name q) (ln_degree q) (ln_conn q) (ln_sink q) None.
Definition base (n : lnode) : lnode := mkLnode (ld_name n) (ld_terms n) (ld_blocks n) (map erase (ld_nets n)) (ld_power n) (ld_parents n) (ld_top n) (ld_syms n).
Lemma base_number n : base (number_nets n) = number_nets (base n).
Proof.
  assert (E : writes (base n) = writes n).
  { unfold writes. change (ld_nets (base n)) with (map erase (ld_nets n)). change (ld_power (base n)) with (ld_power n). f_equal. rewrite <- numbered_names. generalize (numbered (ld_nets n)). intros l. induction l as [|q l IH]; [reflexivity|]. cbn. now rewrite IH. }
  unfold number_nets. rewrite E. reflexivity.
Qed.
Lemma pair_nets_base ns p ns' : pair_nets ns p = Some ns' -> map erase ns' = map erase ns.
Proof.
  unfold pair_nets. destruct (find_net ns (fst p)) as [i|]; [|discriminate]. destruct (find_net ns (snd p)) as [j|]; [|discriminate]. intros [= <-]. now rewrite !map_update.
Qed.
Lemma pairs_base l ns ns' : foldO pair_nets l ns = Some ns' -> map erase ns' = map erase ns.
Proof.
  revert ns. induction l as [|p l IH]; intros ns; cbn; [now intros [= ->]|]. destruct (pair_nets ns p) as [n1|] eqn:E; [|discriminate]. intros H. rewrite (IH _ H). now apply pair_nets_base in E.
Qed.
Lemma pair_node_base n n' : pair_node n = Some n' -> base n' = base n /\ ld_syms n' = ld_syms n.
Proof. unfold pair_node. destruct (foldO pair_nets _ _) as [ns|] eqn:E; [|discriminate]. intros [= <-]. unfold base. cbn. now rewrite (pairs_base _ _ _ E). Qed.
Lemma erase_names ns ns' : map erase ns = map erase ns' -> map ln_name ns = map ln_name ns'.
Proof. intros H. assert (E : forall l, map ln_name l = map ln_name (map erase l)) by (intros l; rewrite map_map; apply map_ext; reflexivity). rewrite (E ns), (E ns'). now rewrite H. Qed.
Lemma find_net_some ns x : In x (map ln_name ns) <-> find_net ns x <> None.
Proof.
  induction ns as [|n ns IH]; [split; [intros []|intros H; now destruct H]|]. cbn. destruct (String.eqb_spec (ln_name n) x) as [->|N]; [split; [discriminate|now left]|].
  destruct (find_net ns x) as [i|] eqn:E; cbn; rewrite IH; split; try (intros; discriminate); intros; [right; discriminate|destruct H; auto|now destruct H].
Qed.
Lemma find_net_nth ns x i : find_net ns x = Some i -> nth_error (map ln_name ns) i = Some x.
Proof.
  revert i. induction ns as [|n ns IH]; intros i; [discriminate|]. cbn. destruct (String.eqb_spec (ln_name n) x) as [->|N]; [now intros [= <-]|]. destruct (find_net ns x) as [k|]; [|discriminate]. intros [= <-]. now apply IH.
Qed.
Lemma pair_node_def n : pair_node n <> None <-> forall p, In p (ld_syms n) -> In (fst p) (map ln_name (ld_nets n)) /\ In (snd p) (map ln_name (ld_nets n)).
Proof.
  unfold pair_node. assert (G : forall l ns, foldO pair_nets l ns <> None <-> forall p, In p l -> In (fst p) (map ln_name ns) /\ In (snd p) (map ln_name ns)).
  { induction l as [|p l IH]; intros ns; cbn; [split; [intros _ ? []|discriminate]|]. destruct (pair_nets ns p) as [n1|] eqn:E.
    - rewrite IH. rewrite (erase_names _ _ (pair_nets_base _ _ _ E)). unfold pair_nets in E. destruct (find_net ns (fst p)) as [i|] eqn:F1; [|discriminate]. destruct (find_net ns (snd p)) as [j|] eqn:F2; [|discriminate].
      split; [intros H q [<-|Hq]; [|auto]; split; apply find_net_some; congruence|intros H q Hq; auto].
    - split; [now intros []|]. intros H. exfalso. destruct (H p (or_introl eq_refl)) as (H1 & H2). apply find_net_some in H1, H2. unfold pair_nets in E. destruct (find_net ns (fst p)); [|contradiction]. destruct (find_net ns (snd p)); [discriminate|contradiction]. }
  rewrite <- G. destruct (foldO _ _ _); split; congruence.
Qed.
Definition symAt (ns : list lnet) (i : nat) : option nat := match nth_error ns i with Some q => ln_sym q | None => None end.
Lemma symAt_update ns i v j : symAt (update_nth ns i (set_sym v)) j = if Nat.eqb i j then (if Nat.ltb j (List.length ns) then Some v else None) else symAt ns j.
Proof.
  unfold symAt. rewrite nth_update. destruct (Nat.eqb_spec i j) as [<-|]; [|reflexivity]. destruct (nth_error ns i) as [q|] eqn:E; cbn [option_map ln_sym set_sym].
  - replace (Nat.ltb i (List.length ns)) with true; [reflexivity|]. symmetry. apply Nat.ltb_lt, nth_error_Some. congruence.
  - replace (Nat.ltb i (List.length ns)) with false; [reflexivity|]. symmetry. apply Nat.ltb_ge. now apply nth_error_None.
Qed.
Lemma pairs_other l ns ns' x i : foldO pair_nets l ns = Some ns' -> nth_error (map ln_name ns) i = Some x -> (forall p, In p l -> fst p <> x /\ snd p <> x) -> symAt ns' i = symAt ns i.
Proof.
  revert ns. induction l as [|p l IH]; intros ns; cbn; [now intros [= ->]|]. destruct (pair_nets ns p) as [n1|] eqn:E; [|discriminate]. intros H Hx Hp.
  rewrite (IH n1 H); [|now rewrite (erase_names _ _ (pair_nets_base _ _ _ E))|intros q Hq; apply Hp; now right]. unfold pair_nets in E.
  destruct (find_net ns (fst p)) as [a|] eqn:F1; [|discriminate]. destruct (find_net ns (snd p)) as [b|] eqn:F2; [|discriminate]. injection E as <-. apply find_net_nth in F1, F2. destruct (Hp p (or_introl eq_refl)) as (Q1 & Q2).
  rewrite !symAt_update. destruct (Nat.eqb_spec b i) as [->|]; [congruence|]. destruct (Nat.eqb_spec a i) as [->|]; [congruence|]. reflexivity.
Qed.
Lemma pairs_last l a b l' ns ns' : foldO pair_nets (l ++ (a, b) :: l') ns = Some ns' -> NoDup (map ln_name ns) -> (forall p, In p l' -> fst p <> a /\ snd p <> a /\ fst p <> b /\ snd p <> b) ->
  exists i j, nth_error (map ln_name ns) i = Some a /\ nth_error (map ln_name ns) j = Some b /\ symAt ns' i = Some j /\ symAt ns' j = Some i.
Proof.
  revert ns. induction l as [|p l IH]; intros ns; cbn [app foldO].
  - destruct (pair_nets ns (a, b)) as [n1|] eqn:E; [|discriminate]. intros H N Hp. pose proof (erase_names _ _ (pair_nets_base _ _ _ E)) as En. unfold pair_nets in E. cbn [fst snd] in E.
    destruct (find_net ns a) as [i|] eqn:F1; [|discriminate]. destruct (find_net ns b) as [j|] eqn:F2; [|discriminate]. injection E as <-. apply find_net_nth in F1, F2. exists i, j. split; [exact F1|]. split; [exact F2|].
    assert (Li : Nat.ltb i (List.length ns) = true) by (apply Nat.ltb_lt; rewrite <- (map_length ln_name); apply nth_error_Some; congruence).
    assert (Lj : Nat.ltb j (List.length ns) = true) by (apply Nat.ltb_lt; rewrite <- (map_length ln_name); apply nth_error_Some; congruence).
    rewrite (pairs_other _ _ _ a i H), (pairs_other _ _ _ b j H); try (now rewrite En); try (intros q Hq; destruct (Hp q Hq) as (? & ? & ? & ?); auto).
    rewrite !symAt_update, !Nat.eqb_refl, update_length, Li, Lj. destruct (Nat.eqb_spec j i) as [->|]; auto.
  - destruct (pair_nets ns p) as [n1|] eqn:E; [|discriminate]. intros H N Hp. pose proof (erase_names _ _ (pair_nets_base _ _ _ E)) as En. rewrite <- En. apply IH; [exact H|now rewrite En|exact Hp].
Qed.

Lemma foldO_app' {A B} (f : B -> A -> option B) l l' b : foldO f (l ++ l') b = match foldO f l b with Some c => foldO f l' c | None => None end.
Proof. revert b. induction l as [|x l IH]; intros b; [reflexivity|]. cbn. destruct (f b x); [apply IH|reflexivity]. Qed.
Definition good2 (t u : ltree) (m : nat) : Prop :=
  List.length u = List.length t /\ forall j n, nth_error t j = Some n -> exists n', nth_error u j = Some n' /\ base n' = (if Nat.ltb j m then number_nets (base n) else base n) /\ ((0 < m)%nat -> exists n1, base n1 = base n' /\ pair_node n1 = Some n').
Lemma base_nets n n' : base n = base n' -> map ln_name (ld_nets n) = map ln_name (ld_nets n').
Proof. intros H. apply erase_names. now injection H. Qed.
Lemma number_nets_nets n : ld_nets (number_nets n) = ld_nets n. Proof. reflexivity. Qed.
Lemma good2_step t u m : good2 t u m -> (m < List.length t)%nat ->
  match sem2_one u m with Some u' => good2 t u' (Datatypes.S m) /\ forall n, In n t -> pair_node n <> None | None => exists n, In n t /\ pair_node n = None end.
Proof.
  intros (L & H) Lm. unfold sem2_one. set (u1 := update_nth u m number_nets).
  assert (H1 : forall j n, nth_error t j = Some n -> exists n1, nth_error u1 j = Some n1 /\ base n1 = if Nat.ltb j (Datatypes.S m) then number_nets (base n) else base n).
  { intros j n Hj. destruct (H j n Hj) as (n' & Hn' & Hb & _). unfold u1. rewrite nth_update, Hn'. destruct (Nat.eqb_spec m j) as [<-|N].
    - exists (number_nets n'). split; [reflexivity|]. rewrite base_number, Hb, Nat.ltb_irrefl. replace (Nat.ltb m (Datatypes.S m)) with true by (symmetry; apply Nat.ltb_lt; lia). reflexivity.
    - exists n'. split; [reflexivity|]. rewrite Hb. replace (Nat.ltb j (Datatypes.S m)) with (Nat.ltb j m); [reflexivity|]. destruct (Nat.ltb_spec j m), (Nat.ltb_spec j (Datatypes.S m)); try reflexivity; lia. }
  assert (Def : forall j n n1, nth_error t j = Some n -> nth_error u1 j = Some n1 -> (pair_node n1 <> None <-> pair_node n <> None)).
  { intros j n n1 Hj Hj1. destruct (H1 j n Hj) as (n2 & Hn2 & Hb). rewrite Hj1 in Hn2. injection Hn2 as <-. rewrite !pair_node_def.
    assert (E1 : map ln_name (ld_nets n1) = map ln_name (ld_nets n)) by (destruct (Nat.ltb j _); [rewrite <- base_number in Hb; exact (base_nets _ _ Hb)|exact (base_nets _ _ Hb)]).
    assert (E2 : ld_syms n1 = ld_syms n) by (destruct (Nat.ltb j _); injection Hb; congruence). now rewrite E1, E2. }
  assert (L1 : List.length u1 = List.length t) by (unfold u1; rewrite update_length; exact L).
  destruct (mapM pair_node u1) as [u'|] eqn:E.
  - pose proof (mapM_nth _ _ _ E) as En. split.
    + split; [rewrite (mapM_length _ _ _ E); exact L1|]. intros j n Hj. destruct (H1 j n Hj) as (n1 & Hn1 & Hb). specialize (En j). rewrite Hn1 in En. destruct En as (n' & Hn' & Hp). exists n'. split; [exact Hn'|]. destruct (pair_node_base _ _ Hp) as (B & _). split; [congruence|]. intros _. exists n1. auto.
    + intros n Hn. apply In_nth_error in Hn as (j & Hj). destruct (H1 j n Hj) as (n1 & Hn1 & _). apply (Def j n n1 Hj Hn1). specialize (En j). rewrite Hn1 in En. destruct En as (n' & _ & Hp). congruence.
  - assert (G : exists n1, In n1 u1 /\ pair_node n1 = None).
    { clear - E. clearbody u1. induction u1 as [|n u' IH]; [discriminate|]. cbn in E. destruct (pair_node n) eqn:F; [|exists n; split; [now left|exact F]]. destruct (mapM pair_node u'); [discriminate|]. destruct (IH eq_refl) as (n1 & ? & ?). exists n1. split; [now right|assumption]. }
    destruct G as (n1 & Hn1 & F). apply In_nth_error in Hn1 as (j & Hj). destruct (nth_error t j) as [n|] eqn:Et; [|apply nth_error_None in Et; assert (j < List.length u1)%nat by (apply nth_error_Some; congruence); lia].
    exists n. split; [now apply nth_error_In in Et|]. destruct (pair_node n) eqn:G; [|reflexivity]. exfalso. apply (proj2 (Def j n n1 Et Hj)); congruence.
Qed.
Lemma sem2_ok t : match sem2 t with Some t' => good2 t t' (List.length t) /\ forall n, In n t -> pair_node n <> None | None => exists n, In n t /\ pair_node n = None end.
Proof.
  unfold sem2. assert (G : forall m, (m <= List.length t)%nat -> match foldO sem2_one (seq 0 m) t with Some t' => good2 t t' m /\ ((0 < m)%nat -> forall n, In n t -> pair_node n <> None) | None => exists n, In n t /\ pair_node n = None end).
  { induction m as [|m IH]; intros L.
    - cbn. split; [|lia]. split; [reflexivity|]. intros j n Hj. exists n. split; [exact Hj|]. split; [reflexivity|lia].
    - rewrite seq_S, foldO_app'. specialize (IH ltac:(lia)). destruct (foldO sem2_one (seq 0 m) t) as [u|]; [|exact IH]. destruct IH as (Gd & _). cbn [foldO Nat.add]. pose proof (good2_step t u m Gd ltac:(lia)) as St. destruct (sem2_one u m) as [u'|]; [|exact St]. destruct St as (S1 & S2). split; [exact S1|]. intros _. exact S2. }
  specialize (G _ (le_n _)). destruct (foldO sem2_one _ t) as [t'|]; [|exact G]. destruct G as (G1 & G2). split; [exact G1|]. destruct t as [|n0 t]; [intros n []|]. apply G2. cbn. lia.
Qed.

(** * All passes *)
Lemma supplyb_false sigs x : supplyb sigs x = false <-> ~ supply sigs x.
Proof. rewrite <- supplyb_ok. now destruct (supplyb sigs x). Qed.
Definition split2 (n : lnode) : slots := (ld_terms n, ld_blocks n).
Lemma iter_get n c : iter_at n c = get (split2 n) c.
Proof. destruct c; reflexivity. Qed.
Lemma on_unique m x y c : on m x c -> on m y c -> x = y.
Proof. destruct c as [k b|t]; cbn; [intros (i & f & H1 & H2) (i' & f' & H3 & H4)|]; congruence. Qed.
(** The node of a module at the end. *)
Definition node2 (top : string) (sigs : list gsig) (syms : string -> list (string * string)) (ms : list vmod) (m : vmod) (n : lnode) : Prop :=
  ld_name n = vm_name m /\ (ld_top n = true <-> vm_name m = top) /\ StronglySorted lt (ld_parents n) /\
  (forall p, In p (ld_parents n) <-> exists mp i, nth_error ms p = Some mp /\ In i (vm_insts mp) /\ tmpl i (vm_name m)) /\
  map fst (ld_terms n) = vm_params m /\
  Forall2 (fun i b => tmpl i (lb_master b) /\ map fst (lb_pins b) = map fst (in_fa i) /\
             lb_child b = pick_last (String.eqb (lb_master b)) (numbered (map vm_name ms)) None /\ (lb_leaf b = true <-> lb_child b = None)) (vm_insts m) (ld_blocks n) /\
  (NoDup (map ln_name (ld_nets n)) /\ (forall x, In x (map ln_name (ld_nets n)) <-> net_of m x /\ ~ supply sigs x) /\ Forall (okn m) (ld_nets n)) /\
  (forall c x i, on m x c -> nth_error (map ln_name (ld_nets n)) i = Some x -> iter_at n c = Some (Some i)) /\
  (forall c x, on m x c -> ~ In x (map ln_name (ld_nets n)) -> iter_at n c = Some None) /\
  (NoDup (map pw_name (filter nonemp (ld_power n))) /\
   (forall x, In x (map pw_name (filter nonemp (ld_power n))) <-> net_of m x /\ supply sigs x) /\
   (forall p, In p (ld_power n) -> Forall2 (pin_name m) (pw_conn p) (pw_pins p)) /\
   (forall p, In p (ld_power n) -> nonemp p = true -> pw_vdd p = vddb sigs (pw_name p) /\ NoDup (pw_conn p) /\ forall c, In c (pw_conn p) <-> on m (pw_name p) c) /\
   (forall p, In p (ld_power n) -> nonemp p = false -> exists s, In s sigs /\ pw_name p = snd s /\ pw_vdd p = kd s)) /\
  (forall l a b l', syms (vm_name m) = l ++ (a, b) :: l' -> (forall p, In p l' -> fst p <> a /\ snd p <> a /\ fst p <> b /\ snd p <> b) ->
     exists i j, nth_error (map ln_name (ld_nets n)) i = Some a /\ nth_error (map ln_name (ld_nets n)) j = Some b /\ symAt (ld_nets n) i = Some j /\ symAt (ld_nets n) j = Some i).
Lemma nth_map_fst {A B C} (f : A -> C) (g : B -> C) l l' k : map f l = map g l' -> match nth_error l k, nth_error l' k with Some a, Some b => f a = g b | None, None => True | _, _ => False end.
Proof. intros H. apply (f_equal (fun u => nth_error u k)) in H. rewrite !nth_mapped in H. destruct (nth_error l k), (nth_error l' k); cbn in H; try discriminate; [now injection H|exact I]. Qed.
Lemma okn_erase m q : okn m (erase q) <-> okn m q. Proof. reflexivity. Qed.
Lemma in_erase ns ns' q : map erase ns = map erase ns' -> In q ns -> exists q', In q' ns' /\ erase q' = erase q.
Proof. intros E H. apply (in_map erase) in H. rewrite E in H. apply in_map_iff in H as (q' & ? & ?). eauto. Qed.

Lemma node2_ok top sigs syms ms t : elaborate top sigs syms ms = Some t ->
  List.length t = List.length ms /\ forall j m, nth_error ms j = Some m -> exists n, nth_error t j = Some n /\ node2 top sigs syms ms m n.
Proof.
  unfold elaborate. destruct (mapM read_module ms) as [ns|] eqn:Em; [|discriminate]. rewrite sem1_ok. match goal with |- match (if ?b then _ else _) with _ => _ end = _ -> _ => destruct b; [|discriminate] end.
  destruct (node0_ok top syms ms ns Em) as (L0 & N0). set (t0 := sem0 top (map (init_node syms) ns)) in *. set (t1 := map (splits sigs) t0).
  intros E2. pose proof (sem2_ok t1) as S2. rewrite E2 in S2. destruct S2 as ((L2 & S2) & _). assert (L1 : List.length t1 = List.length ms) by (unfold t1; now rewrite map_length). split; [lia|].
  intros j m Hj. destruct (N0 j m Hj) as (n0 & Hn0 & A1 & A2 & A3 & A4 & A5 & A6 & A7 & A8 & A9 & A10 & A11 & A12 & A13).
  assert (H1 : nth_error t1 j = Some (splits sigs n0)) by (unfold t1; rewrite nth_mapped, Hn0; reflexivity).
  destruct (S2 j _ H1) as (n & Hn & Hb & Hp). exists n. split; [exact Hn|].
  assert (Lj : (j < List.length t1)%nat) by (apply nth_error_Some; congruence). replace (Nat.ltb j (List.length t1)) with true in Hb by (symmetry; now apply Nat.ltb_lt). rewrite <- base_number in Hb.
  assert (Ne : Forall (fun q => ln_conn q <> []) (ld_nets n0)) by (rewrite Forall_forall in A12 |- *; intros q Hq; apply (A12 q Hq)).
  pose proof (splits_ok sigs n0 A3 Ne) as Sp. cbn zeta in Sp. set (n1 := splits sigs n0) in *. destruct Sp as ((B1 & B2 & B3 & B4 & B5 & B6) & C1 & C2 & C3).
  set (n2 := number_nets n1) in *. destruct (Hp ltac:(lia)) as (n3 & Hb3 & Hp3). clear Hp.
  assert (D : ld_name n = ld_name n2 /\ ld_terms n = ld_terms n2 /\ ld_blocks n = ld_blocks n2 /\ map erase (ld_nets n) = map erase (ld_nets n2) /\ ld_power n = ld_power n2 /\ ld_parents n = ld_parents n2 /\ ld_top n = ld_top n2 /\ ld_syms n = ld_syms n2) by (unfold base in Hb; injection Hb; intros; repeat split; assumption).
  destruct D as (D1 & D2 & D3 & D4 & D5 & D6 & D7 & D8).
  assert (En : map ln_name (ld_nets n) = map ln_name (ld_nets n1)) by exact (erase_names _ _ D4).
  set (s := fold_left put (writes n1) (split2 n1)).
  assert (Ds : split2 n = s) by (unfold split2; rewrite D2, D3; unfold n2, number_nets; cbn [ld_terms ld_blocks]; fold (split2 n1); fold s; now destruct s).
  pose proof (put_sig (writes n1) (split2 n1)) as (P1 & P2). fold s in P1, P2. cbn [split2 fst snd] in P1, P2. rewrite B2 in P1. rewrite B3 in P2.
  assert (Es : ld_terms n = fst s /\ ld_blocks n = snd s) by (rewrite <- Ds; split; reflexivity). destruct Es as (Et & Eb).
  assert (Pt : map fst (fst s) = vm_params m) by congruence.
  assert (Bl : Forall2 (fun i b => tmpl i (lb_master b) /\ map fst (lb_pins b) = map fst (in_fa i) /\ lb_child b = pick_last (String.eqb (lb_master b)) (numbered (map vm_name ms)) None /\ (lb_leaf b = true <-> lb_child b = None)) (vm_insts m) (snd s)).
  { clear - A9 P2. revert P2. generalize (snd s) as bs. induction A9 as [|i b l l' H F IH]; intros bs P2; [destruct bs; [constructor|discriminate]|]. destruct bs as [|b' bs]; [discriminate|]. cbn in P2. unfold bsig in P2 at 1 3. injection P2 as E1 E2 E3 E4 E5. constructor; [rewrite E1, E2, E3, E4; exact H|apply IH; exact E5]. }
  assert (Nd1 : NoDup (map ln_name (ld_nets n1))) by (rewrite C1; now apply map_filter_nodup).
  assert (In1 : forall x, In x (map ln_name (ld_nets n1)) <-> net_of m x /\ ~ supply sigs x).
  { intros x. rewrite C1, <- A11, <- supplyb_false. split.
    - intros H. apply in_map_iff in H as (q & <- & H). apply filter_In in H as (H & E). apply negb_true_iff in E. split; [now apply in_map|exact E].
    - intros (H & E). apply in_map_iff in H as (q & <- & H). apply in_map_iff. exists q. split; [reflexivity|]. apply filter_In. split; [exact H|now rewrite E]. }
  assert (Ok1 : forall q, In q (ld_nets n1) -> okn m q) by (intros q Hq; rewrite C1 in Hq; apply filter_In in Hq as (Hq & _); rewrite Forall_forall in A12; auto).
  assert (Pw : forall p, In p (ld_power n1) -> nonemp p = true -> exists q, In q (ld_nets n0) /\ supplyb sigs (ln_name q) = true /\ p = as_pwr sigs q).
  { intros p H E. assert (G : In p (filter nonemp (ld_power n1))) by (apply filter_In; auto). apply (Permutation_in _ C2) in G. apply in_map_iff in G as (q & <- & G). apply filter_In in G as (G1 & G2). eauto. }
  (* the slots *)
  assert (Hw : forall c x w, on m x c -> In w (writes n1) -> fst w = c -> match snd w with Some i => nth_error (map ln_name (ld_nets n1)) i = Some x | None => supply sigs x end).
  { intros c x w Hc Hw <-. unfold writes in Hw. apply in_app_iff in Hw as [Hw|Hw]; apply in_flat_map in Hw as (q & Hq & Hw); apply in_map_iff in Hw as (d & <- & Hd); cbn [fst snd] in *.
    - destruct q as (i & q). cbn [fst snd] in *. apply in_numbered in Hq. rewrite nth_mapped, Hq. cbn. f_equal. apply nth_error_In in Hq. destruct (Ok1 q Hq) as (_ & K & _). apply K in Hd. exact (on_unique _ _ _ _ Hd Hc).
    - assert (Eq : nonemp q = true) by (unfold nonemp; destruct (pw_conn q); [destruct Hd|reflexivity]). destruct (Pw q Hq Eq) as (r & Hr & Hs & ->). cbn in Hd. rewrite Forall_forall in A12. destruct (A12 r Hr) as (_ & K & _). apply K in Hd. rewrite (on_unique _ _ _ _ Hc Hd). now apply supplyb_ok. }
  assert (Hg : forall c x, on m x c -> get (split2 n1) c <> None).
  { intros c x Hc. unfold split2. rewrite B2, B3. destruct c as [k b|k]; cbn in *.
    - destruct Hc as (i & f & Hi & Hf). pose proof (F2_nth _ _ _ A9 b) as F. rewrite Hi in F. destruct (nth_error (ld_blocks n0) b) as [bl|]; [|contradiction]. destruct F as (_ & F & _). pose proof (nth_map_fst _ _ _ _ k F) as G. rewrite Hf in G. destruct (nth_error (lb_pins bl) k); [discriminate|contradiction].
    - pose proof (f_equal (fun u => nth_error u k) A7) as G. cbn in G. rewrite nth_mapped, Hc in G. destruct (nth_error (ld_terms n0) k); [discriminate|discriminate]. }
  assert (Hex : forall c x, on m x c -> In x (map ln_name (ld_nets n0)) -> exists w, In w (writes n1) /\ fst w = c).
  { intros c x Hc Hx. apply in_map_iff in Hx as (q & <- & Hq). assert (Hd : In c (ln_conn q)) by (rewrite Forall_forall in A12; destruct (A12 q Hq) as (_ & K & _); now apply K). unfold writes. destruct (supplyb sigs (ln_name q)) eqn:Sq.
    - exists (c, None). split; [|reflexivity]. apply in_app_iff. right. apply in_flat_map. exists (as_pwr sigs q). split; [|exact (in_map (fun c => (c, @None nat)) _ _ Hd)].
      assert (G : In (as_pwr sigs q) (filter nonemp (ld_power n1))) by (apply (Permutation_in _ (Permutation_sym C2)); apply in_map; apply filter_In; auto). now apply filter_In in G.
    - assert (G : In q (ld_nets n1)) by (rewrite C1; apply filter_In; rewrite Sq; auto). apply In_nth_error in G as (i & G). exists (c, Some i). split; [|reflexivity]. apply in_app_iff. left. apply in_flat_map. exists (i, q). split; [now apply in_numbered|]. cbn. now apply (in_map (fun c => (c, Some i))). }
  unfold node2. rewrite En, Et, Eb, D5, D6, D7, D1. change (ld_name n2) with (ld_name n1). change (ld_top n2) with (ld_top n1). change (ld_parents n2) with (ld_parents n1). rewrite B1, B4, B5.
  split; [exact A1|]. split; [exact A4|]. split; [exact A5|]. split; [exact A6|]. split; [exact Pt|]. split; [exact Bl|]. split.
  { split; [exact Nd1|]. split; [exact In1|]. apply Forall_forall. intros q Hq. destruct (in_erase _ _ q D4 Hq) as (q' & Hq' & Ee). apply (proj1 (okn_erase m q)). rewrite <- Ee. apply (proj2 (okn_erase m q')). now apply Ok1. }
  split.
  { intros c x i Hc Hi. rewrite iter_get, Ds. unfold s. apply fold_put.
    - intros w Hin Hf. pose proof (Hw c x w Hc Hin Hf) as G. assert (Hnx : In x (map ln_name (ld_nets n1))) by (now apply nth_error_In in Hi). destruct (snd w) as [k|].
      + f_equal. apply (proj1 (NoDup_nth_error _) Nd1); [apply nth_error_Some; congruence|congruence].
      + exfalso. apply In1 in Hnx as (_ & Hnx). contradiction.
    - exact (Hg c x Hc).
    - left. apply (Hex c x Hc). apply nth_error_In, In1 in Hi as (Hi & _). now apply A11. }
  split.
  { intros c x Hc Hx. rewrite iter_get, Ds. unfold s. apply fold_put.
    - intros w Hin Hf. pose proof (Hw c x w Hc Hin Hf) as G. destruct (snd w) as [k|]; [|reflexivity]. exfalso. apply Hx. now apply nth_error_In in G.
    - exact (Hg c x Hc).
    - destruct (in_dec string_dec x (map ln_name (ld_nets n0))) as [Hi|Hi]; [left; exact (Hex c x Hc Hi)|]. right. destruct c as [k b|k]; [exfalso; apply Hi, A11; exists k, b; exact Hc|]. cbn in *.
      pose proof (f_equal (fun u => nth_error u k) A7) as G. cbn in G. rewrite nth_mapped, Hc in G. rewrite B2. destruct (nth_error (ld_terms n0) k) as [o|] eqn:Eo; [|discriminate]. cbn in *. f_equal. destruct (A8 k o Eo) as [Z|(q & Hq & Eq)]; [exact Z|]. exfalso. apply Hi. injection G as G. rewrite <- G, <- Eq. now apply in_map. }
  split.
  { assert (Epw : forall (f : pwr -> bool) (g : pwr -> pwr) l, (forall p, f (g p) = f p) -> filter f (map g l) = map g (filter f l)) by (intros f g l H; induction l as [|p l IH]; [reflexivity|]; cbn; rewrite H; destruct (f p); cbn; now rewrite IH).
    set (dress := fun q => mkPwr (pw_name q) (pw_vdd q) (pw_conn q) (pw_pins q ++ flat_map (conn_name s) (pw_conn q))).
    assert (Ed : ld_power n2 = map dress (ld_power n1)) by reflexivity. fold n2. rewrite Ed.
    assert (Enm : map pw_name (filter nonemp (map dress (ld_power n1))) = map pw_name (filter nonemp (ld_power n1))) by (rewrite Epw by reflexivity; rewrite map_map; apply map_ext; reflexivity).
    assert (Pnm : Permutation (map pw_name (filter nonemp (ld_power n1))) (map ln_name (filter (fun q => supplyb sigs (ln_name q)) (ld_nets n0)))).
    { rewrite C2, map_map. apply Permutation_refl'. apply map_ext. reflexivity. }
    rewrite Enm. split; [apply (Permutation_NoDup (Permutation_sym Pnm)); now apply map_filter_nodup|]. split.
    { intros x. assert (In x (map pw_name (filter nonemp (ld_power n1))) <-> In x (map ln_name (filter (fun q => supplyb sigs (ln_name q)) (ld_nets n0)))) as -> by (split; apply Permutation_in; [exact Pnm|now symmetry]).
      rewrite <- A11, <- supplyb_ok. split; [intros H; apply in_map_iff in H as (q & <- & H); apply filter_In in H as (H & E); split; [now apply in_map|exact E]|]. intros (H & E). apply in_map_iff in H as (q & <- & H). apply in_map_iff. exists q. split; [reflexivity|]. apply filter_In. auto. }
    split.
    { intros p Hpp. apply in_map_iff in Hpp as (q & <- & Hq). cbn [pw_conn pw_pins dress]. destruct (C3 q Hq) as (-> & _). cbn [app].
      assert (Hon : forall c, In c (pw_conn q) -> exists x, on m x c). { intros c Hc. assert (Eq : nonemp q = true) by (unfold nonemp; destruct (pw_conn q); [destruct Hc|reflexivity]). destruct (Pw q Hq Eq) as (r & Hr & _ & ->). cbn in Hc. rewrite Forall_forall in A12. destruct (A12 r Hr) as (_ & K & _). exists (ln_name r). now apply K. }
      clear - Hon Bl Pt. induction (pw_conn q) as [|c l IH]; [constructor|]. cbn [flat_map]. destruct (Hon c (or_introl eq_refl)) as (x & Hc). assert (G : exists f, conn_name s c = [f] /\ pin_name m c f).
      { destruct c as [k b|k]; cbn in *.
        - destruct Hc as (i & f & Hi & Hf). pose proof (F2_nth _ _ _ Bl b) as F. rewrite Hi in F. destruct (nth_error (snd s) b) as [bl|]; [|contradiction]. destruct F as (_ & F & _). pose proof (nth_map_fst _ _ _ _ k F) as G. rewrite Hf in G. destruct (nth_error (lb_pins bl) k) as [sl|]; [|contradiction]. cbn in G. exists (fst sl). split; [reflexivity|]. exists i, x. rewrite G. auto.
        - pose proof (f_equal (fun u => nth_error u k) Pt) as G. cbn in G. rewrite nth_mapped, Hc in G. destruct (nth_error (fst s) k) as [sl|]; [|discriminate]. cbn in G. injection G as G. exists (fst sl). split; [reflexivity|]. now rewrite G. }
      destruct G as (f & -> & Hf). cbn. constructor; [exact Hf|]. apply IH. intros d Hd. apply Hon. now right. }
    split.
    { intros p Hpp E. apply in_map_iff in Hpp as (q & <- & Hq). change (nonemp q = true) in E. destruct (Pw q Hq E) as (r & Hr & Hs & ->). cbn. split; [reflexivity|]. rewrite Forall_forall in A12. destruct (A12 r Hr) as (K1 & K2 & _). auto. }
    intros p Hpp E. apply in_map_iff in Hpp as (q & <- & Hq). change (nonemp q = false) in E. destruct (C3 q Hq) as (_ & K). exact (K E). }
  intros l a b l' Hs Hl. unfold pair_node in Hp3. destruct (foldO pair_nets (ld_syms n3) (ld_nets n3)) as [ns3|] eqn:F3; [|discriminate]. injection Hp3 as <-. cbn [ld_nets] in *.
  assert (E3 : map ln_name (ld_nets n3) = map ln_name (ld_nets n1)) by (rewrite (base_nets _ _ Hb3); exact En). assert (Sy : ld_syms n3 = l ++ (a, b) :: l') by (cbn in D8; rewrite D8; unfold n2; cbn; rewrite B6, A2; exact Hs).
  rewrite Sy in F3. apply pairs_last in F3; [rewrite E3 in F3; exact F3|now rewrite E3|exact Hl].
Qed.
Lemma mapM_none {A B} (f : A -> option B) l : mapM f l = None <-> exists a, In a l /\ f a = None.
Proof.
  induction l as [|a l IH]; cbn; [split; [discriminate|intros (? & [] & _)]|]. destruct (f a) eqn:E.
  - destruct (mapM f l); [split; [discriminate|]|].
    + intros (x & [<-|H] & F); [congruence|]. destruct IH as (_ & IH). discriminate (IH (ex_intro _ x (conj H F))).
    + split; [intros _|reflexivity]. destruct IH as (IH & _). destruct (IH eq_refl) as (x & ? & ?). eauto.
  - split; [eauto|reflexivity].
Qed.
Lemma elaborate_def top sigs syms ms : elaborate top sigs syms ms <> None <->
  (forall m, In m ms -> read_module m <> None) /\ (forall s, In s sigs -> kind_of (snd (fst s)) <> None) /\
  forall m p, In m ms -> In p (syms (vm_name m)) -> forall x, x = fst p \/ x = snd p -> net_of m x /\ ~ supply sigs x.
Proof.
  unfold elaborate. destruct (mapM read_module ms) as [ns|] eqn:Em.
  2: { apply mapM_none in Em as (m & H & E). split; [now intros []|]. intros (G & _). exfalso. exact (G m H E). }
  assert (Rm : forall m, In m ms -> read_module m <> None) by (intros m Hm E; assert (mapM read_module ms = None) by (apply mapM_none; eauto); congruence).
  rewrite sem1_ok. match goal with |- context [if ?b then _ else _] => destruct b eqn:Ek end.
  2: { split; [now intros []|]. intros (_ & G & _). exfalso. assert (K : forallb (fun s : gsig => match kind_of (snd (fst s)) with Some _ => true | None => false end) sigs = true); [|congruence]. apply forallb_forall. intros s Hs. specialize (G s Hs). now destruct (kind_of (snd (fst s))). }
  rewrite forallb_forall in Ek. assert (Ks : forall s, In s sigs -> kind_of (snd (fst s)) <> None) by (intros s Hs; specialize (Ek s Hs); now destruct (kind_of (snd (fst s)))).
  destruct (node0_ok top syms ms ns Em) as (L0 & N0). set (t0 := sem0 top (map (init_node syms) ns)) in *. set (t1 := map (splits sigs) t0). pose proof (sem2_ok t1) as S2.
  assert (Q : forall j m n, nth_error ms j = Some m -> nth_error t1 j = Some n -> pair_node n <> None <-> forall p, In p (syms (vm_name m)) -> forall x, x = fst p \/ x = snd p -> net_of m x /\ ~ supply sigs x).
  { intros j m n Hj Hn. destruct (N0 j m Hj) as (n0 & Hn0 & A1 & A2 & A3 & A4 & A5 & A6 & A7 & A8 & A9 & A10 & A11 & A12 & A13). unfold t1 in Hn. rewrite nth_mapped, Hn0 in Hn. injection Hn as <-.
    assert (Ne : Forall (fun q => ln_conn q <> []) (ld_nets n0)) by (rewrite Forall_forall in A12 |- *; intros q Hq; apply (A12 q Hq)).
    pose proof (splits_ok sigs n0 A3 Ne) as Sp. cbn zeta in Sp. set (n1 := splits sigs n0) in *. destruct Sp as ((B1 & B2 & B3 & B4 & B5 & B6) & C1 & _). rewrite pair_node_def, B6, A2.
    assert (In1 : forall x, In x (map ln_name (ld_nets n1)) <-> net_of m x /\ ~ supply sigs x).
    { intros x. rewrite C1, <- A11, <- supplyb_false. split.
      - intros H. apply in_map_iff in H as (q & <- & H). apply filter_In in H as (H & E). apply negb_true_iff in E. split; [now apply in_map|exact E].
      - intros (H & E). apply in_map_iff in H as (q & <- & H). apply in_map_iff. exists q. split; [reflexivity|]. apply filter_In. split; [exact H|now rewrite E]. }
    split; intros H p Hp; [intros x [->| ->]; apply In1; now apply H|split; apply In1; apply (H p Hp); auto]. }
  assert (L1 : List.length t1 = List.length ms) by (unfold t1; now rewrite map_length).
  destruct (sem2 t1) as [t|].
  - destruct S2 as (_ & S2). split; [intros _|discriminate]. split; [exact Rm|]. split; [exact Ks|]. intros m p Hm Hp. apply In_nth_error in Hm as (j & Hj). destruct (nth_error t1 j) as [n|] eqn:Hn; [|apply nth_error_None in Hn; assert (j < List.length ms)%nat by (apply nth_error_Some; congruence); lia].
    apply (proj1 (Q j m n Hj Hn)); [apply S2; now apply nth_error_In in Hn|exact Hp].
  - destruct S2 as (n & Hn & En). apply In_nth_error in Hn as (j & Hj). destruct (nth_error ms j) as [m|] eqn:Hm; [|apply nth_error_None in Hm; assert (j < List.length t1)%nat by (apply nth_error_Some; congruence); lia].
    split; [now intros []|]. intros (_ & _ & G). exfalso. apply (proj2 (Q j m n Hm Hj)); [|exact En]. intros p Hp. apply (G m p); [now apply nth_error_In in Hm|exact Hp].
Qed.
Lemma top_idx_pick top t : top_idx top t = pick_last (String.eqb top) (numbered (map ld_name t)) None.
Proof.
  unfold top_idx, pick_last. rewrite <- numbered_names. generalize (@None nat) as o, (numbered t) as l. intros o l. revert o. induction l as [|a l IH]; intros o; [reflexivity|]. cbn [map fold_left fst snd]. rewrite (String.eqb_sym top). apply IH.
Qed.
Lemma kind_of_ok f : (kind_of f = Some false <-> f = "supply0"%string) /\ (kind_of f = Some true <-> f = "supply1"%string) /\ (kind_of f = None <-> f <> "supply0"%string /\ f <> "supply1"%string).
Proof.
  unfold kind_of. destruct (String.eqb_spec f "supply0") as [->|N]; [split; [intuition|]; split; [split; discriminate|split; [discriminate|intros (H & _); now destruct H]]|].
  destruct (String.eqb_spec f "supply1") as [->|N']; (split; [split; [discriminate|congruence]|]); split; try tauto; split; try discriminate; try tauto; congruence.
Qed.
Lemma vddb_first sigs x f : first_kind sigs x f -> vddb sigs x = match kind_of f with Some v => v | None => false end.
Proof.
  intros (l & s & l' & -> & H & N & ->). apply sig_hits_ok in H. unfold vddb. assert (E : find (fun s0 => sig_hits s0 x) (l ++ s :: l') = Some s); [|now rewrite E].
  induction l as [|s' l IH]; cbn; [now rewrite H|]. destruct (sig_hits s' x) eqn:E; [exfalso; apply (N s' (or_introl eq_refl)); now apply sig_hits_ok|]. apply IH. intros s0 H0. apply N. now right.
Qed.
