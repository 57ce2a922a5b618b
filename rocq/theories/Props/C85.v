(** C85: the placer's database links the netlist as the netlist says.  PnRdatabase.cpp:1533-1715. *)
From Coq Require Import String.
From Verif Require Import Base.Prelude Base.PyDict Model.PnrInput Model.PnrLink Model.Canvas Spec.Links Proofs.PnrInputP Proofs.PnrLinkP.
Local Open Scope string_scope. Local Open Scope list_scope.

(** When the passes end: every instance has a template, every global signal is supply0 or supply1, and symmetric nets are
    nets of the module and no supplies. *)
Theorem C85_defined top sigs syms ms : elaborate top sigs syms ms <> None <->
  (forall m i, In m ms -> In i (vm_insts m) -> exists x, tmpl i x) /\
  (forall s, In s sigs -> snd (fst s) = "supply0" \/ snd (fst s) = "supply1") /\
  forall m p, In m ms -> In p (syms (vm_name m)) -> forall x, x = fst p \/ x = snd p -> net_of m x /\ ~ supply sigs x.
Proof.
  rewrite elaborate_def.
  assert (R : forall m, read_module m <> None <-> forall i, In i (vm_insts m) -> exists x, tmpl i x).
  { intros m. split.
    - intros H i Hi. destruct (master i) as [x|] eqn:E; [exists x; now apply master_tmpl|]. exfalso. unfold read_module in H. destruct (read_insts _ _ _ _) as [((s & bs) & ix)|] eqn:G; [|now apply H].
      assert (K : forall is s b ix, In i is -> read_insts s b ix is = None).
      { clear - E. induction is as [|j is IH]; intros s b ix Hi; [destruct Hi|]. destruct Hi as [->|Hi]; cbn; [now rewrite E|]. destruct (master j); [|reflexivity]. destruct (read_pins s 0 b (in_fa j)). now rewrite IH. }
      rewrite K in G by exact Hi. discriminate.
    - intros H. unfold read_module. pose proof (read_insts_some (vm_insts m)) as K. assert (forall i, In i (vm_insts m) -> master i <> None) as K1 by (intros i Hi E; destruct (H i Hi) as (x & Hx); apply master_tmpl in Hx; congruence).
      specialize (K K1 ([], []) 0%nat []). destruct (read_insts _ _ _ _) as [((s & bs) & ix)|]; [discriminate|contradiction]. }
  assert (S : forall f, kind_of f <> None <-> f = "supply0" \/ f = "supply1").
  { intros f. destruct (kind_of_ok f) as (_ & _ & ->). destruct (string_dec f "supply0"), (string_dec f "supply1"); tauto. }
  split; intros (H1 & H2 & H3); (split; [|split; [|exact H3]]).
  - intros m i Hm. now apply R, H1.
  - intros s Hs. now apply S, H2.
  - intros m Hm. apply R. intros i. now apply H1.
  - intros s Hs. now apply S, H2.
Qed.

(** The hierarchy: the parents of a module, in order, are the modules with an instance of it. *)
Theorem C85_parents top sigs syms ms t j m : elaborate top sigs syms ms = Some t -> nth_error ms j = Some m ->
  List.length t = List.length ms /\ exists n, nth_error t j = Some n /\ ld_name n = vm_name m /\ (ld_top n = true <-> vm_name m = top) /\
    StronglySorted lt (ld_parents n) /\
    forall p, In p (ld_parents n) <-> exists mp i, nth_error ms p = Some mp /\ In i (vm_insts mp) /\ tmpl i (vm_name m).
Proof. intros E H. destruct (node2_ok _ _ _ _ _ E) as (L & G). split; [exact L|]. destruct (G j m H) as (n & Hn & A1 & A2 & A3 & A4 & _). exists n. auto. Qed.

(** With distinct module names, the child of an instance is the module that is its template; a leaf has none. *)
Theorem C85_child top sigs syms ms t j m b i : elaborate top sigs syms ms = Some t -> NoDup (map vm_name ms) -> nth_error ms j = Some m -> nth_error (vm_insts m) b = Some i ->
  exists n bl, nth_error t j = Some n /\ nth_error (ld_blocks n) b = Some bl /\ tmpl i (lb_master bl) /\ map fst (lb_pins bl) = map fst (in_fa i) /\
    (forall c, lb_child bl = Some c <-> exists mc, nth_error ms c = Some mc /\ tmpl i (vm_name mc)) /\
    (lb_leaf bl = true <-> forall mc, In mc ms -> ~ tmpl i (vm_name mc)).
Proof.
  intros E N Hj Hi. destruct (node2_ok _ _ _ _ _ E) as (_ & G). destruct (G j m Hj) as (n & Hn & _ & _ & _ & _ & _ & B & _). pose proof (F2_nth _ _ _ B b) as F. rewrite Hi in F. destruct (nth_error (ld_blocks n) b) as [bl|] eqn:Eb; [|contradiction]. destruct F as (F1 & F2 & F3 & F4).
  exists n, bl. split; [exact Hn|]. split; [exact Eb|]. split; [exact F1|]. split; [exact F2|].
  assert (U : forall x, tmpl i x <-> x = lb_master bl) by (intros x; pose proof (proj2 (master_tmpl _ _) F1) as F0; split; [intros K; apply (proj2 (master_tmpl _ _)) in K; congruence|now intros ->]).
  assert (C : forall c, lb_child bl = Some c <-> exists mc, nth_error ms c = Some mc /\ tmpl i (vm_name mc)).
  { intros c. rewrite F3, pick_last_nodup by exact N. rewrite nth_mapped. split.
    - destruct (nth_error ms c) as [mc|]; [|discriminate]. intros [= H]. exists mc. split; [reflexivity|]. now apply U.
    - intros (mc & -> & H). cbn. f_equal. now apply U. }
  split; [exact C|]. rewrite F4. split.
  - intros Z mc Hm Ht. apply In_nth_error in Hm as (c & Hc). assert (lb_child bl = Some c) by (apply C; eauto). congruence.
  - intros H. destruct (lb_child bl) as [c|] eqn:Ec; [|reflexivity]. exfalso. destruct (proj1 (C c) eq_refl) as (mc & H1 & H2). apply nth_error_In in H1. exact (H mc H1 H2).
Qed.

(** The index of the top module. *)
Theorem C85_top top sigs syms ms t j : elaborate top sigs syms ms = Some t -> NoDup (map vm_name ms) ->
  (top_idx top t = Some j <-> exists m, nth_error ms j = Some m /\ vm_name m = top).
Proof.
  intros E N. destruct (node2_ok _ _ _ _ _ E) as (L & G). assert (En : map ld_name t = map vm_name ms).
  { apply nth_ext. intros i. rewrite !nth_mapped. destruct (nth_error ms i) as [m|] eqn:Hm; [destruct (G i m Hm) as (n & -> & A & _); cbn; now rewrite A|]. apply nth_error_None in Hm. rewrite <- L in Hm. apply nth_error_None in Hm. now rewrite Hm. }
  rewrite top_idx_pick, En, pick_last_nodup by exact N. rewrite nth_mapped. split.
  - destruct (nth_error ms j) as [m|]; [|discriminate]. intros [= H]. eauto.
  - intros (m & -> & <-). reflexivity.
Qed.

(** The nets of a module: those of its instances that are no supply, each once, with exactly their pins and terminals. *)
Theorem C85_nets top sigs syms ms t j m : elaborate top sigs syms ms = Some t -> nth_error ms j = Some m ->
  exists n, nth_error t j = Some n /\ NoDup (map ln_name (ld_nets n)) /\ (forall x, In x (map ln_name (ld_nets n)) <-> net_of m x /\ ~ supply sigs x) /\
    forall q, In q (ld_nets n) -> NoDup (ln_conn q) /\ (forall c, In c (ln_conn q) <-> on m (ln_name q) c) /\ ln_degree q = List.length (ln_conn q) /\ (ln_sink q = true <-> In (ln_name q) (vm_params m)).
Proof.
  intros E H. destruct (node2_ok _ _ _ _ _ E) as (_ & G). destruct (G j m H) as (n & Hn & _ & _ & _ & _ & _ & _ & (A & B & C) & _). exists n. split; [exact Hn|]. split; [exact A|]. split; [exact B|]. rewrite Forall_forall in C. intros q Hq. destruct (C q Hq) as (C1 & C2 & C3 & C4 & _). auto.
Qed.

(** Every pin and terminal knows the index of its net; one on a supply, and a terminal on no net, has none. *)
Theorem C85_iter top sigs syms ms t j m c x : elaborate top sigs syms ms = Some t -> nth_error ms j = Some m -> on m x c ->
  exists n, nth_error t j = Some n /\
    (net_of m x -> ~ supply sigs x -> exists i, iter_at n c = Some (Some i) /\ net_name n i = Some x) /\
    (supply sigs x \/ ~ net_of m x -> iter_at n c = Some None).
Proof.
  intros E H Hc. destruct (node2_ok _ _ _ _ _ E) as (_ & G). destruct (G j m H) as (n & Hn & _ & _ & _ & _ & _ & _ & (A & B & _) & I1 & I2 & _). exists n. split; [exact Hn|]. split.
  - intros Hx Hs. assert (K : In x (map ln_name (ld_nets n))) by (apply B; auto). apply In_nth_error in K as (i & K). exists i. split; [exact (I1 c x i Hc K)|]. unfold net_name. now rewrite nth_mapped in K.
  - intros Hx. apply (I2 c x Hc). intros K. apply B in K. tauto.
Qed.

(** Each supply of a module is one power net, of the kind of the first signal that names it, with exactly its pins and
    terminals; other power nets are empty and stand for a global signal. *)
Theorem C85_power top sigs syms ms t j m : elaborate top sigs syms ms = Some t -> nth_error ms j = Some m ->
  exists n, nth_error t j = Some n /\
    (forall x, net_of m x -> supply sigs x -> exists l p l', ld_power n = l ++ p :: l' /\ pw_name p = x /\ pw_conn p <> [] /\ forall q, In q (l ++ l') -> pw_name q = x -> pw_conn q = []) /\
    forall p, In p (ld_power n) -> Forall2 (pin_name m) (pw_conn p) (pw_pins p) /\
      (pw_conn p <> [] -> net_of m (pw_name p) /\ supply sigs (pw_name p) /\ NoDup (pw_conn p) /\ (forall c, In c (pw_conn p) <-> on m (pw_name p) c) /\
         (pw_vdd p = true <-> first_kind sigs (pw_name p) "supply1")) /\
      (pw_conn p = [] -> exists s, In s sigs /\ pw_name p = snd s /\ (pw_vdd p = true <-> snd (fst s) = "supply1")).
Proof.
  intros E H. assert (D : elaborate top sigs syms ms <> None) by congruence. apply C85_defined in D as (_ & D & _).
  destruct (node2_ok _ _ _ _ _ E) as (_ & G). destruct (G j m H) as (n & Hn & _ & _ & _ & _ & _ & _ & _ & _ & _ & (A & B & C & P & Q) & _). exists n. split; [exact Hn|].
  assert (Ne : forall p, nonemp p = true <-> pw_conn p <> []) by (intros p; unfold nonemp; destruct (pw_conn p); split; congruence).
  assert (Ne0 : forall p, nonemp p = false <-> pw_conn p = []) by (intros p; unfold nonemp; destruct (pw_conn p); split; congruence).
  split.
  - intros x Hx Hs. assert (K : In x (map pw_name (filter nonemp (ld_power n)))) by (apply B; auto). apply in_map_iff in K as (p & Ep & K). apply filter_In in K as (K1 & K2). apply in_split in K1 as (l & l' & El). exists l, p, l'. split; [exact El|]. split; [exact Ep|]. split; [now apply Ne|].
    intros q Hq Eq. apply Ne0. destruct (nonemp q) eqn:Z; [|reflexivity]. exfalso. rewrite El, filter_app in A. cbn [filter] in A. rewrite K2, map_app in A. cbn [map] in A. apply NoDup_remove_2 in A. apply A. rewrite Ep, <- Eq. rewrite <- map_app. apply in_map. rewrite <- filter_app. apply filter_In. auto.
  - intros p Hp. split; [exact (C p Hp)|]. split.
    + intros Z. apply Ne in Z. destruct (P p Hp Z) as (P1 & P2 & P3). assert (K : In (pw_name p) (map pw_name (filter nonemp (ld_power n)))) by (apply in_map, filter_In; auto). apply B in K as (K1 & K2). split; [exact K1|]. split; [exact K2|]. split; [exact P2|]. split; [exact P3|]. rewrite P1.
      assert (F : exists f, first_kind sigs (pw_name p) f /\ (f = "supply0" \/ f = "supply1")).
      { destruct K2 as (s & Hs & Hx). clear - Hs Hx D. induction sigs as [|s0 sigs IH]; [destruct Hs|]. destruct (sig_hits s0 (pw_name p)) eqn:Z.
        - exists (snd (fst s0)). split; [|apply D; now left]. exists [], s0, sigs. split; [reflexivity|]. split; [now apply sig_hits_ok|]. split; [intros ? []|reflexivity].
        - destruct Hs as [->|Hs]; [apply sig_hits_ok in Hx; congruence|]. destruct (IH (fun s1 H1 => D s1 (or_intror H1)) Hs) as (f & (l & s1 & l' & -> & F1 & F2 & F3) & F4). exists f. split; [|exact F4]. exists (s0 :: l), s1, l'. split; [reflexivity|]. split; [exact F1|]. split; [|exact F3]. intros s' [<-|H']; [intros K; apply sig_hits_ok in K; congruence|auto]. }
      destruct F as (f & F1 & F2). rewrite (vddb_first _ _ _ F1). split.
      * intros V. destruct F2 as [->|F2]; [discriminate V|]. now rewrite <- F2.
      * intros F3. rewrite <- (vddb_first _ _ _ F1), (vddb_first _ _ _ F3). reflexivity.
    + intros Z. apply Ne0 in Z. destruct (Q p Hp Z) as (s & Hs & Q1 & Q2). exists s. split; [exact Hs|]. split; [exact Q1|]. rewrite Q2. unfold kd. destruct (D s Hs) as [->| ->]; cbn; split; try discriminate; reflexivity.
Qed.

(** Of the symmetric pairs the last that names a net counts: both nets then have each other as counterpart. *)
Theorem C85_symmetric top sigs syms ms t j m l a b l' : elaborate top sigs syms ms = Some t -> nth_error ms j = Some m -> syms (vm_name m) = l ++ (a, b) :: l' ->
  (forall p, In p l' -> fst p <> a /\ snd p <> a /\ fst p <> b /\ snd p <> b) ->
  exists n i k, nth_error t j = Some n /\ net_name n i = Some a /\ net_name n k = Some b /\ counterpart n i = Some k /\ counterpart n k = Some i.
Proof.
  intros E H Hs Hl. destruct (node2_ok _ _ _ _ _ E) as (_ & G). destruct (G j m H) as (n & Hn & _ & _ & _ & _ & _ & _ & _ & _ & _ & _ & S). destruct (S l a b l' Hs Hl) as (i & k & H1 & H2 & H3 & H4). exists n, i, k. rewrite nth_mapped in H1, H2. unfold net_name, counterpart. auto.
Qed.

(** * A small netlist *)
Definition amp : vmod := mkVmod "AMP" ["IN"; "OUT"; "VDD"] [mkVinst (Some "NMOS_1") (Some "NMOS") "M1" [("G", "IN"); ("D", "OUT"); ("B", "VDD")]; mkVinst None (Some "RES") "R1" [("P", "OUT"); ("N", "VDD")]].
Definition chip : vmod := mkVmod "TOP" ["A"; "VDD"; "NC"] [mkVinst (Some "AMP") None "X1" [("IN", "A"); ("OUT", "N1"); ("VDD", "VDD")]; mkVinst (Some "AMP") None "X2" [("IN", "N1"); ("OUT", "N2"); ("VDD", "VDD")]].
Definition vdd : gsig := ("global_power", "supply1", "VDD").
Definition sym (x : string) : list (string * string) := if String.eqb x "TOP" then [("A", "N2")] else [].
Example C85_nonvacuous : exists t n, elaborate "TOP" [vdd] sym [amp; chip] = Some t /\ top_idx "TOP" t = Some 1%nat /\ nth_error t 1 = Some n /\
  map ln_name (ld_nets n) = ["A"; "N1"; "N2"] /\ map (fun q => (ln_degree q, ln_sym q)) (ld_nets n) = [(2, Some 2); (2, None); (1, Some 0)]%nat /\
  map (fun b => (lb_child b, map snd (lb_pins b))) (ld_blocks n) = [(Some 0, [Some 0; Some 1; None]); (Some 0, [Some 1; Some 2; None])]%nat /\
  ld_terms n = [("A", Some 0%nat); ("VDD", None); ("NC", None)] /\ ld_power n = [mkPwr "VDD" true [ToBlk 2 0; ToBlk 2 1; ToTerm 1] ["VDD"; "VDD"; "VDD"]] /\
  option_map ld_parents (nth_error t 0) = Some [1%nat].
Proof.
  eexists. eexists. split; [vm_compute; reflexivity|]. split; [reflexivity|]. split; [reflexivity|]. split; [reflexivity|]. split; [reflexivity|]. split; [reflexivity|]. split; [reflexivity|]. split; reflexivity.
Qed.

(** * What does not hold *)
(** Two modules of one name: a module is a parent of one that is the child of none of its instances. *)
Theorem C85_child_refuted : exists top sigs syms ms t j n p np, elaborate top sigs syms ms = Some t /\ nth_error t j = Some n /\ In p (ld_parents n) /\ nth_error t p = Some np /\
  forall b, In b (ld_blocks np) -> lb_child b <> Some j.
Proof.
  exists "TOP", [], (fun _ => []), [amp; amp; chip]. eexists. exists 0%nat. eexists. exists 2%nat. eexists. split; [vm_compute; reflexivity|]. split; [reflexivity|]. split; [now left|]. split; [reflexivity|].
  intros b [<-|[<-|[]]]; discriminate.
Qed.
(** A symmetric net that is a supply makes the last pass read outside of the list of nets. *)
Theorem C85_supply_symmetric_refuted : exists top sigs syms ms m a b, In m ms /\ In (a, b) (syms (vm_name m)) /\ net_of m a /\ net_of m b /\
  elaborate top [] syms ms <> None /\ elaborate top sigs syms ms = None.
Proof.
  exists "TOP", [vdd], (fun _ => [("OUT", "VDD")]), [amp], amp, "OUT", "VDD". split; [now left|]. split; [now left|].
  split; [exists 1%nat, 0%nat; do 2 eexists; split; reflexivity|]. split; [exists 2%nat, 0%nat; do 2 eexists; split; reflexivity|]. split; vm_compute; [discriminate|reflexivity].
Qed.
(** A net in two symmetric pairs: its first partner still names it, but it names the second. *)
Theorem C85_two_pairs_refuted : exists top sigs syms ms t j n i k, elaborate top sigs syms ms = Some t /\ nth_error t j = Some n /\ counterpart n i = Some k /\ counterpart n k <> Some i.
Proof.
  exists "TOP", [], (fun _ => [("A", "N1"); ("N1", "N2")]), [chip]. eexists. exists 0%nat. eexists. exists 0%nat, 1%nat. split; [vm_compute; reflexivity|]. split; [reflexivity|]. split; [reflexivity|]. discriminate.
Qed.
(** Supplies are found by name in each module: inside an instance the same net under another name is an ordinary net,
    and an ordinary net of that name is a power net. *)
Definition cell (p : string) : vmod := mkVmod "CELL" [p] [mkVinst (Some "RES") None "R1" [("P", p); ("N", "X")]].
Definition use (f a : string) : vmod := mkVmod "TOP" [] [mkVinst (Some "CELL") None "U1" [(f, a)]].
Theorem C85_supply_refuted : exists ms t n nt, elaborate "TOP" [vdd] (fun _ => []) ms = Some t /\ ms = [cell "P"; use "P" "VDD"] /\ nth_error t 0 = Some n /\ nth_error t 1 = Some nt /\
  iter_at nt (ToBlk 0 0) = Some None /\ iter_at n (ToTerm 0) = Some (Some 0%nat) /\ net_name n 0 = Some "P".
Proof. exists [cell "P"; use "P" "VDD"]. eexists. eexists. eexists. split; [vm_compute; reflexivity|]. split; [reflexivity|]. split; [reflexivity|]. split; [reflexivity|]. repeat split. Qed.
Theorem C85_local_refuted : exists ms t n nt, elaborate "TOP" [vdd] (fun _ => []) ms = Some t /\ ms = [cell "VDD"; use "VDD" "SIG"] /\ nth_error t 0 = Some n /\ nth_error t 1 = Some nt /\
  iter_at nt (ToBlk 0 0) = Some (Some 0%nat) /\ net_name nt 0 = Some "SIG" /\ iter_at n (ToTerm 0) = Some None.
Proof. exists [cell "VDD"; use "VDD" "SIG"]. eexists. eexists. eexists. split; [vm_compute; reflexivity|]. split; [reflexivity|]. split; [reflexivity|]. split; [reflexivity|]. repeat split. Qed.
(** A signal that is given twice leaves a second, empty power net of the same name. *)
Theorem C85_twice_refuted : exists t n, elaborate "TOP" [vdd; vdd] (fun _ => []) [amp] = Some t /\ nth_error t 0 = Some n /\ map pw_name (ld_power n) = ["VDD"; "VDD"].
Proof. eexists. eexists. split; [vm_compute; reflexivity|]. split; reflexivity. Qed.

Print Assumptions C85_defined.
Print Assumptions C85_parents.
Print Assumptions C85_child.
Print Assumptions C85_top.
Print Assumptions C85_nets.
Print Assumptions C85_iter.
Print Assumptions C85_power.
Print Assumptions C85_symmetric.
Print Assumptions C85_nonvacuous.
Print Assumptions C85_child_refuted.
Print Assumptions C85_supply_symmetric_refuted.
Print Assumptions C85_two_pairs_refuted.
Print Assumptions C85_supply_refuted.
Print Assumptions C85_local_refuted.
Print Assumptions C85_twice_refuted.
