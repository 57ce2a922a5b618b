(** C86: the variants of the blocks in the placer's database.  PnRdatabase.cpp:1757-1847. *)
From Coq Require Import String Ascii.
From Verif Require Import Base.Prelude Base.PyDict Model.PnrMerge Model.Canvas Spec.FileStem Proofs.PnrMergeP.
Local Open Scope string_scope. Local Open Scope list_scope.

(** The stem is the name after the last slash without its last extension, though -1 is compared in the wrong width and a
    dot in a directory gives a negative length: both errors cancel for paths shorter than 2^32 - 1. *)
Theorem C86_stem s r : (slen s < 2 ^ 32 - 1)%Z -> (stem s = Some r <-> file_stem s r).
Proof.
  intros L. split; [|now apply stem_ok]. intros E. destruct (stem_exists s) as (r' & H). pose proof (stem_ok s r' L H) as E'. congruence.
Qed.

Section Tree.
  Variable G : Type.
  Variable lef : list (string * list (macro G)).
  Variable pairs : list (string * string).
  Hypothesis short : forall p, In p pairs -> (slen (snd p) < 2 ^ 32 - 1)%Z.
  (** Before: every block has one instance, and whether it is a leaf depends on its master. *)
  Variable leafof : string -> bool.
  Definition one (b : mblock G) (i : minst G) : Prop := mb_insts G b = [i] /\ mb_leaf G b = leafof (mi_master G i).
  Definition ready (t : list (list (mblock G))) : Prop := forall bs b, In bs t -> In b bs -> exists i, one b i.
  (** The LEF macro for a file. *)
  Definition macro_of (f : string) (l : macro G) : Prop := exists r ls, file_stem f r /\ dget String.eqb lef r = Some (l :: ls).
  (** A pin takes the geometry of the first macro pin of its name, if any. *)
  Definition pin_of (l : macro G) (p p' : string * option G) : Prop :=
    fst p' = fst p /\ ((exists g l1 l2, mc_pins G l = l1 ++ (fst p, g) :: l2 /\ ~ In (fst p) (map fst l1) /\ snd p' = Some g) \/ ~ In (fst p) (map fst (mc_pins G l)) /\ snd p' = snd p).
  Definition variant_of (i : minst G) (f : string) (i' : minst G) : Prop :=
    exists l, macro_of f l /\ mi_master G i' = mi_master G i /\ mi_gds G i' = Some f /\ mi_lef G i' = Some (mc_name G l) /\ mi_w G i' = mc_w G l /\ mi_h G i' = mc_h G l /\ Forall2 (pin_of l) (mi_pins G i) (mi_pins G i').
  Lemma files_in k f : In f (files pairs k) -> exists p, In p pairs /\ snd p = f.
  Proof. induction pairs as [|p ps IH]; cbn; [intros []|]. destruct (string_dec (fst p) k); [intros [<-|H]; [exists p; auto|]|intros H]; destruct IH as (q & Hq & E); try (intros; apply short; now right); auto; exists q; auto. Qed.
  Lemma first_pin_ok ps x : match first_pin G ps x with Some g => exists l1 l2, ps = l1 ++ (x, g) :: l2 /\ ~ In x (map fst l1) | None => ~ In x (map fst ps) end.
  Proof.
    induction ps as [|(y & g) ps IH]; cbn; [intros []|]. destruct (String.eqb_spec y x) as [->|N]; [exists [], ps; split; [reflexivity|intros []]|].
    destruct (first_pin G ps x) as [g'|]; [destruct IH as (l1 & l2 & -> & H); exists ((y, g) :: l1), l2; split; [reflexivity|intros [E|E]; [contradiction|auto]]|intros [E|E]; [contradiction|auto]].
  Qed.
  Lemma variant_ok i f : (slen f < 2 ^ 32 - 1)%Z -> match variant G lef i f with Some i' => variant_of i f i' | None => ~ exists l, macro_of f l end.
  Proof.
    intros L. unfold variant. destruct (stem_exists f) as (r & Hr). rewrite (stem_ok f r L Hr). destruct (dget String.eqb lef r) as [[|l ls]|] eqn:E.
    - intros (l & r' & ls & H & E'). pose proof (stem_ok f r L Hr) as S1. pose proof (stem_ok f r' L H) as S2. congruence.
    - exists l. split; [exists r, ls; auto|]. cbn. do 5 (split; [reflexivity|]). induction (mi_pins G i) as [|p ps IH]; cbn; constructor; [|exact IH]. split; [reflexivity|]. cbn [fst snd]. pose proof (first_pin_ok (mc_pins G l) (fst p)) as F. destruct (first_pin G (mc_pins G l) (fst p)) as [g|]; [left|right; auto]. destruct F as (l1 & l2 & F1 & F2). exists g, l1, l2. auto.
    - intros (l & r' & ls & H & E'). pose proof (stem_ok f r L Hr) as S1. pose proof (stem_ok f r' L H) as S2. congruence.
  Qed.
  (** It ends unless some file of a block has no LEF. *)
  Theorem C86_defined t : ready t -> (merge_tree G lef pairs t <> None <-> forall bs b i f, In bs t -> In b bs -> one b i -> In f (files pairs (mi_master G i)) -> exists l, macro_of f l).
  Proof.
    intros R. pose proof (merge_tree_ok G lef pairs leafof t (fun bs Hb b Hi => R bs b Hb Hi)) as H. destruct (merge_tree G lef pairs t) as [(st & t')|].
    - split; [intros _|discriminate]. intros bs b i f Hbs Hb Hi Hf. destruct H as (_ & _ & _ & H). specialize (H bs Hbs). destruct (files_in _ _ Hf) as (p & Hp & <-). pose proof (variant_ok i (snd p) (short p Hp)) as V. destruct (variant G lef i (snd p)) as [i'|] eqn:E; [destruct V as (l & V & _); now exists l|]. exfalso. apply H. exists b, i, (snd p). auto.
    - split; [now intros []|]. intros K. exfalso. destruct H as (bs & Hbs & b & i & f & Hb & Hi & Hf & Hv). destruct (files_in _ _ Hf) as (p & Hp & <-). pose proof (variant_ok i (snd p) (short p Hp)) as V. rewrite Hv in V. apply V. exact (K bs b i (snd p) Hbs Hb Hi Hf).
  Qed.
  (** A block whose master is in the map has one instance for each file, in the order of the map, with the size and the pins
      of its macro; one that is a capacitor by name or no leaf stays as it was. *)
  Theorem C86_variants t st t' j bs k b i : ready t -> merge_tree G lef pairs t = Some (st, t') -> nth_error t j = Some bs -> nth_error bs k = Some b -> one b i ->
    exists bs' b', nth_error t' j = Some bs' /\ nth_error bs' k = Some b' /\
      (files pairs (mi_master G i) <> [] -> Forall2 (variant_of i) (files pairs (mi_master G i)) (mb_insts G b') /\ mb_num G b' = List.length (mb_insts G b')) /\
      (files pairs (mi_master G i) = [] -> part "Cap" (mi_master G i) \/ part "CAP" (mi_master G i) \/ part "cap" (mi_master G i) \/ leafof (mi_master G i) = false -> b' = b).
  Proof.
    intros R E Hj Hk (O1 & O2). pose proof (merge_tree_ok G lef pairs leafof t (fun bs Hb b Hi => R bs b Hb Hi)) as H. rewrite E in H. destruct H as (H & _).
    assert (N : forall (A B : Type) (P : A -> B -> Prop) l l' n a, Forall2 P l l' -> nth_error l n = Some a -> exists b, nth_error l' n = Some b /\ P a b).
    { clear. intros A B P l l' n a F. revert n. induction F as [|x y l l' Hxy F IH]; intros [|n]; cbn; try discriminate; [intros [= <-]; eauto|apply IH]. }
    destruct (N _ _ _ _ _ _ _ H Hj) as (bs' & Hbs' & Hb). destruct (N _ _ _ _ _ _ _ Hb Hk) as (b' & Hb' & (i' & (F1 & F2) & M1 & M2 & M3 & M4)). assert (i' = i) as -> by congruence. exists bs', b'. split; [exact Hbs'|]. split; [exact Hb'|]. split.
    - intros K. destruct (M2 K) as (Q1 & Q2). rewrite Q2. assert (Q3 : Forall2 (variant_of i) (files pairs (mi_master G i)) (mb_insts G b')).
      { assert (Sh : forall f, In f (files pairs (mi_master G i)) -> (slen f < 2 ^ 32 - 1)%Z) by (intros f Hf; destruct (files_in _ _ Hf) as (p & Hp & <-); auto). clear - Q1 Sh. induction Q1 as [|f i' l l' Hv F IH]; constructor.
        - pose proof (variant_ok i f (Sh f (or_introl eq_refl))) as V. now rewrite Hv in V.
        - apply IH. intros g Hg. apply Sh. now right. }
      split; [exact Q3|]. clear - Q3. induction Q3; cbn; congruence.
    - intros K C. apply M3; [exact K|]. rewrite capish_ok, O2. tauto.
  Qed.
  (** The errors that are logged: each key once that is in no line of the map and whose blocks lose their instances. *)
  Theorem C86_errors t st t' : ready t -> merge_tree G lef pairs t = Some (st, t') ->
    NoDup (snd st) /\ forall k, In k (snd st) <-> exists j bs n b i b', nth_error t j = Some bs /\ nth_error bs n = Some b /\ one b i /\ mi_master G i = k /\
      option_map (fun bs' => nth_error bs' n) (nth_error t' j) = Some (Some b') /\ mb_insts G b' = [].
  Proof.
    intros R E. pose proof (merge_tree_ok G lef pairs leafof t (fun bs Hb b Hi => R bs b Hb Hi)) as H. rewrite E in H. destruct H as (H & N & K & _). split; [exact N|].
    assert (Nth : forall (A B : Type) (P : A -> B -> Prop) l l' n a, Forall2 P l l' -> nth_error l n = Some a -> exists b, nth_error l' n = Some b /\ P a b).
    { clear. intros A B P l l' n a F. revert n. induction F as [|x y l l' Hxy F IH]; intros [|n]; cbn; try discriminate; [intros [= <-]; eauto|apply IH]. }
    intros k. rewrite K. split.
    - intros ((bs & Hbs & b & i & Hb & Hi & <-) & L). apply In_nth_error in Hbs as (j & Hj). apply In_nth_error in Hb as (n & Hn).
      destruct (Nth _ _ _ _ _ _ _ H Hj) as (bs' & Hbs' & Hb). destruct (Nth _ _ _ _ _ _ _ Hb Hn) as (b' & Hb' & (i' & Hf & M1 & M2 & M3 & M4)). assert (i' = i) as -> by (destruct Hf, Hi; congruence).
      exists j, bs, n, b, i, b'. split; [exact Hj|]. split; [exact Hn|]. split; [exact Hi|]. split; [reflexivity|]. rewrite Hbs'. cbn. rewrite Hb'. split; [reflexivity|]. now apply M4.
    - intros (j & bs & n & b & i & b' & Hj & Hn & Hi & <- & Hb' & He). split.
      { exists bs. split; [now apply nth_error_In in Hj|]. exists b, i. split; [now apply nth_error_In in Hn|]. auto. }
      destruct (Nth _ _ _ _ _ _ _ H Hj) as (bs' & Hbs' & Hb). destruct (Nth _ _ _ _ _ _ _ Hb Hn) as (b2 & Hb2 & (i' & Hf & M1 & M2 & M3 & M4)). assert (i' = i) as -> by (destruct Hf, Hi; congruence).
      rewrite Hbs' in Hb'. cbn in Hb'. rewrite Hb2 in Hb'. injection Hb' as ->. destruct Hf as (F1 & F2). destruct (files pairs (mi_master G i)) as [|f fs] eqn:Ef.
      + split; [exact Ef|]. destruct (capish (mi_master G i)) eqn:Ec; [exfalso; rewrite (M3 eq_refl (or_introl eq_refl)) in He; congruence|]. split; [reflexivity|]. rewrite <- F2. destruct (mb_leaf G b) eqn:El; [reflexivity|]. exfalso. rewrite (M3 eq_refl (or_intror eq_refl)) in He. congruence.
      + exfalso. destruct (M2 ltac:(discriminate)) as (Q & _). rewrite He in Q. inversion Q.
  Qed.
End Tree.

(** * A small tree: a transistor with two variants, a resistor that the map does not have, an instance of a module *)
Definition nm (n : string) : macro Z := mkMacro Z n 10 20 [("D", 1%Z); ("G", 2%Z); ("D", 3%Z)].
Definition lefs : list (string * list (macro Z)) := [("NMOS_1", [nm "NMOS_1"]); ("NMOS_2", [nm "NMOS_2"])].
Definition pmap : list (string * string) := [("NMOS", "lib.d/NMOS_1.gds"); ("PMOS", "x"); ("NMOS", "lib.d/NMOS_2")].
Definition raw (k : string) : minst Z := mkMinst Z k None None 0 0 [("G", None); ("D", None); ("B", None)].
Definition blk (leaf : bool) (k : string) : mblock Z := mkMblock Z [raw k] leaf 0.
Definition is_leaf (k : string) : bool := negb (String.eqb k "AMP").
Definition small := [[blk true "NMOS"; blk true "RES"]; [blk false "AMP"; blk true "RES"; blk true "ESCAPE"]].
Example C86_nonvacuous : (forall p, In p pmap -> (slen (snd p) < 2 ^ 32 - 1)%Z) /\ ready Z is_leaf small /\ exists st t', merge_tree Z lefs pmap small = Some (st, t') /\ snd st = ["RES"] /\
  map (map (fun b => map (fun i => (mi_gds Z i, mi_lef Z i, mi_w Z i, mi_pins Z i)) (mb_insts Z b))) t' =
   [[[(Some "lib.d/NMOS_1.gds", Some "NMOS_1", 10%Z, [("G", Some 2%Z); ("D", Some 1%Z); ("B", None)]); (Some "lib.d/NMOS_2", Some "NMOS_2", 10%Z, [("G", Some 2%Z); ("D", Some 1%Z); ("B", None)])]; []];
    [[(None, None, 0%Z, [("G", None); ("D", None); ("B", None)])]; []; [(None, None, 0%Z, [("G", None); ("D", None); ("B", None)])]]].
Proof.
  split; [intros p [<-|[<-|[<-|[]]]]; reflexivity|]. split.
  - intros bs b [<-|[<-|[]]] Hb; cbn in Hb; repeat (destruct Hb as [<-|Hb]; [eexists; split; reflexivity|]); destruct Hb.
  - eexists. eexists. split; [vm_compute; reflexivity|]. split; reflexivity.
Qed.
Example C86_stem_nonvacuous : (slen "lib.d/NMOS_2" < 2 ^ 32 - 1)%Z /\ stem "lib.d/NMOS_2" = Some "NMOS_2" /\ stem "NMOS" = Some "NMOS" /\ stem "a/b.c/x.y.gds" = Some "x.y".
Proof. repeat split. Qed.

(** * What does not hold *)
(** A leaf that the map does not have loses its only instance, and nothing stops. *)
Theorem C86_lost_refuted : exists t st t' j bs' n b', ready Z is_leaf t /\ merge_tree Z lefs pmap t = Some (st, t') /\ nth_error t' j = Some bs' /\ nth_error bs' n = Some b' /\ mb_insts Z b' = [].
Proof.
  exists [[blk true "RES"]]. eexists. eexists. exists 0%nat. eexists. exists 0%nat. eexists. split; [|split; [vm_compute; reflexivity|repeat split]].
  intros bs b [<-|[]] Hb; cbn in Hb. destruct Hb as [<-|[]]. eexists; split; reflexivity.
Qed.
(** Of two such blocks with one master only the first is reported. *)
Theorem C86_report_refuted : exists st t', merge_tree Z lefs pmap [[blk true "RES"]; [blk true "RES"]] = Some (st, t') /\ snd st = ["RES"] /\ map (map (mb_num Z)) t' = [[0%nat]; [0%nat]] /\ map (map (mb_insts Z)) t' = [[[]]; [[]]].
Proof. eexists. eexists. split; [vm_compute; reflexivity|]. split; [reflexivity|]. split; reflexivity. Qed.
(** A leaf with CAP somewhere in its name keeps an instance without macro, size or file, and no error is logged. *)
Theorem C86_cap_refuted : exists st t' i, merge_tree Z lefs pmap [[blk true "ESCAPE"]] = Some (st, t') /\ snd st = [] /\ map (map (mb_insts Z)) t' = [[[i]]] /\ mi_gds Z i = None /\ mi_lef Z i = None /\ mi_w Z i = 0%Z.
Proof. eexists. eexists. eexists. split; [vm_compute; reflexivity|]. split; [reflexivity|]. split; [reflexivity|]. repeat split. Qed.
(** A pin that the macro does not have stays without geometry. *)
Theorem C86_pin_refuted : exists st t' i, merge_tree Z lefs pmap [[blk true "NMOS"]] = Some (st, t') /\ (exists b, t' = [[b]] /\ In i (mb_insts Z b)) /\ mi_lef Z i = Some "NMOS_1" /\ In ("B", None) (mi_pins Z i).
Proof. eexists. eexists. eexists. split; [vm_compute; reflexivity|]. split; [eexists; split; [reflexivity|now left]|]. split; [reflexivity|]. cbn. auto. Qed.

Print Assumptions C86_stem.
Print Assumptions C86_defined.
Print Assumptions C86_variants.
Print Assumptions C86_errors.
Print Assumptions C86_nonvacuous.
Print Assumptions C86_stem_nonvacuous.
Print Assumptions C86_lost_refuted.
Print Assumptions C86_report_refuted.
Print Assumptions C86_cap_refuted.
Print Assumptions C86_pin_refuted.
