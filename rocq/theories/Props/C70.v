(** C70: source and drain of transistors, align/compiler/preprocess.py:147-268. *)
From Coq Require Import String Ascii.
From Verif Require Import Base.Prelude Base.PyDict Base.PyStr Model.RemoveDuplicates Model.Netlist Model.DefineSD Spec.ChannelSpec Proofs.RemoveDuplicatesP Proofs.NetlistP Proofs.SymConstP Proofs.BfsP Proofs.DefineSDP.
Local Open Scope string_scope. Local Open Scope list_scope.

(** Elements have distinct names, and an element has a pin once. *)
Definition well_formed (els : list elem) : Prop := NoDup (map e_name els) /\ Forall (fun e => NoDup (map fst (e_pins e))) els.
(** The kind of a device, as the code sees it. *)
Definition is_kind (L : models) (k : string) (e : elem) : Prop := get_base_model L (e_model e) = k.
Lemma kind_base L els e : well_formed els -> In e els -> base_of L els (e_name e) = get_base_model L (e_model e).
Proof. intros H He. unfold base_of. now rewrite (find_name els (proj1 H) e He). Qed.

(** Nothing is changed but source and drain of some transistors, and only exchanged. *)
Theorem C70_pins L ports power gnd els els' : well_formed els -> define_SD L ports power gnd els = Some els' ->
  Forall2 (fun e e' => e' = e \/ (is_kind L "PMOS" e \/ is_kind L "NMOS" e) /\ exchanged e e') els els'.
Proof.
  intros Hwf E. destruct (result L els ports power gnd els' E) as [->|(-> & _)].
  - assert (G : forall l, incl l els -> Forall2 (fun e e' => e' = e \/ (is_kind L "PMOS" e \/ is_kind L "NMOS" e) /\ exchanged e e') l (map (fun e => if flip L els ports power gnd (e_name e) then swap_SD e else e) l)).
    { induction l as [|e l IH]; intros Hl; cbn [map]; constructor; [|apply IH; intros x Hx; apply Hl; now right].
      assert (He : In e els) by (apply Hl; now left). destruct (flip L els ports power gnd (e_name e)) eqn:Ef; [right|now left].
      destruct (flip_mos L els ports power gnd Hwf e He Ef) as (Hb & (d & Hd) & s & Hs). rewrite (kind_base L els e Hwf He) in Hb. split; [exact Hb|]. now apply (swap_exchanged e d s). }
    apply G, incl_refl.
  - clear. induction els; constructor; auto.
Qed.
Print Assumptions C70_pins.

(** Which ones: [p] is the pin that should be away from power, the drain of a PMOS and the source of an NMOS, on net [n];
    [q] the other one, on [m].  Exchanged: going from power, [n] comes no later than [m], and going from ground [m] comes
    no later than [n].  Strictly so both ways: exchanged. *)
Theorem C70_which L ports power gnd els els' e e' p q n m : well_formed els -> define_SD L ports power gnd els = Some els' ->
  In (e, e') (combine els els') -> is_kind L "PMOS" e /\ p = "D" /\ q = "S" \/ is_kind L "NMOS" e /\ p = "S" /\ q = "D" ->
  sget (e_pins e) p = Some n -> sget (e_pins e) q = Some m -> n <> m ->
  let from_power r := r els (supply els ports power) (fun x => In x gnd) in
  let from_ground r := r els (supply els ports gnd) (fun x => In x power /\ In x ports) in
  (exchanged e e' -> from_power no_farther n m /\ from_ground no_farther m n) /\
  (from_power nearer n m -> from_ground nearer m n -> exchanged e e').
Proof.
  intros Hwf E Hin Hk Hn Hm Hne. cbn zeta.
  assert (He : In e els) by exact (in_combine_l _ _ _ _ Hin).
  assert (Hsame : ~ exchanged e e).
  { intros (_ & _ & _ & _ & H1 & _). destruct Hk as [(_ & -> & ->)|(_ & -> & ->)]; congruence. }
  assert (Hb : base_of L els (e_name e) = "PMOS" /\ p = "D" /\ q = "S" \/ base_of L els (e_name e) = "NMOS" /\ p = "S" /\ q = "D") by (rewrite (kind_base L els e Hwf He); exact Hk).
  destruct (who L els ports power gnd Hwf e p q n m He Hb Hn Hm) as (A & B).
  destruct (result L els ports power gnd els' E) as [->|(-> & Hno)].
  - assert (Ee : e' = if flip L els ports power gnd (e_name e) then swap_SD e else e).
    { clear - Hin. revert Hin. generalize (flip L els ports power gnd) as f. intros f. induction els as [|x l IH]; cbn; [intros []|]. intros [[= <- <-]|H]; auto. }
    destruct (flip L els ports power gnd (e_name e)) eqn:Ef; subst e'.
    + split; [intros _; now apply A|]. intros _ _. destruct Hk as [(_ & -> & ->)|(_ & -> & ->)]; [now apply (swap_exchanged e n m)|now apply (swap_exchanged e m n)].
    + split; [intros H; contradiction|]. intros H1 H2. specialize (B H1 H2). discriminate.
  - assert (e' = e) as -> by (clear - Hin; induction els as [|x l IH]; cbn in Hin; [contradiction|]; destruct Hin as [[= <- <-]|H]; auto).
    split; [intros H; contradiction|]. intros (k & Hk1 & _) (k2 & Hk2 & _). exfalso. destruct Hno as [Hno|Hno].
    + destruct (near_nonempty els _ _ _ _ Hk1) as (x & Hx). exact (Hno x Hx).
    + destruct (near_nonempty els _ _ _ _ Hk2) as (x & Hx). exact (Hno x Hx).
Qed.
Print Assumptions C70_which.

(** It fails exactly when both kinds of supply are declared and one of them has no port of the circuit. *)
Theorem C70_fails L ports power gnd els : define_SD L ports power gnd els = None <->
  power <> [] /\ gnd <> [] /\ ((forall n, In n power -> ~ In n ports) \/ (forall n, In n gnd -> ~ In n ports)).
Proof.
  assert (G : forall a, (forall n, In n a -> ~ In n ports) <-> inter a ports = []).
  { intros a. split; intros H.
    - destruct (inter a ports) as [|x l] eqn:E; [reflexivity|]. assert (Hx : In x (inter a ports)) by (rewrite E; now left). apply inter_in in Hx as (H1 & H2). destruct (H x H1 H2).
    - intros n H1 H2. assert (Hx : In n (inter a ports)) by now apply inter_in. now rewrite H in Hx. }
  rewrite (G power), (G gnd). split.
  - intros E. pose proof (define_cases L ports power gnd els) as H. now rewrite E in H.
  - intros (H1 & H2 & H3). unfold define_SD. destruct power as [|p0 pw]; [contradiction|]. destruct gnd as [|g0 gn]; [contradiction|].
    destruct H3 as [-> | ->]; [reflexivity|]. destruct (inter (p0 :: pw) ports); reflexivity.
Qed.
Print Assumptions C70_fails.

(** A second run changes nothing. *)
Theorem C70_idempotent L ports power gnd els els' : well_formed els -> define_SD L ports power gnd els = Some els' ->
  define_SD L ports power gnd els' = Some els'.
Proof. apply idempotent. Qed.
Print Assumptions C70_idempotent.

(** Finding: the base of a device is followed one step only.  A transistor whose model derives from one that derives from
    NMOS stays upside down, whatever the circuit. *)
Theorem C70_base_refuted L ports power gnd els els' e e' b c : well_formed els -> define_SD L ports power gnd els = Some els' -> In (e, e') (combine els els') ->
  dget String.eqb L (e_model e) = Some (MDev (Some b)) -> dget String.eqb L b = Some (MDev (Some c)) -> b <> "NMOS" -> b <> "PMOS" -> e' = e.
Proof.
  intros Hwf E Hin Hm _ N1 N2. pose proof (C70_pins _ _ _ _ _ _ Hwf E) as HF.
  assert (Hk : get_base_model L (e_model e) = b) by (unfold get_base_model; cbn [base_go]; now rewrite Hm).
  assert (HH : e' = e \/ (is_kind L "PMOS" e \/ is_kind L "NMOS" e) /\ exchanged e e').
  { clear - HF Hin. induction HF as [|x y l l' H _ IH]; cbn in Hin; [contradiction|]. destruct Hin as [[= -> ->]|Hin]; auto. }
  destruct HH as [H|([H|H] & _)]; [exact H| |]; unfold is_kind in H; congruence.
Qed.
Print Assumptions C70_base_refuted.

(** An inverter with an upside-down NMOS, behind a correct one; a second NMOS between the same nets, the right way up. *)
Definition sd_lib : models := [("nfet", MDev (Some "NMOS")); ("pfet", MDev (Some "PMOS")); ("nlvt", MDev (Some "nfet")); ("NMOS", MDev None); ("PMOS", MDev None)].
Definition mos (i m d g s b : string) : elem := mkElem i m [("D", d); ("G", g); ("S", s); ("B", b)] [].
Definition inverter (m : string) : list elem := [mos "MP" "pfet" "OUT" "IN" "VDD" "VDD"; mos "MN1" m "X" "IN" "OUT" "VSS"; mos "MN2" "nfet" "X" "IN" "VSS" "VSS"].
Example C70_nonvacuous :
  well_formed (inverter "nfet") /\
  define_SD sd_lib ["IN"; "OUT"; "VDD"; "VSS"] ["VDD"] ["VSS"] (inverter "nfet") =
    Some [mos "MP" "pfet" "OUT" "IN" "VDD" "VDD"; mos "MN1" "nfet" "OUT" "IN" "X" "VSS"; mos "MN2" "nfet" "X" "IN" "VSS" "VSS"] /\
  define_SD sd_lib ["IN"; "OUT"; "VDD"; "VSS"] ["VDD"] ["VSS"] (inverter "nlvt") = Some (inverter "nlvt") /\
  define_SD sd_lib ["IN"; "OUT"; "VDD"] ["VDD"] ["VSS"] (inverter "nfet") = None.
Proof.
  split; [|now vm_compute]. split; [|repeat constructor; cbn; intuition discriminate]. repeat constructor; cbn; intuition discriminate.
Qed.
(** The hypotheses of [C70_which] for MN1: OUT is strictly nearer to power, X strictly nearer to ground. *)
Example C70_hypotheses : let els := inverter "nfet" in let ports := ["IN"; "OUT"; "VDD"; "VSS"] in
  nearer els (supply els ports ["VDD"]) (fun x => In x ["VSS"]) "OUT" "X" /\
  nearer els (supply els ports ["VSS"]) (fun x => In x ["VDD"] /\ In x ports) "X" "OUT".
Proof.
  cbn zeta. split; exists 1.
  - split.
    + apply (near_step _ _ _ 0 "VDD" "OUT" (mos "MP" "pfet" "OUT" "IN" "VDD" "VDD")); [constructor|now left|now left|cbn; intuition discriminate].
      split; [now left|]. split; [cbn; tauto|]. exists (mos "MP" "pfet" "OUT" "IN" "VDD" "VDD"), "S". cbn; tauto.
    + intros H. inversion H as [? ? Hs|k n ? e Hn He Hj Hb]; subst.
      * destruct Hs as ([Hs|[]] & _). discriminate.
      * inversion Hn as [? ? Hs|]; subst. destruct Hs as ([<-|[]] & _). cbn in He. destruct He as [<-|[<-|[<-|[]]]]; destruct Hj as [(A & B)|(A & B)]; discriminate.
  - split.
    + apply (near_step _ _ _ 0 "VSS" "X" (mos "MN2" "nfet" "X" "IN" "VSS" "VSS")); [constructor|cbn; tauto|now left|cbn; intuition discriminate].
      split; [now left|]. split; [cbn; tauto|]. exists (mos "MN2" "nfet" "X" "IN" "VSS" "VSS"), "S". cbn; tauto.
    + intros H. inversion H as [? ? Hs|k n ? e Hn He Hj Hb]; subst.
      * destruct Hs as ([Hs|[]] & _). discriminate.
      * inversion Hn as [? ? Hs|]; subst. destruct Hs as ([<-|[]] & _). cbn in He. destruct He as [<-|[<-|[<-|[]]]]; destruct Hj as [(A & B)|(A & B)]; discriminate.
Qed.
