(** C62: pins of symmetric nets (compiler/find_constraint.py:499-598). *)
From Coq Require Import String.
From Verif Require Import Base.Prelude Model.RemoveDuplicates Model.Netlist Model.UpdateConst Model.SymConst Model.SymNet Spec.SymNetSpec Proofs.NetlistP Proofs.HierP Proofs.SymConstP Proofs.SymNetP.

(** The two lists of pins have the same length, and at each position stand connections of the two nets of the
    same kind, on instances that are not skipped and, without a user constraint, are symmetric. *)
Theorem C62_sound model smb skip user A B s : sym_pins model smb skip user A B = Some s ->
  Forall2 (fun a b => exists ta tb, In (a, ta) A /\ In (b, tb) B /\ eligible model smb skip user (a, ta) (b, tb)) (ps_A s) (ps_B s) /\ (2 <= length (ps_pairs s))%nat.
Proof.
  unfold sym_pins. destruct (foldO _ _ _) as [s0|] eqn:E; [|discriminate]. destruct (Nat.ltb_spec 1 (length (ps_pairs s0))) as [L|]; [|discriminate]. intros [= <-]. split; [exact (fold_sound _ _ _ _ _ _ _ E)|exact L].
Qed.
Print Assumptions C62_sound.
(** Without a user constraint, and with disjoint symmetric sets, no pin is used twice. *)
Theorem C62_once model smb skip A B s :
  (forall l l' x, In (WSet l) smb -> In (WSet l') smb -> In x l -> In x l' -> forall y, In y l -> In y l') ->
  (forall n i p, In (CPort n) (map fst A) -> In (CPin i p) (map fst A) -> n <> i) ->
  sym_pins model smb skip false A B = Some s -> NoDup (ps_A s) /\ NoDup (ps_B s).
Proof.
  intros Ha Hn. unfold sym_pins. destruct (foldO _ _ _) as [s0|] eqn:E; [|discriminate]. destruct (Nat.ltb _ _); [|discriminate]. intros [= <-]. destruct (fold_oto model smb skip false A B Ha Hn eq_refl s0 E) as (N1 & N2 & _). auto.
Qed.
Print Assumptions C62_once.
(** All eligible pairs of pins are found, when an instance has only one pin on the second net and each
    connection of the second net has only one of its kind on the first. *)
Theorem C62_complete model smb skip user A B : NoDup A -> NoDup B ->
  (forall b b' j q q', In b B -> In b' B -> fst b = CPin j q -> fst b' = CPin j q' -> b = b') ->
  (forall a a' b, In a A -> In a' A -> In b B -> alike model a b -> alike model a' b -> a = a') ->
  (forall m j q, In (CPort m) (map fst B) -> In (CPin j q) (map fst B) -> m <> j) ->
  forall a1 b1 i1 p1 j1 q1 a2 b2 i2 p2 j2 q2,
  In a1 A -> In b1 B -> eligible model smb skip user a1 b1 -> fst a1 = CPin i1 p1 -> fst b1 = CPin j1 q1 ->
  In a2 A -> In b2 B -> eligible model smb skip user a2 b2 -> fst a2 = CPin i2 p2 -> fst b2 = CPin j2 q2 -> i1 <> i2 ->
  exists s, sym_pins model smb skip user A B = Some s /\
  forall a b i p j q, In a A -> In b B -> eligible model smb skip user a b -> fst a = CPin i p -> fst b = CPin j q -> In (CPin i p, CPin j q) (combine (ps_A s) (ps_B s)).
Proof.
  intros NA NB H1 H2 H3 a1 b1 i1 p1 j1 q1 a2 b2 i2 p2 j2 q2 A1 B1 E1 X1 Y1 A2 B2 E2 X2 Y2 Hne.
  destruct (sym_pins_complete model smb skip user A B NA NB H1 H2 H3) as (s & E & L & C & _). exists s. split.
  - unfold sym_pins. rewrite E. destruct (Nat.ltb_spec 1 (length (ps_pairs s))) as [_|L1]; [reflexivity|]. exfalso.
    destruct (C a1 b1 i1 p1 j1 q1) as (_ & K1); [now apply in_prod|assumption|assumption|assumption|]. destruct (C a2 b2 i2 p2 j2 q2) as (_ & K2); [now apply in_prod|assumption|assumption|assumption|].
    destruct (ps_pairs s) as [|(k, v) [|e l]]; [destruct K1| |cbn in L1; lia]. cbn in K1, K2. destruct K1 as [K1|[]], K2 as [K2|[]]. congruence.
  - intros a b i p j q Ha Hb El Ea Eb. destruct (C a b i p j q) as (X & _); [now apply in_prod|assumption|assumption|assumption|]. rewrite Ea, Eb in X. exact X.
Qed.
Print Assumptions C62_complete.

Local Open Scope string_scope.
Local Open Scope list_scope.
Definition nmos (_ : string) : string := "NMOS".
(** Nets that differ only in the names of the instances are not paired when an instance is on the net with two
    pins, as a transistor connected as a diode is: the second pin finds its partner taken.  For a constraint of the user this is
    an AssertionError (find_constraint.py:313). *)
Theorem C62_diode_refuted : exists model A B (ren : string -> string),
  (forall i, model (ren i) = model i) /\ B = map (fun e => (match fst e with CPin i p => CPin (ren i) p | c => c end, snd e)) A /\
  (forall i p, In (CPin i p) (map fst A) -> ~ exists q, In (CPin i q) (map fst B)) /\
  sym_pins model [] [] true A B = None.
Proof.
  exists nmos, [(CPin "x" "D", "D"); (CPin "x" "G", "G"); (CPin "y" "S", "S")], [(CPin "xx" "D", "D"); (CPin "xx" "G", "G"); (CPin "yx" "S", "S")], (fun i => i ++ "x")%string.
  split; [reflexivity|]. split; [reflexivity|]. split; [|reflexivity]. intros i p H (q & K). cbn in H, K. repeat (destruct H as [[= <- <-]|H]; [repeat (destruct K as [K|K]; [discriminate|]); contradiction|]). destruct H.
Qed.
Print Assumptions C62_diode_refuted.
(** Neither are they when two instances of one model are on the net with the same pin, although the symmetric
    sets tell which belong together. *)
Theorem C62_parallel_refuted : exists model smb A B, partners smb "x1" "y1" /\ partners smb "x2" "y2" /\
  In (CPin "x1" "D", "D") A /\ In (CPin "x2" "D", "D") A /\ In (CPin "y1" "D", "D") B /\ In (CPin "y2" "D", "D") B /\ sym_pins model smb [] false A B = None.
Proof.
  exists nmos, [WSet ["x1"; "y1"]; WSet ["x2"; "y2"]], [(CPin "x1" "D", "D"); (CPin "x2" "D", "D")], [(CPin "y1" "D", "D"); (CPin "y2" "D", "D")].
  split; [exists ["x1"; "y1"]; split; [now left|cbn; intuition]|]. split; [exists ["x2"; "y2"]; split; [right; now left|cbn; intuition]|]. cbn [In]. repeat (split; [tauto|]). reflexivity.
Qed.
Print Assumptions C62_parallel_refuted.
(** With a constraint of the user, a pin can be paired with two pins: the test against it compares a tuple with
    strings. *)
Theorem C62_twice_refuted : exists model A B s, sym_pins model [] [] true A B = Some s /\ ~ NoDup (ps_A s).
Proof.
  exists (fun i => if in_strs i ["x"; "y1"; "y2"] then "NMOS" else "PMOS"), [(CPin "x" "D", "D"); (CPin "z" "D", "D")], [(CPin "y1" "D", "D"); (CPin "y2" "D", "D"); (CPin "u" "D", "D")]. eexists. split; [vm_compute; reflexivity|].
  cbn [ps_A]. intros N. inversion N as [|? ? H _]. apply H. now left.
Qed.
Print Assumptions C62_twice_refuted.

(** Two nets with a transistor, a load and a port each; they meet the hypotheses of C62_once and C62_complete. *)
Definition ex_model (i : string) : string := if in_strs i ["m1"; "m2"] then "NMOS" else "RES".
Definition ex_smb := [WSet ["m1"; "m2"]; WSet ["r1"; "r2"]; WName "u"].
Definition ex_A := [(CPin "m1" "D", "D"); (CPin "r1" "P", "P"); (CPort "o1", "D,P")].
Definition ex_B := [(CPin "r2" "P", "P"); (CPin "m2" "D", "D"); (CPort "o2", "D,P")].
Example C62_nonvacuous :
  (forall l l' x, In (WSet l) ex_smb -> In (WSet l') ex_smb -> In x l -> In x l' -> forall y, In y l -> In y l') /\
  (forall b b' j q q', In b ex_B -> In b' ex_B -> fst b = CPin j q -> fst b' = CPin j q' -> b = b') /\
  (forall a a' b, In a ex_A -> In a' ex_A -> In b ex_B -> alike ex_model a b -> alike ex_model a' b -> a = a') /\
  eligible ex_model ex_smb ["u"] false (CPin "m1" "D", "D") (CPin "m2" "D", "D") /\
  exists s, sym_pins ex_model ex_smb ["u"] false ex_A ex_B = Some s /\
  map pin_name (ps_A s) = ["m1/D"; "r1/P"; "o1"] /\ map pin_name (ps_B s) = ["m2/D"; "r2/P"; "o2"].
Proof.
  split; [|split; [|split; [|split]]].
  - intros l l' x [[= <-]|[[= <-]|[H|[]]]]; try discriminate; intros [[= <-]|[[= <-]|[H'|[]]]]; try discriminate; cbn; intuition (subst; discriminate).
  - intros b b' j q q' Hb Hb' E E'. cbn in Hb, Hb'. repeat (destruct Hb as [<-|Hb]; [repeat (destruct Hb' as [<-|Hb']; [first [reflexivity|cbn in E, E'; congruence]|]); destruct Hb'|]). destruct Hb.
  - intros a a' b Ha Ha' Hb (E & _) (E' & _). cbn in Ha, Ha'. rewrite <- E' in E. clear E' Hb. repeat (destruct Ha as [<-|Ha]; [repeat (destruct Ha' as [<-|Ha']; [first [reflexivity|cbn in E; congruence]|]); destruct Ha'|]). destruct Ha.
  - split; [split; reflexivity|]. cbn. split; [intuition discriminate|]. split; [intuition discriminate|]. right. exists ["m1"; "m2"]. split; [now left|cbn; intuition].
  - eexists. split; [vm_compute; reflexivity|]. split; reflexivity.
Qed.
