(** C36: the names of primitives (util.py gen_key; gen_abstract_name.py gen_primitive_def, create_subckt). *)
From Coq Require Import String Ascii.
From Verif Require Import Base.Prelude Base.PyDict Base.PyStr Model.AbstractName Spec.AbstractNameSpec Proofs.AbstractNameP.
From Coq Require Import ZifyBool.
Local Open Scope Z_scope.

(** The order in which parameters are written does not matter. *)
Theorem C36_order hash d1 d2 : NoDup (map fst d1) -> NoDup (map fst d2) -> same_params d1 d2 -> gen_key hash d1 = gen_key hash d2.
Proof. intros N1 N2 S. unfold gen_key. now rewrite (arg_str_order d1 d2 N1 N2 S). Qed.

(** The hashed string determines the parameters, when names have no '_' or ':' and values no ':'. *)
Theorem C36_string d1 d2 : NoDup (map fst d1) -> NoDup (map fst d2) -> plain d1 -> plain d2 -> arg_str d1 = arg_str d2 -> same_params d1 d2.
Proof. exact (arg_str_inj d1 d2). Qed.

(** A name determines the model and the eight digits. *)
Theorem C36_parts hash m1 m2 d1 d2 : m1 ++ gen_key hash d1 = m2 ++ gen_key hash d2 -> m1 = m2 /\ hash (arg_str d1) mod 10 ^ 8 = hash (arg_str d2) mod 10 ^ 8.
Proof. exact (name_parts hash m1 m2 d1 d2). Qed.

(** Every device gets a primitive of its own model with its own parameters, if the truncated
    hash separates the devices of the design and no copied name looks like a primitive's. *)
Theorem C36_own_primitive hash deps P l ns P' :
  gen_all hash deps P l = Some (ns, P') ->
  (forall d1 d2, In d1 l -> In d2 l -> dv_sub d1 = None -> dv_sub d2 = None -> dv_model d1 = dv_model d2 ->
     hash (arg_str (dv_params d1)) mod 10 ^ 8 = hash (arg_str (dv_params d2)) mod 10 ^ 8 -> arg_str (dv_params d1) = arg_str (dv_params d2)) ->
  (forall d, In d l -> dv_sub d = None -> NoDup (map fst (dv_params d)) /\ plain (dv_params d)) ->
  (forall d m, In d l -> dv_sub d = None -> In m (map entry_name P) \/ (exists d', In d' l /\ (m = dv_model d' \/ In m (deps (dv_model d')))) -> m <> dv_model d ++ gen_key hash (dv_params d)) ->
  length ns = length l /\
  forall i d n, nth_error l i = Some d -> nth_error ns i = Some n -> dv_sub d = None -> n = dv_model d ++ gen_key hash (dv_params d) /\ serves P' n d.
Proof.
  intros G Hh Hp Hc. destruct (gen_all_facts hash deps l P ns P' G) as (_ & Ln & M & N). split; [assumption|]. intros i d n Hd Hn Hs. destruct (N i d n Hd Hn Hs) as (-> & _ & e & He). split; [reflexivity|].
  pose proof (nth_error_In _ _ Hd) as Hin. apply pfind_some in He as Hf. destruct Hf as (Hi & En). destruct (M e Hi) as [HP|[(d' & m & Hd' & -> & Hm)|(d' & Hd' & Hs' & Em)]].
  - exfalso. apply (Hc d (entry_name e) Hin Hs); [left; now apply in_map|assumption].
  - exfalso. apply (Hc d m Hin Hs); [right; exists d'; auto|exact En].
  - unfold made_by in Em. subst e. simpl in En. unfold uname in *. destruct (name_parts hash _ _ _ _ En) as (Eq & Eh). exists (dv_pins d'), (dv_name d'), (dv_params d'). split.
    + rewrite He. rewrite En, Eq. reflexivity.
    + destruct (Hp d Hin Hs) as (K1 & K2). destruct (Hp d' Hd' Hs') as (K3 & K4). apply C36_string; try assumption. exact (Hh d' d Hd' Hin Hs' Hs Eq Eh).
Qed.

(** If two devices get the same name, at most one of them has a primitive for it. *)
Theorem C36_shared P n d1 d2 : serves P n d1 -> serves P n d2 -> same_device d1 d2.
Proof.
  intros (p1 & x1 & q1 & F1 & S1) (p2 & x2 & q2 & F2 & S2). rewrite F1 in F2. injection F2 as _ _ _ E2 <-. split; [congruence|]. intros k v. rewrite <- (S1 k v). exact (S2 k v).
Qed.

(** The claim as stated is false, whatever the hash function: some two transistors that differ in
    width only get the same name, and the second gets the primitive of the first. *)
Theorem C36_hash_refuted (hash : chars -> Z) deps : exists d1 d2 n P,
  ~ same_device d1 d2 /\ plain (dv_params d1) /\ plain (dv_params d2) /\ NoDup (map fst (dv_params d1)) /\ NoDup (map fst (dv_params d2)) /\
  gen_all hash deps [] [d1; d2] = Some ([n; n], P) /\ ~ serves P n d2.
Proof.
  set (dv := fun i : nat => mkDev (str "M1") (str "NMOS") None true [(str "W", print_Z (Z.of_nat i))] [str "D"; str "G"; str "S"]).
  destruct (pigeonhole (fun i => hash (arg_str (dv_params (dv i))) mod 10 ^ 8) (10 ^ 8)) as (i & j & Hn & E); [lia|intros i; apply Z.mod_pos_bound; lia|].
  assert (Hd : ~ same_device (dv i) (dv j)).
  { intros (_ & S). assert (H : In (str "W", print_Z (Z.of_nat i)) (dv_params (dv j))) by (apply S; now left). destruct H as [H|[]]. apply (f_equal snd) in H. cbn [snd] in H. apply print_Z_inj in H. lia. }
  assert (Hp : forall k, plain (dv_params (dv k))).
  { intros k a b [H|[]]. injection H as <- <-. split; [simpl; intuition discriminate|]. split; [simpl; intuition discriminate|]. intros H. destruct (print_Z_form (Z.of_nat k)) as (ng & ds & Ek & _ & D). rewrite Ek in H. apply in_app_iff in H as [H|H].
    - destruct ng; [destruct H as [H|[]]; discriminate|destruct H].
    - rewrite forallb_forall in D. specialize (D _ H). discriminate. }
  assert (En : dv_model (dv j) ++ gen_key hash (dv_params (dv j)) = dv_model (dv i) ++ gen_key hash (dv_params (dv i))) by (unfold gen_key; rewrite E; reflexivity).
  destruct (gen_all hash deps [] [dv i; dv j]) as [(ns, P)|] eqn:G; [|cbn [gen_all] in G; unfold gen_primitive_def in G; cbn in G; discriminate].
  destruct (gen_all_facts hash deps _ _ _ _ G) as (_ & Ln & M & N). destruct ns as [|n1 [|n2 [|? ?]]]; try discriminate Ln. destruct (N 0%nat _ _ eq_refl eq_refl eq_refl) as (E1 & _ & _). destruct (N 1%nat _ _ eq_refl eq_refl eq_refl) as (E2 & _ & _).
  assert (E12 : n2 = n1) by (rewrite E1, E2; exact En). subst n2.
  (** The first device's primitive is there. *)
  assert (S1 : serves P n1 (dv i) \/ ~ serves P n1 (dv j)).
  { cbn [gen_all] in G. destruct (gen_primitive_def hash deps [] (dv i)) as [(m1, P1)|] eqn:G1; [|discriminate]. destruct (gen_primitive_def hash deps P1 (dv j)) as [(m2, P2)|] eqn:G2; [|discriminate]. injection G as <- _ <-.
    destruct (gen_step hash deps _ _ _ _ G1) as (_ & M1 & N1). destruct (N1 eq_refl) as (X1 & _ & e & X3). destruct (gen_step hash deps _ _ _ _ G2) as (Gr & _ & _). pose proof (grows_find _ _ _ _ Gr X3) as X4.
    apply pfind_some in X3 as Hf. destruct Hf as (Hi & Hname). destruct (M1 e Hi) as [[]|[(m & -> & _)|(_ & Em)]].
    - right. intros (p & x & q & F & _). rewrite X4 in F. discriminate.
    - left. unfold made_by in Em. subst e. exists (dv_pins (dv i)), (dv_name (dv i)), (dv_params (dv i)). split; [rewrite X4, X1; reflexivity|]. intros k v. tauto. }
  exists (dv i), (dv j), n1, P. split; [assumption|]. split; [apply Hp|]. split; [apply Hp|]. split; [repeat constructor; simpl; tauto|]. split; [repeat constructor; simpl; tauto|]. split; [rewrite E12 in G; exact G|].
  destruct S1 as [S1|S1]; [|assumption]. intros S2. apply Hd. exact (C36_shared P n1 _ _ S1 S2).
Qed.
(** Different parameters may even give the same string: the separators are not escaped. *)
Theorem C36_string_refuted : exists d1 d2, NoDup (map fst d1) /\ NoDup (map fst d2) /\ ~ same_params d1 d2 /\ forall hash, gen_key hash d1 = gen_key hash d2.
Proof.
  exists [(str "L", str "1_W:2")], [(str "W", str "2"); (str "L", str "1")]. split; [repeat constructor; simpl; tauto|]. split; [repeat constructor; simpl; intuition discriminate|]. split; [|intros hash; reflexivity].
  intros S. assert (H : In (str "L", str "1") [(str "L", str "1_W:2")]) by (apply S; simpl; auto). destruct H as [H|[]]. discriminate.
Qed.

Definition hlen (s : chars) : Z := fold_left (fun a c => a * 131 + Z.of_N (code c)) s 7.
Definition ex_devs : list dev :=
  [mkDev (str "M1") (str "NMOS") None true [(str "W", str "1"); (str "L", str "2")] [str "D"; str "G"; str "S"];
   mkDev (str "M2") (str "NMOS") None true [(str "L", str "2"); (str "W", str "1")] [str "D"; str "G"; str "S"];
   mkDev (str "M3") (str "NMOS") None true [(str "L", str "2"); (str "W", str "4")] [str "D"; str "G"; str "S"];
   mkDev (str "X4") (str "OTA") (Some false) false [] [str "A"]].
(** Three devices, two primitives, one subcircuit; all hypotheses of [C36_own_primitive] hold. *)
Example C36_nonvacuous : exists ns P',
  gen_all hlen (fun _ => []) [] ex_devs = Some (ns, P') /\ length P' = 3%nat /\ nth_error ns 0 = nth_error ns 1 /\ nth_error ns 0 <> nth_error ns 2 /\ nth_error ns 3 = Some (str "OTA") /\
  (forall d1 d2, In d1 ex_devs -> In d2 ex_devs -> dv_sub d1 = None -> dv_sub d2 = None -> dv_model d1 = dv_model d2 ->
     hlen (arg_str (dv_params d1)) mod 10 ^ 8 = hlen (arg_str (dv_params d2)) mod 10 ^ 8 -> arg_str (dv_params d1) = arg_str (dv_params d2)) /\
  (forall d, In d ex_devs -> dv_sub d = None -> NoDup (map fst (dv_params d)) /\ plain (dv_params d)) /\
  (forall d m, In d ex_devs -> dv_sub d = None -> In m (map entry_name []) \/ (exists d', In d' ex_devs /\ (m = dv_model d' \/ In m [])) -> m <> dv_model d ++ gen_key hlen (dv_params d)).
Proof.
  do 2 eexists. split; [vm_compute; reflexivity|]. split; [reflexivity|]. split; [reflexivity|]. split; [discriminate|]. split; [reflexivity|]. split; [|split].
  - intros d1 d2 H1 H2. simpl in H1, H2. destruct H1 as [<-|[<-|[<-|[<-|[]]]]], H2 as [<-|[<-|[<-|[<-|[]]]]]; vm_compute; intros; try discriminate; reflexivity.
  - intros d Hd. simpl in Hd. destruct Hd as [<-|[<-|[<-|[<-|[]]]]]; intros Hs; try discriminate; (split; [simpl; repeat constructor; simpl; intuition discriminate|]; intros k v H; simpl in H; repeat (destruct H as [H|H]; [injection H as <- <-; simpl; intuition discriminate|]); contradiction).
  - intros d m Hd Hs Hm. assert (Em : m = str "NMOS" \/ m = str "OTA") by (destruct Hm as [[]|(d' & Hd' & [->|[]])]; simpl in Hd'; destruct Hd' as [<-|[<-|[<-|[<-|[]]]]]; auto).
    simpl in Hd. destruct Hd as [<-|[<-|[<-|[<-|[]]]]]; try discriminate; destruct Em as [-> | ->]; vm_compute; discriminate.
Qed.
Print Assumptions C36_order.
Print Assumptions C36_string.
Print Assumptions C36_parts.
Print Assumptions C36_own_primitive.
Print Assumptions C36_shared.
Print Assumptions C36_hash_refuted.
Print Assumptions C36_string_refuted.
