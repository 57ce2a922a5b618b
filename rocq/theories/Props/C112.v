(** The order of the primitives in which they are matched. *)
From Coq Require Import String ZArith ZifyBool.
From Verif Require Import Base.Prelude Model.OrderLib.

(** A number of different things in a list. *)
Definition count_of (l : list string) (n : nat) : Prop := exists d, NoDup d /\ (forall x, In x d <-> In x l) /\ n = length d.
(** [a] may stand before [b]: more elements, or as many and fewer nets, or as many of both and not fewer models. *)
Definition before (a b : Sub) : Prop :=
  exists na nb ma mb, count_of (flat_map snd (s_elements a)) na /\ count_of (flat_map snd (s_elements b)) nb /\
    count_of (map fst (s_elements a)) ma /\ count_of (map fst (s_elements b)) mb /\
    (length (s_elements b) < length (s_elements a) \/
     (length (s_elements b) = length (s_elements a) /\ (na < nb \/ (na = nb /\ mb <= ma)))).
(** As good as each other. *)
Definition same_rank (a b : Sub) : Prop := before a b /\ before b a.

Lemma count_unique l n m : count_of l n -> count_of l m -> n = m.
Proof.
  intros (d & N & I & ->) (e & N' & I' & ->). apply Nat.le_antisymm; apply NoDup_incl_length; auto; intros x Hx.
  - apply I', I, Hx.
  - apply I, I', Hx.
Qed.
Lemma nets_fold l : forall acc, NoDup acc -> let r := fold_left (fun acc x => if in_dec string_dec x acc then acc else acc ++ [x]) l acc in
  NoDup r /\ forall x, In x r <-> In x acc \/ In x l.
Proof.
  induction l as [|y l IH]; intros acc N; cbn; [split; [exact N|intuition]|]. destruct (in_dec string_dec y acc) as [Hy|Hy].
  - destruct (IH acc N) as [N' I]. split; [exact N'|]. intros x. rewrite I. intuition. subst. auto.
  - assert (N1 : NoDup (acc ++ [y])).
    { apply (Permutation_NoDup (l := y :: acc)); [apply Permutation_cons_append|constructor; assumption]. }
    destruct (IH _ N1) as [N' I]. split; [exact N'|]. intros x. rewrite I, in_app_iff. cbn. intuition.
Qed.
Lemma nets_count s : count_of (flat_map snd (s_elements s)) (length (nets s)).
Proof. destruct (nets_fold (flat_map snd (s_elements s)) [] (NoDup_nil _)) as [N I]. exists (nets s). split; [exact N|]. split; [|reflexivity]. intros x. unfold nets. rewrite I. cbn. tauto. Qed.
Lemma models_count s : count_of (map fst (s_elements s)) (models s).
Proof. exists (nodup string_dec (map fst (s_elements s))). split; [apply NoDup_nodup|]. split; [intros x; apply nodup_In|reflexivity]. Qed.

Lemma before_key a b : before a b <-> key_lt a b = false.
Proof.
  unfold before, key_lt. split.
  - intros (na & nb & ma & mb & A & B & C & D & H). rewrite (count_unique _ _ _ A (nets_count a)), (count_unique _ _ _ B (nets_count b)), (count_unique _ _ _ C (models_count a)), (count_unique _ _ _ D (models_count b)) in H. lia.
  - intros H. exists (length (nets a)), (length (nets b)), (models a), (models b). split; [apply nets_count|]. split; [apply nets_count|]. split; [apply models_count|]. split; [apply models_count|]. lia.
Qed.
Lemma ins_perm x l : Permutation (ins_desc x l) (x :: l).
Proof. induction l as [|y l IH]; cbn; [reflexivity|]. destruct (key_lt x y); [|reflexivity]. rewrite IH. apply perm_swap. Qed.
Lemma ins_sorted x l : StronglySorted before l -> StronglySorted before (ins_desc x l).
Proof.
  induction 1 as [|y l S IH F]; cbn; [repeat constructor|]. destruct (key_lt x y) eqn:E.
  - constructor; [exact IH|]. rewrite Forall_forall in *. intros z Hz. apply (Permutation_in _ (ins_perm x l)) in Hz. destruct Hz as [<-|Hz]; [|auto].
    apply before_key. unfold key_lt in *. lia.
  - constructor; [constructor; assumption|]. apply Forall_forall. intros z [<-|Hz]; [apply before_key; exact E|]. rewrite Forall_forall in F. specialize (F z Hz).
    apply before_key in F. apply before_key. unfold key_lt in *. lia.
Qed.
Lemma ins_filter (f : Sub -> bool) x l : (forall y, In y l -> f x = true -> f y = true -> key_lt x y = false) -> filter f (ins_desc x l) = filter f (x :: l).
Proof.
  induction l as [|y l IH]; intros H; [reflexivity|]. cbn [ins_desc]. destruct (key_lt x y) eqn:E; [|reflexivity].
  cbn [filter]. rewrite IH by (intros z Hz; apply H; right; exact Hz). cbn [filter]. destruct (f x) eqn:Fx, (f y) eqn:Fy; try reflexivity.
  rewrite (H y (or_introl eq_refl) eq_refl Fy) in E. discriminate.
Qed.

(** The result has every subcircuit of the library once, the larger ones first, and those of the same rank in the order of the library. *)
Theorem C112_order : forall lib out, order_lib lib = Some out ->
  Permutation out (subs lib) /\ StronglySorted before out /\
  forall f : Sub -> bool, (forall a b, In a out -> In b out -> f a = true -> f b = true -> same_rank a b) -> filter f out = filter f (subs lib).
Proof.
  intros lib out. unfold order_lib. destruct (existsb _ _); [discriminate|]. intros [= <-]. generalize (subs lib) as l. clear lib.
  assert (P : forall l, Permutation (fold_right ins_desc [] l) l).
  { induction l as [|x l IH]; cbn; [constructor|]. rewrite ins_perm, IH. reflexivity. }
  intros l. split; [apply P|]. split.
  - induction l as [|x l IH]; cbn; [constructor|]. apply ins_sorted, IH.
  - intros f. induction l as [|x l IH]; intros H; [reflexivity|]. cbn [fold_right] in *.
    assert (HI : forall y, In y (x :: l) -> In y (ins_desc x (fold_right ins_desc [] l))).
    { intros y [<-|Hy]; apply (Permutation_in _ (Permutation_sym (ins_perm x _))); [left; reflexivity|]. right. apply (Permutation_in _ (Permutation_sym (P l))), Hy. }
    rewrite ins_filter.
    + cbn [filter]. rewrite IH; [reflexivity|]. intros a b Ha Hb. apply H; apply HI; right; apply (Permutation_in _ (P l)); assumption.
    + intros y Hy Fx Fy. apply before_key. refine (proj1 (H x y _ _ Fx Fy)); apply HI; [left; reflexivity|right; apply (Permutation_in _ (P l)), Hy].
Qed.

(** A subcircuit with more elements stands before one with fewer. *)
Theorem C112_larger : forall lib out a b, order_lib lib = Some out -> In a out -> In b out -> length (s_elements b) < length (s_elements a) ->
  exists l1 l2 l3, out = l1 ++ a :: l2 ++ b :: l3.
Proof.
  intros lib out a b E Ha Hb Hlt. destruct (C112_order _ _ E) as (_ & S & _). clear E. induction S as [|x out S IH F]; [destruct Ha|].
  rewrite Forall_forall in F. destruct Ha as [->|Ha].
  - destruct Hb as [->|Hb]; [lia|]. apply in_split in Hb. destruct Hb as (l2 & l3 & ->). exists [], l2, l3. reflexivity.
  - destruct Hb as [->|Hb].
    + specialize (F _ Ha). apply before_key in F. unfold key_lt in F. lia.
    + destruct (IH Ha Hb) as (l1 & l2 & l3 & ->). exists (x :: l1), l2, l3. reflexivity.
Qed.

(** The order is found exactly if every subcircuit has a net. *)
Theorem C112_defined : forall lib, order_lib lib = None <-> exists s, In (ESub s) lib /\ flat_map snd (s_elements s) = [].
Proof.
  intros lib. unfold order_lib.
  assert (X : existsb (fun s => length (nets s) =? 0) (subs lib) = true <-> exists s, In (ESub s) lib /\ flat_map snd (s_elements s) = []).
  { rewrite existsb_exists. split; intros (s & Hs & E); exists s.
    - split.
      + apply in_flat_map in Hs. destruct Hs as ([m|s'] & Hs & Hx); [destruct Hx|]. destruct Hx as [<-|[]]. exact Hs.
      + apply Nat.eqb_eq in E. destruct (nets_fold (flat_map snd (s_elements s)) [] (NoDup_nil _)) as [_ I]. apply length_zero_iff_nil in E. unfold nets in E. rewrite E in I.
        destruct (flat_map snd (s_elements s)) as [|y r]; [reflexivity|]. exfalso. apply (proj2 (I y)). right. left. reflexivity.
    - split; [apply in_flat_map; exists (ESub s); split; [exact Hs|left; reflexivity]|]. unfold nets. rewrite E. reflexivity. }
  rewrite <- X. destruct (existsb _ _); split; congruence.
Qed.

(** The generator of a primitive: of its own name if there is one, else the last one named in a constraint, in capitals. *)
Theorem C112_generator : forall has upper name consts old,
  (has name = true -> generator has upper name consts old = Some name) /\
  (has name = false -> (forall nm, In (Some nm) consts -> nm = EmptyString) -> generator has upper name consts old = old) /\
  (forall l1 nm l2, has name = false -> consts = l1 ++ Some nm :: l2 -> nm <> EmptyString -> (forall nm', In (Some nm') l2 -> nm' = EmptyString) ->
     generator has upper name consts old = Some (upper nm)).
Proof.
  intros has upper name consts old. unfold generator.
  assert (K : forall l o, (forall nm, In (Some nm) l -> nm = EmptyString) ->
    fold_left (fun g c => match c with Some nm => if string_dec nm "" then g else Some (upper nm) | None => g end) l o = o).
  { induction l as [|c l IH]; intros o H; [reflexivity|]. cbn [fold_left]. destruct c as [nm|].
    - rewrite (H nm (or_introl eq_refl)). cbn. apply IH. intros; apply H; right; assumption.
    - apply IH. intros; apply H; right; assumption. }
  split; [|split].
  - intros ->. reflexivity.
  - intros -> H. apply K, H.
  - intros l1 nm l2 -> -> Hne H. rewrite fold_left_app. cbn [fold_left]. destruct (string_dec nm ""); [contradiction|]. apply K, H.
Qed.

Definition one (n m : string) (p : list string) : Sub := mkSub n [(m, p)].
(** Of two primitives of the same rank the first of the library is matched first, so that the order of the template files decides. *)
Theorem C112_tie_refuted : exists lib lib' out out', Permutation lib lib' /\ order_lib lib = Some out /\ order_lib lib' = Some out' /\ out <> out'.
Proof.
  exists [ESub (one "A" "N" ["D"; "G"; "S"]); ESub (one "B" "P" ["D"; "G"; "S"])]%string, [ESub (one "B" "P" ["D"; "G"; "S"]); ESub (one "A" "N" ["D"; "G"; "S"])]%string.
  eexists. eexists. split; [apply perm_swap|]. split; [reflexivity|]. split; [reflexivity|discriminate].
Qed.
(** One empty subcircuit stops the ordering of all others. *)
Theorem C112_empty_refuted : exists lib, order_lib lib <> None /\ order_lib (lib ++ [ESub (mkSub "E" [])]) = None.
Proof. exists [ESub (one "A" "N" ["D"; "G"; "S"])]%string. split; [discriminate|reflexivity]. Qed.
(** A generator named in a constraint is taken though the pdk does not have it. *)
Theorem C112_missing_refuted : exists has upper name consts g, generator has upper name consts None = Some g /\ has g = false.
Proof. exists (fun _ => false), (fun s => s), "A"%string, [Some "MOS"%string], "MOS"%string. split; reflexivity. Qed.

Print Assumptions C112_order.
Print Assumptions C112_larger.
Print Assumptions C112_defined.
Print Assumptions C112_generator.
Print Assumptions C112_tie_refuted.
Print Assumptions C112_empty_refuted.
Print Assumptions C112_missing_refuted.

(** A pair of transistors comes before a diode-connected one, and that, with fewer nets, before a plain one. *)
Example C112_nonvacuous :
  order_lib [EModel "NMOS"; ESub (one "NMOS_S" "N" ["D"; "G"; "S"]); ESub (one "DCL" "N" ["D"; "D"; "S"]); ESub (mkSub "DP" [("N", ["DA"; "GA"; "S"]); ("N", ["DB"; "GB"; "S"])])]%string
  = Some [mkSub "DP" [("N", ["DA"; "GA"; "S"]); ("N", ["DB"; "GB"; "S"])]; one "DCL" "N" ["D"; "D"; "S"]; one "NMOS_S" "N" ["D"; "G"; "S"]]%string.
Proof. reflexivity. Qed.
