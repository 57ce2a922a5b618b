(** C96: the visitors of the schema. *)
From Coq Require Import String.
From Verif Require Import Base.Prelude Model.Visitor Spec.VisitorSpec Proofs.VisitorP.

(** A transformer gives the mapped tree; it keeps all old objects as they are, returns the node
    itself exactly if no leaf is replaced, and a new object otherwise; each model, [List] and [Dict] is expanded once. *)
Theorem C96_transformed f h n v t : stands h n v t ->
  exists v' b h' c, transform f n (St h []) v = Some ((v', b), St h' c) /\
    (exists r, h' = h ++ r) /\ (exists m, stands h' m v' (mapped f t)) /\
    (b = true <-> ~ touched f t) /\ (b = true -> v' = v) /\
    (b = false -> forall id, v = VRef id -> exists j, v' = VRef j /\ length h <= j) /\
    NoDup (map fst c).
Proof.
  intros H. destruct (transform_ok f h n v t (St h []) H) as ([v' b] & [h' c] & E & (I1 & I2 & _) & _ & (G1 & G2 & G3 & G4)).
  { split; [apply extends_refl|]. split; [constructor|]. intros id v' []. }
  exists v', b, h', c. split; [exact E|]. split; [exact I1|]. split; [exact G1|]. split; [exact G2|]. split; [exact G3|]. split; [exact G4|exact I2].
Qed.

(** It succeeds exactly for trees without cycles and without nodes of other types. *)
Theorem C96_defined f h v : closed h -> in_heap h v -> ((exists n a st, transform f n (St h []) v = Some (a, st)) <-> proper h v).
Proof.
  intros Hc Hv. split.
  - intros (n & a & st & E). apply (transform_proper f h Hc n v (St h []) a st); auto. split; [apply extends_refl|]. intros id v' [].
  - intros (n & t & H). destruct (C96_transformed f h n v t H) as (v' & b & h' & c & E & _). eauto.
Qed.

(** The same model, [List] or [Dict] gives the same new object wherever it occurs. *)
Lemma transform_cached f n st id o v' b st' : nth_error (hp st) id = Some o -> cacheable o = true ->
  transform f n st (VRef id) = Some ((v', b), st') -> In (id, v') (cache st').
Proof.
  intros Ho Hc E. destruct n as [|n]; [discriminate|]. cbn [transform] in E. rewrite Ho, Hc in E. destruct (cached id (cache st)) as [w|] eqn:Ca.
  - injection E as <- _ <-. now apply cached_in.
  - destruct (each (transform f n) st (kids o)) as [[rs s1]|]; [|discriminate].
    destruct (if forallb snd rs then Some (VRef id, s1) else rebuild s1 o (map fst rs)) as [[w s2]|]; [|discriminate]. injection E as <- _ <-. now left.
Qed.
Theorem C96_shared f h n vs ts rs st i j id o ri rj : Forall2 (stands h n) vs ts -> each (transform f n) (St h []) vs = Some (rs, st) ->
  nth_error vs i = Some (VRef id) -> nth_error vs j = Some (VRef id) -> nth_error h id = Some o -> cacheable o = true ->
  nth_error rs i = Some ri -> nth_error rs j = Some rj -> fst ri = fst rj.
Proof.
  intros F E Vi Vj Ho Hc Ri Rj.
  assert (forall vs ts, Forall2 (stands h n) vs ts -> forall s rs s', t_inv f h s -> each (transform f n) s vs = Some (rs, s') ->
          t_inv f h s' /\ incl (cache s) (cache s') /\ forall i r, nth_error vs i = Some (VRef id) -> nth_error rs i = Some r -> In (id, fst r) (cache s')) as Go.
  { clear - Ho Hc. induction 1 as [|v t vs ts Hv Hvs IH]; intros s rs s' I E; cbn [each] in E.
    - injection E as <- <-. split; [exact I|]. split; [apply incl_refl|]. intros [|]; discriminate.
    - destruct (transform_ok f h n v t s Hv I) as ([w b] & s1 & E1 & I1 & (_ & new & N1 & _) & _). rewrite E1 in E.
      destruct (each (transform f n) s1 vs) as [[bs s2]|] eqn:E2; [|discriminate]. injection E as <- <-. destruct (IH s1 bs s2 I1 E2) as (I2 & C2 & Q).
      split; [exact I2|]. split; [intros x Hx; apply C2; rewrite N1; apply in_or_app; now right|]. intros [|k] r Hk Hr; cbn in Hk, Hr; [|eauto].
      injection Hk as ->. injection Hr as <-. apply C2. eapply transform_cached; [|exact Hc|exact E1]. destruct I as (X & _). eapply extends_nth; eauto. }
  destruct (Go vs ts F (St h []) rs st) as ((_ & ND & _) & _ & Q); [split; [apply extends_refl|split; [constructor|intros x y []]]|exact E|].
  pose proof (Q i ri Vi Ri) as H1. pose proof (Q j rj Vj Rj) as H2. clear - ND H1 H2.
  induction (cache st) as [|[k w] c IH]; [destruct H1|]. cbn in ND. inversion ND; subst.
  destruct H1 as [[= -> ->]|H1], H2 as [E|H2]; [injection E as <-; reflexivity| | |auto].
  - exfalso. apply H3. apply in_map_iff. exists (id, fst rj). auto.
  - injection E as -> ->. exfalso. apply H3. apply in_map_iff. exists (id, fst ri). auto.
Qed.

(** A visitor gives the results of all leaves in order, once for each time that a shared node occurs. *)
Theorem C96_collected {R} (g : leaf -> option R) h n id t : stands h n (VRef id) t ->
  exists st, visit g n (St h []) (VRef id) = Some (RList (collected g t), st).
Proof.
  intros H. destruct (visit_ok g h n (VRef id) t (St h []) H) as (st & E & _); [split; [reflexivity|intros x y []]|]. eauto.
Qed.

(** Finding: a [List] that two models share is not shared in their copies. *)
Definition prefix : leaf -> option leaf := fun l => match l with LStr s => Some (LStr ("prefix_" ++ s)) | _ => None end.
Definition shared_list : list obj :=
  [OSeq true [VLeaf (LStr "a"); VLeaf LNone]; OModel "M" [("x", VRef 0); ("y", VLeaf (LInt 1))]; OModel "M" [("x", VRef 0); ("y", VLeaf (LInt 2))]; OSeq true [VRef 1; VRef 2; VRef 1]]%string.
Theorem C96_list_refuted : exists f h id h' c id' w1 w2 r1 r2 x u1 u2 y1 y2,
  proper h (VRef id) /\ transform f 3 (St h []) (VRef id) = Some ((VRef id', false), St h' c) /\
  nth_error h id = Some (OSeq true [VRef w1; VRef w2; VRef w1]) /\ nth_error h' id' = Some (OSeq false [VRef u1; VRef u2; VRef u1]) /\
  nth_error h w1 = Some (OModel "M" (("x"%string, VRef x) :: r1)) /\ nth_error h w2 = Some (OModel "M" (("x"%string, VRef x) :: r2)) /\
  nth_error h' u1 = Some (OModel "M" (("x"%string, VRef y1) :: r1)) /\ nth_error h' u2 = Some (OModel "M" (("x"%string, VRef y2) :: r2)) /\ y1 <> y2.
Proof.
  exists prefix, shared_list, 3. do 12 eexists. split; [exists 3; repeat econstructor|]. split; [reflexivity|].
  do 6 (split; [reflexivity|]). discriminate.
Qed.
(** Finding: a [List] that is changed becomes a plain list, unless it is the field of a model. *)
Theorem C96_type_refuted : exists f h id vs v' h' c vs', proper h (VRef id) /\ nth_error h id = Some (OSeq true vs) /\
  transform f 1 (St h []) (VRef id) = Some ((VRef v', false), St h' c) /\ nth_error h' v' = Some (OSeq false vs').
Proof.
  exists prefix, [OSeq true [VLeaf (LStr "a")]], 0. do 5 eexists. split; [exists 1; repeat econstructor|]. repeat split.
Qed.
(** Finding: the cache outlives the objects. A visitor that is used for a second tree takes its
    nodes for those of the first one that had the same [id]. *)
Theorem C96_stale_refuted : exists f h1 h2 v a1 h1' c, proper h1 v /\ transform f 1 (St h1 []) v = Some (a1, St h1' c) /\ c <> [] /\
  exists t v' b st, stands h2 1 v t /\ touched f t /\ transform f 1 (St h2 c) v = Some ((v', b), st) /\ v' = v /\ forall m, ~ stands (hp st) m v' (mapped f t).
Proof.
  exists prefix, [OSeq true []], [OSeq true [VLeaf (LStr "a")]], (VRef 0). do 3 eexists. split; [exists 1; repeat econstructor|]. split; [reflexivity|]. split; [discriminate|].
  do 4 eexists. split; [econstructor; [reflexivity|]; repeat constructor|]. split; [exists (LStr "a"); split; [now left|discriminate]|]. split; [reflexivity|]. split; [reflexivity|].
  intros m H. inversion H as [|? ? o ts Ho F El Er]; subst. cbn in Ho. injection Ho as <-. inversion F as [|? ? ? ? S1 S2]; subst. inversion S1.
Qed.
(** Finding: a float stops every visitor. *)
Theorem C96_float_refuted : exists h v, closed h /\ in_heap h v /\ forall f n st, transform f n (St h []) v <> Some st.
Proof.
  exists [OModel "Boundary" [("max_width"%string, VBad)]], (VRef 0). split; [intros o id [<-|[]] [H|[]]; discriminate|]. split; [intros id [= <-]; cbn; lia|].
  intros f [|n] st; cbn; [discriminate|]. destruct n; discriminate.
Qed.

Example C96_transformed_nonvacuous : exists t a h' c, stands shared_list 3 (VRef 3) t /\ touched prefix t /\ transform prefix 3 (St shared_list []) (VRef 3) = Some (a, St h' c) /\
  length (leaves t) = 9 /\ length h' = 10 /\ map fst c = [3; 2; 1; 0].
Proof.
  assert (forall id, id = 1 \/ id = 2 -> exists t, stands shared_list 2 (VRef id) t /\ length (leaves t) = 3 /\ In (LStr "a") (leaves t)) as M.
  { intros id [->| ->]; eexists; (split; [econstructor; [reflexivity|]; cbn; constructor; [|constructor; [constructor|constructor]]; econstructor; [reflexivity|]; cbn; repeat constructor|split; [reflexivity|now left]]). }
  destruct (M 1 (or_introl eq_refl)) as (t1 & S1 & L1 & I1). destruct (M 2 (or_intror eq_refl)) as (t2 & S2 & L2 & I2).
  exists (TNode (label_of (OSeq true [VRef 1; VRef 2; VRef 1])) [t1; t2; t1]). do 3 eexists.
  split; [econstructor; [reflexivity|]; cbn; auto|]. split; [exists (LStr "a"); split; [cbn; apply in_or_app; now left|discriminate]|].
  split; [reflexivity|]. split; [|split; reflexivity]. cbn. rewrite !app_length, L1, L2. reflexivity.
Qed.

Print Assumptions C96_transformed.
Print Assumptions C96_defined.
Print Assumptions C96_shared.
Print Assumptions C96_collected.
Print Assumptions C96_list_refuted.
Print Assumptions C96_type_refuted.
Print Assumptions C96_stale_refuted.
Print Assumptions C96_float_refuted.
