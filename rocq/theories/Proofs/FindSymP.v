(** The search for symmetric nodes: what it finds, and termination. *)
From Coq Require Import String ZifyBool.
From Verif Require Import Base.Prelude Base.PyDict Model.RemoveDuplicates Model.Netlist Model.UpdateConst Model.FindSym Spec.SymSpec Proofs.NetlistP Proofs.HierP Proofs.UpdateConstP.

Lemma sset_inv d k v a b : In (k, v) (sset d a b) -> (k = a /\ v = b) \/ In (k, v) d.
Proof.
  unfold sset, dset. induction d as [|(x, y) d IH]; cbn [dupd]; [intros [[= <- <-]|[]]; auto|]. destruct (String.eqb_spec a x) as [->|n].
  - intros [[= <- <-]|H]; [now left|right; now right].
  - intros [[= <- <-]|H]; [right; now left|]. destruct (IH H) as [E|E]; [now left|right; now right].
Qed.
Lemma dset_inv {V} (d : list ((string * string) * V)) k v a b : In (k, v) (dset pin_eqb d a b) -> v = b \/ exists k', In (k', v) d.
Proof.
  unfold dset. induction d as [|(x, y) d IH]; cbn [dupd]; [intros [[= <- <-]|[]]; auto|]. destruct (pin_eqb a x).
  - intros [[= <- <-]|H]; [now left|right; exists k; now right].
  - intros [[= <- <-]|H]; [right; exists x; now left|]. destruct (IH H) as [E|(k' & E)]; [now left|right; exists k'; now right].
Qed.
Lemma fold_s_inv {A B} (f : B -> A -> sres B) (I : B -> Prop) l : forall s s', (forall s a s', In a l -> I s -> f s a = Ok s' -> I s') -> I s -> fold_s f l s = Ok s' -> I s'.
Proof.
  induction l as [|a l IH]; intros s s' Hf Hs H; cbn [fold_s] in H; [injection H as <-; assumption|]. destruct (f s a) as [s1| |] eqn:E; cbn [bind_s] in H; try discriminate. apply (IH s1 s'); [intros; eapply Hf; eauto; now right| |assumption]. apply (Hf s a s1); [now left|assumption|assumption].
Qed.
Lemma fold_s_out {A B} (f : B -> A -> sres B) (I : B -> Prop) l : forall s, (forall s a, In a l -> I s -> f s a <> Out /\ forall s', f s a = Ok s' -> I s') -> I s -> fold_s f l s <> Out.
Proof.
  induction l as [|a l IH]; intros s Hf Hs; cbn [fold_s]; [discriminate|]. destruct (Hf s a (or_introl eq_refl) Hs) as (H1 & H2). destruct (f s a) as [s1| |] eqn:E; cbn [bind_s]; [|discriminate|contradiction]. apply IH; [intros; apply Hf; [now right|assumption]|]. now apply H2.
Qed.
Lemma unique_inner_in G n1 l2 : forall m m' , unique_inner G n1 l2 m = Some m' -> forall k v, In (k, v) m' -> In (k, v) m \/ (k = n1 /\ In v l2 /\ g_id G k = g_id G v).
Proof.
  induction l2 as [|n2 l2 IH]; intros m m' H k v Hi; cbn [unique_inner] in H; [injection H as <-; now left|]. unfold same_id in H. destruct (String.eqb_spec (g_id G n1) (g_id G n2)) as [E|E].
  - destruct (shas m n1); [discriminate|]. destruct (IH _ _ H k v Hi) as [X|(-> & X & Y)]; [|right; split; [reflexivity|]; split; [now right|assumption]]. apply sset_inv in X as [(-> & ->)|X]; [right; split; [reflexivity|]; split; [now left|assumption]|now left].
  - destruct (IH _ _ H k v Hi) as [X|(-> & X & Y)]; [now left|right; split; [reflexivity|]; split; [now right|assumption]].
Qed.
Lemma unique_in G l1 l2 : forall m m', unique_branches G l1 l2 m = Some m' -> forall k v, In (k, v) m' -> In (k, v) m \/ (In k l1 /\ In v l2 /\ g_id G k = g_id G v).
Proof.
  induction l1 as [|n1 l1 IH]; intros m m' H k v Hi; cbn [unique_branches] in H; [injection H as <-; now left|]. destruct (unique_inner G n1 l2 m) as [m1|] eqn:U; [|discriminate]. destruct (shas m1 n1); [|discriminate]. destruct (IH _ _ H k v Hi) as [X|(X & Y & Z)]; [|right; split; [now right|]; auto]. destruct (unique_inner_in _ _ _ _ _ U k v X) as [Y|(-> & Y & Z)]; [now left|right; split; [now left|]; auto].
Qed.
Lemma combos_in l a b : In (a, b) (combos l) -> In a l /\ In b l.
Proof.
  induction l as [|x l IH]; cbn [combos]; [intros []|]. rewrite in_app_iff. intros [H|H]; [apply in_map_iff in H as (y & [= <- <-] & Hy); split; [now left|now right]|]. destruct (IH H). split; now right.
Qed.
Lemma free_in G tr n x : In x (free_nbrs G tr n) <-> In x (g_nb G n) /\ ~ In x tr /\ g_red G n x = true.
Proof.
  unfold free_nbrs. rewrite !filter_In. split.
  - intros ((H1 & H2) & H3). split; [assumption|]. split; [|assumption]. intros Hi. apply in_strs_iff in Hi. rewrite Hi in H2. discriminate.
  - intros (H1 & H2 & H3). split; [|assumption]. split; [assumption|]. destruct (in_strs x tr) eqn:E; [apply in_strs_iff in E; contradiction|reflexivity].
Qed.
Lemma new_in tr l (x : string) : In x (filter (fun x => negb (in_strs x tr)) l) <-> In x l /\ ~ In x tr.
Proof.
  rewrite filter_In. split; intros (H1 & H2); (split; [assumption|]).
  - intros Hi. apply in_strs_iff in Hi. rewrite Hi in H2. discriminate.
  - destruct (in_strs x tr) eqn:E; [apply in_strs_iff in E; contradiction|reflexivity].
Qed.
Lemma upd_pairs_in p q k v : In (k, v) (pd (upd_pairs p q)) -> In (k, v) (pd p) \/ In (k, v) (pd q).
Proof.
  unfold upd_pairs. cbn [pd]. generalize (pd p). induction (pd q) as [|(a, b) d IH]; intros d0 H; cbn [fold_left] in H; [now left|]. destruct (IH _ H) as [X|X]; [|right; now right]. cbn [fst snd] in X. apply sset_inv in X as [(-> & ->)|X]; [right; now left|now left].
Qed.

Section Sound.
  Variables (G : cgraph) (stop : list string) (start : string -> string -> Prop).
  (** A node pair that may be visited, and one that may be recorded. *)
  Definition visit (a b : string) : Prop := exists p1 p2, start p1 p2 /\ parallel G stop p1 p2 a b.
  Definition fine (a b : string) : Prop := g_id G a = g_id G b /\ visit a b.
  Definition fine_all (p : pairing) : Prop := forall k v, In (k, v) (pd p) -> fine k v.
  Definition inv (s : sstate) : Prop := fine_all (s_pair s) /\ (forall key p, In (key, p) (s_all s) -> fine_all p) /\ (forall x, In x stop -> In x (s_tr s)).
  Lemma fine_add p a b : fine_all p -> fine a b -> fine_all (add_pair p a b).
  Proof. intros Hp H k v Hi. cbn in Hi. apply sset_inv in Hi as [(-> & ->)|Hi]; auto. Qed.
  Lemma fine_none : fine_all no_pairs.
  Proof. intros k v []. Qed.
  Lemma compare_sound fuel : forall n1 n2 s s', inv s -> visit n1 n2 -> compare_nodes G fuel n1 n2 s = Ok s' -> inv s'.
  Proof.
    induction fuel as [|fuel IH]; intros n1 n2 s s' (I1 & I2 & I3) Hv H; cbn [compare_nodes] in H; [discriminate|].
    set (nb1 := free_nbrs G (s_tr s) n1) in *. set (nb2 := free_nbrs G (s_tr s) n2) in *.
    assert (Nx : forall a b, In a nb1 -> In b nb2 -> visit a b).
    { intros a b Ha Hb. apply free_in in Ha as (A1 & A2 & _). apply free_in in Hb as (B1 & B2 & _). destruct Hv as (p1 & p2 & Hs & Hp). exists p1, p2. split; [assumption|]. apply (par_step G stop p1 p2 n1 n2 a b Hp A1 B1); intros X; [apply A2|apply B2]; auto. }
    destruct (match nb1 with [] => true | _ :: _ => match nb2 with [] => true | _ :: _ => false end end).
    { injection H as <-. unfold same_id. destruct (String.eqb_spec (g_id G n1) (g_id G n2)) as [E|E]; [|exact (conj I1 (conj I2 I3))]. split; [apply fine_add; [assumption|split; assumption]|auto]. }
    destruct (Nat.ltb 10 (length nb1)).
    { unfold set_start in H. destruct (sp (s_pair s)); [discriminate|]. cbn [bind_s] in H. injection H as <-. split; [exact I1|]. split; [assumption|]. intros x Hx. right. auto. }
    destruct (String.eqb_spec n1 n2) as [<-|Hne].
    { destruct (in_strs n1 (map fst (pd (s_pair s))) || in_strs n1 (map snd (pd (s_pair s)))); [injection H as <-; exact (conj I1 (conj I2 I3))|].
      assert (Hf : fine n1 n1) by (split; [reflexivity|assumption]).
      set (sdn := filter (fun x => g_sd G n1 x) nb1) in *. assert (Sd : forall x, In x sdn -> In x nb1) by (intros x Hx; apply filter_In in Hx; tauto).
      destruct sdn as [|x [|y tl]] eqn:Es.
      - injection H as <-. split; [now apply fine_add|auto].
      - apply (IH _ _ _ _ ) in H; [assumption| |apply Nx; apply Sd; now left]. split; [now apply fine_add|]. split; [assumption|]. intros z Hz. right. auto.
      - rewrite <- Es in *. clear Es x y tl. set (tr := n1 :: s_tr s) in *. set (nsp := filter (fun x => negb (in_strs x tr)) sdn) in *.
        assert (Ns : forall x, In x nsp -> In x nb1) by (intros x Hx; apply new_in in Hx; apply Sd; tauto).
        assert (I3' : forall x, In x stop -> In x tr) by (intros x Hx; right; auto).
        destruct (fold_s _ (combos nsp) _) as [al| |] eqn:F; cbn [bind_s] in H; try discriminate.
        assert (Ia : (forall key p, In (key, p) (fst al) -> fine_all p) /\ (forall key p, In (key, p) (snd al) -> fine_all p)).
        { refine (fold_s_inv _ (fun al => (forall key p, In (key, p) (fst al) -> fine_all p) /\ (forall key p, In (key, p) (snd al) -> fine_all p)) _ _ _ _ _ F); [|split; [assumption|intros ? ? []]].
          intros ac (a, b) ac' Hi (A1 & A2) E. cbn [fst snd] in E. destruct (compare_nodes G fuel a b _) as [r| |] eqn:C; cbn [bind_s] in E; try discriminate. injection E as <-. apply combos_in in Hi as (Ha & Hb).
          destruct (IH a b (mkS (fst ac) no_pairs tr) r (conj fine_none (conj A1 I3')) (Nx a b (Ns a Ha) (Ns b Hb)) C) as (R1 & R2 & _). cbn [fst snd]. split; [assumption|]. destruct (is_empty (s_pair r)); [assumption|]. intros key p Hp. apply in_app_iff in Hp as [Hp|[[= _ <-]|[]]]; eauto. }
        destruct Ia as (A1 & A2). assert (Fs : forall s'', fold_s (fun st a => if dmem pin_eqb (s_all st) (a, a) then Ok st else bind_s (compare_nodes G fuel a a (mkS (s_all st) no_pairs tr)) (fun r => Ok (mkS (if is_empty (s_pair r) then s_all r else dset pin_eqb (s_all r) (a, a) (s_pair r)) (s_pair st) (s_tr st)))) nsp (mkS (fst al) (add_pair (s_pair s) n1 n1) tr) = Ok s'' -> inv s'').
        { intros s'' Fo. refine (fold_s_inv _ inv _ _ _ _ _ Fo); [|split; [now apply fine_add|split; assumption]]. intros st a st' Ha (B1 & B2 & B3) E. destruct (dmem _ _ _); [injection E as <-; exact (conj B1 (conj B2 B3))|]. destruct (compare_nodes G fuel a a _) as [r| |] eqn:C; cbn [bind_s] in E; try discriminate. injection E as <-.
          destruct (IH a a (mkS (s_all st) no_pairs tr) r (conj fine_none (conj B2 I3')) (Nx a a (Ns a Ha) (Ns a Ha)) C) as (R1 & R2 & _). split; [assumption|]. split; [|assumption]. cbn [s_all]. destruct (is_empty (s_pair r)); [assumption|]. intros key p Hp. apply dset_inv in Hp as [->|(k' & Hp)]; eauto. }
        destruct (snd al) as [|(k1, q) [|e l]] eqn:El; [exact (Fs s' H)| |exact (Fs s' H)]. injection H as <-. split; [|split; [assumption|assumption]]. intros k v Hk. apply upd_pairs_in in Hk as [Hk|Hk]; [exact (fine_add _ _ _ I1 Hf k v Hk)|]. exact (A2 k1 q (or_introl eq_refl) k v Hk). }
    unfold same_id in H. destruct (String.eqb_spec (g_id G n1) (g_id G n2)) as [Eid|Eid]; [|injection H as <-; exact (conj I1 (conj I2 I3))].
    set (s1 := mkS (s_all s) (add_pair (s_pair s) n1 n2) (n1 :: n2 :: s_tr s)) in *. assert (J : inv s1) by (split; [apply fine_add; [assumption|split; assumption]|split; [assumption|intros x Hx; right; right; auto]]).
    assert (Fin : forall s'', (if Nat.ltb (distinct (flat_map (g_epins G n1) nb1)) (length (flat_map (g_epins G n1) nb1)) && Nat.ltb 1 (distinct (flat_map (g_epins G n1) nb1)) && (Nat.ltb (distinct (flat_map (g_epins G n2) nb2)) (length (flat_map (g_epins G n2) nb2)) && Nat.ltb 1 (distinct (flat_map (g_epins G n2) nb2))) then set_start s1 n1 n2 else Ok s1) = Ok s'' -> inv s'').
    { intros s'' E. destruct (_ && _); [|injection E as <-; assumption]. unfold set_start in E. destruct (sp (s_pair s1)); [discriminate|]. injection E as <-. exact J. }
    destruct (unique_branches G nb1 nb2 []) as [[|e m]|] eqn:U; [exact (Fin s' H)| |exact (Fin s' H)].
    refine (fold_s_inv _ inv _ _ _ _ _ H); [|exact J]. intros st (a, b) st' Hab (B1 & B2 & B3) E. cbn [fst snd] in E. destruct (compare_nodes G fuel a b _) as [r| |] eqn:C; cbn [bind_s] in E; try discriminate. injection E as <-.
    destruct (unique_in _ _ _ _ _ U a b Hab) as [[]|(Ha & Hb & _)]. destruct (IH a b (mkS (s_all st) (s_pair st) (s_tr s1)) r (conj B1 (conj B2 (proj2 (proj2 J)))) (Nx a b Ha Hb) C) as (R1 & R2 & _). split; [assumption|]. split; assumption.
  Qed.
End Sound.

Section Term.
  Variables (G : cgraph) (V : list string).
  Hypothesis closed : forall n x, In n V -> In x (g_nb G n) -> In x V.
  Definition left_nodes (tr : list string) : nat := length (filter (fun x => negb (in_strs x tr)) V).
  Lemma left_le tr tr' : (forall x, In x tr -> In x tr') -> (left_nodes tr' <= left_nodes tr)%nat.
  Proof.
    intros H. unfold left_nodes. clear closed. induction V as [|x l IH]; [reflexivity|]. cbn [filter]. destruct (in_strs x tr) eqn:E1, (in_strs x tr') eqn:E2; cbn [negb length]; try lia. exfalso. apply in_strs_iff in E1. apply H, in_strs_iff in E1. congruence.
  Qed.
  Lemma left_lt tr tr' n : (forall x, In x tr -> In x tr') -> In n V -> ~ In n tr -> In n tr' -> (left_nodes tr' < left_nodes tr)%nat.
  Proof.
    intros H. unfold left_nodes. clear closed. induction V as [|x l IH]; [intros []|]. intros Hn H1 H2. cbn [filter].
    assert (Le : (length (filter (fun x => negb (in_strs x tr')) l) <= length (filter (fun x => negb (in_strs x tr)) l))%nat).
    { clear - H. induction l as [|x l IH]; [reflexivity|]. cbn [filter]. destruct (in_strs x tr) eqn:E1, (in_strs x tr') eqn:E2; cbn [negb length]; try lia. exfalso. apply in_strs_iff in E1. apply H, in_strs_iff in E1. congruence. }
    destruct Hn as [->|Hn].
    - rewrite (proj2 (in_strs_iff _ _) H2). destruct (in_strs n tr) eqn:E; [apply in_strs_iff in E; contradiction|]. cbn [negb length]. lia.
    - specialize (IH Hn H1 H2). destruct (in_strs x tr) eqn:E1, (in_strs x tr') eqn:E2; cbn [negb length]; try lia. exfalso. apply in_strs_iff in E1. apply H, in_strs_iff in E1. congruence.
  Qed.
  Definition need (tr : list string) (n : string) : nat := (2 * left_nodes tr + (if in_dec string_dec n tr then 2 else 1))%nat.
  Lemma compare_term fuel : forall n1 n2 s, In n1 V -> In n2 V -> (need (s_tr s) n1 <= fuel)%nat -> compare_nodes G fuel n1 n2 s <> Out.
  Proof.
    induction fuel as [|fuel IH]; intros n1 n2 s V1 V2 Hn; [unfold need in Hn; destruct (in_dec string_dec n1 (s_tr s)); lia|]. cbn [compare_nodes].
    set (nb1 := free_nbrs G (s_tr s) n1). set (nb2 := free_nbrs G (s_tr s) n2).
    destruct (match nb1 with [] => true | _ :: _ => match nb2 with [] => true | _ :: _ => false end end); [discriminate|].
    destruct (Nat.ltb 10 (length nb1)); [unfold set_start; destruct (sp (s_pair s)); discriminate|].
    assert (Inb : forall x, In x nb1 -> In x V /\ ~ In x (s_tr s)) by (intros x Hx; apply free_in in Hx as (H1 & H2 & _); split; [exact (closed n1 x V1 H1)|assumption]).
    assert (Inb2 : forall x, In x nb2 -> In x V) by (intros x Hx; apply free_in in Hx as (H1 & H2 & _); exact (closed n2 x V2 H1)).
    (* a free neighbour, after n1 is traversed *)
    assert (Step : forall tr a, In a nb1 -> (forall x, In x (s_tr s) -> In x tr) -> In n1 tr -> (need tr a <= fuel)%nat).
    { intros tr a Ha Hs Ht. destruct (Inb a Ha) as (Va & Na). unfold need in *. destruct (in_dec string_dec n1 (s_tr s)) as [i|i].
      - destruct (in_dec string_dec a tr) as [j|j]; [pose proof (left_lt _ _ a Hs Va Na j); lia|pose proof (left_le _ _ Hs); lia].
      - pose proof (left_lt _ _ n1 Hs V1 i Ht). destruct (in_dec string_dec a tr); lia. }
    destruct (String.eqb_spec n1 n2) as [<-|Hne].
    { destruct (_ || _); [discriminate|]. set (sdn := filter (fun x => g_sd G n1 x) nb1). assert (Sd : forall x, In x sdn -> In x nb1) by (intros x Hx; apply filter_In in Hx; tauto).
      destruct sdn as [|x [|y tl]] eqn:Es; [discriminate| |].
      - assert (Hx : In x nb1) by (apply Sd; now left). apply IH; [exact (proj1 (Inb x Hx))|exact (proj1 (Inb x Hx))|]. cbn [s_tr]. apply Step; [assumption|intros z Hz; now right|now left].
      - rewrite <- Es in *. clear Es x y tl. set (tr := n1 :: s_tr s). set (nsp := filter (fun x => negb (in_strs x tr)) sdn). assert (Ns : forall x, In x nsp -> In x nb1) by (intros x Hx; apply new_in in Hx; apply Sd; tauto).
        assert (Cp : forall a b st, In a nsp -> In b nsp -> s_tr st = tr -> compare_nodes G fuel a b st <> Out).
        { intros a b st Ha Hb Et. apply IH; [exact (proj1 (Inb a (Ns a Ha)))|exact (proj1 (Inb b (Ns b Hb)))|]. rewrite Et. apply Step; [auto|intros z Hz; now right|now left]. }
        destruct (fold_s _ (combos nsp) _) as [al| |] eqn:F; cbn [bind_s]; [|discriminate|].
        + assert (Fs : forall st0, fold_s (fun st a => if dmem pin_eqb (s_all st) (a, a) then Ok st else bind_s (compare_nodes G fuel a a (mkS (s_all st) no_pairs tr)) (fun r => Ok (mkS (if is_empty (s_pair r) then s_all r else dset pin_eqb (s_all r) (a, a) (s_pair r)) (s_pair st) (s_tr st)))) nsp st0 <> Out).
          { intros st0. apply (fold_s_out _ (fun _ => True)); [|exact I]. intros st a Ha _. split; [|auto]. destruct (dmem _ _ _); [discriminate|]. pose proof (Cp a a (mkS (s_all st) no_pairs tr) Ha Ha eq_refl) as X. destruct (compare_nodes _ _ _ _ _); cbn [bind_s]; [discriminate|discriminate|contradiction]. }
          destruct (snd al) as [|(k1, q) [|e l]]; [apply Fs|discriminate|apply Fs].
        + exfalso. revert F. apply (fold_s_out _ (fun _ => True)); [|exact I]. intros ac (a, b) Hab _. split; [|auto]. apply combos_in in Hab as (Ha & Hb). cbn [fst snd]. pose proof (Cp a b (mkS (fst ac) no_pairs tr) Ha Hb eq_refl) as X. destruct (compare_nodes _ _ _ _ _); cbn [bind_s]; [discriminate|discriminate|contradiction]. }
    destruct (same_id G n1 n2); [|discriminate].
    destruct (unique_branches G nb1 nb2 []) as [[|e m]|] eqn:U; [| |].
    - destruct (_ && _); [|discriminate]. unfold set_start. destruct (sp _); discriminate.
    - apply (fold_s_out _ (fun _ => True)); [|exact I]. intros st (a, b) Hab _. split; [|auto]. cbn [fst snd]. destruct (unique_in _ _ _ _ _ U a b Hab) as [[]|(Ha & Hb & _)].
      assert (X : compare_nodes G fuel a b (mkS (s_all st) (s_pair st) (n1 :: n2 :: s_tr s)) <> Out) by (apply IH; [exact (proj1 (Inb a Ha))|exact (Inb2 b Hb)|]; cbn [s_tr]; apply Step; [assumption|intros z Hz; right; now right|now left]).
      cbn [s_tr]. destruct (compare_nodes _ _ _ _ _); cbn [bind_s]; [discriminate|discriminate|contradiction].
    - destruct (_ && _); [|discriminate]. unfold set_start. destruct (sp _); discriminate.
  Qed.
End Term.

Lemma combos_rep_in l a b : In (a, b) (combos_rep l) -> In a l /\ In b l.
Proof.
  induction l as [|x l IH]; cbn [combos_rep]; [intros []|]. rewrite in_app_iff. intros [H|H]; [apply in_map_iff in H as (y & [= <- <-] & Hy); split; [now left|assumption]|]. destruct (IH H). split; now right.
Qed.
Lemma find_sound G fuel nodes stop ports weight all key p k v :
  find_symmetry G fuel nodes stop ports weight = Ok all -> In (key, p) all -> In (k, v) (pd p) ->
  g_id G k = g_id G v /\ exists p1 p2 w, In p1 ports /\ In p2 ports /\ weight p1 = Some w /\ weight p2 = Some w /\ parallel G stop p1 p2 k v.
Proof.
  intros H Hp Hk. set (start := fun p1 p2 => In p1 ports /\ In p2 ports /\ exists w, weight p1 = Some w /\ weight p2 = Some w).
  assert (X : forall key p, In (key, p) all -> fine_all G stop start p).
  { refine (fold_s_inv _ (fun all => forall key p, In (key, p) all -> fine_all G stop start p) _ _ _ _ _ H); [|intros ? ? []].
    intros al (a, b) al' Hi I E. cbn [fst snd] in E. apply combos_rep_in in Hi as (Ha & Hb). apply new_in in Ha as (A1 & A2). apply new_in in Hb as (B1 & B2).
    destruct (weight a) as [w1|] eqn:W1; [|injection E as <-; assumption]. destruct (weight b) as [w2|] eqn:W2; [|injection E as <-; assumption]. destruct (String.eqb_spec w1 w2) as [<-|]; [|injection E as <-; assumption].
    destruct (start_points _ _ _ _ _ _ _) as [al1| |] eqn:S; cbn [bind_s] in E; try discriminate. injection E as <-.
    intros key' p' Hi. apply filter_In in Hi as (Hi & _). unfold start_points in S. destruct (_ && _); [|injection S as <-; eapply I; eassumption].
    destruct (compare_nodes _ _ _ _ _) as [r| |] eqn:C; cbn [bind_s] in S; try discriminate. injection S as <-.
    destruct (compare_sound G stop start fuel a b (mkS al no_pairs (a :: b :: stop)) r) as (R1 & R2 & _); [split; [apply fine_none|split; [assumption|intros x Hx; right; now right]]| |assumption|].
    - exists a, b. split; [split; [assumption|split; [assumption|exists w1; auto]]|]. now constructor.
    - destruct (is_empty (s_pair r)); [eapply R2; eassumption|]. apply dset_inv in Hi as [->|(k' & Hi)]; [assumption|eapply R2; eassumption]. }
  destruct (X key p Hp k v Hk) as (E & p1 & p2 & (P1 & P2 & w & W1 & W2) & Hpar). split; [assumption|]. exists p1, p2, w. auto.
Qed.
Lemma parallel_stop G stop p1 p2 a b : parallel G stop p1 p2 a b -> ~ In a stop /\ ~ In b stop.
Proof. intros []; auto. Qed.

Lemma find_term G fuel nodes stop ports weight V : (forall n x, In n V -> In x (g_nb G n) -> In x V) -> (forall p, In p ports -> In p V) ->
  (2 * length V + 2 <= fuel)%nat -> find_symmetry G fuel nodes stop ports weight <> Out.
Proof.
  intros Hc Hp Hf. unfold find_symmetry. apply (fold_s_out _ (fun _ => True)); [|exact I]. intros al (a, b) Hi _. split; [|auto]. cbn [fst snd]. apply combos_rep_in in Hi as (Ha & Hb). apply new_in in Ha as (A1 & A2). apply new_in in Hb as (B1 & B2).
  destruct (weight a); [|discriminate]. destruct (weight b); [|discriminate]. destruct (String.eqb _ _); [|discriminate]. unfold start_points. destruct (_ && _); [|discriminate].
  assert (X : compare_nodes G fuel a b (mkS al no_pairs (a :: b :: stop)) <> Out).
  { apply (compare_term G V Hc); auto. unfold need. cbn [s_tr]. pose proof (left_le V [] (a :: b :: stop) ltac:(intros ? [])) as Le. assert (Ln : left_nodes V [] = length V) by (unfold left_nodes; clear; induction V as [|x l IH]; [reflexivity|cbn [filter in_strs existsb negb length]; f_equal; exact IH]). destruct (in_dec _ _ _); lia. }
  destruct (compare_nodes _ _ _ _ _); cbn [bind_s]; [discriminate|discriminate|contradiction].
Qed.

Lemma fold_s_mono {A B} (f g : B -> A -> sres B) l : (forall s a, f s a <> Out -> g s a = f s a) -> forall s, fold_s f l s <> Out -> fold_s g l s = fold_s f l s.
Proof.
  intros H. induction l as [|a l IH]; intros s Hs; cbn [fold_s] in *; [reflexivity|]. destruct (f s a) as [s1| |] eqn:E; cbn [bind_s] in Hs; [| |contradiction]; rewrite (H s a) by (rewrite E; discriminate); rewrite E; cbn [bind_s]; [now apply IH|reflexivity].
Qed.
Lemma bind_mono {A B} (x y : sres A) (f g : A -> sres B) : (x <> Out -> y = x) -> (forall a, f a <> Out -> g a = f a) -> bind_s x f <> Out -> bind_s y g = bind_s x f.
Proof. intros H1 H2 H. destruct x; cbn [bind_s] in H; [| |contradiction]; rewrite H1 by discriminate; cbn [bind_s]; auto. Qed.
(** One level of [compare_nodes], given its recursive calls. *)
Definition level (G : cgraph) (rec : string -> string -> sstate -> sres sstate) (n1 n2 : string) (s : sstate) : sres sstate :=
      let nbrs1 := free_nbrs G (s_tr s) n1 in
      let nbrs2 := free_nbrs G (s_tr s) n2 in
      if match nbrs1, nbrs2 with [], _ => true | _, [] => true | _, _ => false end then
        Ok (if same_id G n1 n2 then mkS (s_all s) (add_pair (s_pair s) n1 n2) (s_tr s) else s)
      else if Nat.ltb 10 (length nbrs1) then
        bind_s (set_start s n1 n2) (fun s => Ok (mkS (s_all s) (s_pair s) (n1 :: s_tr s)))
      else if String.eqb n1 n2 then
        if in_strs n1 (map fst (pd (s_pair s))) || in_strs n1 (map snd (pd (s_pair s))) then Ok s
        else
          let sdn := filter (fun x => g_sd G n1 x) nbrs1 in
          match sdn with
          | [] => Ok (mkS (s_all s) (add_pair (s_pair s) n1 n1) (s_tr s))
          | [x] => rec x x (mkS (s_all s) (add_pair (s_pair s) n1 n1) (n1 :: s_tr s))
          | _ =>
              let tr := n1 :: s_tr s in
              let new_sp := filter (fun x => negb (in_strs x tr)) sdn in
              bind_s (fold_s (fun (acc : found * found) ab =>
                        bind_s (rec (fst ab) (snd ab) (mkS (fst acc) no_pairs tr))
                          (fun r => Ok (s_all r, if is_empty (s_pair r) then snd acc else snd acc ++ [(ab, s_pair r)])))
                      (combos new_sp) (s_all s, []))
                (fun al => match snd al with
                  | [(_, p)] => Ok (mkS (fst al) (upd_pairs (add_pair (s_pair s) n1 n1) p) tr)
                  | _ => fold_s (fun st a =>
                           if dmem pin_eqb (s_all st) (a, a) then Ok st
                           else bind_s (rec a a (mkS (s_all st) no_pairs tr))
                                  (fun r => Ok (mkS (if is_empty (s_pair r) then s_all r else dset pin_eqb (s_all r) (a, a) (s_pair r)) (s_pair st) (s_tr st))))
                         new_sp (mkS (fst al) (add_pair (s_pair s) n1 n1) tr)
                  end)
          end
      else if same_id G n1 n2 then
        let s' := mkS (s_all s) (add_pair (s_pair s) n1 n2) (n1 :: n2 :: s_tr s) in
        let wt1 := flat_map (g_epins G n1) nbrs1 in
        let wt2 := flat_map (g_epins G n2) nbrs2 in
        match unique_branches G nbrs1 nbrs2 [] with
        | Some (e :: m) => fold_s (fun st ab => bind_s (rec (fst ab) (snd ab) (mkS (s_all st) (s_pair st) (s_tr s')))
                             (fun r => Ok (mkS (s_all r) (s_pair r) (s_tr st)))) (e :: m) s'
        | _ => if Nat.ltb (distinct wt1) (length wt1) && Nat.ltb 1 (distinct wt1) && (Nat.ltb (distinct wt2) (length wt2) && Nat.ltb 1 (distinct wt2))
               then set_start s' n1 n2 else Ok s'
        end
      else Ok s.
Lemma level_eq G fuel n1 n2 s : compare_nodes G (Datatypes.S fuel) n1 n2 s = level G (compare_nodes G fuel) n1 n2 s.
Proof. reflexivity. Qed.
Lemma compare_mono G fuel : forall n1 n2 s, compare_nodes G fuel n1 n2 s <> Out -> compare_nodes G (Datatypes.S fuel) n1 n2 s = compare_nodes G fuel n1 n2 s.
Proof.
  induction fuel as [|fuel IH]; intros n1 n2 s H; [contradiction H; reflexivity|]. rewrite level_eq, (level_eq G fuel). rewrite level_eq in H. revert IH H. generalize (compare_nodes G (Datatypes.S fuel)), (compare_nodes G fuel). intros r' r IH. unfold level. cbv zeta.
  set (nb1 := free_nbrs G (s_tr s) n1). set (nb2 := free_nbrs G (s_tr s) n2).
  destruct (match nb1 with [] => true | _ :: _ => match nb2 with [] => true | _ :: _ => false end end); [reflexivity|]. destruct (Nat.ltb 10 _); [reflexivity|].
  destruct (String.eqb n1 n2).
  - destruct (_ || _); [reflexivity|]. destruct (filter _ nb1) as [|x [|y tl]]; [reflexivity|apply IH|]. apply bind_mono.
    + apply fold_s_mono. intros ac ab. apply bind_mono; [apply IH|reflexivity].
    + intros al. assert (Fs : forall l s0, fold_s (fun st a => if dmem pin_eqb (s_all st) (a, a) then Ok st else bind_s (r a a (mkS (s_all st) no_pairs (n1 :: s_tr s))) (fun r0 => Ok (mkS (if is_empty (s_pair r0) then s_all r0 else dset pin_eqb (s_all r0) (a, a) (s_pair r0)) (s_pair st) (s_tr st)))) l s0 <> Out ->
        fold_s (fun st a => if dmem pin_eqb (s_all st) (a, a) then Ok st else bind_s (r' a a (mkS (s_all st) no_pairs (n1 :: s_tr s))) (fun r0 => Ok (mkS (if is_empty (s_pair r0) then s_all r0 else dset pin_eqb (s_all r0) (a, a) (s_pair r0)) (s_pair st) (s_tr st)))) l s0 = fold_s (fun st a => if dmem pin_eqb (s_all st) (a, a) then Ok st else bind_s (r a a (mkS (s_all st) no_pairs (n1 :: s_tr s))) (fun r0 => Ok (mkS (if is_empty (s_pair r0) then s_all r0 else dset pin_eqb (s_all r0) (a, a) (s_pair r0)) (s_pair st) (s_tr st)))) l s0).
      { intros l. apply fold_s_mono. intros st a. destruct (dmem _ _ _); [reflexivity|]. apply bind_mono; [apply IH|reflexivity]. }
      destruct (snd al) as [|(k1, q) [|e l]]; [apply Fs|reflexivity|apply Fs].
  - destruct (same_id G n1 n2); [|reflexivity]. destruct (unique_branches G nb1 nb2 []) as [[|e m]|]; [reflexivity| |reflexivity]. apply fold_s_mono. intros st ab. apply bind_mono; [apply IH|reflexivity].
Qed.
Lemma find_mono G fuel nodes stop ports weight : find_symmetry G fuel nodes stop ports weight <> Out -> find_symmetry G (Datatypes.S fuel) nodes stop ports weight = find_symmetry G fuel nodes stop ports weight.
Proof.
  apply fold_s_mono. intros al ab. destruct (weight (fst ab)); [|reflexivity]. destruct (weight (snd ab)); [|reflexivity]. destruct (String.eqb _ _); [|reflexivity]. apply bind_mono; [|reflexivity]. unfold start_points. destruct (_ && _); [|reflexivity]. apply bind_mono; [|reflexivity]. apply compare_mono.
Qed.
Lemma find_fuel G f1 f2 nodes stop ports weight : (f1 <= f2)%nat -> find_symmetry G f1 nodes stop ports weight <> Out -> find_symmetry G f2 nodes stop ports weight = find_symmetry G f1 nodes stop ports weight.
Proof. intros L H. induction L as [|f2 L IH]; [reflexivity|]. rewrite find_mono; [assumption|now rewrite IH]. Qed.

(** The branches of two nodes. *)
Lemma sset_new d k v : ~ In k (map fst d) -> sset d k v = d ++ [(k, v)].
Proof.
  unfold sset, dset. induction d as [|(a, b) d IH]; cbn [dupd map fst In app]; intros H; [reflexivity|]. destruct (String.eqb_spec k a) as [->|n]; [contradiction H; now left|]. f_equal. apply IH. tauto.
Qed.
Lemma inner_has G n1 l2 : forall m, shas m n1 = true -> unique_inner G n1 l2 m = match filter (same_id G n1) l2 with [] => Some m | _ => None end.
Proof. induction l2 as [|x l2 IH]; intros m H; cbn [unique_inner filter]; [reflexivity|]. destruct (same_id G n1 x); [now rewrite H|now apply IH]. Qed.
Lemma inner_new G n1 l2 : forall m, ~ In n1 (map fst m) -> unique_inner G n1 l2 m = match filter (same_id G n1) l2 with [] => Some m | [x] => Some (m ++ [(n1, x)]) | _ => None end.
Proof.
  induction l2 as [|x l2 IH]; intros m H; cbn [unique_inner filter]; [reflexivity|]. destruct (same_id G n1 x); [|now apply IH]. destruct (shas m n1) eqn:E; [apply shas_in in E; contradiction|]. rewrite (sset_new _ _ _ H), inner_has by (apply shas_in; rewrite map_app, in_app_iff; right; now left). destruct (filter _ l2); reflexivity.
Qed.
Lemma branches_some G l1 l2 : forall m m', NoDup l1 -> (forall x, In x l1 -> ~ In x (map fst m)) ->
  (unique_branches G l1 l2 m = Some m' <-> exists e, m' = m ++ e /\ map fst e = l1 /\ forall k v, In (k, v) e -> filter (same_id G k) l2 = [v]).
Proof.
  induction l1 as [|n1 l1 IH]; intros m m' N D; cbn [unique_branches].
  - split; [intros [= <-]; exists []; now rewrite app_nil_r|]. intros (e & -> & E & _). apply map_eq_nil in E. subst e. now rewrite app_nil_r.
  - inversion N as [|? ? Na N']; subst. rewrite inner_new by (apply D; now left). destruct (filter (same_id G n1) l2) as [|x [|y tl]] eqn:F.
    + destruct (shas m n1) eqn:E; [apply shas_in in E; exfalso; exact (D n1 (or_introl eq_refl) E)|]. split; [discriminate|]. intros (e & _ & E1 & E2). destruct e as [|(a, b) e]; cbn in E1; [discriminate|]. injection E1 as -> _. specialize (E2 n1 b (or_introl eq_refl)). congruence.
    + destruct (shas (m ++ [(n1, x)]) n1) eqn:E; [|exfalso; assert (X : shas (m ++ [(n1, x)]) n1 = true) by (apply shas_in; rewrite map_app, in_app_iff; right; now left); congruence]. rewrite IH; [|assumption|intros z Hz; rewrite map_app, in_app_iff; cbn [map fst In]; intros [X|[<-|[]]]; [exact (D z (or_intror Hz) X)|contradiction]]. split.
      * intros (e & -> & E1 & E2). exists ((n1, x) :: e). rewrite <- app_assoc. split; [reflexivity|]. split; [cbn; now f_equal|]. intros k v [[= <- <-]|Hk]; auto.
      * intros (e & -> & E1 & E2). destruct e as [|(a, b) e]; cbn in E1; [discriminate|]. injection E1 as -> E1. pose proof (E2 n1 b (or_introl eq_refl)) as X. assert (x = b) by congruence. subst b. exists e. rewrite <- app_assoc. split; [reflexivity|]. split; [assumption|]. intros k v Hk. apply E2. now right.
    + split; [discriminate|]. intros (e & _ & E1 & E2). destruct e as [|(a, b) e]; cbn in E1; [discriminate|]. injection E1 as -> _. specialize (E2 n1 b (or_introl eq_refl)). congruence.
Qed.
Lemma filter_one {A} (f : A -> bool) l x : NoDup l -> (filter f l = [x] <-> In x l /\ f x = true /\ forall y, In y l -> f y = true -> y = x).
Proof.
  intros N. split.
  - intros E. assert (Hx : In x (filter f l)) by (rewrite E; now left). apply filter_In in Hx as (H1 & H2). split; [assumption|]. split; [assumption|]. intros y Hy Fy. assert (X : In y (filter f l)) by (apply filter_In; auto). rewrite E in X. destruct X as [->|[]]. reflexivity.
  - intros (H1 & H2 & H3). assert (Nf : NoDup (filter f l)) by now apply NoDup_filter. assert (Hx : In x (filter f l)) by (apply filter_In; auto). assert (Ho : forall y, In y (filter f l) -> y = x) by (intros y Hy; apply filter_In in Hy as (? & ?); auto). destruct (filter f l) as [|a [|b t]]; [destruct Hx|rewrite (Ho a); [reflexivity|now left]|]. inversion Nf as [|? ? Na _]; subst. contradiction Na. left. rewrite (Ho a), (Ho b); [reflexivity|right; now left|now left].
Qed.
Lemma branches_iff G l1 l2 m : NoDup l1 -> NoDup l2 ->
  (unique_branches G l1 l2 [] = Some m <-> map fst m = l1 /\ forall k v, In (k, v) m -> In v l2 /\ g_id G v = g_id G k /\ forall y, In y l2 -> g_id G y = g_id G k -> y = v).
Proof.
  intros N1 N2. rewrite branches_some by (auto; intros ? ? []). assert (Q : forall k v, filter (same_id G k) l2 = [v] <-> In v l2 /\ g_id G v = g_id G k /\ forall y, In y l2 -> g_id G y = g_id G k -> y = v).
  { intros k v. rewrite (filter_one _ _ _ N2). unfold same_id. split; intros (H1 & H2 & H3).
    - apply String.eqb_eq in H2. split; [assumption|]. split; [auto|]. intros y Hy E. apply H3; [assumption|]. apply String.eqb_eq. auto.
    - split; [assumption|]. split; [apply String.eqb_eq; auto|]. intros y Hy E. apply String.eqb_eq in E. apply H3; auto. }
  split.
  - intros (e & -> & E1 & E2). split; [assumption|]. intros k v Hk. apply Q. now apply E2.
  - intros (E1 & E2). exists m. split; [reflexivity|]. split; [assumption|]. intros k v Hk. apply Q. now apply E2.
Qed.
