(** Proofs about merging stacked devices (Model/Netlist.v). *)
From Coq Require Import String Ascii ZifyBool.
From Verif Require Import Base.Prelude Base.PyDict Base.PyStr Model.RemoveDuplicates Model.Lef Model.Netlist Spec.NetlistSpec Proofs.LefP Proofs.NetlistP Proofs.ParallelP.
Local Open Scope Z_scope.

Lemma py_int_zstr z : py_int (zstr z) = Some z.
Proof.
  unfold py_int, zstr, str. rewrite list_ascii_of_string_of_list_ascii. pose proof (DecimalZ.of_to z) as Hz. unfold print_Z.
  destruct (Z.to_int z) as [u|u] eqn:E.
  - pose proof (to_uint_nonnil z u (or_introl E)) as Hne. pose proof (uint_all_digits u) as Hd. pose proof (digits_val_uint u) as Hv.
    assert (Hm : forall c, uint_chars u <> "-"%char :: c) by apply uint_chars_cons_not_minus.
    destruct (uint_chars u) as [|c d] eqn:Eu; [congruence|].
    assert (Hc : c <> "-"%char) by (intros ->; exact (Hm d eq_refl)).
    rewrite <- Hz. cbn [Z.of_int]. rewrite <- Hv.
    destruct c as [[] [] [] [] [] [] [] []]; try (now rewrite Hd); congruence.
  - pose proof (to_uint_nonnil z u (or_intror E)) as Hne. pose proof (uint_all_digits u) as Hd. pose proof (digits_val_uint u) as Hv.
    destruct (uint_chars u) as [|c d] eqn:Eu; [congruence|]. rewrite Hd. cbn [option_map]. rewrite Hv, <- Hz. reflexivity.
Qed.

Lemma pins_on_in net e k : wf_elem e -> In k (pins_on net e) <-> sget (e_pins e) k = Some net.
Proof.
  intros (Hnd & _). unfold pins_on. rewrite in_map_iff. split.
  - intros ((a, b) & <- & Hi). apply filter_In in Hi as (Hi & E). apply String.eqb_eq in E. simpl in E. subst b. now apply (in_dget _ String.eqb_eq).
  - intros E. exists (k, net). split; [reflexivity|]. apply filter_In. split; [now apply (dget_in _ String.eqb_eq)|apply String.eqb_refl].
Qed.
Lemma pins_on_nodup net e : wf_elem e -> NoDup (pins_on net e).
Proof. intros (Hnd & _). unfold pins_on. now apply filter_nodup. Qed.
Lemma pins_on_one net e p : wf_elem e -> pins_on net e = [p] <-> (forall k, sget (e_pins e) k = Some net <-> k = p).
Proof.
  intros Hw. split.
  - intros E k. rewrite <- (pins_on_in net e k Hw), E. simpl. split; [intros [->|[]]; reflexivity|auto].
  - intros H. pose proof (pins_on_nodup net e Hw) as Hnd.
    assert (H' : forall k, In k (pins_on net e) <-> k = p) by (intros k; rewrite (pins_on_in net e k Hw); apply H).
    destruct (pins_on net e) as [|a [|b l]].
    + exfalso. exact (proj2 (H' p) eq_refl).
    + f_equal. apply H'. now left.
    + exfalso. apply NoDup_cons_iff in Hnd as (Hn & _). apply Hn. rewrite (proj1 (H' a) (or_introl eq_refl)). rewrite <- (proj1 (H' b) (or_intror (or_introl eq_refl))). now left.
Qed.

Lemma repin_none net n2 l d : filter (fun p : string * string => String.eqb (snd p) net) l = [] ->
  foldM (fun d p => if String.eqb (snd p) net then option_map (sset d (fst p)) (sget (e_pins n2) (fst p)) else Some d) l d = Some d.
Proof.
  revert d. induction l as [|x l IH]; intros d; simpl; [reflexivity|]. destruct (String.eqb (snd x) net); [discriminate|]. apply IH.
Qed.
Lemma repin_one net n2 p y l : sget (e_pins n2) p = Some y -> forall d, map fst (filter (fun p : string * string => String.eqb (snd p) net) l) = [p] ->
  foldM (fun d p => if String.eqb (snd p) net then option_map (sset d (fst p)) (sget (e_pins n2) (fst p)) else Some d) l d = Some (sset d p y).
Proof.
  intros Hy. induction l as [|x l IH]; intros d; simpl; [discriminate|]. destruct (String.eqb (snd x) net).
  - simpl. intros E. injection E as E1 E2. rewrite E1, Hy. simpl. apply repin_none. apply map_eq_nil in E2. exact E2.
  - apply IH.
Qed.
Lemma repin_ok net e n2 p y : pins_on net e = [p] -> sget (e_pins n2) p = Some y -> repin net n2 (e_pins e) = Some (sset (e_pins e) p y).
Proof. intros Hp Hy. unfold repin. now apply repin_one. Qed.

Lemma sdel_get d k x : sget (sdel d k) x = if String.eqb x k then None else sget d x.
Proof.
  unfold sget, sdel. induction d as [|(a, b) d IH]; simpl; [now destruct (String.eqb x k)|]. destruct (String.eqb_spec a k) as [->|Ha]; simpl.
  - rewrite IH. destruct (String.eqb x k); reflexivity.
  - destruct (String.eqb_spec x a) as [->|Hx]; [|exact IH]. apply String.eqb_neq in Ha. now rewrite Ha.
Qed.
Lemma joined_ok e : wf_elem e -> joined e = Some (e_params e ++ e_pins e).
Proof.
  intros (_ & _ & Hd & _). unfold joined. destruct (existsb _ _) eqn:E; [|reflexivity]. apply existsb_exists in E as (p & Hp & Hs). apply shas_in in Hs.
  exfalso. apply (Hd (fst p)); [now apply in_map|assumption].
Qed.
Lemma joined_get e k : sget (e_params e ++ e_pins e) k = match sget (e_params e) k with Some v => Some v | None => sget (e_pins e) k end.
Proof. unfold sget. induction (e_params e) as [|(a, b) l IH]; simpl; [reflexivity|]. destruct (String.eqb k a); [reflexivity|exact IH]. Qed.
Lemma stackable_pins_ok p q : stackable_pins p q = true <-> terminal_pair p q.
Proof.
  unfold stackable_pins, terminal_pair. rewrite !orb_true_iff, !andb_true_iff, !String.eqb_eq. split.
  - intros [[[-> ->]|[-> ->]]|[[-> ->]|[-> ->]]]; tauto.
  - intros [E|[E|[E|E]]]; injection E as -> ->; tauto.
Qed.
Lemma terminal_neq p q : terminal_pair p q -> p <> q /\ p <> STACK /\ q <> STACK.
Proof. intros [E|[E|[E|E]]]; injection E as -> ->; repeat split; discriminate. Qed.

(** Two-element neighbourhoods. *)
Lemma on_net_in net els e : In e (on_net net els) <-> In e els /\ touches net e = true.
Proof. apply filter_In. Qed.

(** The result of a merge. *)
Definition stacked (a : elem) (p y : string) (s : Z) : elem := mkElem (e_name a) (e_model a) (sset (e_pins a) p y) (sset (e_params a) STACK (zstr s)).
Definition merge_result (els : list elem) (a b : elem) (p y : string) (s : Z) : list elem :=
  remove_elem (update (e_name a) (fun e => mkElem (e_name e) (e_model e) (sset (e_pins a) p y) (sset (e_params e) STACK (zstr s))) els) (e_name b).

Section Step.
  Variable els : list elem.
  Hypothesis Hwf : wf_netlist els.
  Hypothesis Hst : stack_ok els.
  Let wf e : In e els -> wf_elem e := wfe els Hwf e.

  Lemma stack_val e : In e els -> In STACK (map fst (e_params e)) -> exists s k, sget (e_params e) STACK = Some s /\ 0 <= k /\ py_int s = Some k /\ stack_count e = k.
  Proof.
    intros He Hk. apply shas_in in Hk. apply shas_ok in Hk as (s & Es). destruct Hst as (H & _). destruct (H e s He Es) as (k & Hk & Ek).
    exists s, k. unfold stack_count. now rewrite Es, Ek.
  Qed.

  (** [stack_pair] merges exactly the stackable pairs. *)
  Lemma stack_pair_yes net a b p q : stackable els net a b p q ->
    exists y s1 s2, sget (e_pins b) p = Some y /\ y <> net /\ stack_count a = s1 /\ stack_count b = s2 /\ 0 <= s1 /\ 0 <= s2 /\
      stack_pair net els a b = Some (merge_result els a b p y (s1 + s2)).
  Proof.
    intros (Ha & Hb & Hne & Hm & Hs & Ht & Hpa & Hpb & Hpins & Hpar & _).
    destruct (keys_ok els Hwf a b Ha Hb Hm) as (Kp & Kq). destruct (terminal_neq p q Ht) as (Hpq & HpS & HqS).
    assert (Ia : In p (map fst (e_pins a))). { apply shas_in, shas_ok. exists net. now apply Hpa. }
    assert (Ib : In q (map fst (e_pins b))). { apply shas_in, shas_ok. exists net. now apply Hpb. }
    pose proof (proj1 (Kp p) Ia) as Ibp. pose proof (proj2 (Kp q) Ib) as Iaq.
    pose proof Ibp as Hy. apply shas_in, shas_ok in Hy as (y & Ey). pose proof Iaq as Hx. apply shas_in, shas_ok in Hx as (x & Ex).
    destruct (stack_val a Ha Hs) as (t1 & s1 & E1 & P1 & I1 & C1). destruct (stack_val b Hb (proj1 (Kq STACK) Hs)) as (t2 & s2 & E2 & P2 & I2 & C2).
    exists y, s1, s2. split; [assumption|]. split; [intros ->; apply Hpb in Ey; congruence|]. repeat (split; [assumption|]).
    unfold stack_pair. rewrite (proj2 (shas_in (e_params a) STACK) Hs). simpl negb. cbv iota. rewrite Hm, String.eqb_refl. simpl negb. cbv iota.
    rewrite (proj2 (pins_on_one net a p (wf a Ha)) Hpa), (proj2 (pins_on_one net b q (wf b Hb)) Hpb).
    apply String.eqb_neq in Hpq as Epq. rewrite Epq, (joined_ok a (wf a Ha)), (joined_ok b (wf b Hb)).
    unfold stack_of. rewrite !joined_get, E1, E2, I1, I2.
    assert (Hh : forall e k, In e els -> In k (map fst (e_pins e)) -> k <> STACK -> shas (sdel (e_params e ++ e_pins e) STACK) k = true).
    { intros e k He Hk HkS. apply shas_ok. rewrite sdel_get. apply String.eqb_neq in HkS. rewrite HkS, joined_get.
      destruct (sget (e_params e) k); [eauto|]. apply shas_ok. now apply shas_in. }
    rewrite (Hh a p Ha Ia HpS), (Hh b p Hb Ibp HpS), (Hh a q Ha Iaq HqS), (Hh b q Hb Ib HqS). cbn [andb].
    rewrite (proj2 (stackable_pins_ok p q) Ht), andb_true_r.
    assert (Hd : dict_eqb (sdel (sdel (sdel (e_params a ++ e_pins a) STACK) p) q) (sdel (sdel (sdel (e_params b ++ e_pins b) STACK) p) q) = true).
    { apply dict_eqb_ok. intros k. rewrite !sdel_get. destruct (String.eqb_spec k q); [reflexivity|]. destruct (String.eqb_spec k p); [reflexivity|].
      destruct (String.eqb_spec k STACK); [reflexivity|]. rewrite !joined_get, Hpar, Hpins by assumption. reflexivity. }
    rewrite Hd. rewrite (repin_ok net a b p y); [reflexivity| |assumption]. now apply pins_on_one; [apply wf|].
  Qed.

  Lemma stack_pair_no net a b : In a els -> In b els -> a <> b -> (forall e, In e els -> touches net e = true -> e = a \/ e = b) ->
    stack_pair net els a b = Some els \/ exists p q, stackable els net a b p q.
  Proof.
    intros Ha Hb Hne Honly. unfold stack_pair. destruct (shas (e_params a) STACK) eqn:Hs; [|now left]. simpl negb. cbv iota.
    destruct (String.eqb_spec (e_model a) (e_model b)) as [Hm|]; [|now left]. simpl negb. cbv iota.
    destruct (pins_on net a) as [|p [|]] eqn:Epa; [now left| |now left]. destruct (pins_on net b) as [|q [|]] eqn:Epb; [now left| |now left].
    destruct (String.eqb_spec p q) as [|Hpq]; [now left|]. rewrite (joined_ok a (wf a Ha)), (joined_ok b (wf b Hb)).
    destruct (keys_ok els Hwf a b Ha Hb Hm) as (Kp & Kq). apply shas_in in Hs.
    destruct (stack_val a Ha Hs) as (t1 & s1 & E1 & P1 & I1 & C1). destruct (stack_val b Hb (proj1 (Kq STACK) Hs)) as (t2 & s2 & E2 & P2 & I2 & C2).
    unfold stack_of. rewrite !joined_get, E1, E2, I1, I2.
    pose proof (proj1 (pins_on_one net a p (wf a Ha)) Epa) as Hpa. pose proof (proj1 (pins_on_one net b q (wf b Hb)) Epb) as Hpb.
    assert (Ia : In p (map fst (e_pins a))). { apply shas_in, shas_ok. exists net. now apply Hpa. }
    assert (Ib : In q (map fst (e_pins b))). { apply shas_in, shas_ok. exists net. now apply Hpb. }
    pose proof (proj1 (Kp p) Ia) as Ibp. pose proof (proj2 (Kp q) Ib) as Iaq.
    assert (Hdis : forall e k, In e els -> In k (map fst (e_pins e)) -> ~ In k (map fst (e_params e))) by (intros e k He H1 H2; destruct (wf e He) as (_ & _ & Hd & _); eauto).
    assert (HpS : p <> STACK) by (intros ->; exact (Hdis a _ Ha Ia Hs)).
    assert (HqS : q <> STACK) by (intros ->; exact (Hdis a _ Ha Iaq Hs)).
    assert (Hh : forall e k, In e els -> In k (map fst (e_pins e)) -> k <> STACK -> shas (sdel (e_params e ++ e_pins e) STACK) k = true).
    { intros e k He Hk HkS. apply shas_ok. rewrite sdel_get. apply String.eqb_neq in HkS. rewrite HkS, joined_get.
      destruct (sget (e_params e) k); [eauto|]. apply shas_ok. now apply shas_in. }
    rewrite (Hh a p Ha Ia HpS), (Hh b p Hb Ibp HpS), (Hh a q Ha Iaq HqS), (Hh b q Hb Ib HqS). cbn [andb].
    destruct (dict_eqb (sdel (sdel (sdel (e_params a ++ e_pins a) STACK) p) q) (sdel (sdel (sdel (e_params b ++ e_pins b) STACK) p) q)) eqn:Hd; [|now left].
    destruct (stackable_pins p q) eqn:Ht; [|now left]. right. exists p, q. apply stackable_pins_ok in Ht. rewrite dict_eqb_ok in Hd.
    assert (Hj : forall k, k <> p -> k <> q -> k <> STACK -> sget (e_params a ++ e_pins a) k = sget (e_params b ++ e_pins b) k).
    { intros k H1 H2 H3. specialize (Hd k). rewrite !sdel_get in Hd. apply String.eqb_neq in H1, H2, H3. now rewrite H1, H2, H3 in Hd. }
    repeat (split; [assumption|]). split; [|split].
    - intros k H1 H2. destruct (in_dec String.string_dec k (map fst (e_pins a))) as [Hi|Hi].
      + assert (HkS : k <> STACK) by (intros ->; exact (Hdis a _ Ha Hi Hs)). specialize (Hj k H1 H2 HkS). rewrite !joined_get in Hj.
        rewrite (proj2 (sget_none (e_params a) k)) in Hj by (now apply Hdis). rewrite (proj2 (sget_none (e_params b) k)) in Hj by (apply Hdis; [assumption|now apply Kp]). exact Hj.
      + rewrite (proj2 (sget_none (e_pins a) k) Hi). symmetry. apply sget_none. rewrite <- (Kp k). exact Hi.
    - intros k HkS. destruct (in_dec String.string_dec k (map fst (e_params a))) as [Hi|Hi].
      + assert (H1 : k <> p) by (intros ->; exact (Hdis a _ Ha Ia Hi)). assert (H2 : k <> q) by (intros ->; exact (Hdis a _ Ha Iaq Hi)).
        specialize (Hj k H1 H2 HkS). rewrite !joined_get in Hj. pose proof Hi as Ea. apply shas_in, shas_ok in Ea as (va & Ea).
        pose proof (proj1 (Kq k) Hi) as Hi'. apply shas_in, shas_ok in Hi' as (vb & Eb). rewrite Ea, Eb in *. exact Hj.
      + rewrite (proj2 (sget_none (e_params a) k) Hi). symmetry. apply sget_none. rewrite <- (Kq k). exact Hi.
    - intros e k He Ek. apply Honly; [assumption|]. apply touches_ok; [now apply wf|eauto].
  Qed.
End Step.

(** * The merged netlist *)
Lemma net_in els n : Forall wf_elem els -> In n (nets els) <-> exists e k, In e els /\ sget (e_pins e) k = Some n.
Proof.
  intros Hf. rewrite Forall_forall in Hf. rewrite nets_in. split.
  - intros (e & (k, v) & He & Hp & E). simpl in E. subst v. exists e, k. split; [assumption|]. apply (in_dget _ String.eqb_eq); [|assumption]. apply (Hf e He).
  - intros (e & k & He & Ek). exists e, (k, n). repeat split; [assumption|]. now apply (dget_in _ String.eqb_eq).
Qed.
Lemma sset_keys d k v : In k (map fst d) -> map fst (sset d k v) = map fst d.
Proof. intros Hk. unfold sset, dset. rewrite (dupd_keys _ (V := string)). apply shas_in in Hk. unfold shas in Hk. now rewrite Hk. Qed.

Section Merge.
  Variable els : list elem.
  Hypothesis Hwf : wf_netlist els.
  Hypothesis Hst : stack_ok els.
  Variables (net : string) (a b : elem) (p q y : string) (s1 s2 : Z).
  Hypothesis Hstk : stackable els net a b p q.
  Hypothesis Hy : sget (e_pins b) p = Some y.
  Hypothesis Hyn : y <> net.
  Hypothesis C1 : stack_count a = s1.
  Hypothesis C2 : stack_count b = s2.
  Hypothesis P1 : 0 <= s1.
  Hypothesis P2 : 0 <= s2.
  Let M : elem := stacked a p y (s1 + s2).
  Let out : list elem := merge_result els a b p y (s1 + s2).

  Lemma m_ab : In a els /\ In b els /\ a <> b. Proof. destruct Hstk as (Ha & Hb & Hne & _). auto. Qed.
  Lemma m_names : e_name a <> e_name b.
  Proof. destruct m_ab as (Ha & Hb & Hne). intros E. apply Hne. exact (in_name_inj els a b (Hnd els Hwf) Ha Hb E). Qed.
  Lemma m_pin : In p (map fst (e_pins a)).
  Proof. destruct Hstk as (_ & _ & _ & _ & _ & _ & Hpa & _). apply shas_in, shas_ok. exists net. now apply Hpa. Qed.
  Lemma m_stack : In STACK (map fst (e_params a)). Proof. apply Hstk. Qed.
  Lemma m_pins_keys : map fst (e_pins M) = map fst (e_pins a). Proof. apply sset_keys, m_pin. Qed.
  Lemma m_params_keys : map fst (e_params M) = map fst (e_params a). Proof. apply sset_keys, m_stack. Qed.
  Lemma m_pin_get k : sget (e_pins M) k = if String.eqb k p then Some y else sget (e_pins a) k. Proof. apply sget_sset. Qed.
  Lemma m_param_get k : sget (e_params M) k = if String.eqb k STACK then Some (zstr (s1 + s2)) else sget (e_params a) k. Proof. apply sget_sset. Qed.
  Lemma m_count : stack_count M = s1 + s2.
  Proof. unfold stack_count. rewrite m_param_get. change (String.eqb STACK STACK) with true. cbv iota. now rewrite py_int_zstr. Qed.

  Definition upd : elem -> elem := fun e => if String.eqb (e_name e) (e_name a) then mkElem (e_name e) (e_model e) (sset (e_pins a) p y) (sset (e_params e) STACK (zstr (s1 + s2))) else e.
  Lemma out_form : out = filter (fun e => negb (String.eqb (e_name e) (e_name b))) (map upd els).
  Proof.
    unfold out, merge_result. rewrite remove_filter; [reflexivity|]. unfold update. rewrite map_map. rewrite (map_ext _ e_name); [apply (Hnd els Hwf)|].
    intros e. destruct (String.eqb (e_name e) (e_name a)); reflexivity.
  Qed.
  Lemma upd_a : upd a = M. Proof. unfold upd. now rewrite String.eqb_refl. Qed.
  Lemma upd_other e : In e els -> e <> a -> upd e = e.
  Proof.
    intros He Hne. unfold upd. destruct (String.eqb_spec (e_name e) (e_name a)) as [E|]; [|reflexivity]. exfalso. apply Hne.
    exact (in_name_inj els e a (Hnd els Hwf) He (proj1 m_ab) E).
  Qed.
  Lemma out_in z : In z out <-> z = M \/ (In z els /\ z <> a /\ z <> b).
  Proof.
    destruct m_ab as (Ha & Hb & Hne). rewrite out_form, filter_In, in_map_iff. rewrite negb_true_iff, String.eqb_neq. split.
    - intros ((e & Ee & He) & Hn). destruct (String.string_dec (e_name e) (e_name a)) as [E|E].
      + assert (e = a) by exact (in_name_inj els e a (Hnd els Hwf) He Ha E). subst e. left. rewrite <- Ee. apply upd_a.
      + assert (e <> a) by congruence. rewrite upd_other in Ee by assumption. subst z. right. repeat split; auto. congruence.
    - intros [->|(Hz & Hza & Hzb)].
      + split; [exists a; split; [apply upd_a|assumption]|]. cbn. exact m_names.
      + split; [exists z; split; [now apply upd_other|assumption]|]. intros E. apply Hzb. exact (in_name_inj els z b (Hnd els Hwf) Hz Hb E).
  Qed.
  Lemma out_nodup : NoDup (map e_name out).
  Proof.
    rewrite out_form. apply filter_nodup. rewrite map_map. rewrite (map_ext _ e_name); [apply (Hnd els Hwf)|].
    intros e. unfold upd. destruct (String.eqb (e_name e) (e_name a)); reflexivity.
  Qed.
  Lemma m_wf : wf_elem M.
  Proof.
    destruct (wfe els Hwf a (proj1 m_ab)) as (H1 & H2 & H3 & H4 & H5). unfold wf_elem. rewrite m_pins_keys, m_params_keys. repeat (split; [assumption|]).
    intros E. assert (H := m_pins_keys). rewrite E in H. simpl in H. destruct (e_pins a); [congruence|discriminate].
  Qed.
  Lemma out_src z : In z out -> exists e, In e els /\ e_model z = e_model e /\ map fst (e_pins z) = map fst (e_pins e) /\ map fst (e_params z) = map fst (e_params e).
  Proof.
    intros Hz. apply out_in in Hz as [->|(Hz & _)].
    - exists a. split; [apply m_ab|]. split; [reflexivity|]. split; [apply m_pins_keys|apply m_params_keys].
    - exists z. auto.
  Qed.
  Lemma out_wf : wf_netlist out.
  Proof.
    split; [apply out_nodup|]. split.
    - apply Forall_forall. intros z Hz. apply out_in in Hz as [->|(Hz & _)]; [apply m_wf|now apply (wfe els Hwf)].
    - intros x z Hx Hz Hm. destruct (out_src x Hx) as (e & He & M1 & K1 & K2). destruct (out_src z Hz) as (e' & He' & M2 & K3 & K4).
      unfold same_keys. rewrite K1, K2, K3, K4. apply (keys_ok els Hwf e e' He He'). congruence.
  Qed.
  Lemma out_stack : stack_ok out.
  Proof.
    destruct Hst as (H1 & H2). split.
    - intros e s He Es. apply out_in in He as [->|(He & _)]; [|eauto]. rewrite m_param_get in Es. change (String.eqb STACK STACK) with true in Es. injection Es as <-.
      exists (s1 + s2). split; [lia|apply py_int_zstr].
    - intros z p' q' Hz. destruct (out_src z Hz) as (e & He & _ & -> & _). eauto.
  Qed.
  Lemma m_other_on k : k <> p -> sget (e_pins a) k <> Some net.
  Proof. intros Hk E. destruct Hstk as (_ & _ & _ & _ & _ & _ & Hpa & _). apply Hpa in E. contradiction. Qed.
  Lemma out_nets n : In n (nets out) <-> In n (nets els) /\ n <> net.
  Proof.
    destruct m_ab as (Ha & Hb & _). destruct Hstk as (_ & _ & _ & _ & _ & Ht & Hpa & Hpb & Hpins & _ & Honly).
    destruct (terminal_neq p q Ht) as (Hpq & _).
    rewrite net_in by apply out_wf. rewrite net_in by apply Hwf. split.
    - intros (e & k & He & Ek). apply out_in in He as [->|(He & Hna & Hnb)].
      + rewrite m_pin_get in Ek. destruct (String.eqb_spec k p) as [Hkp|Hk].
        * injection Ek as <-. split; [exists b, p; auto|assumption].
        * split; [exists a, k; auto|]. intros ->. exact (m_other_on k Hk Ek).
      + split; [exists e, k; auto|]. intros ->. destruct (Honly e k He Ek); contradiction.
    - intros ((e & k & He & Ek) & Hn).
      destruct (String.string_dec (e_name e) (e_name a)) as [Ea|Ea]; [assert (e = a) by exact (in_name_inj els e a (Hnd els Hwf) He Ha Ea); subst e|].
      { exists M, k. split; [apply out_in; now left|]. rewrite m_pin_get. destruct (String.eqb_spec k p) as [Hk|Hk]; [|assumption].
        exfalso. apply Hn. apply Hpa in Hk. congruence. }
      destruct (String.string_dec (e_name e) (e_name b)) as [Eb|Eb]; [assert (e = b) by exact (in_name_inj els e b (Hnd els Hwf) He Hb Eb); subst e|].
      { exists M. destruct (String.string_dec k p) as [Hk|Hk]; [exists p; split; [apply out_in; now left|]; rewrite m_pin_get, String.eqb_refl; congruence|].
        destruct (String.string_dec k q) as [Hkq|Hkq]; [exfalso; apply Hn; apply Hpb in Hkq; congruence|].
        exists k. split; [apply out_in; now left|]. rewrite m_pin_get. apply String.eqb_neq in Hk as Hk'. rewrite Hk', Hpins; assumption. }
      exists e, k. split; [|assumption]. apply out_in. right. repeat split; [assumption|congruence|congruence].
  Qed.

  Lemma total_perm l l' : Permutation l l' -> total_stack l = total_stack l'.
  Proof. unfold total_stack. induction 1; simpl; lia. Qed.
  Lemma elem_eq_dec (x z : elem) : {x = z} + {x <> z}.
  Proof. repeat decide equality. Qed.
  Lemma out_total : total_stack out = total_stack els.
  Proof.
    destruct m_ab as (Ha & Hb & Hne).
    set (rest := filter (fun e => negb (String.eqb (e_name e) (e_name a)) && negb (String.eqb (e_name e) (e_name b))) els).
    assert (Hr : forall z, In z rest <-> In z els /\ z <> a /\ z <> b).
    { intros z. unfold rest. rewrite filter_In, andb_true_iff, !negb_true_iff, !String.eqb_neq. split.
      - intros (Hz & H1 & H2). repeat split; congruence.
      - intros (Hz & H1 & H2). repeat split; auto; intros E; [apply H1|apply H2]; eapply (in_name_inj els); eauto using Hnd. }
    assert (Hrn : NoDup rest) by (apply NoDup_filter, (NoDup_map_inv e_name), Hnd, Hwf).
    rewrite (total_perm els (a :: b :: rest)).
    2:{ apply NoDup_Permutation.
        - apply (NoDup_map_inv e_name), Hnd, Hwf.
        - constructor; [intros [E|Hi]; [congruence|apply Hr in Hi; tauto]|]. constructor; [intros Hi; apply Hr in Hi; tauto|assumption].
        - intros z. simpl. rewrite Hr. split; [|intros [->|[->|H]]; tauto]. intros Hz. destruct (elem_eq_dec a z) as [E|E]; [auto|]. destruct (elem_eq_dec b z) as [E'|E']; [now auto|]. right. right. repeat split; congruence. }
    rewrite (total_perm out (M :: rest)).
    2:{ assert (HnM : forall z, In z rest -> z <> M).
        { intros z Hz E. apply Hr in Hz as (Hz & Hza & _). apply Hza. apply (in_name_inj els z a (Hnd els Hwf) Hz Ha). rewrite E. reflexivity. }
        apply NoDup_Permutation.
        - apply (NoDup_map_inv e_name), out_nodup.
        - constructor; [intros Hi; exact (HnM M Hi eq_refl)|assumption].
        - intros z. rewrite out_in. simpl. rewrite Hr. intuition congruence. }
    cbn [total_stack fold_right]. fold (total_stack rest). change (fold_right (fun e acc => stack_count e + acc) 0 rest) with (total_stack rest). rewrite m_count, C1, C2. lia.
  Qed.
End Merge.
