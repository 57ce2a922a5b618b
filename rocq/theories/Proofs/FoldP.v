(** Replacing a group of elements by an instance of a subcircuit that holds a copy of the group
    keeps the flat netlist of every subcircuit. *)
From Coq Require Import String.
From Verif Require Import Base.Prelude Base.PyDict Model.RemoveDuplicates Model.Canvas Model.Netlist Model.Hier Model.NewHier Spec.HierSpec Spec.CircuitSpec Proofs.HierP Proofs.FindDummyP Proofs.NewHierP.

Lemma perm_F2 {A B} (R : A -> B -> Prop) a a' : Permutation a a' -> forall b, Forall2 R a b -> exists b', Forall2 R a' b' /\ Permutation b b'.
Proof.
  induction 1 as [|x a a' P IH|x y a|a a1 a2 P1 IH1 P2 IH2]; intros b F.
  - exists b. inversion F; subst. split; constructor.
  - inversion F as [|? z ? b0 H1 H2]; subst. destruct (IH b0 H2) as (b' & F' & P'). exists (z :: b'). split; constructor; assumption.
  - inversion F as [|? z ? b0 H1 H2]; subst. inversion H2 as [|? w ? b1 H3 H4]; subst. exists (w :: z :: b1). split; [repeat constructor; assumption|apply perm_swap].
  - destruct (IH1 b F) as (b1 & F1 & Q1). destruct (IH2 b1 F1) as (b2 & F2 & Q2). exists b2. split; [assumption|]. now transitivity b1.
Qed.
Definition seen (c : sub) (e : elem) (a b : string * net) : Prop := fst a = fst b /\ outside c e (snd a) = Some (snd b).
Lemma dev_sub_perm L c e s d P pins : In e (sb_elems c) -> lfind L (e_model e) = Some (Sub s) -> device_of L s d -> Permutation P (dv_pins d) -> Forall2 (seen c e) P pins ->
  exists pins', device_of L c (mkDev (e_name e :: dv_path d) (dv_model d) pins' (dv_params d)) /\ Permutation pins pins'.
Proof.
  intros He Hs Hd HP F. destruct (perm_F2 _ _ _ HP _ F) as (pins' & F' & P'). exists pins'. split; [|assumption]. exact (dev_sub L c e s d pins' He Hs Hd F').
Qed.

Section Fold.
  Variables (L L' : lib) (pn cn : string) (p p' child : sub) (x : elem) (grp : list elem) (mv : elem -> elem) (rho : string -> string).
  Hypothesis Hwf : well_formed L.
  Hypothesis Hp : lfind L pn = Some (Sub p).
  Definition fupd (c : sub) : sub := if String.eqb (sb_name c) pn then p' else c.
  Hypothesis Hprim : forall n l, lfind L n = Some (Prim l) <-> lfind L' n = Some (Prim l).
  Hypothesis Hsub : forall n s, lfind L n = Some (Sub s) -> lfind L' n = Some (Sub (fupd s)).
  Hypothesis Hinv : forall n s', lfind L' n = Some (Sub s') -> (exists s, lfind L n = Some (Sub s) /\ s' = fupd s) \/ lfind L n = None.
  Hypothesis Hchild : lfind L' cn = Some (Sub child).
  Hypothesis Hx : e_model x = cn.
  Hypothesis Hpins : sb_pins p' = sb_pins p.
  Hypothesis Hgrp : forall e, In e grp -> In e (sb_elems p).
  Hypothesis Hel : forall e, In e (sb_elems p') <-> (In e (sb_elems p) /\ ~ In e grp) \/ e = x.
  Hypothesis Hmv : forall e, In e grp -> In (mv e) (sb_elems child) /\ e_model (mv e) = e_model e /\ e_params (mv e) = e_params e /\
    Permutation (map (fun qn => (fst qn, rho (snd qn))) (e_pins e)) (e_pins (mv e)).
  Hypothesis Hall : forall d, In d (sb_elems child) -> exists e, In e grp /\ d = mv e.
  Hypothesis Hmvi : forall e1 e2, In e1 grp -> In e2 grp -> e_name (mv e1) = e_name (mv e2) -> e1 = e2.
  Definition gnet (n : string) : Prop := exists e, In e grp /\ on e n.
  Hypothesis Hrho : forall n1 n2, gnet n1 -> gnet n2 -> rho n1 = rho n2 -> n1 = n2.
  Hypothesis Hxp : forall n, gnet n -> In (rho n) (sb_pins child) -> sget (e_pins x) (rho n) = Some n.
  Hypothesis Hinner : forall n, gnet n -> ~ In (rho n) (sb_pins child) -> ~ In n (sb_pins p) /\ forall e, In e (sb_elems p) -> ~ In e grp -> ~ on e n.
  Hypothesis Hfresh : forall e, In e (sb_elems p) -> ~ In e grp -> e_name e <> e_name x.

  Lemma fp_in : In (Sub p) L. Proof. exact (proj1 (lfind_in _ _ _ Hp)). Qed.
  Lemma fp_name : sb_name p = pn. Proof. exact (proj2 (lfind_in _ _ _ Hp)). Qed.
  Lemma fis_p c : In (Sub c) L -> sb_name c = pn -> c = p.
  Proof. intros Hc E. pose proof (lfind_of _ _ (proj1 Hwf) Hc) as F. simpl in F. rewrite E, Hp in F. now injection F as <-. Qed.
  Lemma fupd_pins c : In (Sub c) L -> sb_pins (fupd c) = sb_pins c.
  Proof. intros Hc. unfold fupd. destruct (String.eqb_spec (sb_name c) pn) as [E|E]; [|reflexivity]. apply (fis_p c Hc) in E as ->. exact Hpins. Qed.
  Lemma fupd_p : fupd p = p'. Proof. unfold fupd. rewrite fp_name, String.eqb_refl. reflexivity. Qed.
  Lemma in_fx : In x (sb_elems p'). Proof. apply Hel. now right. Qed.
  Lemma find_back n s' : lfind L' n = Some (Sub s') -> lfind L n <> None -> exists s, lfind L n = Some (Sub s) /\ s' = fupd s.
  Proof. intros H Hn. destruct (Hinv n s' H) as [?|?]; [assumption|contradiction]. Qed.
  Lemma elem_found c e : In (Sub c) L -> In e (sb_elems c) -> lfind L (e_model e) <> None.
  Proof. intros Hc He. destruct (proj2 (proj2 Hwf c Hc) e He) as (_ & m & Hm & _). congruence. Qed.

  Definition fmoved (c : sub) (en : string) : bool := String.eqb (sb_name c) pn && in_strs en (map e_name grp).
  Definition fhead (c : sub) (e : elem) : list string := if fmoved c (e_name e) then [e_name x; e_name (mv e)] else [e_name e].
  Definition fbase (c : sub) (n : string) : list string * string :=
    if String.eqb (sb_name c) pn && existsb (fun e => in_strs n (map snd (e_pins e))) grp && negb (in_strs (rho n) (sb_pins child)) then ([e_name x], rho n) else ([], n).
  Fixpoint fins (c : sub) (path : list string) (n : string) : list string * string :=
    match path with
    | [] => fbase c n
    | en :: q =>
        match get_element (sb_elems c) en with
        | Some e => let r := match lfind L (e_model e) with Some (Sub s) => fins s q n | _ => (q, n) end in (fhead c e ++ fst r, snd r)
        | None => (path, n)
        end
    end.
  Definition fgn (c : sub) (r : net) : net := match r with Port q => Port q | Inner path n => Inner (fst (fins c path n)) (snd (fins c path n)) end.
  Definition fpath (c : sub) (path : list string) : list string := fst (fins c path EmptyString).
  Definition frn (c : sub) (d : device) : device := ren_dev (fpath c) (fgn c) d.
  Lemma fins_cons c e q n : In (Sub c) L -> In e (sb_elems c) ->
    fins c (e_name e :: q) n = let r := match lfind L (e_model e) with Some (Sub s) => fins s q n | _ => (q, n) end in (fhead c e ++ fst r, snd r).
  Proof. intros Hc He. cbn [fins]. rewrite (get_element_of _ _ (proj1 (proj2 Hwf c Hc)) He). reflexivity. Qed.
  Lemma fmoved_iff c e : In (Sub c) L -> In e (sb_elems c) -> fmoved c (e_name e) = true <-> c = p /\ In e grp.
  Proof.
    intros Hc He. unfold fmoved. rewrite andb_true_iff, String.eqb_eq, in_strs_iff, in_map_iff. split.
    - intros (E & e' & En & He'). apply (fis_p c Hc) in E as ->. split; [reflexivity|]. rewrite <- (same_elem L Hwf p e' e fp_in (Hgrp e' He') He En). assumption.
    - intros (-> & H). split; [exact fp_name|]. eauto.
  Qed.
  Lemma fstays c e : In (Sub c) L -> In e (sb_elems c) -> fmoved c (e_name e) = false -> c = p -> ~ In e grp.
  Proof. intros Hc He Em E H. rewrite (proj2 (fmoved_iff c e Hc He) (conj E H)) in Em. discriminate. Qed.
  Lemma in_fupd c e : In (Sub c) L -> In e (sb_elems c) -> fmoved c (e_name e) = false -> In e (sb_elems (fupd c)).
  Proof.
    intros Hc He Hm. unfold fupd. destruct (String.eqb_spec (sb_name c) pn) as [E|E]; [|assumption]. apply (fis_p c Hc) in E as ->. apply Hel. left. split; [assumption|]. exact (fstays p e Hc He Hm eq_refl).
  Qed.
  Lemma grp_net n : existsb (fun e => in_strs n (map snd (e_pins e))) grp = true <-> gnet n.
  Proof. rewrite existsb_exists. unfold gnet. split; intros (e & He & Hn); exists e; (split; [assumption|]); [apply in_strs_iff, on_iff in Hn|apply in_strs_iff, on_iff]; assumption. Qed.
  Lemma fbase_stay c e n : In (Sub c) L -> In e (sb_elems c) -> fmoved c (e_name e) = false -> on e n -> fbase c n = ([], n).
  Proof.
    intros Hc He Hm Hn. unfold fbase. destruct (String.eqb_spec (sb_name c) pn) as [E|E]; [|reflexivity]. apply (fis_p c Hc) in E as ->. simpl. destruct (existsb _ grp) eqn:Ex; [|reflexivity]. destruct (in_strs (rho n) (sb_pins child)) eqn:Ep; [reflexivity|]. exfalso.
    apply grp_net in Ex. assert (Hno : ~ In (rho n) (sb_pins child)) by (intros H; apply in_strs_iff in H; congruence).
    exact (proj2 (Hinner n Ex Hno) e He (fstays p e Hc He Hm eq_refl) Hn).
  Qed.
  Lemma fgn_stay c e n : In (Sub c) L -> In e (sb_elems c) -> fmoved c (e_name e) = false -> on e n -> fgn c (net_of c n) = net_of (fupd c) n.
  Proof.
    intros Hc He Hm Hn. unfold net_of. rewrite (fupd_pins c Hc). destruct (in_dec _ _ _); [reflexivity|]. cbn [fgn fins]. rewrite (fbase_stay c e n Hc He Hm Hn). reflexivity.
  Qed.
  Lemma fgn_moved e n : In e grp -> on e n -> outside p' x (net_of child (rho n)) = Some (fgn p (net_of p n)).
  Proof.
    intros He Hn. assert (G : gnet n) by (exists e; auto). unfold net_of at 1. destruct (in_dec String.string_dec (rho n) (sb_pins child)) as [H|H].
    - cbn [outside]. rewrite (Hxp n G H). cbn [option_map]. f_equal. unfold net_of. rewrite Hpins. destruct (in_dec _ n (sb_pins p)); [reflexivity|]. cbn [fgn fins]. unfold fbase. apply in_strs_iff in H. rewrite H. cbn [negb]. rewrite andb_false_r. reflexivity.
    - cbn [outside]. f_equal. unfold net_of. destruct (in_dec _ n (sb_pins p)) as [Hi|_]; [exfalso; exact (proj1 (Hinner n G H) Hi)|]. cbn [fgn fins]. unfold fbase. rewrite fp_name, String.eqb_refl. apply grp_net in G. rewrite G. cbn [andb].
      destruct (in_strs (rho n) (sb_pins child)) eqn:E; [apply in_strs_iff in E; contradiction|reflexivity].
  Qed.
  Lemma sget_mv e q : In e grp -> sget (e_pins (mv e)) q = option_map rho (sget (e_pins e) q).
  Proof.
    intros He. destruct (Hmv e He) as (_ & _ & _ & P). pose proof (proj1 (proj2 (proj2 Hwf p fp_in) e (Hgrp e He))) as N.
    assert (N' : NoDup (map fst (e_pins (mv e)))).
    { apply (Permutation_NoDup (Permutation_map fst P)). rewrite map_map. cbn [fst]. exact N. }
    destruct (sget (e_pins e) q) as [v|] eqn:E; cbn [option_map].
    - apply in_sget; [assumption|]. apply (Permutation_in _ P). apply in_map_iff. exists (q, v). split; [reflexivity|]. now apply sget_in.
    - apply sget_none. apply sget_none in E. intros H. apply E. apply in_map_iff in H as ((a, b) & Ea & H). simpl in Ea. subst a. apply (Permutation_in _ (Permutation_sym P)) in H. apply in_map_iff in H as ((a, b0) & Eq & H). simpl in Eq. injection Eq as -> _. apply in_map_iff. exists (q, b0). auto.
  Qed.
  (** Nets of a moved element seen from the child. *)
  Lemma mid_port e q v : In e grp -> sget (e_pins e) q = Some v -> outside child (mv e) (Port q) = Some (net_of child (rho v)).
  Proof. intros He E. cbn [outside]. rewrite (sget_mv e q He), E. reflexivity. Qed.

  Lemma fforward c d : device_of L c d -> In (Sub c) L -> exists d', device_of L' (fupd c) d' /\ like (frn c d) d'.
  Proof.
    intros Hd. induction Hd as [c e l He Hl|c e s d pins He Hs Hd IH HF]; intros Hc.
    - assert (Hl' := proj1 (Hprim _ _) Hl). unfold frn, ren_dev, fpath. cbn [dv_path dv_model dv_pins dv_params]. rewrite (fins_cons c e [] _ Hc He), Hl. cbn [fst snd]. rewrite app_nil_r, map_map. cbn [fst snd]. unfold fhead. destruct (fmoved c (e_name e)) eqn:Em.
      + apply (fmoved_iff c e Hc He) in Em as (-> & Hm). rewrite fupd_p. destruct (Hmv e Hm) as (M1 & M2 & M3 & M4).
        assert (Dv : device_of L' child (mkDev [e_name (mv e)] (e_model (mv e)) (map (fun pn => (fst pn, net_of child (snd pn))) (e_pins (mv e))) (e_params (mv e)))) by (apply (dev_leaf L' child (mv e) l M1); rewrite M2; exact Hl').
        destruct (dev_sub_perm L' p' x child _ (map (fun qn => (fst qn, net_of child (rho (snd qn)))) (e_pins e)) (map (fun qn => (fst qn, fgn p (net_of p (snd qn)))) (e_pins e)) in_fx (eq_trans (f_equal (lfind L') Hx) Hchild) Dv) as (pins' & D' & P').
        * cbn [dv_pins]. apply (Permutation_map (fun qm => (fst qm, net_of child (snd qm)))) in M4. rewrite map_map in M4. exact M4.
        * apply F2_map_l, F2_map_r. cbn [fst snd]. assert (Q : forall q n, In (q, n) (e_pins e) -> on e n) by (intros q n H; exists q; assumption). revert Q. generalize (e_pins e) as ps. induction ps as [|(q, n) ps IHp]; intros Q; [constructor|]. constructor; [split; [reflexivity|]; exact (fgn_moved e n Hm (Q q n (or_introl eq_refl)))|]. apply IHp. intros q' n' H. apply (Q q' n'). now right.
        * eexists. split; [exact D'|]. cbn [dv_path dv_model dv_pins dv_params]. rewrite M2, M3. split; [reflexivity|]. split; [reflexivity|]. split; [exact P'|reflexivity].
      + eexists. split; [exact (dev_leaf L' (fupd c) e l (in_fupd c e Hc He Em) Hl')|]. split; [reflexivity|]. split; [reflexivity|]. split; [|reflexivity]. cbn [dv_pins]. erewrite map_ext_in; [apply Permutation_refl|]. intros (q, n) H. cbn [fst snd]. f_equal. apply (fgn_stay c e n Hc He Em). exists q. assumption.
    - assert (Hsl := proj1 (lfind_in _ _ _ Hs)). destruct (IH Hsl) as (d1 & D1 & (K1 & K2 & K3 & K4)). assert (Hs' := Hsub _ _ Hs). unfold frn, ren_dev, fpath in *. cbn [dv_path dv_model dv_pins dv_params] in *. rewrite (fins_cons c e _ _ Hc He), Hs. cbn [fst snd]. unfold fhead. destruct (fmoved c (e_name e)) eqn:Em.
      + apply (fmoved_iff c e Hc He) in Em as Em2. destruct Em2 as (-> & Hm). rewrite fupd_p. destruct (Hmv e Hm) as (M1 & M2 & M3 & M4).
        set (mid := map (fun ar => (fst ar, match snd ar with Port q => match sget (e_pins e) q with Some v => net_of child (rho v) | None => Port q end | Inner path n => Inner (e_name (mv e) :: fst (fins s path n)) (snd (fins s path n)) end)) (dv_pins d)).
        destruct (dev_sub_perm L' child (mv e) (fupd s) d1 _ mid M1 (eq_trans (f_equal (lfind L') M2) Hs') D1 K3) as (mid' & D2 & P2).
        * unfold mid. apply F2_map_l, F2_map_r. cbn [fst snd]. clear - HF Hm Hwf Hp Hmv Hgrp. induction HF as [|(a, r) (b, r') l l' (H1 & H2) F IHF]; constructor; [|exact IHF]. split; [reflexivity|]. cbn [snd] in *. destruct r as [q|path n]; cbn [fgn]; [|reflexivity]. cbn [outside] in H2. destruct (sget (e_pins e) q) as [v|] eqn:E; [|discriminate]. exact (mid_port e q v Hm E).
        * destruct (dev_sub_perm L' p' x child _ mid (map (fun pn => (fst pn, fgn p (snd pn))) pins) in_fx (eq_trans (f_equal (lfind L') Hx) Hchild) D2 P2) as (pins' & D' & P').
          -- unfold mid. apply F2_map_l, F2_map_r. cbn [fst snd]. eapply F2_impl; [|exact HF]. cbv beta. intros (a, r) (b, r') Hin (H1 & H2). cbn [fst snd] in *. split; [assumption|]. cbn [snd]. destruct r as [q|path n]; cbn [outside] in H2 |- *.
             ++ destruct (sget (e_pins e) q) as [v|] eqn:E; [|discriminate]. cbn [option_map] in H2. injection H2 as <-. apply (fgn_moved e v Hm). exists q. now apply sget_in.
             ++ injection H2 as <-. cbn [outside fgn]. rewrite (fins_cons p e path n Hc He), Hs. unfold fhead. rewrite Em. reflexivity.
          -- eexists. split; [exact D'|]. cbn [dv_path dv_model dv_pins dv_params]. split; [cbn [dv_path app]; rewrite K1; reflexivity|]. split; [exact K2|]. split; [exact P'|exact K4].
      + destruct (dev_sub_perm L' (fupd c) e (fupd s) d1 _ (map (fun pn => (fst pn, fgn c (snd pn))) pins) (in_fupd c e Hc He Em) Hs' D1 K3) as (pins' & D' & P').
        * apply F2_map_l, F2_map_r. cbn [fst snd]. eapply F2_impl; [|exact HF]. cbv beta. intros (a, r) (b, r') Hin (H1 & H2). cbn [fst snd] in *. split; [assumption|]. cbn [snd].
          destruct r as [q|path n]; cbn [outside fgn] in H2 |- *.
          -- destruct (sget (e_pins e) q) as [v|] eqn:E; [|discriminate]. cbn [option_map] in *. injection H2 as <-. f_equal. symmetry. apply (fgn_stay c e v Hc He Em). exists q. now apply sget_in.
          -- injection H2 as <-. cbn [fgn]. rewrite (fins_cons c e path n Hc He), Hs. unfold fhead. rewrite Em. reflexivity.
        * eexists. split; [exact D'|]. split; [cbn [dv_path app]; rewrite K1; reflexivity|]. split; [exact K2|]. split; [exact P'|exact K4].
  Qed.

  Lemma fstay_back c e s d0 pins' : In (Sub c) L -> In e (sb_elems c) -> fmoved c (e_name e) = false -> lfind L (e_model e) = Some (Sub s) ->
    Forall2 (seen (fupd c) e) (dv_pins (frn s d0)) pins' ->
    exists pins, Forall2 (fun a b => fst a = fst b /\ outside c e (snd a) = Some (snd b)) (dv_pins d0) pins /\ pins' = map (fun pn => (fst pn, fgn c (snd pn))) pins.
  Proof.
    intros Hc He Em Hs HF. unfold frn, ren_dev in HF. cbn [dv_pins] in HF. apply (proj1 (F2_map_l _ _ _ _)) in HF. cbn [fst snd] in HF. apply F2_pull with (g := fun pn => (fst pn, fgn c (snd pn))). eapply F2_impl; [|exact HF]. cbv beta. intros (a, r) (b, r') Hin (H1 & H2). cbn [fst snd] in *. subst b.
    destruct r as [q|path n]; cbn [fgn outside] in H2.
    - destruct (sget (e_pins e) q) as [v|] eqn:E; [|discriminate]. cbn [option_map] in H2. injection H2 as <-. exists (a, net_of c v). cbn [fst snd outside]. rewrite E. split; [auto|]. f_equal. symmetry. apply (fgn_stay c e v Hc He Em). exists q. now apply sget_in.
    - injection H2 as <-. exists (a, Inner (e_name e :: path) n). cbn [fst snd outside fgn]. split; [auto|]. rewrite (fins_cons c e path n Hc He), Hs. unfold fhead. rewrite Em. reflexivity.
  Qed.
  Lemma fbackward k : forall c d', (length (dv_path d') <= k)%nat -> In (Sub c) L -> device_of L' (fupd c) d' -> exists d, device_of L c d /\ like (frn c d) d'.
  Proof.
    induction k as [|k IH]; intros c d' Hk Hc Hd; [inversion Hd; subst; simpl in Hk; lia|].
    assert (St : forall e, In e (sb_elems (fupd c)) -> (In e (sb_elems c) /\ fmoved c (e_name e) = false) \/ (c = p /\ e = x)).
    { intros e He. unfold fupd in He. destruct (String.eqb_spec (sb_name c) pn) as [E|E].
      - apply (fis_p c Hc) in E as ->. apply Hel in He as [(H1 & H2)| ->]; [|auto]. left. split; [assumption|]. destruct (fmoved p (e_name e)) eqn:Em; [|reflexivity]. apply (fmoved_iff p e Hc H1) in Em as (_ & Em). contradiction.
      - left. split; [assumption|]. unfold fmoved. apply String.eqb_neq in E. rewrite E. reflexivity. }
    inversion Hd as [c0 e l He Hl|c0 e s' d0' pins' He Hs' Hd0 HF]; subst.
    - destruct (St e He) as [(He1 & Em)|(-> & ->)]; [|pose proof Hchild; congruence]. apply Hprim in Hl. eexists. split; [exact (dev_leaf L c e l He1 Hl)|]. unfold frn, ren_dev, fpath. cbn [dv_path dv_model dv_pins dv_params]. rewrite (fins_cons c e [] _ Hc He1), Hl. cbn [fst snd]. rewrite app_nil_r. unfold fhead. rewrite Em. split; [reflexivity|]. split; [reflexivity|]. split; [|reflexivity]. cbn [dv_pins]. rewrite map_map. cbn [fst snd]. erewrite map_ext_in; [apply Permutation_refl|]. intros (q, n) H. cbn [fst snd]. f_equal. apply (fgn_stay c e n Hc He1 Em). exists q. assumption.
    - cbn [dv_path length] in Hk. destruct (St e He) as [(He1 & Em)|(-> & ->)].
      + destruct (find_back _ _ Hs' (elem_found c e Hc He1)) as (s & Hs & ->). destruct (IH s d0' ltac:(lia) (proj1 (lfind_in _ _ _ Hs)) Hd0) as (d0 & D0 & (K1 & K2 & K3 & K4)).
        destruct (perm_F2 _ _ _ (Permutation_sym K3) _ HF) as (pins1 & F1 & P1). destruct (fstay_back c e s d0 pins1 Hc He1 Em Hs F1) as (pins & F & ->).
        eexists. split; [exact (dev_sub L c e s d0 pins He1 Hs D0 F)|]. unfold frn, ren_dev, fpath in *. cbn [dv_path dv_model dv_pins dv_params] in *. rewrite (fins_cons c e _ _ Hc He1), Hs. cbn [fst snd]. unfold fhead. rewrite Em. split; [cbn [dv_path app]; rewrite K1; reflexivity|]. split; [exact K2|]. split; [apply Permutation_sym; exact P1|exact K4].
      + pose proof Hchild as FC. rewrite FC in Hs'. injection Hs' as <-.
        inversion Hd0 as [c0 m l He0 Hl|c0 m s' d1' pins1 He0 Hs1 Hd1 HF1]; subst.
        * destruct (Hall m He0) as (e & Hg & ->). destruct (Hmv e Hg) as (M1 & M2 & M3 & M4). assert (Hep := Hgrp e Hg). rewrite M2 in Hl. apply Hprim in Hl. assert (Em : fmoved p (e_name e) = true) by (apply (fmoved_iff p e Hc Hep); auto).
          eexists. split; [exact (dev_leaf L p e l Hep Hl)|]. unfold frn, ren_dev, fpath. cbn [dv_path dv_model dv_pins dv_params]. rewrite (fins_cons p e [] _ Hc Hep), Hl. cbn [fst snd]. rewrite app_nil_r. unfold fhead. rewrite Em. rewrite map_map. cbn [fst snd]. cbn [dv_pins] in HF.
          apply (Permutation_map (fun qm => (fst qm, net_of child (snd qm)))) in M4. rewrite map_map in M4. cbn [fst snd] in M4. destruct (perm_F2 _ _ _ (Permutation_sym M4) _ HF) as (b & Fb & Pb).
          assert (E : b = map (fun qn => (fst qn, fgn p (net_of p (snd qn)))) (e_pins e)).
          { apply (proj1 (F2_map_l _ _ _ _)) in Fb. cbn [fst snd] in Fb. assert (Q : forall q n, In (q, n) (e_pins e) -> on e n) by (intros q n H; exists q; assumption). revert Fb Q. clear - Hg Hwf Hp Hinner Hxp Hpins Hgrp Hel. generalize (e_pins e) as ps. intros ps HF. induction HF as [|(q, n) (b, r) ps ps' (H1 & H2) F IHF]; intros Q; [reflexivity|]. cbn [map fst snd] in *. rewrite fupd_p in H2. rewrite (fgn_moved e n Hg (Q q n (or_introl eq_refl))) in H2. injection H2 as <-. subst b. f_equal. apply IHF. intros q' n' H. apply (Q q' n'). now right. }
          subst b. split; [reflexivity|]. split; [cbn [dv_model]; symmetry; exact M2|]. split; [apply Permutation_sym; exact Pb|cbn [dv_params]; symmetry; exact M3].
        * destruct (Hall m He0) as (e & Hg & ->). destruct (Hmv e Hg) as (M1 & M2 & M3 & M4). assert (Hep := Hgrp e Hg). assert (Em : fmoved p (e_name e) = true) by (apply (fmoved_iff p e Hc Hep); auto). rewrite M2 in Hs1.
          destruct (find_back _ _ Hs1 (elem_found p e Hc Hep)) as (s & Hs & ->). cbn [dv_path length] in Hk. destruct (IH s d1' ltac:(lia) (proj1 (lfind_in _ _ _ Hs)) Hd1) as (d1 & D1 & (K1 & K2 & K3 & K4)).
          cbn [dv_pins] in HF. pose proof (F2_comp _ _ _ _ _ HF1 HF) as FF. destruct (perm_F2 _ _ _ (Permutation_sym K3) _ FF) as (b & Fb & Pb). unfold frn, ren_dev in Fb. cbn [dv_pins] in Fb. apply (proj1 (F2_map_l _ _ _ _)) in Fb. cbn [fst snd] in Fb.
          assert (G : exists pins, Forall2 (fun a b => fst a = fst b /\ outside p e (snd a) = Some (snd b)) (dv_pins d1) pins /\ b = map (fun pn => (fst pn, fgn p (snd pn))) pins).
          { apply F2_pull with (g := fun pn => (fst pn, fgn p (snd pn))). eapply F2_impl; [|exact Fb]. cbv beta. intros (a, r) (b0, r') Hin ((w, rw0) & (H1 & H2) & (H3 & H4)). cbn [fst snd] in *. subst b0 w. rewrite fupd_p in H4. destruct r as [q|path n]; cbn [fgn] in H2.
            - cbn [outside] in H2. rewrite (sget_mv e q Hg) in H2. destruct (sget (e_pins e) q) as [v|] eqn:E; [|discriminate]. cbn [option_map] in H2. injection H2 as <-. rewrite (fgn_moved e v Hg) in H4 by (exists q; now apply sget_in). injection H4 as <-. exists (a, net_of p v). cbn [fst snd outside]. rewrite E. auto.
            - cbn [outside] in H2. injection H2 as <-. cbn [outside] in H4. injection H4 as <-. exists (a, Inner (e_name e :: path) n). cbn [fst snd outside fgn]. split; [auto|]. rewrite (fins_cons p e path n Hc Hep), Hs. unfold fhead. rewrite Em. reflexivity. }
          destruct G as (pins & F & ->). eexists. split; [exact (dev_sub L p e s d1 pins Hep Hs D1 F)|]. unfold frn, ren_dev, fpath in *. cbn [dv_path dv_model dv_pins dv_params] in *. rewrite (fins_cons p e _ _ Hc Hep), Hs. cbn [fst snd]. unfold fhead. rewrite Em. cbn [app]. split; [cbn [dv_path app]; rewrite K1; reflexivity|]. split; [exact K2|]. split; [apply Permutation_sym; exact Pb|exact K4].
  Qed.

  Lemma fnot_x c e : In (Sub c) L -> In e (sb_elems c) -> fmoved c (e_name e) = false -> c = p -> e_name e <> e_name x.
  Proof. intros Hc He Em ->. apply Hfresh; [assumption|]. exact (fstays p e Hc He Em eq_refl). Qed.
  Lemma fhead_inj c e1 e2 t1 t2 : In (Sub c) L -> In e1 (sb_elems c) -> In e2 (sb_elems c) -> fhead c e1 ++ t1 = fhead c e2 ++ t2 -> e1 = e2 /\ t1 = t2.
  Proof.
    intros Hc H1 H2 E. unfold fhead in E. destruct (fmoved c (e_name e1)) eqn:M1, (fmoved c (e_name e2)) eqn:M2; cbn [app] in E.
    - injection E as En Et. apply (fmoved_iff c e1 Hc H1) in M1 as (_ & M1). apply (fmoved_iff c e2 Hc H2) in M2 as (_ & M2). split; [exact (Hmvi e1 e2 M1 M2 En)|assumption].
    - injection E as En _. exfalso. apply (fmoved_iff c e1 Hc H1) in M1 as (-> & _). symmetry in En. exact (fnot_x p e2 Hc H2 M2 eq_refl En).
    - injection E as En _. exfalso. apply (fmoved_iff c e2 Hc H2) in M2 as (-> & _). exact (fnot_x p e1 Hc H1 M1 eq_refl En).
    - injection E as En Et. split; [exact (same_elem L Hwf c e1 e2 Hc H1 H2 En)|assumption].
  Qed.
  Lemma fpath_inj c d1 : device_of L c d1 -> forall d2, In (Sub c) L -> device_of L c d2 -> fpath c (dv_path d1) = fpath c (dv_path d2) -> dv_path d1 = dv_path d2.
  Proof.
    unfold fpath. intros H1. induction H1 as [c e1 l1 I1 F1|c e1 s1 k1 ps1 I1 F1 D1 IH _]; intros d2 Hc H2 E; inversion H2 as [c0 e2 l2 I2 F2|c0 e2 s2 k2 ps2 I2 F2 D2 _]; subst; cbn [dv_path] in *; rewrite !fins_cons in E by assumption; cbn [fst] in E; apply fhead_inj in E as (<- & E); try assumption; [reflexivity|congruence|congruence|].
    rewrite F1 in F2. injection F2 as <-. rewrite F1 in E. f_equal. exact (IH k2 (proj1 (lfind_in _ _ _ F1)) D2 E).
  Qed.
  Lemma fbase_cases c n : fbase c n = ([], n) \/ (sb_name c = pn /\ gnet n /\ fbase c n = ([e_name x], rho n)).
  Proof. unfold fbase. destruct (String.eqb_spec (sb_name c) pn); simpl; [|auto]. destruct (existsb _ _) eqn:G; simpl; [|auto]. apply grp_net in G. destruct (negb _); auto. Qed.
  Lemma fnet_inj c p1 n1 : occ L c p1 n1 -> forall p2 n2, In (Sub c) L -> occ L c p2 n2 -> fins c p1 n1 = fins c p2 n2 -> p1 = p2 /\ n1 = n2.
  Proof.
    assert (Z : forall c e q n n', In (Sub c) L -> In e (sb_elems c) -> fbase c n = fins c (e_name e :: q) n' -> False).
    { intros c0 e q n n' Hc He E. rewrite (fins_cons c0 e q n' Hc He) in E. cbn zeta in E. unfold fhead in E. destruct (fbase_cases c0 n) as [B|(En & _ & B)]; rewrite B in E; destruct (fmoved c0 (e_name e)) eqn:Em; cbn [app] in E; try discriminate.
      injection E as En' _. symmetry in En'. exact (fnot_x c0 e Hc He Em (fis_p c0 Hc En) En'). }
    intros H1. induction H1 as [c e1 q1 n1 I1 J1 N1|c e1 s1 q1 n1 I1 F1 O1 IH]; intros p2 n2 Hc H2 E; inversion H2 as [c0 e2 q2 n0 I2 J2 N2|c0 e2 s2 q2 n0 I2 F2 O2]; subst.
    - split; [reflexivity|]. cbn [fins] in E. destruct (fbase_cases c n1) as [B1|(_ & G1 & B1)], (fbase_cases c n2) as [B2|(_ & G2 & B2)]; rewrite B1, B2 in E; try discriminate; [congruence|]. injection E as E. exact (Hrho n1 n2 G1 G2 E).
    - exfalso. exact (Z c e2 q2 n1 n2 Hc I2 E).
    - exfalso. symmetry in E. exact (Z c e1 q1 n2 n1 Hc I1 E).
    - rewrite !fins_cons in E by assumption. cbn zeta in E. injection E as E En. apply fhead_inj in E as (<- & E); try assumption. rewrite F1 in F2. injection F2 as <-. rewrite F1 in E, En. destruct (IH q2 n2 (proj1 (lfind_in _ _ _ F1)) O2) as (-> & ->); [|auto]. rewrite (surjective_pairing (fins s1 q1 n1)), (surjective_pairing (fins s1 q2 n2)). congruence.
  Qed.
  Lemma fold_same c : In (Sub c) L -> same_circuit L c L' (fupd c).
  Proof.
    intros Hc. exists (fpath c), (fgn c). split; [reflexivity|]. split; [intros path n; do 2 eexists; reflexivity|]. split; [|split; [|split]].
    - intros d Hd. exact (fforward c d Hd Hc).
    - intros d' Hd'. exact (fbackward _ c d' (le_n _) Hc Hd').
    - intros d1 d2 H1 H2 E. exact (fpath_inj c d1 H1 d2 Hc H2 E).
    - intros d1 d2 q1 q2 r1 r2 H1 H2 I1 I2 E. destruct r1 as [a1|a1 n1], r2 as [a2|a2 n2]; cbn [fgn] in E; try discriminate; [assumption|]. injection E as E En. destruct (fnet_inj c a1 n1 (device_occ L c d1 H1 q1 a1 n1 I1) a2 n2 Hc (device_occ L c d2 H2 q2 a2 n2 I2)) as (-> & ->); [|reflexivity]. rewrite (surjective_pairing (fins c a1 n1)), (surjective_pairing (fins c a2 n2)). congruence.
  Qed.
End Fold.

(** The library in which [p'] replaces [p], with or without a new subcircuit at the end. *)
Section FoldLib.
  Variables (L L1 : lib) (pn cn : string) (p p' child : sub).
  Hypothesis Hwf : well_formed L.
  Hypothesis Hp : lfind L pn = Some (Sub p).
  Hypothesis Hne : pn <> cn.
  Hypothesis Hlib : (L1 = L /\ lfind L cn = Some (Sub child)) \/ (L1 = L ++ [Sub child] /\ lfind L cn = None /\ sb_name child = cn).
  Hypothesis Hname : sb_name p' = pn.
  Hypothesis Hpins : sb_pins p' = sb_pins p.
  Hypothesis Hpars : sb_params p' = sb_params p.
  Let L' := replace_sub L1 p'.
  Definition rupd (c : cell) : cell := match c with Sub o => if String.eqb (sb_name o) pn then Sub p' else c | Prim _ => c end.
  Lemma rupd_name c : cell_name (rupd c) = cell_name c.
  Proof. destruct c as [|o]; [reflexivity|]. unfold rupd. destruct (String.eqb_spec (sb_name o) pn) as [E|E]; [|reflexivity]. cbn. congruence. Qed.
  Lemma rep_map M : replace_sub M p' = map rupd M.
  Proof. unfold replace_sub, rupd. apply map_ext. intros [|o]; [reflexivity|]. rewrite Hname. reflexivity. Qed.
  Lemma rep_find M n : lfind (replace_sub M p') n = option_map rupd (lfind M n).
  Proof.
    rewrite rep_map. unfold lfind. pose proof rupd_name as U. induction M as [|c M IH]; [reflexivity|]. cbn [map find]. rewrite U. destruct (String.eqb (cell_name c) n); [reflexivity|exact IH].
  Qed.
  Lemma find_app_one n : lfind (L ++ [Sub child]) n = match lfind L n with Some c => Some c | None => if String.eqb (sb_name child) n then Some (Sub child) else None end.
  Proof. unfold lfind. clear. induction L as [|c M IH]; cbn [app find]; [cbn [cell_name]; destruct (String.eqb _ _); reflexivity|]. destruct (String.eqb (cell_name c) n); [reflexivity|exact IH]. Qed.
  Lemma lib_find n : lfind L' n = match lfind L n with Some c => Some (rupd c) | None => if String.eqb cn n then Some (Sub child) else None end.
  Proof.
    unfold L'. rewrite rep_find. destruct Hlib as [(-> & H)|(-> & H & E)].
    - destruct (lfind L n) eqn:F; [reflexivity|]. destruct (String.eqb_spec cn n); [congruence|reflexivity].
    - rewrite find_app_one, E. destruct (lfind L n); [reflexivity|]. destruct (String.eqb_spec cn n) as [->|]; [|reflexivity]. cbn [option_map rupd]. destruct (String.eqb_spec (sb_name child) pn); [congruence|reflexivity].
  Qed.
  Lemma lib_prim n l : lfind L n = Some (Prim l) <-> lfind L' n = Some (Prim l).
  Proof. rewrite lib_find. destruct (lfind L n) as [[l'|o]|]; simpl; [tauto|destruct (String.eqb _ _); split; discriminate|destruct (String.eqb _ _); split; discriminate]. Qed.
  Lemma lib_sub n s : lfind L n = Some (Sub s) -> lfind L' n = Some (Sub (fupd pn p' s)).
  Proof. intros H. rewrite lib_find, H. unfold rupd, fupd. destruct (String.eqb _ _); reflexivity. Qed.
  Lemma lib_inv n s' : lfind L' n = Some (Sub s') -> (exists s, lfind L n = Some (Sub s) /\ s' = fupd pn p' s) \/ lfind L n = None.
  Proof.
    rewrite lib_find. intros H. destruct (lfind L n) as [[l|o]|]; simpl in H; [discriminate| |auto]. left. exists o. split; [reflexivity|]. unfold fupd. destruct (String.eqb _ _); congruence.
  Qed.
  Lemma lib_child : lfind L' cn = Some (Sub child).
  Proof.
    rewrite lib_find. destruct Hlib as [(_ & H)|(_ & H & E)]; rewrite H; [|now rewrite String.eqb_refl]. cbn [rupd]. pose proof (find_name _ _ _ H) as N. destruct (String.eqb_spec (sb_name child) pn); [congruence|reflexivity].
  Qed.
  Variable x : elem.
  Hypothesis Hx : e_model x = cn.
  Hypothesis Hnd : NoDup (map e_name (sb_elems p')).
  Hypothesis Hel : forall e, In e (sb_elems p') -> In e (sb_elems p) \/ e = x.
  Hypothesis Hxk : NoDup (map fst (e_pins x)).
  Hypothesis Hxp : forall q, In q (map fst (e_pins x)) <-> In q (sb_pins child).
  Hypothesis Hxr : map fst (e_params x) = map fst (sb_params child).
  Definition child_ok : Prop := NoDup (map e_name (sb_elems child)) /\ forall d, In d (sb_elems child) -> NoDup (map fst (e_pins d)) /\ exists m, lfind L (e_model d) = Some m /\
    (forall q, In q (map fst (e_pins d)) <-> In q (cell_pins m)) /\ map fst (e_params d) = map fst (cell_params m).
  Hypothesis Hchild : child_ok.
  Lemma lib_wf : well_formed L'.
  Proof.
    assert (Upd : forall m, In m L -> cell_pins (rupd m) = cell_pins m /\ cell_params (rupd m) = cell_params m).
    { intros [l|o] Hm; [split; reflexivity|]. unfold rupd. destruct (String.eqb_spec (sb_name o) pn) as [E|E]; [|split; reflexivity]. rewrite (fis_p L pn p Hwf Hp o Hm E). cbn. auto. }
    assert (K : forall e, (NoDup (map fst (e_pins e)) /\ exists m, lfind L (e_model e) = Some m /\ (forall q, In q (map fst (e_pins e)) <-> In q (cell_pins m)) /\ map fst (e_params e) = map fst (cell_params m)) ->
      NoDup (map fst (e_pins e)) /\ exists m, lfind L' (e_model e) = Some m /\ (forall q, In q (map fst (e_pins e)) <-> In q (cell_pins m)) /\ map fst (e_params e) = map fst (cell_params m)).
    { intros e (N & m & Hm & Hq & Hr). split; [assumption|]. exists (rupd m). split; [now rewrite lib_find, Hm|]. destruct (Upd m (proj1 (lfind_in _ _ _ Hm))) as (-> & ->). auto. }
    assert (Old : forall o, In (Sub o) L -> forall o', Sub o' = rupd (Sub o) -> NoDup (map e_name (sb_elems o')) /\
      forall e, In e (sb_elems o') -> NoDup (map fst (e_pins e)) /\ exists m, lfind L' (e_model e) = Some m /\ (forall q, In q (map fst (e_pins e)) <-> In q (cell_pins m)) /\ map fst (e_params e) = map fst (cell_params m)).
    { intros o Ho o' E. unfold rupd in E. destruct (String.eqb_spec (sb_name o) pn) as [En|En].
      - injection E as ->. split; [assumption|]. intros e He. destruct (Hel e He) as [H| ->].
        + apply K. exact (proj2 (proj2 Hwf p (proj1 (lfind_in _ _ _ Hp))) e H).
        + split; [assumption|]. exists (Sub child). rewrite Hx. split; [exact lib_child|]. split; [exact Hxp|exact Hxr].
      - injection E as ->. split; [exact (proj1 (proj2 Hwf o Ho))|]. intros e He. apply K. exact (proj2 (proj2 Hwf o Ho) e He). }
    assert (Nm : forall M, map cell_name (map rupd M) = map cell_name M) by (intros M; rewrite map_map; apply map_ext; exact rupd_name).
    split.
    - unfold L'. rewrite rep_map, Nm. destruct Hlib as [(-> & _)|(-> & Hn & E)]; [exact (proj1 Hwf)|]. rewrite map_app. simpl. apply (Permutation_NoDup (Permutation_cons_append _ _)). constructor; [|exact (proj1 Hwf)]. rewrite E. now apply lfind_none.
    - intros c Hc. unfold L' in Hc. rewrite rep_map in Hc. apply in_map_iff in Hc as (o & E & Ho). destruct o as [l|o]; [discriminate|].
      assert (D : In (Sub o) L \/ o = child) by (destruct Hlib as [(-> & _)|(-> & _)]; [auto|]; apply in_app_iff in Ho as [Ho|[Ho|[]]]; [auto|injection Ho as <-; auto]).
      destruct D as [D|D]; [exact (Old o D c (eq_sym E))|]. subst o. assert (c = child).
      { unfold rupd in E. destruct (String.eqb_spec (sb_name child) pn) as [En|En]; [|now injection E]. exfalso. destruct Hlib as [(_ & H)|(_ & H & H')]; [pose proof (find_name _ _ _ H)|]; congruence. }
      subst c. split; [exact (proj1 Hchild)|]. intros d Hd. apply K. exact (proj2 Hchild d Hd).
  Qed.
  Hypothesis Hmod : forall d, In d (sb_elems child) -> exists e, In e (sb_elems p) /\ e_model e = e_model d.
  Section Rank.
    Variable rank : string -> nat.
    Hypothesis Hrank : forall c s m, In (Sub c) L -> instantiates L c m -> lfind L m = Some (Sub s) -> (rank (sb_name s) < rank (sb_name c))%nat.
    Fixpoint reachb (k : nat) (n : string) : bool :=
      String.eqb n pn || match k with O => false | Datatypes.S k => match lfind L n with Some (Sub s) => existsb (fun e => reachb k (e_model e)) (sb_elems s) | _ => false end end.
    Lemma reachb_unfold k n : reachb (Datatypes.S k) n = String.eqb n pn || match lfind L n with Some (Sub s) => existsb (fun e => reachb k (e_model e)) (sb_elems s) | _ => false end.
    Proof. reflexivity. Qed.
    Lemma reachb_mono k : forall n k', (k <= k')%nat -> reachb k n = true -> reachb k' n = true.
    Proof.
      induction k as [|k IH]; intros n k' Hk H.
      - cbn [reachb] in H. rewrite orb_false_r in H. destruct k'; cbn [reachb]; now rewrite H.
      - destruct k' as [|k']; [lia|]. rewrite reachb_unfold in *. apply orb_true_iff in H as [H|H]; [now rewrite H|]. apply orb_true_iff. right. destruct (lfind L n) as [[|s]|]; try discriminate. apply existsb_exists in H as (e & He & H). apply existsb_exists. exists e. split; [assumption|]. apply (IH _ k'); [lia|assumption].
    Qed.
    Lemma reachb_rank k : forall n, reachb k n = true -> (rank pn <= rank n)%nat.
    Proof.
      induction k as [|k IH]; intros n H.
      - cbn [reachb] in H. rewrite orb_false_r in H. apply String.eqb_eq in H as ->. lia.
      - rewrite reachb_unfold in H. apply orb_true_iff in H as [H|H]; [apply String.eqb_eq in H as ->; lia|]. destruct (lfind L n) as [[|s]|] eqn:F; try discriminate. apply existsb_exists in H as (e & He & H).
        specialize (IH _ H). assert (Fe : exists t, lfind L (e_model e) = Some (Sub t)).
        { destruct k; cbn [reachb] in H; apply orb_true_iff in H as [H|H]; try discriminate; try (apply String.eqb_eq in H; rewrite H; eauto). destruct (lfind L (e_model e)) as [[|t]|]; try discriminate. eauto. }
        destruct Fe as (t & Ft). destruct (lfind_in _ _ _ F) as (Hs & Ns). simpl in Ns. pose proof (Hrank s t (e_model e) Hs (ex_intro _ e (conj He eq_refl)) Ft) as R. pose proof (find_name _ _ _ Ft). rewrite Ns in R. rewrite H0 in R. lia.
    Qed.
    Lemma p_child_no m k s : instantiates L p m -> lfind L m = Some (Sub s) -> reachb k m = false.
    Proof.
      intros Hi Hf. destruct (reachb k m) eqn:E; [|reflexivity]. exfalso. pose proof (reachb_rank k m E). pose proof (Hrank p s m (proj1 (lfind_in _ _ _ Hp)) Hi Hf) as R. rewrite (find_name _ _ _ Hf) in R. pose proof (find_name _ _ _ Hp). congruence || (rewrite H0 in R; lia).
    Qed.
    Lemma child_no k : reachb k cn = false.
    Proof.
      destruct (reachb k cn) eqn:E; [|reflexivity]. exfalso. destruct k; cbn [reachb] in E; apply orb_true_iff in E as [E|E]; try discriminate; try (apply String.eqb_eq in E; congruence).
      destruct (lfind L cn) as [[|s]|] eqn:F; try discriminate. destruct Hlib as [(_ & H)|(_ & H & _)]; [|congruence]. injection H as ->. apply existsb_exists in E as (d & Hd & E). destruct (Hmod d Hd) as (e & He & Em).
      assert (Fe : exists t, lfind L (e_model d) = Some (Sub t)).
      { destruct k; cbn [reachb] in E; apply orb_true_iff in E as [E|E]; try discriminate; try (apply String.eqb_eq in E; rewrite E; eauto). destruct (lfind L (e_model d)) as [[|t]|]; try discriminate. eauto. }
      destruct Fe as (t & Ft). rewrite (p_child_no (e_model d) k t) in E; [discriminate|exists e; auto|assumption].
    Qed.
    Definition rank0 (n : string) : nat := match lfind L n with None => if String.eqb n cn then rank pn else rank n | Some _ => rank n end.
    Definition rank' (n : string) : nat := (rank0 n + (if reachb (rank n) n then rank0 cn + 1 else 0))%nat.
    Lemma rank0_sub n s : lfind L n = Some (Sub s) -> rank0 n = rank n. Proof. unfold rank0. now intros ->. Qed.
    (** An edge of the old library. *)
    Lemma old_edge c s m : In (Sub c) L -> instantiates L c m -> lfind L m = Some (Sub s) -> (rank' m < rank' (sb_name c))%nat.
    Proof.
      intros Hc Hi Hf. pose proof (Hrank c s m Hc Hi Hf) as R. rewrite (find_name _ _ _ Hf) in R. pose proof (lfind_of _ _ (proj1 Hwf) Hc) as Fc. simpl in Fc. unfold rank'. rewrite (rank0_sub m s Hf), (rank0_sub _ c Fc). destruct (reachb (rank m) m) eqn:E; [|lia].
      assert (E' : reachb (rank (sb_name c)) (sb_name c) = true).
      { destruct (rank (sb_name c)) as [|k] eqn:Ek; [lia|]. rewrite reachb_unfold, Fc. apply orb_true_iff. right. apply existsb_exists. destruct Hi as (e & He & <-). exists e. split; [assumption|]. apply (reachb_mono (rank (e_model e))); [lia|assumption]. }
      rewrite E'. lia.
    Qed.
    Lemma p_reach : reachb (rank pn) pn = true. Proof. destruct (rank pn); cbn [reachb]; now rewrite String.eqb_refl. Qed.
    Lemma lib_rank c s m : In (Sub c) L' -> instantiates L' c m -> lfind L' m = Some (Sub s) -> (rank' (sb_name s) < rank' (sb_name c))%nat.
    Proof.
      intros Hc (e & He & Em) Hf. rewrite (find_name _ _ _ Hf). assert (Hfm : lfind L m <> None -> exists s0, lfind L m = Some (Sub s0)) by (intros H; destruct (lib_inv m s Hf) as [(s0 & H0 & _)|H0]; [eauto|contradiction]).
      assert (Pc : forall e0, In e0 (sb_elems p) -> e_model e0 = m -> (rank' m < rank' pn)%nat /\ reachb (rank m) m = false /\ exists s0, lfind L m = Some (Sub s0)).
      { intros e0 H0 E0. destruct (Hfm ltac:(rewrite <- E0; exact (elem_found L Hwf p e0 (proj1 (lfind_in _ _ _ Hp)) H0))) as (s0 & F0). split; [|split; [apply (p_child_no m _ s0); [exists e0; auto|assumption]|eauto]].
        rewrite <- (find_name _ _ _ Hp). apply (old_edge p s0 m (proj1 (lfind_in _ _ _ Hp))); [exists e0; auto|assumption]. }
      unfold L' in Hc. rewrite rep_map in Hc. apply in_map_iff in Hc as (o & E & Ho). destruct o as [l|o]; [discriminate|].
      assert (D : In (Sub o) L \/ (o = child /\ lfind L cn = None /\ sb_name child = cn)) by (destruct Hlib as [(-> & _)|(-> & H)]; [auto|]; apply in_app_iff in Ho as [Ho|[Ho|[]]]; [auto|injection Ho as <-; auto]).
      destruct D as [D|(-> & Fn & En)].
      - unfold rupd in E. destruct (String.eqb_spec (sb_name o) pn) as [Eo|Eo]; injection E as <-.
        + rewrite Hname. destruct (Hel e He) as [H| ->]; [exact (proj1 (Pc e H Em))|]. rewrite Hx in Em. subst m. unfold rank' at 1. rewrite child_no. unfold rank'. rewrite p_reach. lia.
        + destruct (Hfm ltac:(rewrite <- Em; exact (elem_found L Hwf o e D He))) as (s0 & F0). apply (old_edge o s0 m D); [exists e; auto|assumption].
      - unfold rupd in E. destruct (String.eqb_spec (sb_name child) pn) as [Eo|Eo]; [congruence|]. injection E as <-. destruct (Hmod e He) as (e0 & H0 & E0). destruct (Pc e0 H0 (eq_trans E0 Em)) as (_ & P2 & (s0 & F0)). unfold rank'. rewrite P2, (rank0_sub m s0 F0), En. unfold rank0. rewrite Fn, String.eqb_refl.
        pose proof (Hrank p s0 m (proj1 (lfind_in _ _ _ Hp)) (ex_intro _ e0 (conj H0 (eq_trans E0 Em))) F0) as R. rewrite (find_name _ _ _ F0), (find_name _ _ _ Hp) in R. lia.
    Qed.
  End Rank.
  Lemma lib_acyclic : acyclic L -> acyclic L'.
  Proof. intros (rank & H). exists (rank' rank). exact (lib_rank rank H). Qed.
End FoldLib.
