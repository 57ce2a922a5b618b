(** C48: joining wires. *)
From Coq Require Import String ZifyBool.
From Verif Require Import Base.Prelude Model.Transformation Model.Grid Model.Canvas Model.RemoveDuplicates Model.CanvasEdit Spec.GridSpec Spec.CanvasEditSpec Proofs.GridP.
Local Open Scope Z_scope.

Lemma dlo_from d r : dlo (along d) r = from d r. Proof. destruct d; reflexivity. Qed.
Lemma dhi_to d r : dhi (along d) r = to d r. Proof. destruct d; reflexivity. Qed.
Lemma wlo_near d r : wlo (along d) r = near d r. Proof. destruct d; reflexivity. Qed.
Lemma whi_far d r : whi (along d) r = far d r. Proof. destruct d; reflexivity. Qed.
Lemma name_eqb_eq a b : name_eqb a b = true -> a = b.
Proof. destruct a, b; simpl; try discriminate; [|reflexivity]. intros H. apply String.eqb_eq in H. now subst. Qed.

Lemma selected_chosen sel n : selected sel n = true <-> chosen sel n.
Proof.
  unfold selected, chosen. assert (I : forall l, in_strs n l = true <-> In n l) by (intros l; unfold in_strs; rewrite existsb_exists; split; [intros (x & Hx & E); apply String.eqb_eq in E; now subst|intros Hx; exists n; split; [assumption|apply String.eqb_refl]]).
  rewrite andb_true_iff, negb_true_iff, <- not_true_iff_false, I. destruct (sel_in sel) as [l|]; [rewrite I|]; split; intros (H1 & H2); (split; [assumption|]); [intros l' E; injection E as <-; assumption|now apply H2|discriminate|reflexivity].
Qed.
Section S.
  Variables (w : Wire) (sel : netsel) (max_l : option Z).
  Notation d := (w_dir w).
  Notation go := (join_go w sel max_l).

  (** One step of the loop. *)
  Lemma go_cons c nl s tl js : go c nl (s :: tl) = Some js ->
    (exists nl', (nl' = nl /\ sr_type s = "blockage"%string \/ nl' = 0) /\ go c nl' tl = Some js) \/
    (tl = [] /\ js = []) \/
    (exists n nx tl' r js', tl = nx :: tl' /\ js = mkJ n s nx r :: js' /\ sr_net s = Some n /\ sr_net nx = Some n /\ sr_type s <> "blockage"%string /\ sr_type s = sr_type nx /\
       selected sel n = true /\ far d (sr_rect s) - near d (sr_rect s) = far d (sr_rect nx) - near d (sr_rect nx) /\
       fits max_l (nl + (to d (sr_rect nx) - from d (sr_rect s))) = true /\ draw w c (from d (sr_rect s)) (to d (sr_rect nx)) = Some r /\
       go c (nl + (from d (sr_rect nx) - from d (sr_rect s))) tl = Some js').
  Proof.
    cbn [join_go]. rewrite !dlo_from. destruct (String.eqb_spec (sr_type s) "blockage") as [Hb|Hb]; [intros E; left; exists nl; auto|].
    destruct (sr_net s) as [n|] eqn:En; [|intros E; left; exists 0; auto]. destruct (selected sel n) eqn:Es; cbn [negb]; [|intros E; left; exists 0; auto].
    destruct tl as [|nx tl']; [intros E; injection E as <-; auto|]. rewrite !dhi_to, !dlo_from, !wlo_near, !whi_far.
    destruct (name_eqb (Some n) (sr_net nx) && _ && _ && _) eqn:Ec; [|intros E; left; exists 0; auto]. apply andb_true_iff in Ec as (Ec & Et). apply andb_true_iff in Ec as (Ec & Ef). apply andb_true_iff in Ec as (Ec & Ew).
    destruct (draw w c _ _) as [r|] eqn:Ed; [|discriminate]. destruct (go c _ (nx :: tl')) as [js'|] eqn:Eg; [|discriminate]. intros E. injection E as <-. right. right.
    exists n, nx, tl', r, js'. apply name_eqb_eq in Ec. apply String.eqb_eq in Et. repeat (split; [auto; lia|]). rewrite <- Eg. f_equal. lia.
  Qed.

  (** Wires are added only between two neighbours of one selected net, of the same width and type. *)
  Lemma same_net c l js : go c 0 l = Some js -> Forall (fun j => followed_by l (j_a j) (j_b j) /\ sr_net (j_a j) = Some (j_net j) /\ sr_net (j_b j) = Some (j_net j) /\
    selected sel (j_net j) = true /\ sr_type (j_a j) <> "blockage"%string /\ sr_type (j_a j) = sr_type (j_b j) /\
    far d (sr_rect (j_a j)) - near d (sr_rect (j_a j)) = far d (sr_rect (j_b j)) - near d (sr_rect (j_b j)) /\
    draw w c (from d (sr_rect (j_a j))) (to d (sr_rect (j_b j))) = Some (j_rect j)) js.
  Proof.
    generalize 0 at 1. revert js. induction l as [|s l IH]; intros js nl E; [injection E as <-; constructor|].
    assert (W : forall js' : list join, Forall (fun j => followed_by l (j_a j) (j_b j) /\ sr_net (j_a j) = Some (j_net j) /\ sr_net (j_b j) = Some (j_net j) /\
      selected sel (j_net j) = true /\ sr_type (j_a j) <> "blockage"%string /\ sr_type (j_a j) = sr_type (j_b j) /\
      far d (sr_rect (j_a j)) - near d (sr_rect (j_a j)) = far d (sr_rect (j_b j)) - near d (sr_rect (j_b j)) /\
      draw w c (from d (sr_rect (j_a j))) (to d (sr_rect (j_b j))) = Some (j_rect j)) js' ->
      Forall (fun j => followed_by (s :: l) (j_a j) (j_b j) /\ sr_net (j_a j) = Some (j_net j) /\ sr_net (j_b j) = Some (j_net j) /\
      selected sel (j_net j) = true /\ sr_type (j_a j) <> "blockage"%string /\ sr_type (j_a j) = sr_type (j_b j) /\
      far d (sr_rect (j_a j)) - near d (sr_rect (j_a j)) = far d (sr_rect (j_b j)) - near d (sr_rect (j_b j)) /\
      draw w c (from d (sr_rect (j_a j))) (to d (sr_rect (j_b j))) = Some (j_rect j)) js').
    { intros js'. apply Forall_impl. intros j ((l1 & l2 & ->) & H). split; [|assumption]. exists (s :: l1), l2. reflexivity. }
    destruct (go_cons _ _ _ _ _ E) as [(nl' & _ & E')|[(-> & ->)|(n & nx & tl' & r & js' & -> & -> & H1 & H2 & H3 & H4 & H5 & H6 & _ & H7 & E')]].
    - apply W, (IH _ _ E'). - constructor.
    - constructor; [|apply W, (IH _ _ E')]. cbn [j_a j_b j_net j_rect]. split; [exists [], tl'; reflexivity|]. repeat (split; [assumption|]). assumption.
  Qed.
  Theorem C48_same_net c l js : go c 0 l = Some js -> Forall (fun j => followed_by l (j_a j) (j_b j) /\ sr_net (j_a j) = Some (j_net j) /\ sr_net (j_b j) = Some (j_net j) /\
    chosen sel (j_net j) /\ sr_type (j_a j) <> "blockage"%string /\ sr_type (j_a j) = sr_type (j_b j) /\
    far d (sr_rect (j_a j)) - near d (sr_rect (j_a j)) = far d (sr_rect (j_b j)) - near d (sr_rect (j_b j))) js.
  Proof. intros E. apply same_net in E. revert E. apply Forall_impl. intros j (H1 & H2 & H3 & H4 & H5 & H6 & H7 & _). apply selected_chosen in H4. auto 10. Qed.
  (** Nothing is left out, unless there is a limit on the length. *)
  Theorem C48_complete c l js a b n : max_l = None -> go c 0 l = Some js -> followed_by l a b -> sr_net a = Some n -> sr_net b = Some n -> chosen sel n ->
    sr_type a <> "blockage"%string -> sr_type a = sr_type b -> far d (sr_rect a) - near d (sr_rect a) = far d (sr_rect b) - near d (sr_rect b) ->
    exists j, In j js /\ j_a j = a /\ j_b j = b.
  Proof.
    intros Hm E (l1 & l2 & ->) Na Nb Hs Hb Ht Hw. apply selected_chosen in Hs. revert E. generalize 0 at 1. revert js. induction l1 as [|s l1 IH]; intros js nl.
    - cbn [app]. intros E. destruct (go_cons _ _ _ _ _ E) as [(nl' & _ & _)|[(E' & _)|(n' & nx & tl' & r & js' & Etl & -> & _)]]; [|discriminate|injection Etl as -> ->; exists (mkJ n' a nx r); split; [now left|auto]].
      revert E. remember (b :: l2) as t eqn:Et. cbn [join_go]. destruct t as [|nx t']; [discriminate Et|]. injection Et as -> _. rewrite !dhi_to, !dlo_from, !wlo_near, !whi_far, (proj2 (String.eqb_neq _ _) Hb). rewrite Na, Hs. cbn [negb]. rewrite Nb. unfold fits. rewrite Hm, <- Ht, String.eqb_refl.
      replace (name_eqb (Some n) (Some n)) with true by (symmetry; simpl; apply String.eqb_refl).
      rewrite (proj2 (Z.eqb_eq _ _) Hw). cbn [andb]. destruct (draw _ _ _ _) as [r|]; [|discriminate]. destruct (join_go _ _ _ _ _ (b :: t')) as [js'|]; [|discriminate].
      intros E. injection E as <-. eexists. split; [now left|auto].
    - cbn [app]. intros E. destruct (go_cons _ _ _ _ _ E) as [(nl' & _ & E')|[(E' & _)|(n' & nx & tl' & r & js' & _ & -> & _ & _ & _ & _ & _ & _ & _ & _ & E')]]; [exact (IH _ _ E')|destruct l1; discriminate|].
      destruct (IH _ _ E') as (j & Hj & K). exists j. split; [now right|assumption].
  Qed.

  (** What is drawn covers both wires of the pair and the gap, on a grid; on the track it goes
      beyond them only up to the next grid line. *)
  Lemma draw_spec p c b e r : periodic (w_spg w) p -> draw w c b e = Some r ->
    from d r <= b /\ e <= to d r /\ (on_line (w_spg w) p b -> from d r = b) /\ (on_line (w_spg w) p e -> to d r = e) /\ on_line (w_spg w) p (from d r) /\ on_line (w_spg w) p (to d r) /\
    (forall x, on_line (w_spg w) p x -> ~ (from d r < x < b)) /\ (forall x, on_line (w_spg w) p x -> ~ (e < x < to d r)).
  Proof.
    intros Hp. unfold draw. destruct (inverseBounds_spec _ _ b Hp) as (q & i & j & ci & cj & E & C1 & C2 & C3 & C4).
    destruct (inverseBounds_spec _ _ e Hp) as (q' & i' & j' & ci' & cj' & E' & C1' & C2' & C3' & C4'). rewrite E, E'. cbn [fst snd]. unfold wire_segment.
    destruct (value_pair _ _ _ _ _ Hp C1) as (a1 & V1). destruct (value_pair _ _ _ _ _ Hp C2') as (a2 & V2).
    assert (Hv : forall g k ch v v', value g k true = Some v -> value g k ch = Some v' -> v = v').
    { intros g k ch v v'. unfold value. destruct (n_lines g <=? 0); [discriminate|]. destruct (negb _); rewrite ?andb_false_r; cbn [andb]; [discriminate|congruence]. }
    destruct (value (w_clg w) _ true) as [(cc & [(wd & col)|])|]; try discriminate. destruct (value (w_spg w) (Pair q i) true) as [(bP & ab)|] eqn:Eb; [|discriminate].
    destruct (value (w_spg w) (Pair q' j') true) as [(eP & ae)|] eqn:Ee; [|discriminate]. pose proof (Hv _ _ _ _ _ Eb V1) as Q1. pose proof (Hv _ _ _ _ _ Ee V2) as Q2. injection Q1 as -> ->. injection Q2 as -> ->.
    intros Er. injection Er as <-. assert (F1 : from d (match d with H => mkRect ci (cc - wd / 2) cj' (cc + wd / 2) | V => mkRect (cc - wd / 2) ci (cc + wd / 2) cj' end) = ci) by (destruct d; reflexivity).
    assert (F2 : to d (match d with H => mkRect ci (cc - wd / 2) cj' (cc + wd / 2) | V => mkRect (cc - wd / 2) ci (cc + wd / 2) cj' end) = cj') by (destruct d; reflexivity). rewrite F1, F2.
    assert (Cj : i' = j' -> ci' = cj') by (intros <-; exact (coord_fun _ _ _ _ _ _ C1' C2')).
    split; [lia|]. split; [lia|]. split; [intros (w0 & f0 & Hx); specialize (C4 _ _ _ Hx); lia|]. split; [intros (w0 & f0 & Hx); specialize (C4' _ _ _ Hx); lia|]. split; [exists q, i; assumption|]. split; [exists q', j'; assumption|]. split; intros x (w0 & f0 & Hx).
    - specialize (C4 _ _ _ Hx). lia. - specialize (C4' _ _ _ Hx). lia.
  Qed.

  Lemma sorted_split (l1 l2 : list srect) a b : track d (l1 ++ a :: b :: l2) ->
    from d (sr_rect a) < to d (sr_rect a) /\ from d (sr_rect b) < to d (sr_rect b) /\ to d (sr_rect a) < from d (sr_rect b) /\
    Forall (fun s => to d (sr_rect s) < from d (sr_rect a)) l1 /\ Forall (fun s => to d (sr_rect b) < from d (sr_rect s)) l2.
  Proof.
    intros (Hn & Hs). apply Forall_app in Hn as (_ & Hn). apply Forall_cons_iff in Hn as (Ha & Hn). apply Forall_cons_iff in Hn as (Hb & _). split; [assumption|]. split; [assumption|].
    induction l1 as [|s l1 IH].
    - simpl in Hs. inversion Hs as [|? ? Hs' H1]; subst. inversion Hs' as [|? ? _ H2]; subst. apply Forall_cons_iff in H1 as (H1 & _). split; [assumption|]. split; [constructor|assumption].
    - simpl in Hs. inversion Hs as [|? ? Hs' H1]; subst. destruct (IH Hs') as (A & B & C). split; [assumption|]. split; [|assumption]. constructor; [|assumption].
      apply Forall_app in H1 as (_ & H1). now apply Forall_cons_iff in H1 as (H1 & _).
  Qed.

  (** If the outer ends lie on grid lines, exactly the two wires and the gap are covered, and no
      other wire of the track is touched. *)
  Theorem C48_between p c l js : periodic (w_spg w) p -> track d l -> go c 0 l = Some js ->
    Forall (fun j => on_line (w_spg w) p (from d (sr_rect (j_a j))) -> on_line (w_spg w) p (to d (sr_rect (j_b j))) ->
      from d (j_rect j) = from d (sr_rect (j_a j)) /\ to d (j_rect j) = to d (sr_rect (j_b j)) /\
      exists l1 l2, l = l1 ++ j_a j :: j_b j :: l2 /\ Forall (fun s => to d (sr_rect s) < from d (j_rect j)) l1 /\ Forall (fun s => to d (j_rect j) < from d (sr_rect s)) l2) js.
  Proof.
    intros Hp Ht E. apply same_net in E. revert E. apply Forall_impl. intros j ((l1 & l2 & ->) & _ & _ & _ & _ & _ & _ & Hd) O1 O2.
    destruct (sorted_split _ _ _ _ Ht) as (_ & _ & _ & H1 & H2). destruct (draw_spec p c _ _ _ Hp Hd) as (_ & _ & D1 & D2 & _). rewrite (D1 O1), (D2 O2).
    split; [reflexivity|]. split; [reflexivity|]. exists l1, l2. auto.
  Qed.
  (** In any case the drawn wire covers both, and ends at the first grid lines outside. *)
  Theorem C48_covers p c l js : periodic (w_spg w) p -> go c 0 l = Some js ->
    Forall (fun j => from d (j_rect j) <= from d (sr_rect (j_a j)) /\ to d (sr_rect (j_b j)) <= to d (j_rect j) /\
      (forall x, on_line (w_spg w) p x -> ~ (from d (j_rect j) < x < from d (sr_rect (j_a j)))) /\
      (forall x, on_line (w_spg w) p x -> ~ (to d (sr_rect (j_b j)) < x < to d (j_rect j)))) js.
  Proof.
    intros Hp E. apply same_net in E. revert E. apply Forall_impl. intros j (_ & _ & _ & _ & _ & _ & _ & Hd).
    destruct (draw_spec p c _ _ _ Hp Hd) as (H1 & H2 & _ & _ & _ & _ & H3 & H4). auto.
  Qed.

  (** The wire is drawn on the centre line of the track, if that is a line of the wire's grid. *)
  Theorem C48_on_track p cl c' l js c : periodic (w_clg w) p -> on_line (w_clg w) p (cl / 2) -> inverseBounds (w_clg w) (cl / 2) = Some (c, c') -> go c 0 l = Some js ->
    Forall (fun j => exists wd, near d (j_rect j) = cl / 2 - wd / 2 /\ far d (j_rect j) = cl / 2 + wd / 2) js.
  Proof.
    intros Hp (w0 & f0 & Hon) Ec E. apply same_net in E. revert E. apply Forall_impl. intros j (_ & _ & _ & _ & _ & _ & _ & Hd).
    destruct (inverseBounds_spec _ _ (cl / 2) Hp) as (q & i & k & ci & ck & E & C1 & C2 & C3 & C4). rewrite E in Ec. injection Ec as <- <-. specialize (C4 _ _ _ Hon).
    destruct C3 as [(-> & ->)|C3]; [|lia]. destruct (value_pair _ _ _ _ _ Hp C1) as (a & Ev). unfold draw in Hd. cbn [fst snd] in Hd. destruct (inverseBounds (w_spg w) _) as [(b1, b2)|]; [|discriminate].
    destruct (inverseBounds (w_spg w) (to _ _)) as [(e1, e2)|]; [|discriminate]. unfold wire_segment in Hd.
    destruct (value (w_clg w) (Pair q k) true) as [(cc & [(wd & col)|])|] eqn:Eb; try discriminate.
    assert (cc = cl / 2) as -> by (unfold value in Ev, Eb; destruct (n_lines (w_clg w) <=? 0); [discriminate|]; destruct (negb _); cbn [andb] in *; [discriminate|congruence]).
    destruct (value (w_spg w) _ true) as [(bP & ?)|]; [|discriminate]. destruct (value (w_spg w) (Pair (fst e2) _) true) as [(eP & ?)|]; [|discriminate]. injection Hd as <-. exists wd. destruct d; split; reflexivity.
  Qed.

  (** The joined wires of a run are no longer than the limit. *)
  Fixpoint linked (js : list join) : Prop := match js with a :: ((b :: _) as tl) => j_b a = j_a b /\ linked tl | _ => True end.
  Lemma fits_le x y : x <= y -> fits max_l y = true -> fits max_l x = true.
  Proof. unfold fits. destruct max_l; lia. Qed.
  Lemma track_tail s l : track d (s :: l) -> track d l.
  Proof. intros (H1 & H2). apply Forall_cons_iff in H1 as (_ & H1). inversion H2; subst. split; assumption. Qed.
  Lemma followed_in (l : list srect) a b : followed_by l a b -> In a l.
  Proof. intros (l1 & l2 & ->). apply in_or_app. right. now left. Qed.
  Lemma go_in c nl l js j : go c nl l = Some js -> In j js -> In (j_a j) l.
  Proof.
    revert nl js. induction l as [|s l IH]; intros nl js E Hj; [injection E as <-; destruct Hj|].
    destruct (go_cons _ _ _ _ _ E) as [(nl' & _ & E')|[(-> & ->)|(n & nx & tl' & r & js' & -> & -> & _ & _ & _ & _ & _ & _ & _ & _ & E')]]; [right; eauto|destruct Hj|].
    destruct Hj as [<-|Hj]; [now left|right; eauto].
  Qed.
  Lemma track_notin s l : track d (s :: l) -> ~ In s l.
  Proof.
    intros (H1 & H2) Hi. inversion H2 as [|? ? _ H3]; subst. rewrite Forall_forall in H3. specialize (H3 s Hi). apply Forall_cons_iff in H1 as (H1 & _). simpl in *. lia.
  Qed.
  Lemma last_cons {A} (l : list A) : forall k x, last (k :: l) x = last l k.
  Proof. induction l as [|a l IH]; intros k x; [reflexivity|]. change (last (k :: a :: l) x) with (last (a :: l) x). now rewrite !IH. Qed.
  Lemma head_fits c : forall l nl s j seg post, track d (s :: l) -> 0 <= nl -> go c nl (s :: l) = Some ((j :: seg) ++ post) -> linked (j :: seg) -> j_a j = s ->
    fits max_l (nl + (to d (sr_rect (j_b (last seg j))) - from d (sr_rect s))) = true.
  Proof.
    induction l as [|nx l IH]; intros nl s j seg post Ht Hnl E Hl Ha;
      destruct (go_cons _ _ _ _ _ E) as [(nl' & _ & E')|[(_ & Ej)|(n & nx' & tl' & r & js' & Etl & Ej & _ & _ & _ & _ & _ & _ & Hf & _ & E')]]; try discriminate.
    - exfalso. apply (track_notin _ _ Ht). rewrite <- Ha. apply (go_in _ _ _ _ _ E'). now left.
    - injection Etl as <- <-. simpl in Ej. injection Ej as -> <-. destruct seg as [|k seg]; [exact Hf|]. destruct Hl as (Hk & Hl). cbn [j_b] in Hk.
      assert (Hlt : from d (sr_rect s) < from d (sr_rect nx)).
      { destruct Ht as (H1 & H2). inversion H2 as [|? ? _ H3]; subst. apply Forall_cons_iff in H3 as (H3 & _). apply Forall_cons_iff in H1 as (H1 & _). lia. }
      assert (Hn' : 0 <= nl + (from d (sr_rect nx) - from d (sr_rect s))) by lia. specialize (IH _ nx k seg post (track_tail _ _ Ht) Hn' E' Hl (eq_sym Hk)).
      rewrite last_cons. rewrite <- IH. f_equal. lia.
  Qed.
  Theorem C48_length c l js : track d l -> go c 0 l = Some js -> forall pre j seg post, js = pre ++ (j :: seg) ++ post -> linked (j :: seg) ->
    forall m, max_l = Some m -> to d (sr_rect (j_b (last seg j))) - from d (sr_rect (j_a j)) <= m.
  Proof.
    assert (G : forall l nl js, track d l -> 0 <= nl -> go c nl l = Some js -> forall pre j seg post, js = pre ++ (j :: seg) ++ post -> linked (j :: seg) ->
      fits max_l (to d (sr_rect (j_b (last seg j))) - from d (sr_rect (j_a j))) = true).
    { clear l js. induction l as [|s l IH]; intros nl js Ht Hnl E pre j seg post Ejs Hl; [injection E as <-; destruct pre; discriminate|].
      destruct (go_cons _ _ _ _ _ E) as [(nl' & Hnl' & E')|[(_ & Ej)|(n & nx & tl' & r & js' & Etl & Ej & _ & _ & _ & _ & _ & _ & Hf & _ & E')]].
      - apply (IH nl' js (track_tail _ _ Ht) ltac:(destruct Hnl' as [(-> & _)| ->]; lia) E' pre j seg post Ejs Hl).
      - rewrite Ej in Ejs. destruct pre; discriminate.
      - destruct pre as [|j0 pre].
        + cbn [app] in Ejs. pose proof E as E0. rewrite Ejs in E0. rewrite Ej in Ejs. injection Ejs as <- _.
          pose proof (head_fits c l nl s _ seg post Ht Hnl E0 Hl eq_refl) as Hh. cbn [j_a]. revert Hh. apply fits_le. lia.
        + subst l. assert (Hlt : from d (sr_rect s) < from d (sr_rect nx)).
          { destruct Ht as (H1 & H2). inversion H2 as [|? ? _ H3]; subst. apply Forall_cons_iff in H3 as (H3 & _). apply Forall_cons_iff in H1 as (H1 & _). lia. }
          rewrite Ej in Ejs. injection Ejs as _ Ejs. refine (IH _ js' (track_tail _ _ Ht) _ E' pre j seg post Ejs Hl). lia. }
    intros Ht E pre j seg post Ej Hl m Em. pose proof (G l 0 js Ht (Z.le_refl 0) E pre j seg post Ej Hl) as F. unfold fits in F. rewrite Em in F. lia.
  Qed.
End S.

(** Ends off the grid: the drawn wire reaches the grid line outside and may cover a wire of
    another net. *)
Theorem C48_snap_refuted : exists w sel c l js j s, track (w_dir w) l /\ join_go w sel None c 0 l = Some js /\ In j js /\ In s l /\ sr_net s <> Some (j_net j) /\ ~ clear_of (sr_rect s) (j_rect j).
Proof.
  set (a := mkSr (mkRect 11 (-2) 19 2) (Some "A"%string) "drawing"). set (b := mkSr (mkRect 21 (-2) 39 2) (Some "A"%string) "drawing"). set (x := mkSr (mkRect 0 (-2) 9 2) (Some "X"%string) "drawing").
  exists (mkWire H (UncoloredCenterLineGrid 10 4 0 1) (SingleGrid 20 0 1)), (mkSel [] None), (0, 0), [x; a; b], [mkJ "A" a b (mkRect 0 (-2) 40 2)], (mkJ "A" a b (mkRect 0 (-2) 40 2)), x.
  split; [split; repeat constructor; simpl; lia|]. split; [reflexivity|]. split; [now left|]. split; [now left|]. split; [discriminate|]. unfold clear_of. simpl. lia.
Qed.
(** A track off the grid: the wire is drawn on the grid line below, where another net may be. *)
Theorem C48_off_track_refuted : exists w sel ls cl js j s r, join_lines w sel None ls = Some r /\ In (cl, js) r /\ In j js /\ (exists cl' l', In (cl', l') ls /\ In s l') /\
  sr_net s <> Some (j_net j) /\ ~ clear_of (sr_rect s) (j_rect j).
Proof.
  set (a := mkSr (mkRect 0 5 20 9) (Some "A"%string) "drawing"). set (b := mkSr (mkRect 40 5 60 9) (Some "A"%string) "drawing"). set (x := mkSr (mkRect 0 (-2) 60 2) (Some "X"%string) "drawing").
  exists (mkWire H (UncoloredCenterLineGrid 10 4 0 1) (SingleGrid 20 0 1)), (mkSel [] None), [(0, [x]); (14, [a; b])], 14, [mkJ "A" a b (mkRect 0 (-2) 60 2)], (mkJ "A" a b (mkRect 0 (-2) 60 2)), x, [(0, []); (14, [mkJ "A" a b (mkRect 0 (-2) 60 2)])].
  split; [reflexivity|]. split; [right; now left|]. split; [now left|]. split; [exists 0, [x]; split; now left|]. split; [discriminate|]. unfold clear_of. simpl. lia.
Qed.

(** Three wires of one net; the third does not fit in the length limit. *)
Example C48_nonvacuous :
  let s x y n := mkSr (mkRect x (-2) y 2) (Some n) "drawing" in let w := mkWire H (UncoloredCenterLineGrid 10 4 0 1) (SingleGrid 20 0 1) in
  let l := [s 0 20 "X"; s 40 60 "A"; s 80 100 "A"; s 120 140 "A"; s 160 180 "B"]%string in
  periodic (w_spg w) 20 /\ periodic (w_clg w) 10 /\ track H l /\ join_go w (mkSel [] None) (Some 60) (0, 0) 0 l = Some [mkJ "A" (s 40 60 "A") (s 80 100 "A") (mkRect 40 (-2) 100 2)]%string /\
  option_map (@List.length join) (join_go w (mkSel [] None) None (0, 0) 0 l) = Some 2%nat.
Proof.
  cbv zeta. split; [|split; [|split; [|split]]].
  - split; [lia|]. exists 0, None, [(20, None)]. split; [reflexivity|]. split; [exists [(0, None)], None; reflexivity|]. intros c a [E|[E|[]]]; injection E as <- <-; lia.
  - split; [lia|]. exists 0, (Some (4, None)), [(10, Some (4, None))]. split; [reflexivity|]. split; [exists [(0, Some (4, None))], (Some (4, None)); reflexivity|]. intros c a [E|[E|[]]]; injection E as <- <-; lia.
  - split; repeat constructor; simpl; lia.
  - reflexivity.
  - reflexivity.
Qed.

Print Assumptions C48_same_net.
Print Assumptions C48_complete.
Print Assumptions C48_between.
Print Assumptions C48_covers.
Print Assumptions C48_on_track.
Print Assumptions C48_length.
Print Assumptions C48_snap_refuted.
Print Assumptions C48_off_track_refuted.
