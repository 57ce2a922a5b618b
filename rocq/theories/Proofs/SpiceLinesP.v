(** Reading whole SPICE files. *)
From Coq Require Import String Ascii.
From Verif Require Import Base.Prelude Base.PyStr Model.SpiceLex Spec.SpiceSpec Proofs.SpiceLexP.

(** The tokens kept along some steps. *)
Definition reads (b : bool) (s : chars) (l : list (ttype * chars)) (b' : bool) (s' : chars) : Prop := exists l', steps b s l' b' s' /\ filter (fun x => kept (fst x)) l' = l.
Lemma reads_nil b s : reads b s [] b s.
Proof. exists []. split; [constructor|easy]. Qed.
Lemma reads_app b s l b' s' l2 b2 s2 : reads b s l b' s' -> reads b' s' l2 b2 s2 -> reads b s (l ++ l2) b2 s2.
Proof. intros (k1 & H1 & <-) (k2 & H2 & <-). exists (k1 ++ k2). split; [eapply steps_app; eauto|apply filter_app]. Qed.
Lemma reads_one b a s t : a <> [] -> first_match (patterns b) (a ++ s) = Some (t, s) -> reads b (a ++ s) (if kept t then [(t, a)] else []) false s.
Proof. intros Ha Hf. exists [(t, a)]. split; [now apply steps_one|]. cbn. now destruct (kept t). Qed.
Lemma reads_scan s l b' s' : reads true s l b' s' -> first_match (patterns b') s' = None -> tokens s = l /\ snd (scan s) = s'.
Proof. intros (k & H1 & <-) H2. unfold tokens. now rewrite (scan_steps _ _ _ _ H1 H2). Qed.

Lemma value_head v : value_ok v -> exists c t, value_chars v = c :: t /\ wstart c = true.
Proof.
  destruct v as [w|w|n|w more]; cbn [value_ok value_chars].
  - destruct w as [|c w]; [easy|]. intros [H _]. exists c, w. split; [easy|]. revert c H. chars256.
  - intros _. now exists "."%char, w.
  - intros H. destruct (num_head n H) as (c & t & E & Hc). exists c, t. split; [exact E|]. revert c Hc E. intros c Hc _. revert c Hc. chars256.
  - intros _. eexists _, _. split; reflexivity.
Qed.
Lemma value_reads b v rest : b = false \/ match v with VName _ | VDecl _ => True | _ => False end -> value_ok v -> ends rest -> reads b (value_chars v ++ rest) [value_token v] false rest.
Proof.
  intros Hb Hv He. destruct (value_head v Hv) as (c & t & E & _). assert (Nn : value_chars v <> []) by (rewrite E; discriminate).
  pose proof (ends_more _ He) as He2. destruct v as [w|w|n|w more]; unfold value_token, value_type.
  - exact (reads_one b (value_chars (VName w)) rest tNAME Nn (name_step b w rest Hv He2)).
  - exact (reads_one b (value_chars (VDecl w)) rest tDECL Nn (decl_step b w rest Hv He2)).
  - destruct Hb as [->|[]]. exact (reads_one false (value_chars (VNum n)) rest tNUMBER Nn (num_step n rest Hv He)).
  - exact (reads_one b (value_chars (VExpr w more)) rest tEXPR Nn (expr_step b w more rest Hv)).
Qed.
Lemma item_head i : item_ok i -> exists c t, item_chars i = c :: t /\ wstart c = true.
Proof.
  destruct i as [v|k b1 b2 v]; cbn [item_ok item_chars]; [apply value_head|]. intros (Hk & _). destruct (value_head (VName k) Hk) as (c & t & E & Hc).
  cbn in E. subst k. eexists c, _. split; [reflexivity|exact Hc].
Qed.
Lemma blank_ends w s : forallb blank w = true -> ends_eq s -> ends_eq (w ++ s).
Proof. destruct w as [|x w]; cbn; [easy|]. rewrite andb_true_iff. tauto. Qed.
Lemma item_reads b i rest : b = false \/ match i with Arg (VName _) | Arg (VDecl _) => True | _ => False end -> item_ok i -> ends rest -> reads b (item_chars i ++ rest) (item_tokens i) false rest.
Proof.
  intros Hb Hi He. destruct i as [v|k b1 b2 v]; cbn [item_chars item_tokens item_ok] in *.
  - now apply value_reads.
  - destruct Hi as (Hk & H1 & H2 & Hv). destruct (value_head v Hv) as (c & t & E & Hc).
    replace ((k ++ b1 ++ "="%char :: b2 ++ value_chars v) ++ rest) with (k ++ (b1 ++ "="%char :: b2) ++ value_chars v ++ rest) by (repeat (rewrite <- app_assoc; cbn [app]); reflexivity).
    apply (reads_app b _ [(tNAME, k)] false ((b1 ++ "="%char :: b2) ++ value_chars v ++ rest)).
    + refine (reads_one b k _ tNAME _ (name_step b k _ Hk _)); [destruct k; easy|]. rewrite <- app_assoc. apply blank_ends; [exact H1|]. cbn. tauto.
    + apply (reads_app false _ [(tEQUALS, b1 ++ "="%char :: b2)] false (value_chars v ++ rest)).
      * rewrite E. refine (reads_one false _ _ tEQUALS _ (equals_step false b1 b2 c (t ++ rest) H1 H2 _)); [now destruct b1|]. clear - Hc. revert c Hc. chars256n.
      * apply value_reads; auto.
Qed.
(** What may follow a line: its end, or, without a comment, anything that may follow a value. *)
Definition tail_sep (t : tail) (R : chars) : Prop := match t with Nothing => ends R | _ => line_end R end.
Definition line_sep (l : line) (R : chars) : Prop := match l with Stmt _ _ _ t | Cont _ _ _ t => tail_sep t R | _ => line_end R end.
Lemma line_end_ends R : line_end R -> ends R.
Proof. destruct R as [|c R]; cbn; tauto. Qed.
Lemma line_end_sep l R : line_end R -> line_sep l R.
Proof. intros H. destruct l as [? ? ? t|? ? ? t| |]; try exact H; destruct t; try exact H; now apply line_end_ends. Qed.
Lemma tail_ends t R : tail_ok t -> tail_sep t R -> ends (tail_chars t ++ R).
Proof.
  assert (B : forall w u, forallb blank w = true -> ends (w ++ ";"%char :: u)).
  { intros [|x w] u; cbn; [tauto|]. rewrite andb_true_iff. tauto. }
  destruct t as [|b txt|b1 b2 b3 txt]; cbn [tail_ok tail_chars]; intros H1 H2.
  - exact H2.
  - rewrite <- app_assoc. apply B. tauto.
  - rewrite <- app_assoc. apply B. tauto.
Qed.
Lemma rest_ends r s : rest_ok r -> ends s -> ends (rest_chars r ++ s).
Proof.
  intros H Hs. destruct H as [|[w i] r (H1 & H2 & H3) Hr]; [easy|]. cbn [rest_chars map concat fst snd] in *. destruct w as [|x w]; [easy|]. cbn in H2 |- *. apply andb_true_iff in H2. tauto.
Qed.
Lemma rest_reads r s : rest_ok r -> ends s -> reads false (rest_chars r ++ s) (concat (map (fun x => item_tokens (snd x)) r)) false s.
Proof.
  intros H Hs. induction H as [|[w i] r (H1 & H2 & H3) Hr IH]; [apply reads_nil|]. cbn [rest_chars map concat fst snd] in *. fold (rest_chars r).
  rewrite <- !app_assoc. destruct w as [|x w]; [easy|]. cbn [forallb] in H2. apply andb_true_iff in H2. destruct H2 as [Hx Hw]. destruct (item_head i H3) as (c & t & E & Hc).
  change (item_tokens i ++ concat (map (fun x => item_tokens (snd x)) r)) with ([] ++ item_tokens i ++ concat (map (fun x => item_tokens (snd x)) r)).
  apply (reads_app false _ [] false (item_chars i ++ rest_chars r ++ s)).
  - rewrite E. refine (reads_one false (x :: w) _ tWS _ (ws_step false x w c (t ++ rest_chars r ++ s) Hx _ Hc)); [discriminate|]. now apply blanks_sp.
  - eapply reads_app; [|exact IH]. apply item_reads; auto. now apply rest_ends.
Qed.
Definition tail_toks (t : tail) : list (ttype * chars) := match t with Note b1 b2 b3 txt => [(tANNOTATION, tail_chars t)] | _ => [] end.
Lemma tail_reads t R : tail_ok t -> tail_sep t R -> reads false (tail_chars t ++ R) (tail_toks t) false R.
Proof.
  destruct t as [|b txt|b1 b2 b3 txt]; cbn [tail_ok tail_toks]; intros H HR.
  - apply reads_nil.
  - destruct H as [H1 H2]. refine (reads_one false (tail_chars (Comment b txt)) R tCOMMENT _ (comment_step b txt R H1 H2 HR)). now destruct b.
  - destruct H as (H1 & H2 & H3 & H4). refine (reads_one false (tail_chars (Note b1 b2 b3 txt)) R tANNOTATION _ (note_step false b1 ";"%char b2 b3 txt R _ _ H2 H3 H4 HR)); [now destruct b1| |tauto].
    now apply blanks_sp.
Qed.
Lemma body_reads b h r t R : b = false \/ match h with Arg (VName _) | Arg (VDecl _) => True | _ => False end -> item_ok h -> rest_ok r -> tail_ok t -> tail_sep t R ->
  reads b (item_chars h ++ rest_chars r ++ tail_chars t ++ R) (line_items h r ++ tail_toks t) false R.
Proof.
  intros Hb Hh Hr Ht HR. unfold line_items. rewrite <- app_assoc. pose proof (tail_ends t R Ht HR) as He.
  eapply reads_app; [apply item_reads; auto; now apply rest_ends|]. eapply reads_app; [now apply rest_reads|]. now apply tail_reads.
Qed.
(** Blanks before the first item. *)
Lemma indent_reads b w h s : forallb blank w = true -> item_ok h -> reads b (w ++ item_chars h ++ s) [] (match w with [] => b | _ => false end) (item_chars h ++ s).
Proof.
  intros Hw Hh. destruct w as [|x w]; [apply reads_nil|]. cbn [forallb] in Hw. apply andb_true_iff in Hw. destruct Hw as [Hx Hw]. destruct (item_head h Hh) as (c & t & E & Hc). rewrite E.
  refine (reads_one b (x :: w) _ tWS _ (ws_step b x w c (t ++ s) Hx _ Hc)); [discriminate|]. now apply blanks_sp.
Qed.
Definition newl_tok (n : nat) : list (ttype * chars) := match n with O => [] | S _ => [(tNEWL, repeat newline n)] end.
Definition line_toks (n : nat) (l : line) : list (ttype * chars) :=
  match l with
  | Stmt i h r t => newl_tok n ++ line_items h r ++ tail_toks t
  | Cont i h r t => line_items h r ++ tail_toks t
  | CommentLine _ => []
  | NoteLine b1 b2 b3 txt => [(tANNOTATION, repeat newline n ++ line_chars l)]
  end.
Lemma line_reads b n l R : b = true \/ n <> O -> line_ok l -> line_sep l R -> reads b (repeat newline n ++ line_chars l ++ R) (line_toks n l) false R.
Proof.
  intros Hb Hl HR. destruct l as [i h r t|i h r t|txt|b1 b2 b3 txt]; cbn [line_ok line_toks] in *.
  - destruct Hl as (Hi & Hh0 & Hh & Hr & Ht). cbn [line_chars]. rewrite <- !app_assoc.
    assert (A : exists b2, reads b (repeat newline n ++ i ++ item_chars h ++ rest_chars r ++ tail_chars t ++ R) (newl_tok n) b2 (i ++ item_chars h ++ rest_chars r ++ tail_chars t ++ R)).
    { destruct n as [|n]; [exists b; apply reads_nil|]. exists false. destruct (item_head h Hh) as (c & u & E & Hc). rewrite E.
      refine (reads_one b (repeat newline (S n)) _ tNEWL _ (newl_step b n i (c :: u ++ _) Hi _)); [discriminate|]. split; [exact Hc|].
      intros ->. destruct h as [[w|w|m|w more]|]; try contradiction; cbn in E; [|discriminate]. subst w. destruct Hh as [Hh _]. discriminate. }
    destruct A as (b2 & A). eapply reads_app; [exact A|]. change (line_items h r ++ tail_toks t) with ([] ++ line_items h r ++ tail_toks t).
    eapply reads_app; [now apply indent_reads|]. apply body_reads; auto.
  - destruct Hl as (Hi & Hh & Hr & Ht). cbn [line_chars app]. rewrite <- !app_assoc.
    replace (repeat newline n ++ "+"%char :: i ++ item_chars h ++ rest_chars r ++ tail_chars t ++ R) with ((repeat newline n ++ ["+"%char]) ++ i ++ item_chars h ++ rest_chars r ++ tail_chars t ++ R) by (rewrite <- app_assoc; reflexivity).
    change (line_items h r ++ tail_toks t) with ([] ++ [] ++ line_items h r ++ tail_toks t).
    eapply reads_app; [refine (reads_one b (repeat newline n ++ ["+"%char]) _ tCONTINUE _ (continue_step b n _ Hb)); now destruct n|].
    eapply reads_app; [now apply indent_reads|]. apply body_reads; auto. left. now destruct i.
  - cbn [line_chars]. replace (repeat newline n ++ ("*"%char :: txt) ++ R) with ((repeat newline n ++ "*"%char :: txt) ++ R) by (now rewrite <- app_assoc).
    refine (reads_one b (repeat newline n ++ "*"%char :: txt) R tNLCOMMENT _ (nlcomment_step b n txt R Hb Hl HR)). now destruct n.
  - destruct Hl as (H1 & H2 & H3 & H4). rewrite app_assoc. cbn [line_chars].
    assert (N : repeat newline n ++ b1 ++ "*"%char :: b2 ++ "@"%char :: ":"%char :: b3 ++ txt <> []) by (destruct n, b1; discriminate).
    revert N. rewrite (app_assoc (repeat newline n) b1). intros N.
    refine (reads_one b _ R tANNOTATION N (note_step b (repeat newline n ++ b1) "*"%char b2 b3 txt R _ _ H2 H3 H4 HR)); [|tauto].
    rewrite forallb_app, nls_sp. now apply blanks_sp.
Qed.
Lemma line_nonempty l : line_ok l -> line_chars l <> [].
Proof.
  destruct l as [i h r t|i h r t|txt|b1 b2 b3 txt]; cbn [line_ok line_chars]; try discriminate.
  - intros (_ & _ & Hh & _). destruct (item_head h Hh) as (c & u & -> & _). now destruct i.
  - intros _. now destruct b1.
Qed.
Lemma more_end ls s : line_end s -> line_end (more_chars ls ++ s).
Proof. destruct ls as [|[n l] ls]; cbn; [easy|]. reflexivity. Qed.
Lemma more_reads ls R : Forall (fun x => line_ok (snd x)) ls -> line_end R -> reads false (more_chars ls ++ R) (concat (map (fun x => line_toks (S (fst x)) (snd x)) ls)) false R.
Proof.
  intros H HR. induction H as [|[n l] ls Hl Hs IH]; [apply reads_nil|]. unfold more_chars in *. cbn [map concat fst snd] in *. fold (more_chars ls) in *. rewrite <- !app_assoc.
  eapply reads_app; [|exact IH]. apply line_reads; [now right|exact Hl|now apply line_end_sep, more_end].
Qed.
Lemma nls_end n : line_end (repeat newline n).
Proof. now destruct n. Qed.
Lemma nls_reads n : exists l, (l = newl_tok n) /\ reads false (repeat newline n) l false [].
Proof.
  destruct n as [|n]; [eexists; split; [reflexivity|apply reads_nil]|]. eexists. split; [reflexivity|].
  rewrite <- (app_nil_r (repeat newline (S n))) at 1. refine (reads_one false (repeat newline (S n)) [] tNEWL _ (newl_step false n [] [] eq_refl eq_refl)). discriminate.
Qed.
Definition file_toks (n0 : nat) (first : line) (ls : list (nat * line)) : list (ttype * chars) := line_toks n0 first ++ concat (map (fun x => line_toks (S (fst x)) (snd x)) ls).
Lemma file_reads n0 first ls R : line_ok first -> Forall (fun x => line_ok (snd x)) ls -> line_end R ->
  reads true (repeat newline n0 ++ line_chars first ++ more_chars ls ++ R) (file_toks n0 first ls) false R.
Proof.
  intros H1 H2 HR. eapply reads_app; [apply line_reads; [now left|exact H1|now apply line_end_sep, more_end]|]. now apply more_reads.
Qed.
Lemma no_match_nil b : first_match (patterns b) [] = None.
Proof. destruct b; reflexivity. Qed.

(** * From tokens to statements. *)
Lemma after_mark_ok w u : forallb (fun c => negb (Ascii.eqb c "@")) w = true -> after_mark (w ++ "@"%char :: ":"%char :: u) = u.
Proof.
  induction w as [|c w IH]; [reflexivity|]. cbn [forallb app]. rewrite andb_true_iff. intros [Hc Hw]. specialize (IH Hw).
  destruct (Ascii.eqb c "@") eqn:E; [discriminate|]. cbn [after_mark]. destruct (w ++ "@"%char :: ":"%char :: u) eqn:Ew; [now destruct w|]. rewrite E. exact IH.
Qed.
Lemma before_mark_ok w : forallb (fun c => negb (Ascii.eqb c "@")) w = true -> before_mark w = w.
Proof.
  induction w as [|c w IH]; [reflexivity|]. cbn [forallb]. rewrite andb_true_iff. intros [Hc Hw]. specialize (IH Hw). cbn [before_mark]. destruct w as [|d w]; [reflexivity|].
  destruct (Ascii.eqb c "@"); [discriminate|]. cbn [andb]. now rewrite IH.
Qed.
Lemma lstrip_ok w u : forallb sp w = true -> match u with [] => False | c :: _ => sp c = false end -> lstrip (w ++ u) = u.
Proof.
  intros Hw Hu. induction w as [|c w IH]; cbn in *.
  - destruct u as [|c t]; [easy|]. cbn. now rewrite Hu.
  - apply andb_true_iff in Hw. destruct Hw as [-> Hw]. auto.
Qed.
Lemma note_text_ok w m w2 w3 txt : forallb sp w = true -> m = "*"%char \/ m = ";"%char -> forallb blank w2 = true -> forallb blank w3 = true -> note_ok txt ->
  note_text (w ++ m :: w2 ++ "@"%char :: ":"%char :: w3 ++ txt) = txt.
Proof.
  intros H1 Hm H2 H3 ((c & t & Et & Hc) & (d & u & Eu & Hd) & Ht). unfold note_text.
  assert (S1 : forall c, sp c = true -> negb (Ascii.eqb c "@") = true) by chars256.
  replace (w ++ m :: w2 ++ "@"%char :: ":"%char :: w3 ++ txt) with ((w ++ m :: w2) ++ "@"%char :: ":"%char :: w3 ++ txt) by (rewrite <- app_assoc; reflexivity).
  rewrite after_mark_ok, before_mark_ok.
  - unfold strip. rewrite lstrip_ok; [|now apply blanks_sp|].
    + rewrite Eu at 1. rewrite rev_app_distr. cbn [rev app lstrip]. assert (E : sp d = false). { clear - Hd. revert d Hd. chars256n. } rewrite E.
      change (d :: rev u) with (rev [d] ++ rev u). rewrite <- rev_app_distr, rev_involutive. now symmetry.
    + rewrite Et. clear - Hc. revert c Hc. chars256n.
  - rewrite forallb_app. apply andb_true_iff. split; [exact (forallb_imp _ _ _ S1 (blanks_sp _ H3))|]. eapply forallb_imp; [|exact Ht]. chars256.
  - rewrite forallb_app. apply andb_true_iff. split; [exact (forallb_imp _ _ _ S1 H1)|]. cbn [forallb]. apply andb_true_iff. split; [destruct Hm as [->| ->]; reflexivity|].
    exact (forallb_imp _ _ _ S1 (blanks_sp _ H2)).
Qed.

Definition word (t : ttype) : bool := match t with tNEWL | tANNOTATION => false | _ => true end.
Lemma feed_words l done cache : forallb (fun x => word (fst x)) l = true -> fold_left feed l (done, cache) = (done, cache ++ l).
Proof.
  revert cache. induction l as [|[t v] l IH]; intros cache H; cbn [fold_left]; [now rewrite app_nil_r|]. cbn [forallb] in H. apply andb_true_iff in H. destruct H as [H1 H2]. cbn in H1.
  assert (E : feed (done, cache) (t, v) = (done, cache ++ [(t, v)])) by (destruct t; easy). rewrite E, IH, <- app_assoc; easy.
Qed.
Lemma item_words i : forallb (fun x => word (fst x)) (item_tokens i) = true.
Proof. destruct i as [v|k b1 b2 v]; cbn; destruct v; reflexivity. Qed.
Lemma items_words h r : forallb (fun x => word (fst x)) (line_items h r) = true.
Proof.
  unfold line_items. rewrite forallb_app, item_words. induction r as [|[w i] r IH]; [reflexivity|]. cbn [map concat snd]. now rewrite forallb_app, item_words.
Qed.
Lemma items_cons h r : exists x l, line_items h r = x :: l.
Proof. unfold line_items. destruct h as [v|k b1 b2 v]; cbn; eauto. Qed.
Definition last_stmt (evs : list event) : Prop := exists b s, evs = b ++ [EStmt s].
(** What is read so far. *)
Definition so_far (st : list event * list (ttype * chars)) (evs : list event) : Prop := evs = fst st ++ flush (snd st) /\ (snd st = [] -> forall b s, evs <> b ++ [EStmt s]).
Lemma flush_cons x l : flush (x :: l) = [EStmt (x :: l)].
Proof. reflexivity. Qed.
Lemma tail_feed t done x l evs : tail_ok t -> evs = done ++ [EStmt (x :: l)] -> so_far (fold_left feed (tail_toks t) (done, x :: l)) (evs ++ tail_events t).
Proof.
  intros Ht ->. destruct t as [|b txt|b1 b2 b3 txt]; cbn [tail_toks tail_events fold_left].
  - rewrite app_nil_r. split; [easy|discriminate].
  - rewrite app_nil_r. split; [easy|discriminate].
  - destruct Ht as (H1 & H2 & H3 & H4). unfold feed. cbn [fst snd tail_chars]. rewrite (note_text_ok b1 ";"%char); auto using blanks_sp. split; cbn [fst snd flush].
    + rewrite app_nil_r, <- !app_assoc. reflexivity.
    + intros _ b s E. rewrite <- app_assoc in E. cbn [app] in E. change ([EStmt (x :: l); ENote txt]) with ([EStmt (x :: l)] ++ [ENote txt]) in E. rewrite app_assoc in E. now apply app_inj_tail in E as [_ E].
Qed.
Lemma line_feed n l done cache evs : (cache = [] \/ n <> O) -> line_ok l -> so_far (done, cache) evs -> so_far (fold_left feed (line_toks n l) (done, cache)) (add_event evs l).
Proof.
  intros Hn Hl [He Hs]. cbn [fst snd] in *. destruct l as [i h r t|i h r t|txt|b1 b2 b3 txt]; cbn [line_ok line_toks add_event] in *.
  - destruct Hl as (_ & _ & _ & _ & Ht). rewrite fold_left_app. destruct (items_cons h r) as (x & l & Ex). pose proof (items_words h r) as W.
    assert (A : fold_left feed (newl_tok n) (done, cache) = (evs, [])).
    { destruct n as [|n]; cbn.
      - destruct Hn as [->|Hn]; [|easy]. cbn in He. rewrite app_nil_r in He. now subst.
      - now subst. }
    rewrite A, fold_left_app, feed_words by exact W. cbn [app]. rewrite Ex. change (EStmt (x :: l) :: tail_events t) with ([EStmt (x :: l)] ++ tail_events t). rewrite app_assoc.
    now apply tail_feed.
  - destruct Hl as (_ & _ & _ & Ht). destruct (items_cons h r) as (x & l & Ex). pose proof (items_words h r) as W. rewrite fold_left_app, feed_words by exact W.
    destruct cache as [|y cache].
    + cbn [flush app] in *. rewrite app_nil_r in He. subst done. assert (M : match rev evs with EStmt s :: before => rev before ++ [EStmt (s ++ line_items h r)] | _ => evs ++ [EStmt (line_items h r)] end = evs ++ [EStmt (line_items h r)]).
      { destruct (rev evs) as [|e before] eqn:Er; [easy|]. destruct e as [s|]; [|easy]. exfalso. apply (Hs eq_refl (rev before) s). rewrite <- (rev_involutive evs), Er. reflexivity. }
      rewrite M, Ex. now apply tail_feed.
    + cbn [flush] in He. subst evs. rewrite rev_app_distr. cbn [rev app]. rewrite rev_involutive. now apply tail_feed.
  - split; [exact He|exact Hs].
  - destruct Hl as (H1 & H2 & H3 & H4). cbn [fold_left]. unfold feed. cbn [fst snd line_chars]. rewrite (app_assoc (repeat newline n) b1), note_text_ok; auto.
    + split; cbn [fst snd flush]; [now rewrite app_nil_r, He, <- app_assoc|]. intros _ b s E. now apply app_inj_tail in E as [_ E].
    + rewrite forallb_app, nls_sp. now apply blanks_sp.
Qed.
Lemma more_feed ls st evs : Forall (fun x => line_ok (snd x)) ls -> so_far st evs ->
  so_far (fold_left feed (concat (map (fun x => line_toks (S (fst x)) (snd x)) ls)) st) (fold_left add_event (map snd ls) evs).
Proof.
  intros H. revert st evs. induction H as [|[n l] ls Hl Hs IH]; intros st evs Hst; [exact Hst|]. cbn [map concat fst snd fold_left] in *. rewrite fold_left_app. apply IH.
  destruct st as [done cache]. apply line_feed; auto.
Qed.
Lemma file_feed n0 first ls : line_ok first -> Forall (fun x => line_ok (snd x)) ls -> so_far (fold_left feed (file_toks n0 first ls) ([], [])) (meaning (first :: map snd ls)).
Proof.
  intros H1 H2. unfold file_toks. rewrite fold_left_app. unfold meaning. cbn [fold_left]. apply more_feed; [exact H2|]. apply line_feed; auto. split; [reflexivity|]. intros _ b s E. now destruct b.
Qed.
Lemma so_far_events toks evs : so_far (fold_left feed toks ([], [])) evs -> events toks = evs.
Proof. intros [-> _]. unfold events. now destruct (fold_left feed toks ([], [])). Qed.
Lemma so_far_newl toks n evs : so_far (fold_left feed toks ([], [])) evs -> events (toks ++ newl_tok n) = evs.
Proof.
  intros [-> _]. unfold events. rewrite fold_left_app. destruct (fold_left feed toks ([], [])) as [done cache]. destruct n as [|n]; cbn; [easy|]. now rewrite app_nil_r.
Qed.

(** * Where reading stops or goes wrong. *)
Lemma star_stuck txt more : comment_ok txt -> first_match (patterns false) ("*"%char :: txt ++ more) = None.
Proof.
  intros H. pose proof (comment_no_note ["*"%char] txt more eq_refl H) as A. cbn [app] in A.
  assert (B : m_comment Some ("*"%char :: txt ++ more) = None) by (apply comment_no0; auto).
  assert (C : m_equals Some ("*"%char :: txt ++ more) = None) by now apply equals_no0.
  cbn [patterns first_match]. rewrite A, B, C. reflexivity.
Qed.
Lemma ws_star b x w txt more : blank x = true -> forallb sp w = true -> comment_ok txt -> first_match (patterns b) ((x :: w) ++ "*"%char :: txt ++ more) = Some (tWS, "*"%char :: txt ++ more).
Proof.
  intros Hx Hw Hc. pose proof (blank_sp _ Hx) as Hs. assert (Ha : forallb sp (x :: w) = true) by (cbn; now rewrite Hs).
  assert (A1 : m_annotation Some ((x :: w) ++ "*"%char :: txt ++ more) = None).
  { change ((x :: w) ++ "*"%char :: txt ++ more) with ((x :: w) ++ ["*"%char] ++ txt ++ more). rewrite app_assoc. apply comment_no_note; [|exact Hc]. rewrite forallb_app.
    rewrite (forallb_imp sp cspace); [reflexivity|chars256|exact Ha]. }
  pose proof (comment_no (x :: w) "*"%char (txt ++ more) Ha eq_refl (or_intror eq_refl)) as A2. assert (A3 : m_equals Some ((x :: w) ++ "*"%char :: txt ++ more) = None) by now apply equals_no.
  pose proof (plus_ok sp (x :: w) ("*"%char :: txt ++ more) ltac:(discriminate) Ha eq_refl) as A4.
  destruct (blank_head b x (w ++ "*"%char :: txt ++ more) Hx) as (E1 & E2 & E3 & E4 & E5 & E6 & E7 & E8). cbn [app] in *.
  cbn [patterns first_match]. now rewrite A1, E1, A2, E2, E3, E4, A3, E5, E6, E7, E8, A4.
Qed.
Lemma newl_star n x w txt more : blank x = true -> forallb blank w = true -> comment_ok txt ->
  first_match (patterns false) (repeat newline (S n) ++ (x :: w) ++ "*"%char :: txt ++ more) = Some (tNEWL, (x :: w) ++ "*"%char :: txt ++ more).
Proof.
  intros Hx Hw Hc. pose proof (blank_sp _ Hx) as Hs. pose proof (blanks_sp _ Hw) as Hsw.
  assert (Ha : forallb sp (repeat newline (S n) ++ x :: w) = true) by (rewrite forallb_app, nls_sp; cbn [forallb andb]; now rewrite Hs).
  assert (A1 : m_annotation Some (repeat newline (S n) ++ (x :: w) ++ "*"%char :: txt ++ more) = None).
  { change ("*"%char :: txt ++ more) with (["*"%char] ++ txt ++ more). rewrite !app_assoc. rewrite <- (app_assoc _ txt more). apply comment_no_note; [|exact Hc]. rewrite forallb_app.
    rewrite (forallb_imp sp cspace); [reflexivity|chars256|exact Ha]. }
  assert (A2 : m_comment Some (repeat newline (S n) ++ (x :: w) ++ "*"%char :: txt ++ more) = None) by (rewrite app_assoc; apply comment_no; auto).
  assert (N : stops nl ((x :: w) ++ "*"%char :: txt ++ more)) by now apply blank_nl.
  assert (A3 : m_nlcomment false Some (repeat newline (S n) ++ (x :: w) ++ "*"%char :: txt ++ more) = None).
  { unfold m_nlcomment. unfold seq at 1. apply lead_mark; [exact N|intros; unfold seq; now apply star_nl|]. unfold seq. apply cls_no. by256b. }
  assert (A4 : m_continue false Some (repeat newline (S n) ++ (x :: w) ++ "*"%char :: txt ++ more) = None).
  { unfold m_continue. unfold seq at 1. apply lead_mark; [exact N|intros; now apply plus_nl|]. apply cls_no. by256b. }
  assert (A5 : m_newl Some (repeat newline (S n) ++ (x :: w) ++ "*"%char :: txt ++ more) = Some ((x :: w) ++ "*"%char :: txt ++ more)) by (apply plus_ok; [discriminate|apply nls_nl|exact N]).
  assert (A6 : m_backslash Some (repeat newline (S n) ++ (x :: w) ++ "*"%char :: txt ++ more) = None) by reflexivity.
  cbn [patterns first_match]. now rewrite A1, A3, A2, A4, A6, A5.
Qed.
