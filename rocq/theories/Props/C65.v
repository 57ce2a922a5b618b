(** C65: reading the lines of a SPICE netlist. *)
From Coq Require Import String Ascii.
From Verif Require Import Base.Prelude Base.PyStr Model.SpiceLex Spec.SpiceSpec Proofs.SpiceLexP Proofs.SpiceLinesP.

(** The lexemes are consecutive, non-empty pieces of the text: nothing is lost or made up before the place where the scanner stops. *)
Theorem C65_partition : forall s, concat (map snd (fst (scan s))) ++ snd (scan s) = s /\ Forall (fun x => snd x <> []) (fst (scan s)).
Proof.
  intros s. unfold scan. destruct (lex_is_steps (S (length s)) true s (Nat.lt_succ_diag_r _)) as (b' & H & _). apply steps_concat in H. destruct H as [H1 H2]. split; [now symmetry|exact H2].
Qed.
Print Assumptions C65_partition.

(** It only stops at the end of the text or at one of the characters ( ) { } *. *)
Theorem C65_stops : forall s c rest, snd (scan s) = c :: rest -> In c (str "(){}*").
Proof.
  intros s c rest E. unfold scan in E. destruct (lex_is_steps (S (length s)) true s (Nat.lt_succ_diag_r _)) as (b' & _ & H). rewrite E in H.
  assert (N := first_match_none _ _ H). assert (N1 : plus ident Some (c :: rest) = None) by (apply (N tNAME); cbn; tauto).
  assert (N2 : plus sp Some (c :: rest) = None) by (apply (N tWS); cbn; tauto). assert (N3 : m_equals Some (c :: rest) = None) by (apply (N tEQUALS); cbn; tauto).
  assert (N4 : m_comment Some (c :: rest) = None) by (apply (N tCOMMENT); cbn; tauto). clear N H E b'.
  assert (G : forall p t, plus p Some (c :: t) = None -> p c = false).
  { intros p t. unfold plus, seq. cbn [cls]. destruct (p c); [|easy]. intros Hs. exfalso. destruct (star_complete p Some [] t t) as (r & Er); [easy|easy|]. cbn [app] in Er. congruence. }
  apply G in N1, N2. assert (E1 : c <> "="%char).
  { intros ->. change (star sp Some rest = None) in N3. destruct (star_complete sp Some [] rest rest) as (r & Er); [easy|easy|]. cbn [app] in Er. congruence. }
  assert (E2 : c <> ";"%char).
  { intros ->. destruct (star_complete not_nl Some [] rest rest) as (r & Er); [easy|easy|]. cbn [app] in Er.
    change (match star not_nl Some rest with Some r => Some r | None => None end = None) in N4. now rewrite Er in N4. }
  assert (K : forall c, negb (ident c) && negb (sp c) && negb (Ascii.eqb c "=") && negb (Ascii.eqb c ";") = true -> existsb (Ascii.eqb c) (str "(){}*") = true) by chars256.
  specialize (K c). rewrite N1, N2 in K. apply Ascii.eqb_neq in E1, E2. rewrite E1, E2 in K. specialize (K eq_refl).
  apply existsb_exists in K. destruct K as (d & Hd & Ed). apply Ascii.eqb_eq in Ed. now subst.
Qed.
Print Assumptions C65_stops.
Corollary C65_no_stop : forall s, forallb (fun c => negb (existsb (Ascii.eqb c) (str "(){}*"))) s = true -> snd (scan s) = [].
Proof.
  intros s H. destruct (snd (scan s)) as [|c rest] eqn:E; [easy|]. pose proof (C65_stops _ _ _ E) as Hc. destruct (C65_partition s) as [Hp _]. rewrite E in Hp.
  rewrite <- Hp, forallb_app in H. apply andb_true_iff in H. destruct H as [_ H]. cbn [forallb] in H. apply andb_true_iff in H. destruct H as [H _]. apply negb_true_iff in H.
  exfalso. rewrite (proj2 (existsb_exists _ _)) in H; [discriminate|]. exists c. split; [exact Hc|apply Ascii.eqb_refl].
Qed.
Print Assumptions C65_no_stop.

(** A file of statements, continuations, comments, annotations and empty lines is read as its statements and annotations:
    statements end where lines end, continuations are joined, comments vanish, nothing is left over. *)
Theorem C65_meaning : forall n0 first ls n1, line_ok first -> Forall (fun x => line_ok (snd x)) ls ->
  events (tokens (file_chars n0 first ls n1)) = meaning (first :: map snd ls) /\ snd (scan (file_chars n0 first ls n1)) = [].
Proof.
  intros n0 first ls n1 H1 H2. unfold file_chars. destruct (nls_reads n1) as (l & -> & Hn).
  pose proof (reads_app _ _ _ _ _ _ _ _ (file_reads n0 first ls (repeat newline n1) H1 H2 (nls_end n1)) Hn) as R.
  destruct (reads_scan _ _ _ _ R (no_match_nil _)) as [-> ->]. split; [|easy]. apply so_far_newl. now apply file_feed.
Qed.
Print Assumptions C65_meaning.

(** An indented comment line ends the reading of the file: whatever follows is dropped without an error. *)
Theorem C65_indented_comment_refuted : forall n0 first ls n x w txt more, line_ok first -> Forall (fun x => line_ok (snd x)) ls -> forallb blank (x :: w) = true -> comment_ok txt ->
  events (tokens (repeat newline n0 ++ line_chars first ++ more_chars ls ++ repeat newline (S n) ++ (x :: w) ++ "*"%char :: txt ++ more)) = meaning (first :: map snd ls).
Proof.
  intros n0 first ls n x w txt more H1 H2 Hw Hc. cbn [forallb] in Hw. apply andb_true_iff in Hw. destruct Hw as [Hx Hw].
  assert (R : reads true (repeat newline n0 ++ line_chars first ++ more_chars ls ++ repeat newline (S n) ++ (x :: w) ++ "*"%char :: txt ++ more) (file_toks n0 first ls ++ newl_tok (S n) ++ []) false ("*"%char :: txt ++ more)).
  { eapply reads_app; [apply file_reads; easy|]. eapply reads_app; [exact (reads_one false (repeat newline (S n)) _ tNEWL ltac:(discriminate) (newl_star n x w txt more Hx Hw Hc))|].
    exact (reads_one false (x :: w) _ tWS ltac:(discriminate) (ws_star false x w txt more Hx (blanks_sp _ Hw) Hc)). }
  destruct (reads_scan _ _ _ _ R (star_stuck _ _ Hc)) as [-> _]. rewrite app_nil_r. apply so_far_newl. now apply file_feed.
Qed.
Print Assumptions C65_indented_comment_refuted.

(** A blank at the end of a statement's line hides the line end.  The next statement is read as a continuation. *)
Theorem C65_trailing_blank_refuted : forall n0 first ls n i0 h0 r0 x w m i h r t ls2 n1,
  line_ok first -> Forall (fun x => line_ok (snd x)) ls -> line_ok (Stmt i0 h0 r0 Nothing) -> forallb blank (x :: w) = true -> line_ok (Stmt i h r t) -> Forall (fun x => line_ok (snd x)) ls2 ->
  events (tokens (repeat newline n0 ++ line_chars first ++ more_chars ls ++ repeat newline (S n) ++ line_chars (Stmt i0 h0 r0 Nothing) ++
                  ((x :: w) ++ repeat newline (S m)) ++ line_chars (Stmt i h r t) ++ more_chars ls2 ++ repeat newline n1))
  = meaning (first :: map snd ls ++ [Stmt i0 h0 r0 Nothing; Cont i h r t] ++ map snd ls2).
Proof.
  intros n0 first ls n i0 h0 r0 x w m i h r t ls2 n1 H1 H2 H3 Hw H4 H5. cbn [forallb] in Hw. apply andb_true_iff in Hw. destruct Hw as [Hx Hw].
  destruct (nls_reads n1) as (ln & -> & Hn). pose proof H4 as H4'. cbn [line_ok] in H4. destruct H4 as (Hi & _ & Hh & Hr & Ht).
  assert (R : reads true (repeat newline n0 ++ line_chars first ++ more_chars ls ++ repeat newline (S n) ++ line_chars (Stmt i0 h0 r0 Nothing) ++
                  ((x :: w) ++ repeat newline (S m)) ++ line_chars (Stmt i h r t) ++ more_chars ls2 ++ repeat newline n1)
       (file_toks n0 first ls ++ line_toks (S n) (Stmt i0 h0 r0 Nothing) ++ (line_items h r ++ tail_toks t) ++ concat (map (fun x => line_toks (S (fst x)) (snd x)) ls2) ++ newl_tok n1) false []).
  { eapply reads_app; [apply file_reads; easy|]. eapply reads_app; [apply line_reads; [now right|exact H3|cbn [line_sep tail_sep app ends]; tauto]|].
    eapply reads_app; [|eapply reads_app; [apply more_reads; [exact H5|apply nls_end]|exact Hn]].
    destruct (item_head h Hh) as (c & u & E & Hc).
    change (line_items h r ++ tail_toks t) with ([] ++ line_items h r ++ tail_toks t).
    eapply reads_app; [|apply (body_reads false); auto; apply (line_end_sep (Stmt i h r t)), more_end, nls_end].
    cbn [line_chars]. rewrite <- !app_assoc. rewrite E.
    replace ((x :: w) ++ repeat newline (S m) ++ i ++ (c :: u) ++ rest_chars r ++ tail_chars t ++ more_chars ls2 ++ repeat newline n1)
      with ((x :: w ++ repeat newline (S m) ++ i) ++ c :: u ++ rest_chars r ++ tail_chars t ++ more_chars ls2 ++ repeat newline n1)
      by (cbn [app]; rewrite <- !app_assoc; reflexivity).
    refine (reads_one false _ _ tWS _ (ws_step false x (w ++ repeat newline (S m) ++ i) c _ Hx _ Hc)); [discriminate|]. rewrite !forallb_app, nls_sp, !blanks_sp; auto. }
  destruct (reads_scan _ _ _ _ R (no_match_nil _)) as [-> _]. rewrite !app_assoc. apply so_far_newl.
  rewrite !fold_left_app. rewrite <- !app_assoc. unfold meaning. cbn [fold_left]. rewrite !fold_left_app.
  apply more_feed; [exact H5|].
  change (fold_left add_event [Stmt i0 h0 r0 Nothing; Cont i h r t] ?e) with (add_event (add_event e (Stmt i0 h0 r0 Nothing)) (Cont i h r t)).
  rewrite <- fold_left_app. change (line_items h r ++ tail_toks t) with (line_toks (S m) (Cont i h r t)). 
  pose proof (file_feed n0 first ls H1 H2) as F. unfold meaning in F. cbn [fold_left] in F.
  cbn [fold_left]. destruct (fold_left feed (file_toks n0 first ls) ([], [])) as [d1 c1] eqn:F1.
  pose proof (line_feed (S n) (Stmt i0 h0 r0 Nothing) d1 c1 _ (or_intror (Nat.neq_succ_0 n)) H3 F) as G.
  destruct (fold_left feed (line_toks (S n) (Stmt i0 h0 r0 Nothing)) (d1, c1)) as [d2 c2] eqn:F2.
  apply line_feed; auto. cbn [line_ok]. auto.
Qed.
Print Assumptions C65_trailing_blank_refuted.

(** Before a comment line, such a blank ends the reading of the file. *)
Theorem C65_trailing_star_refuted : forall n0 first ls n i0 h0 r0 x w m txt more,
  line_ok first -> Forall (fun x => line_ok (snd x)) ls -> line_ok (Stmt i0 h0 r0 Nothing) -> forallb blank (x :: w) = true -> comment_ok txt ->
  events (tokens (repeat newline n0 ++ line_chars first ++ more_chars ls ++ repeat newline (S n) ++ line_chars (Stmt i0 h0 r0 Nothing) ++
                  ((x :: w) ++ repeat newline (S m)) ++ "*"%char :: txt ++ more))
  = meaning (first :: map snd ls ++ [Stmt i0 h0 r0 Nothing]).
Proof.
  intros n0 first ls n i0 h0 r0 x w m txt more H1 H2 H3 Hw Hc. cbn [forallb] in Hw. apply andb_true_iff in Hw. destruct Hw as [Hx Hw].
  assert (R : reads true (repeat newline n0 ++ line_chars first ++ more_chars ls ++ repeat newline (S n) ++ line_chars (Stmt i0 h0 r0 Nothing) ++
                  ((x :: w) ++ repeat newline (S m)) ++ "*"%char :: txt ++ more)
       (file_toks n0 first ls ++ line_toks (S n) (Stmt i0 h0 r0 Nothing) ++ []) false ("*"%char :: txt ++ more)).
  { eapply reads_app; [apply file_reads; easy|]. eapply reads_app; [apply line_reads; [now right|exact H3|cbn [line_sep tail_sep app ends]; tauto]|].
    refine (reads_one false (x :: w ++ repeat newline (S m)) _ tWS ltac:(discriminate) (ws_star false x (w ++ repeat newline (S m)) txt more Hx _ Hc)).
    rewrite forallb_app, nls_sp, blanks_sp; auto. }
  destruct (reads_scan _ _ _ _ R (star_stuck _ _ Hc)) as [-> _]. rewrite app_nil_r. apply so_far_events. rewrite fold_left_app.
  unfold meaning. cbn [fold_left]. rewrite !fold_left_app. cbn [fold_left].
  pose proof (file_feed n0 first ls H1 H2) as F. unfold meaning in F. cbn [fold_left] in F.
  destruct (fold_left feed (file_toks n0 first ls) ([], [])) as [d1 c1] eqn:F1. apply line_feed; auto.
Qed.
Print Assumptions C65_trailing_star_refuted.

Local Open Scope string_scope.
Local Open Scope list_scope.
(** A product that is not in braces or quotes ends the reading of the file. *)
Lemma by_lexemes b l rest : (fix ok b l := match l with [] => True | (t, a) :: l' => a <> [] /\ first_match (patterns b) (a ++ concat (map snd l') ++ rest) = Some (t, concat (map snd l') ++ rest) /\ ok false l' end) b l ->
  exists b', steps b (concat (map snd l) ++ rest) l b' rest /\ (l <> [] -> b' = false).
Proof.
  revert b. induction l as [|[t a] l IH]; intros b H; [exists b; split; [constructor|easy]|]. destruct H as (H1 & H2 & H3). destruct (IH false H3) as (b' & H4 & H5).
  exists b'. cbn [map snd concat]. rewrite <- app_assoc. split; [constructor; auto|]. intros _. destruct l; [|now apply H5]. now inversion H4.
Qed.
Theorem C65_product_refuted : forall more, tokens (str "M1 A B C D NMOS W=2*L" ++ more) =
  [(tNAME, str "M1"); (tNAME, str "A"); (tNAME, str "B"); (tNAME, str "C"); (tNAME, str "D"); (tNAME, str "NMOS"); (tNAME, str "W"); (tEQUALS, str "="); (tNAME, str "2")].
Proof.
  intros more. set (ws := (tWS, str " ")).
  destruct (by_lexemes true [(tNAME, str "M1"); ws; (tNAME, str "A"); ws; (tNAME, str "B"); ws; (tNAME, str "C"); ws; (tNAME, str "D"); ws; (tNAME, str "NMOS"); ws; (tNAME, str "W"); (tEQUALS, str "="); (tNAME, str "2")]
              (str "*L" ++ more)) as (b' & H & Hb).
  { repeat (split; [discriminate|]; split; [vm_compute; reflexivity|]). exact I. }
  rewrite Hb in H by discriminate.
  assert (N : first_match (patterns false) (str "*L" ++ more) = None) by (vm_compute; reflexivity).
  pose proof (scan_steps _ _ _ _ H N) as E. change (concat _ ++ str "*L" ++ more) with (str "M1 A B C D NMOS W=2*L" ++ more) in E. unfold tokens. rewrite E. reflexivity.
Qed.
Print Assumptions C65_product_refuted.

(** A file that meets the hypotheses: an annotated subcircuit with comments, a continuation, numbers and an expression. *)
Definition nv (s : string) : item := Arg (VName (str s)).
Definition spc (i : item) : chars * item := (str " ", i).
Definition kw (k : string) (v : value) : item := Kw (str k) [] [] v.
Definition num (i : string) (u : string) : value := VNum (mkNum None (str i) None None (Some (str u))).
Definition demo : list (nat * line) :=
  [(O, Stmt (str " ") (Arg (VDecl (str "subckt"))) [spc (nv "inv"); spc (nv "a"); spc (nv "y"); spc (nv "vdd"); spc (kw "w" (num "180" "n"))] Nothing);
   (O, NoteLine [] [] (str " ") (str "OrderBlocks(['m1', 'm2'])"));
   (1%nat, Stmt [] (nv "m1") [spc (nv "y"); spc (nv "a"); spc (nv "vss"); spc (nv "vss"); spc (nv "nmos")] Nothing);
   (O, CommentLine (str " sizes of m1"));
   (O, Cont (str " ") (kw "w" (VExpr (str "2") [((str " ", "*"%char, str " "), str "w")])) [] (Comment (str "  ") (str "wide")));
   (O, Stmt [] (Arg (VDecl (str "ends"))) [] Nothing)].
Ltac file_ok := repeat first [apply Forall_nil | apply Forall_cons | split | discriminate | reflexivity | exact I | (left; reflexivity) | (right; reflexivity)].
Lemma demo_ok : line_ok (CommentLine (str " inverter")) /\ Forall (fun x => line_ok (snd x)) demo.
Proof.
  assert (C : forall pre c post, forallb (fun c => negb (Ascii.eqb c newline) && negb (Ascii.eqb c (ascii_of_N 13))) (pre ++ c :: post) = true -> forallb (fun c => blank c || existsb (Ascii.eqb c) (str "*;$/")) pre = true ->
            name_start c = true -> c <> "@"%char -> comment_ok (pre ++ c :: post)).
  { intros pre c post H1 H2 H3 H4. split; [exact H1|]. exists pre, c, post. auto. }
  split; [apply (C (str " ") "i"%char (str "nverter")); easy|].
  unfold demo. repeat apply Forall_cons; [..|apply Forall_nil]; cbn [snd line_ok tail_ok].
  - file_ok. right. file_ok. cbn. tauto.
  - file_ok; [now exists "O"%char, (str "rderBlocks(['m1', 'm2'])")|now exists ")"%char, (str "OrderBlocks(['m1', 'm2']")].
  - file_ok.
  - apply (C (str " ") "s"%char (str "izes of m1")); easy.
  - repeat split; try reflexivity; try discriminate.
    + repeat constructor; discriminate.
    + constructor.
    + exists [], "w"%char, (str "ide"). easy.
  - file_ok.
Qed.
Example C65_nonvacuous :
  string_of_list_ascii (file_chars 0 (CommentLine (str " inverter")) demo 1) = "* inverter
 .subckt inv a y vdd w=180n
*@: OrderBlocks(['m1', 'm2'])

m1 y a vss vss nmos
* sizes of m1
+ w={2 * w}  ;wide
.ends
" /\
  events (tokens (file_chars 0 (CommentLine (str " inverter")) demo 1)) =
  [EStmt [(tDECL, str ".subckt"); (tNAME, str "inv"); (tNAME, str "a"); (tNAME, str "y"); (tNAME, str "vdd"); (tNAME, str "w"); (tEQUALS, str "="); (tNUMBER, str "180n")];
   ENote (str "OrderBlocks(['m1', 'm2'])");
   EStmt [(tNAME, str "m1"); (tNAME, str "y"); (tNAME, str "a"); (tNAME, str "vss"); (tNAME, str "vss"); (tNAME, str "nmos"); (tNAME, str "w"); (tEQUALS, str "="); (tEXPR, str "{2 * w}")];
   EStmt [(tDECL, str ".ends")]].
Proof.
  split; [vm_compute; reflexivity|]. destruct demo_ok as [H1 H2]. destruct (C65_meaning 0 _ _ 1 H1 H2) as [-> _]. reflexivity.
Qed.
(** The same file with a blank after [nmos]: the scanner stops at the comment, and [.ends] is never read. *)
Example C65_blank_nonvacuous : forall more,
  events (tokens (repeat newline 0 ++ line_chars (CommentLine (str " inverter")) ++ more_chars (firstn 2 demo) ++ repeat newline 1 ++
                  line_chars (Stmt [] (nv "m1") [spc (nv "y"); spc (nv "a"); spc (nv "vss"); spc (nv "vss"); spc (nv "nmos")] Nothing) ++
                  (str " " ++ repeat newline 1) ++ "*"%char :: str " sizes of m1" ++ more)) =
  [EStmt [(tDECL, str ".subckt"); (tNAME, str "inv"); (tNAME, str "a"); (tNAME, str "y"); (tNAME, str "vdd"); (tNAME, str "w"); (tEQUALS, str "="); (tNUMBER, str "180n")];
   ENote (str "OrderBlocks(['m1', 'm2'])");
   EStmt [(tNAME, str "m1"); (tNAME, str "y"); (tNAME, str "a"); (tNAME, str "vss"); (tNAME, str "vss"); (tNAME, str "nmos")]].
Proof.
  intros more. destruct demo_ok as [H1 H2]. pose proof (fun x Hx => proj1 (Forall_forall _ _) H2 x Hx) as H.
  etransitivity; [apply (C65_trailing_star_refuted 0 (CommentLine (str " inverter")) (firstn 2 demo) 0 [] (nv "m1") [spc (nv "y"); spc (nv "a"); spc (nv "vss"); spc (nv "vss"); spc (nv "nmos")] " "%char [] 0 (str " sizes of m1") more)|reflexivity].
  - exact H1.
  - apply Forall_forall. intros x Hx. apply H. cbn in Hx |- *. tauto.
  - apply (H (1%nat, Stmt [] (nv "m1") [spc (nv "y"); spc (nv "a"); spc (nv "vss"); spc (nv "vss"); spc (nv "nmos")] Nothing)). cbn. tauto.
  - reflexivity.
  - apply (H (O, CommentLine (str " sizes of m1"))). cbn. tauto.
Qed.
