(** The steps of the Hanan router along the lines of its grid. *)
From Coq Require Import ZArith ZifyBool.
From Verif Require Import Base.Prelude Model.HananGeom Model.HananGrid Model.HananStep Props.C108.
Local Open Scope Z_scope.

Definition between (a b q : Z) : Prop := Z.min a b <= q <= Z.max a b.
Lemma steps_range dir lv (vert up : bool) b ls adj ts (x y p : Z) : In p (steps dir lv vert up b ls adj ts x y) ->
  let c := if vert then y else x in let s := snapc vert up b ls x y in dir = true /\ (if up then fst (along vert b) <= c /\ c < p <= s else c <= snd (along vert b) /\ s <= p < c).
Proof.
  unfold steps. cbv zeta. destruct dir; cbn [negb orb]; [|intros []]. set (c := if vert then y else x). set (s := snapc vert up b ls x y).
  destruct (if up then c <? fst (along vert b) else snd (along vert b) <? c) eqn:g; [intros []|]. intros h. split; [reflexivity|]. apply in_app_or in h. destruct h as [h|h].
  - destruct (past up c s) eqn:e; [|destruct h]. destruct h as [<-|[]]. destruct up; cbn in *; lia.
  - apply filter_In in h. destruct h as [h e]. apply in_app_or in h. destruct h as [h|h]; apply filter_In in h; destruct h as [_ h]; destruct up; cbn in *; lia.
Qed.
(** A step from a node on a line of the grid stays in one free range of that line. *)
Theorem C109_range dir lv (vert up : bool) b ls adj ts (x y p : Z) rs : sane b -> find_line (if vert then x else y) ls = Some rs -> In p (steps dir lv vert up b ls adj ts x y) ->
  let c := if vert then y else x in dir = true /\ p <> c /\ (up = true <-> c < p) /\ (if up then (if vert then ymin b else xmin b) <= c else c <= (if vert then ymax b else xmax b)) /\ exists r, In r rs /\ on r c /\ on r p.
Proof.
  intros hb hl h. destruct (steps_range _ _ _ _ _ _ _ _ _ _ _ h) as [hd k]. cbv zeta in *. set (c := if vert then y else x) in *. split; [exact hd|].
  split; [destruct up; lia|]. split; [destruct up; split; intros; try lia; discriminate|]. split; [destruct up, vert; cbn in k |- *; lia|].
  unfold snapc in k. cbv zeta in k. fold c in k. destruct ls as [|l ls]; [discriminate|]. rewrite hl in k. assert (bb : fst (along vert b) <= snd (along vert b)) by (destruct hb; destruct vert; cbn; lia).
  destruct (find (holds c) rs) as [r|] eqn:f; [|destruct up; lia]. apply find_some in f. destruct f as [f1 f2]. unfold holds in f2. exists r. split; [exact f1|]. unfold on. destruct up; lia.
Qed.
Print Assumptions C109_range.
Lemma grid_find prec bloat vert b all obs pts v rs : find_line v (grid prec bloat vert b all obs pts) = Some rs -> In (v, rs) (grid prec bloat vert b all obs pts).
Proof.
  unfold find_line. destruct (find _ _) as [[v' rs']|] eqn:f; [|discriminate]. intros [= <-]. apply find_some in f. destruct f as [f1 f2]. cbn [fst snd] in *. apply Z.eqb_eq in f2. subst. exact f1.
Qed.
(** So no point of the step in the box, below its upper end, is inside an obstacle of the layer. *)
Theorem C109_clear prec bloat lv dir (vert up : bool) b all obs pts adj ts (x y p : Z) o (q : Z) : let B := grow bloat b in let ls := grid prec bloat vert b all obs pts in
  sane B -> (forall o, In o obs -> sane o) -> find_line (if vert then x else y) ls <> None -> In p (steps dir lv vert up B ls adj ts x y) ->
  between (if vert then y else x) p q -> (if vert then ymin B <= q < ymax B else xmin B <= q < xmax B) -> In o obs -> ~ interior o (if vert then (x, q) else (q, y)).
Proof.
  cbv zeta. intros hB ho hl h hq hin io. destruct (find_line _ _) as [rs|] eqn:f in hl; [|contradiction].
  destruct (C109_range _ _ _ _ _ _ _ _ _ _ _ rs hB f h) as (_ & _ & _ & _ & r & r1 & r2 & r3). apply grid_find in f. destruct (C108_grid _ _ _ _ _ _ _ _ _ f) as (_ & e & _). cbv zeta in e.
  replace (Rc (xmin b - 2 * bloat) (ymin b - 2 * bloat) (xmax b + 2 * bloat) (ymax b + 2 * bloat)) with (grow bloat b) in e by (unfold grow; f_equal; lia).
  replace (if vert then (x, q) else (q, y)) with (pt vert (if vert then x else y) q) by (destruct vert; reflexivity).
  eapply (C108_free vert (grow bloat b) (obs ++ frame (grow bloat b))); [exact hB| |exact hin| |apply in_or_app; left; exact io].
  - intros o' h'. apply in_app_or in h'. destruct h' as [h'|h']; [auto|]. clear - h' hB. destruct hB as [h1 h2]. unfold frame in h'.
    assert (R : forall a1 a2 a3 a4, a1 <= a3 -> a2 <= a4 -> sane (Rect a1 a2 a3 a4)).
    { intros a1 a2 a3 a4 q1 q2. unfold Rect, fix_. cbn [xmin ymin xmax ymax]. destruct ((a1 =? INT_MAX) || (a2 =? INT_MAX)); [split; assumption|]. replace (a3 <? a1) with false by lia. cbn [xmin ymin xmax ymax]. replace (a4 <? a2) with false by lia. split; assumption. }
    destruct h' as [<-|[<-|[<-|[<-|[]]]]]; apply R; lia.
  - exists r. split; [rewrite <- e; exact r1|]. unfold on, between in *. lia.
Qed.
Print Assumptions C109_clear.
(** A target on the line in the free range of the node is reached in one step (the first range with the node, if there are more). *)
Theorem C109_target lv (vert : bool) b ls adj ts (x y : Z) rs r (t : Z * Z) : find_line (if vert then x else y) ls = Some rs -> let c := if vert then y else x in let p := if vert then snd t else fst t in
  find (holds c) rs = Some r -> on (along vert b) c -> In t ts -> on r p -> p <> c -> exists up, In p (steps true lv vert up b ls adj ts x y).
Proof.
  cbv zeta. intros hl hf hc ht hp hn. assert (ne : ls <> []) by (intros ->; discriminate). exists ((if vert then y else x) <? (if vert then snd t else fst t)). set (c := if vert then y else x) in *. set (p := if vert then snd t else fst t) in *.
  unfold steps. cbv zeta. fold c. assert (es : snapc vert (c <? p) b ls x y = if c <? p then snd r else fst r). { unfold snapc. cbv zeta. destruct ls; [contradiction|]. fold c. rewrite hl, hf. reflexivity. }
  rewrite es. cbn [negb orb]. unfold on in *. replace (if c <? p then c <? fst (along vert b) else snd (along vert b) <? c) with false by (destruct (c <? p); lia).
  assert (q : In p (map (fun t => if vert then snd t else fst t) ts)) by (apply in_map_iff; exists t; auto).
  destruct (Z.ltb_spec c p) as [l|l]; cbn [past].
  - destruct (Z.eq_dec p (snd r)) as [e|e]; [replace (c <? snd r) with true by lia; left; auto|]. apply in_or_app. right. apply filter_In. split; [|cbn; lia]. apply in_or_app. right. apply filter_In. split; [exact q|lia].
  - destruct (Z.eq_dec p (fst r)) as [e|e]; [replace (fst r <? c) with true by lia; left; auto|]. apply in_or_app. right. apply filter_In. split; [|cbn; lia]. apply in_or_app. right. apply filter_In. split; [exact q|lia].
Qed.
Print Assumptions C109_target.
(** A node in no free range of its line makes no step. *)
Theorem C109_stays dir lv (vert up : bool) b ls adj ts (x y : Z) rs : find_line (if vert then x else y) ls = Some rs -> (forall r, In r rs -> ~ on r (if vert then y else x)) -> on (along vert b) (if vert then y else x) -> steps dir lv vert up b ls adj ts x y = [].
Proof.
  intros hl hn hc. destruct (steps dir lv vert up b ls adj ts x y) as [|p l] eqn:e; [reflexivity|]. exfalso. assert (h : In p (steps dir lv vert up b ls adj ts x y)) by (rewrite e; left; reflexivity).
  destruct (steps_range _ _ _ _ _ _ _ _ _ _ _ h) as [_ k]. cbv zeta in *. set (c := if vert then y else x) in *. unfold snapc in k. cbv zeta in k. fold c in k. destruct ls as [|l0 ls]; [discriminate|]. rewrite hl in k.
  destruct (find (holds c) rs) as [r|] eqn:f; [|unfold on in hc; destruct up; lia]. apply find_some in f. destruct f as [f1 f2]. apply (hn r f1). unfold holds in f2. unfold on. lia.
Qed.
Print Assumptions C109_stays.
(** A node on no line of the grid goes to the end of the box, through the obstacles. *)
Theorem C109_off_refuted : exists b obs x y p o, sane b /\ find_line x (grid 5 0 true b obs obs []) = None /\ In p (steps true true true true b (grid 5 0 true b obs obs []) [] [] x y) /\
  In o obs /\ interior o (x, 50) /\ y < 50 < p.
Proof.
  exists (Rc 0 0 100 100), [Rc 40 40 60 60], 50, 10, 100, (Rc 40 40 60 60). unfold sane, interior. cbn [xmin xmax ymin ymax fst snd].
  repeat split; try lia; try reflexivity; [vm_compute; auto|left; reflexivity].
Qed.
Print Assumptions C109_off_refuted.

Example C109_nonvacuous : let b := Rc 0 0 100 100 in let obs := [Rc 40 40 60 60] in let ls := grid 5 0 true b obs obs [(50, 10)] in
  find_line 50 ls = Some [(-50, 40); (60, 150); (100, 100)] /\ steps true true true true b ls [20; 30; 70] [(50, 35)] 50 10 = [40; 20; 30; 35] /\ steps true true true false b ls [20; 5] [] 50 10 = [-50; 5] /\ sane (grow 0 b).
Proof. cbv zeta. split; [reflexivity|]. split; [reflexivity|]. split; [reflexivity|]. unfold sane. cbn. lia. Qed.
