(** Breadth first search: every node is found from one of its nearest neighbours. *)
From Verif Require Import Base.Prelude.

Section BFS.
  Context {A : Type} (eqb : A -> A -> bool).
  Hypothesis eqb_ok : forall a b, eqb a b = true <-> a = b.
  Variable adj : A -> list A.
  Definition memb (x : A) (l : list A) : bool := existsb (eqb x) l.
  Lemma memb_in x l : memb x l = true <-> In x l.
  Proof. unfold memb. rewrite existsb_exists. split; [intros (y & Hy & E); apply eqb_ok in E; now subst|intros H; exists x; split; [exact H|now apply eqb_ok]]. Qed.
  Lemma memb_out x l : memb x l = false <-> ~ In x l.
  Proof. rewrite <- memb_in. destruct (memb x l); split; congruence. Qed.
  Definition bstep (x : A) (st : list A * list A * list (A * A)) (y : A) : list A * list A * list (A * A) :=
    let '(q, vis, log) := st in if memb y vis then st else (q ++ [y], vis ++ [y], log ++ [(x, y)]).
  Fixpoint bfs (fuel : nat) (st : list A * list A * list (A * A)) : list (A * A) :=
    let '(q, vis, log) := st in
    match fuel, q with
    | S fuel, x :: q => bfs fuel (fold_left (bstep x) (adj x) (q, vis, log))
    | _, _ => log
    end.

  Lemma fold_bstep x ys : forall q vis log, exists news, fold_left (bstep x) ys (q, vis, log) = (q ++ news, vis ++ news, log ++ map (pair x) news) /\
    NoDup news /\ (forall y, In y news -> In y ys /\ ~ In y vis) /\ (forall y, In y ys -> In y (vis ++ news)).
  Proof.
    induction ys as [|y ys IH]; intros q vis log.
    - exists []. cbn. rewrite !app_nil_r. repeat split; try constructor; contradiction.
    - cbn [fold_left bstep]. destruct (memb y vis) eqn:E.
      + destruct (IH q vis log) as (news & -> & H1 & H2 & H3). exists news. split; [reflexivity|]. split; [exact H1|]. split.
        * intros z Hz. destruct (H2 z Hz) as (? & ?). split; [now right|assumption].
        * intros z [<-|Hz]; [apply in_app_iff; left; now apply memb_in|now apply H3].
      + destruct (IH (q ++ [y]) (vis ++ [y]) (log ++ [(x, y)])) as (news & -> & H1 & H2 & H3). exists (y :: news). apply memb_out in E. split.
        * cbn [map]. now rewrite <- !app_assoc.
        * split; [constructor; [|exact H1]; intros Hy; destruct (H2 y Hy) as (_ & Hn); apply Hn, in_app_iff; right; now left|]. split.
          -- intros z [<-|Hz]; [split; [now left|exact E]|]. destruct (H2 z Hz) as (? & Hn). split; [now right|]. intros Hv. apply Hn, in_app_iff. now left.
          -- intros z [<-|Hz]; [apply in_app_iff; right; now left|]. apply H3 in Hz. now rewrite <- app_assoc in Hz.
  Qed.

  Variables start blocked : list A.
  Inductive within : nat -> A -> Prop :=
  | w_start k x : In x start -> within k x
  | w_step k x y : within k x -> In y (adj x) -> ~ In y blocked -> within (S k) y.
  Lemma within_S k x : within k x -> within (S k) x.
  Proof. induction 1 as [k x H|k x y _ IH Ha Hb]; [now constructor|now apply (w_step (S k) x)]. Qed.
  Lemma within_le k k' x : k <= k' -> within k x -> within k' x.
  Proof. induction 1; [auto|]. intros H1. now apply within_S, IHle. Qed.

  Definition edge_ok (p c : A) : Prop :=
    In c (adj p) /\ (exists k, within k p) /\ ~ In c start /\ ~ In c blocked /\ forall q k, In c (adj q) -> within k q -> within k p.
  Record inv (d : nat) (q1 q2 vis : list A) (log : list (A * A)) : Prop := {
    i_vis : incl (start ++ blocked) vis;
    i_near : forall c, within d c -> In c vis;
    i_q1 : forall x, In x q1 -> within d x;
    i_q2 : forall x, In x q2 -> within (S d) x /\ ~ within d x;
    i_done : forall x, within d x -> In x q1 \/ incl (adj x) vis;
    i_log : forall p c, In (p, c) log -> edge_ok p c;
    i_all : forall c, In c vis -> In c start \/ In c blocked \/ exists p, In (p, c) log;
    i_cls : forall c, In c vis -> within d c \/ In c q2 \/ In c blocked;
    i_once : NoDup (map snd log) /\ incl (map snd log) vis }.
  Lemma inv_next d q2 vis log : inv d [] q2 vis log -> inv (S d) q2 [] vis log.
  Proof.
    intros I. destruct I as [Iv In_ I1 I2 Id Il Ia Ic Io]. constructor; auto.
    - intros c Hc. inversion Hc as [? ? Hs|? x ? Hx Ha Hb]; subst; [apply Iv, in_app_iff; now left|]. destruct (Id x Hx) as [[]|H]. now apply H.
    - intros x Hx. now apply I2.
    - contradiction.
    - intros x Hx.
      assert (Hv : In x vis).
      { inversion Hx as [? ? Hs|? y ? Hy Ha Hb]; subst; [apply Iv, in_app_iff; now left|]. destruct (Id y Hy) as [[]|H]. now apply H. }
      destruct (Ic x Hv) as [Hd|[Hq|Hb]].
      + right. destruct (Id x Hd) as [[]|H]. exact H.
      + now left.
      + right. assert (Hd : within d x) by (inversion Hx; subst; [now constructor|contradiction]). destruct (Id x Hd) as [[]|H]. exact H.
    - intros c Hc. destruct (Ic c Hc) as [H|[H|H]]; [left; now apply within_S|left; now apply I2|now right; right].
  Qed.
  Lemma inv_step d x q1 q2 vis log news : inv d (x :: q1) q2 vis log -> NoDup news -> (forall y, In y news -> In y (adj x) /\ ~ In y vis) -> incl (adj x) (vis ++ news) ->
    inv d q1 (q2 ++ news) (vis ++ news) (log ++ map (pair x) news).
  Proof.
    intros I Hnd Hn Hall. destruct I as [Iv In_ I1 I2 Id Il Ia Ic (Io & Io')].
    assert (Hx : within d x) by (apply I1; now left).
    constructor.
    - intros c Hc. apply in_app_iff. left. now apply Iv.
    - intros c Hc. apply in_app_iff. left. now apply In_.
    - intros y Hy. apply I1. now right.
    - intros y Hy. apply in_app_iff in Hy as [Hy|Hy]; [now apply I2|]. destruct (Hn y Hy) as (Ha & Hv). split.
      + apply (w_step d x); [exact Hx|exact Ha|]. intros Hb. apply Hv, Iv, in_app_iff. now right.
      + intros Hw. now apply Hv, In_.
    - intros y Hy. destruct (Id y Hy) as [[<-|Hq]|H]; [now right|now left|]. right. intros z Hz. apply in_app_iff. left. now apply H.
    - intros p c Hc. apply in_app_iff in Hc as [Hc|Hc]; [now apply Il|]. apply in_map_iff in Hc as (y & E & Hy). injection E as <- <-. destruct (Hn y Hy) as (Ha & Hv).
      split; [exact Ha|]. split; [now exists d|]. split; [intros Hs; apply Hv, Iv, in_app_iff; now left|]. split; [intros Hb; apply Hv, Iv, in_app_iff; now right|].
      intros q k Hq Hk. destruct (Nat.le_gt_cases d k) as [Hle|Hlt]; [now apply (within_le d)|]. exfalso. apply Hv, In_. apply (within_le (S k)); [lia|].
      apply (w_step k q); [exact Hk|exact Hq|]. intros Hb. apply Hv, Iv, in_app_iff. now right.
    - intros c Hc. apply in_app_iff in Hc as [Hc|Hc].
      + destruct (Ia c Hc) as [H|[H|(p & H)]]; [now left|now right; left|]. right. right. exists p. apply in_app_iff. now left.
      + right. right. exists x. apply in_app_iff. right. now apply in_map.
    - intros c Hc. apply in_app_iff in Hc as [Hc|Hc].
      + destruct (Ic c Hc) as [H|[H|H]]; [now left|right; left; apply in_app_iff; now left|now right; right].
      + right. left. apply in_app_iff. now right.
    - rewrite map_app, map_map. cbn. rewrite map_id. split.
      + clear - Io Io' Hnd Hn. induction (map snd log) as [|a l IH]; cbn; [exact Hnd|]. apply NoDup_cons_iff in Io as (Ha & Io). constructor.
        * rewrite in_app_iff. intros [H|H]; [contradiction|]. destruct (Hn a H) as (_ & Hv). apply Hv, Io'. now left.
        * apply IH; [exact Io|]. intros z Hz. apply Io'. now right.
      + intros c Hc. apply in_app_iff in Hc as [Hc|Hc]; apply in_app_iff; [left; now apply Io'|now right].
  Qed.

  Variable U : list A.
  Hypothesis U_nodup : NoDup U.
  Hypothesis U_adj : forall x, incl (adj x) U.
  Definition left_over (vis : list A) : nat := length (filter (fun u => negb (memb u vis)) U).
  Lemma left_over_news vis news : NoDup news -> (forall y, In y news -> In y U /\ ~ In y vis) -> left_over (vis ++ news) + length news <= left_over vis.
  Proof.
    intros Hnd Hn. unfold left_over. rewrite Nat.add_comm, <- app_length. apply NoDup_incl_length.
    - assert (Hnd2 : NoDup (filter (fun u => negb (memb u (vis ++ news))) U)) by now apply NoDup_filter.
      assert (Hdis : forall y, In y news -> ~ In y (filter (fun u => negb (memb u (vis ++ news))) U)).
      { intros y Hy Hf. apply filter_In in Hf as (_ & Hf). apply negb_true_iff, memb_out in Hf. apply Hf, in_app_iff. now right. }
      clear Hn. induction news as [|y l IH]; cbn [app]; [exact Hnd2|]. apply NoDup_cons_iff in Hnd as (Hy & Hnd).
      revert Hdis Hnd2. generalize (filter (fun u => negb (memb u (vis ++ y :: l))) U). intros F Hdis Hnd2. constructor.
      + rewrite in_app_iff. intros [H|H]; [contradiction|]. apply (Hdis y); [now left|exact H].
      + clear IH. assert (Hdis' : forall z, In z l -> ~ In z F) by (intros z Hz; apply Hdis; now right). clear - Hnd Hnd2 Hdis'.
        induction l as [|z l IH]; cbn; [exact Hnd2|]. apply NoDup_cons_iff in Hnd as (Hz & Hnd). constructor.
        * rewrite in_app_iff. intros [H|H]; [contradiction|]. apply (Hdis' z); [now left|exact H].
        * apply IH; [exact Hnd|]. intros w Hw. apply Hdis'. now right.
    - intros y Hy. apply in_app_iff in Hy as [Hy|Hy].
      + destruct (Hn y Hy). apply filter_In. split; [assumption|]. now apply negb_true_iff, memb_out.
      + apply filter_In in Hy as (HU & Hy). apply filter_In. split; [exact HU|]. apply negb_true_iff, memb_out. apply negb_true_iff, memb_out in Hy. intros Hv. apply Hy, in_app_iff. now left.
  Qed.

  Lemma bfs_inv : forall fuel d q1 q2 vis log, inv d q1 q2 vis log -> length (q1 ++ q2) + left_over vis <= fuel ->
    exists d' vis', inv d' [] [] vis' (bfs fuel (q1 ++ q2, vis, log)).
  Proof.
    induction fuel as [|fuel IH]; intros d q1 q2 vis log I Hf.
    - assert (E : q1 ++ q2 = []) by (destruct (q1 ++ q2); [reflexivity|cbn in Hf; lia]). apply app_eq_nil in E as (-> & ->). exists d, vis. exact I.
    - assert (G : forall d x q1 q2 vis log, inv d (x :: q1) q2 vis log -> length ((x :: q1) ++ q2) + left_over vis <= S fuel ->
        exists d' vis', inv d' [] [] vis' (bfs (S fuel) ((x :: q1) ++ q2, vis, log))).
      { clear I Hf d q1 q2 vis log. intros d x q1 q2 vis log I Hf. cbn [bfs app].
        destruct (fold_bstep x (adj x) (q1 ++ q2) vis log) as (news & E & Hnd & Hn & Hall). rewrite E.
        rewrite <- app_assoc. apply (IH d).
        - apply inv_step; auto.
        - pose proof (left_over_news vis news Hnd) as HL. assert (HU : forall y, In y news -> In y U /\ ~ In y vis) by (intros y Hy; destruct (Hn y Hy) as (Ha & Hv); split; [now apply (U_adj x)|exact Hv]).
          specialize (HL HU). cbn [app length] in Hf. rewrite app_length in Hf. rewrite !app_length. lia. }
      destruct q1 as [|x q1]; [|now apply (G d)].
      destruct q2 as [|x q2]; [exists d, vis; exact I|].
      apply inv_next in I. specialize (G (S d) x q2 [] vis log I). rewrite app_nil_r in G. apply G. exact Hf.
  Qed.
  Lemma inv_init : inv 0 start [] (start ++ blocked) [].
  Proof.
    constructor.
    - apply incl_refl.
    - intros c Hc. inversion Hc; subst. apply in_app_iff. now left.
    - intros x Hx. now constructor.
    - contradiction.
    - intros x Hx. inversion Hx; subst. now left.
    - contradiction.
    - intros c Hc. apply in_app_iff in Hc as [H|H]; [now left|now right; left].
    - intros c Hc. apply in_app_iff in Hc as [H|H]; [left; now constructor|now right; right].
    - split; [constructor|intros c []].
  Qed.
  Theorem bfs_correct fuel : length start + length U <= fuel -> let log := bfs fuel (start, start ++ blocked, []) in
    (forall p c, In (p, c) log -> edge_ok p c) /\ (forall k c, within k c -> In c start \/ exists p, In (p, c) log) /\
    (forall p p' c, In (p, c) log -> In (p', c) log -> p = p').
  Proof.
    intros Hf log. assert (HF : length (start ++ []) + left_over (start ++ blocked) <= fuel).
    { rewrite app_nil_r. unfold left_over.
      assert (length (filter (fun u => negb (memb u (start ++ blocked))) U) <= length U) by (clear; induction U as [|a l IH]; cbn; [lia|destruct (negb _); cbn; lia]). lia. }
    destruct (bfs_inv fuel 0 start [] (start ++ blocked) [] inv_init HF) as (d & vis & I). rewrite app_nil_r in I. fold log in I. destruct I as [Iv In_ _ _ Id Il Ia Ic (Io & Io')].
    split; [exact Il|]. split.
    - intros k c Hc.
      assert (Hcl : forall k c, within k c -> In c vis /\ within d c).
      { clear k c Hc. induction 1 as [k x Hs|k x y _ (Hv & Hd) Ha Hb].
        - split; [apply Iv, in_app_iff; now left|now constructor].
        - destruct (Id x Hd) as [[]|H]. pose proof (H y Ha) as Hy. split; [exact Hy|]. destruct (Ic y Hy) as [H1|[[]|H1]]; [exact H1|contradiction]. }
      destruct (Hcl k c Hc) as (Hv & _). destruct (Ia c Hv) as [H|[H|H]]; [now left| |now right]. left. inversion Hc; subst; [assumption|contradiction].
    - intros p p' c H H'. apply in_split in H as (l1 & l2 & E). rewrite E in H', Io. rewrite map_app in Io. cbn in Io. apply NoDup_remove in Io as (_ & Io).
      apply in_app_iff in H' as [H'|[H'|H']]; [exfalso; apply Io, in_app_iff; left; exact (in_map snd _ _ H')|congruence|exfalso; apply Io, in_app_iff; right; exact (in_map snd _ _ H')].
  Qed.
End BFS.
