From Coq Require Import String Ascii Decimal DecimalZ DecimalPos DecimalN DecimalFacts.
From Verif Require Import Base.Prelude Model.Transformation Model.Lef Spec.LefSpec.
Local Open Scope Z_scope.

Lemma chars_eqb_eq a b : chars_eqb a b = true <-> a = b.
Proof. unfold chars_eqb. destruct (list_eq_dec ascii_dec a b); split; congruence. Qed.
Lemma chars_eqb_refl a : chars_eqb a a = true.
Proof. apply chars_eqb_eq. reflexivity. Qed.
Lemma chars_eqb_neq a b : chars_eqb a b = false <-> a <> b.
Proof. unfold chars_eqb. destruct (list_eq_dec ascii_dec a b); split; congruence. Qed.

(** ** Lexer. *)
Lemma span_app f l : forall a b, span f l = (a, b) -> l = a ++ b.
Proof.
  induction l as [|c l IH]; simpl; intros a b E; [injection E as <- <-; reflexivity|].
  destruct (f c); [|injection E as <- <-; reflexivity].
  destruct (span f l) as [x y]. injection E as <- <-. simpl. f_equal. apply IH. reflexivity.
Qed.

Lemma last_quote_app l : forall a b, last_quote l = Some (a, b) -> l = a ++ b.
Proof.
  induction l as [|c l IH]; simpl; intros a b E; [discriminate|].
  destruct (last_quote l) as [[x y]|].
  - injection E as <- <-. simpl. f_equal. apply IH. reflexivity.
  - destruct (ascii_dec c quote); [|discriminate]. injection E as <- <-. reflexivity.
Qed.

Lemma lex_num_app l a b : lex_num l = Some (a, b) -> l = a ++ b /\ a <> [].
Proof.
  unfold lex_num.
  set (sg := match l with | c :: tl => _ | [] => _ end).
  destruct sg as [sign r] eqn:Es. subst sg.
  assert (Hl : l = sign ++ r).
  { destruct l as [|c l]; [injection Es as <- <-; reflexivity|].
    destruct (ascii_dec c "-"); [injection Es as <- <-; reflexivity|].
    destruct (ascii_dec c "+"); injection Es as <- <-; reflexivity. }
  destruct (span is_digit r) as [d1 r1] eqn:E1. apply span_app in E1. rewrite E1 in Hl.
  assert (Hsec : match d1 with
                | [] => None
                | _ => match r1 with
                       | c :: tl => if ascii_dec c "." then Some (sign ++ d1 ++ [c], tl)
                                    else Some (sign ++ d1, r1)
                       | [] => Some (sign ++ d1, r1)
                       end
                end = Some (a, b) -> l = a ++ b /\ a <> []).
  { destruct d1 as [|x d1]; [discriminate|]. destruct r1 as [|c r1].
    - intros E. injection E as <- <-. rewrite Hl, <- app_assoc. split; [reflexivity|]. destruct sign; discriminate.
    - destruct (ascii_dec c "."); intros E; injection E as <- <-; rewrite Hl.
      + split; [|destruct sign; discriminate]. rewrite <- !app_assoc. simpl. rewrite <- ?app_assoc. reflexivity.
      + split; [|destruct sign; discriminate]. rewrite <- !app_assoc. simpl. rewrite <- ?app_assoc. reflexivity. }
  destruct r1 as [|c r1]; [exact Hsec|].
  destruct (ascii_dec c "."); [|exact Hsec].
  destruct (span is_digit r1) as [d2 r2] eqn:E2. apply span_app in E2.
  destruct d2 as [|y d2]; [exact Hsec|].
  intros E. injection E as <- <-. rewrite Hl, E2. split; [|destruct sign; [destruct d1|]; discriminate].
  rewrite <- !app_assoc. reflexivity.
Qed.

Lemma lex_one_app l t r : lex_one l = Some (t, r) -> l = tvalue t ++ r /\ tvalue t <> [].
Proof.
  destruct l as [|c l]; simpl; [discriminate|].
  destruct (ascii_dec c ";"); [intros E; injection E as <- <-; split; [reflexivity|discriminate]|].
  destruct (name_start c).
  { destruct (span name_char l) as [a b] eqn:E1. apply span_app in E1.
    intros E; injection E as <- <-. simpl. rewrite E1. split; [reflexivity|discriminate]. }
  destruct (ascii_dec c quote).
  { destruct (span _ l) as [line rest] eqn:E1. apply span_app in E1.
    destruct (last_quote line) as [[a b]|] eqn:E2; [|discriminate]. apply last_quote_app in E2.
    intros E; injection E as <- <-. simpl. rewrite E1, E2, <- app_assoc. split; [reflexivity|discriminate]. }
  destruct (is_ws c).
  { destruct (span is_ws l) as [a b] eqn:E1. apply span_app in E1.
    intros E; injection E as <- <-. simpl. rewrite E1. split; [reflexivity|discriminate]. }
  destruct (lex_num (c :: l)) as [[a b]|] eqn:E; [|discriminate].
  apply lex_num_app in E as [E1 E2]. intros E; injection E as <- <-. split; assumption.
Qed.

Lemma lex_one_shorter l t r : lex_one l = Some (t, r) -> (List.length r < List.length l)%nat.
Proof.
  intros E. apply lex_one_app in E as [-> Hn]. rewrite app_length.
  destruct (tvalue t); [congruence|simpl; lia].
Qed.

Lemma lex_n_enough n : forall m l, (List.length l <= n)%nat -> (List.length l <= m)%nat ->
  lex_n n l = lex_n m l.
Proof.
  induction n as [|n IH]; intros m l Hn Hm.
  - destruct l; [|simpl in Hn; lia]. destruct m; reflexivity.
  - destruct m as [|m].
    + destruct l; [|simpl in Hm; lia]. reflexivity.
    + simpl. destruct (lex_one l) as [[t r]|] eqn:E; [|reflexivity].
      apply lex_one_shorter in E. rewrite (IH m r) by lia. reflexivity.
Qed.

Notation gen := generate_tokens.

Lemma gen_step l : gen l =
  match lex_one l with
  | Some (t, r) => match ttype t with WS => gen r | _ => t :: gen r end
  | None => []
  end.
Proof.
  unfold gen. destruct l as [|c l]; [reflexivity|].
  cbn [List.length]. cbn [lex_n]. destruct (lex_one (c :: l)) as [[t r]|] eqn:E; [|reflexivity].
  apply lex_one_shorter in E. cbn [List.length] in E.
  rewrite (lex_n_enough _ (List.length r) r) by lia. reflexivity.
Qed.

(** Disjointness of the character classes, by enumeration. *)
Lemma ascii_all (P : ascii -> bool) :
  forallb (fun n => P (ascii_of_nat n)) (seq 0 256) = true -> forall c, P c = true.
Proof.
  intros H c. rewrite forallb_forall in H. rewrite <- (ascii_nat_embedding c).
  apply H. apply in_seq. pose proof (nat_ascii_bounded c). lia.
Qed.

Lemma name_char_class c : name_char c = true ->
  is_ws c = false /\ c <> ";"%char /\ c <> quote.
Proof.
  revert c.
  assert (H : forall c, (negb (name_char c) || (negb (is_ws c) && (if ascii_dec c ";" then false else true)
     && (if ascii_dec c quote then false else true))) = true) by (apply ascii_all; vm_compute; reflexivity).
  intros c Hc. specialize (H c). rewrite Hc in H. simpl in H.
  destruct (is_ws c); [discriminate|]. destruct (ascii_dec c ";"); [discriminate|].
  destruct (ascii_dec c quote); [discriminate|]. auto.
Qed.

Lemma ws_class c : is_ws c = true -> c <> ";"%char /\ name_start c = false /\ c <> quote
  /\ name_char c = false /\ is_digit c = false /\ c <> "."%char.
Proof.
  revert c.
  assert (H : forall c, (negb (is_ws c) || ((if ascii_dec c ";" then false else true)
     && negb (name_start c) && (if ascii_dec c quote then false else true) && negb (name_char c)
     && negb (is_digit c) && (if ascii_dec c "." then false else true))) = true)
    by (apply ascii_all; vm_compute; reflexivity).
  intros c Hc. specialize (H c). rewrite Hc in H. simpl in H.
  destruct (ascii_dec c ";"); [discriminate|]. destruct (name_start c); [discriminate|].
  destruct (ascii_dec c quote); [discriminate|]. destruct (name_char c); [discriminate|].
  destruct (is_digit c); [discriminate|]. destruct (ascii_dec c "."); [discriminate|]. auto 10.
Qed.

Lemma digit_class c : is_digit c = true ->
  c <> ";"%char /\ name_start c = false /\ c <> quote /\ is_ws c = false /\ c <> "-"%char /\ c <> "+"%char
  /\ c <> "."%char.
Proof.
  revert c.
  assert (H : forall c, (negb (is_digit c) || ((if ascii_dec c ";" then false else true)
     && negb (name_start c) && (if ascii_dec c quote then false else true) && negb (is_ws c)
     && (if ascii_dec c "-" then false else true) && (if ascii_dec c "+" then false else true)
     && (if ascii_dec c "." then false else true))) = true)
    by (apply ascii_all; vm_compute; reflexivity).
  intros c Hc. specialize (H c). rewrite Hc in H. simpl in H.
  destruct (ascii_dec c ";"); [discriminate|]. destruct (name_start c); [discriminate|].
  destruct (ascii_dec c quote); [discriminate|]. destruct (is_ws c); [discriminate|].
  destruct (ascii_dec c "-"); [discriminate|]. destruct (ascii_dec c "+"); [discriminate|].
  destruct (ascii_dec c "."); [discriminate|]. auto 10.
Qed.

Definition stops (f : ascii -> bool) (l : chars) : Prop :=
  match l with [] => True | c :: _ => f c = false end.

Lemma span_exact f a b : forallb f a = true -> stops f b -> span f (a ++ b) = (a, b).
Proof.
  induction a as [|c a IH]; simpl; intros Ha Hb.
  - destruct b as [|c b]; [reflexivity|]. simpl in *. rewrite Hb. reflexivity.
  - apply andb_true_iff in Ha as [Hc Ha]. rewrite Hc, IH by assumption. reflexivity.
Qed.

Lemma gen_ws c l : is_ws c = true -> gen (c :: l) = gen l.
Proof.
  intros Hc. destruct (ws_class c Hc) as (H1 & H2 & H3 & _).
  assert (Hl : forall l', lex_one (c :: l') = let '(a, b) := span is_ws l' in Some (mkTok WS (c :: a), b)).
  { intros l'. simpl. destruct (ascii_dec c ";"); [contradiction|]. rewrite H2.
    destruct (ascii_dec c quote); [contradiction|]. rewrite Hc. reflexivity. }
  rewrite gen_step, Hl. destruct (span is_ws l) as [a b] eqn:E. cbn [ttype].
  destruct l as [|d l].
  - simpl in E. injection E as <- <-. reflexivity.
  - simpl in E. destruct (is_ws d) eqn:Ed.
    + destruct (span is_ws l) as [x y] eqn:E2. injection E as <- <-.
      symmetry. rewrite gen_step.
      destruct (ws_class d Ed) as (G1 & G2 & G3 & _). cbn [lex_one].
      destruct (ascii_dec d ";"); [contradiction|]. rewrite G2.
      destruct (ascii_dec d quote); [contradiction|]. rewrite Ed, E2. reflexivity.
    + injection E as <- <-. reflexivity.
Qed.

Lemma gen_ws_all w l : forallb is_ws w = true -> gen (w ++ l) = gen l.
Proof.
  induction w as [|c w IH]; simpl; intros Hw; [reflexivity|].
  apply andb_true_iff in Hw as [Hc Hw]. rewrite gen_ws by assumption. auto.
Qed.

Lemma gen_semi l : gen (";"%char :: l) = mkTok SEMI (str ";") :: gen l.
Proof. rewrite gen_step. reflexivity. Qed.

Lemma gen_name nm l : ident nm -> stops name_char l ->
  gen (nm ++ l) = mkTok NAME nm :: gen l.
Proof.
  destruct nm as [|c nm]; simpl; [tauto|]. intros [Hc Hnm] Hl.
  rewrite gen_step. cbn [lex_one].
  assert (Hcc : name_char c = true) by (unfold name_char; rewrite Hc; reflexivity).
  destruct (name_char_class c Hcc) as (H1 & H2 & H3).
  destruct (ascii_dec c ";"); [contradiction|]. rewrite Hc.
  rewrite (span_exact name_char nm l Hnm Hl). reflexivity.
Qed.

(** ** Printed integers. *)
Lemma uint_digits u : forallb is_digit (uint_chars u) = true.
Proof. induction u; simpl; auto. Qed.

Lemma to_uint_nonnil z u : Z.to_int z = Pos u \/ Z.to_int z = Neg u -> uint_chars u <> [].
Proof.
  intros H. assert (Hn : u <> Nil).
  { destruct z as [|p|p]; simpl in H; destruct H as [H|H]; try discriminate; injection H as <-.
    - discriminate.
    - apply DecimalPos.Unsigned.to_uint_nonnil.
    - apply DecimalPos.Unsigned.to_uint_nonnil. }
  destruct u; [congruence|discriminate..].
Qed.

Definition num_end (l : chars) : Prop :=
  match l with [] => True | c :: _ => is_digit c = false /\ c <> "."%char end.

Lemma lex_num_digits d l : forallb is_digit d = true -> d <> [] -> num_end l ->
  lex_num (d ++ l) = Some (d, l).
Proof.
  intros Hd Hne Hl. unfold lex_num.
  assert (Hs : stops is_digit l) by (destruct l; simpl in *; tauto).
  destruct d as [|c d]; [congruence|]. clear Hne. pose proof Hd as Hd0.
  simpl in Hd. apply andb_true_iff in Hd as [Hc Hd].
  destruct (digit_class c Hc) as (_ & _ & _ & _ & H1 & H2 & H3).
  cbn [app]. destruct (ascii_dec c "-"); [contradiction|]. destruct (ascii_dec c "+"); [contradiction|].
  change (c :: d ++ l) with ((c :: d) ++ l). rewrite (span_exact is_digit _ _ Hd0 Hs).
  destruct l as [|x l]; [reflexivity|]. simpl in Hl. destruct Hl as [_ Hx].
  destruct (ascii_dec x "."); [contradiction|]. reflexivity.
Qed.

Lemma lex_num_neg d l : forallb is_digit d = true -> d <> [] -> num_end l ->
  lex_num ("-"%char :: d ++ l) = Some ("-"%char :: d, l).
Proof.
  intros Hd Hne Hl. unfold lex_num.
  assert (Hs : stops is_digit l) by (destruct l; simpl in *; tauto).
  destruct (ascii_dec "-" "-"); [|congruence].
  rewrite (span_exact is_digit _ _ Hd Hs).
  destruct d as [|c d]; [congruence|].
  destruct l as [|x l]; [reflexivity|]. simpl in Hl. destruct Hl as [_ Hx].
  destruct (ascii_dec x "."); [contradiction|]. reflexivity.
Qed.

Lemma gen_num z l : num_end l -> gen (print_Z z ++ l) = mkTok NUM (print_Z z) :: gen l.
Proof.
  intros Hl. unfold print_Z. destruct (Z.to_int z) as [u|u] eqn:E.
  - pose proof (to_uint_nonnil z u (or_introl E)) as Hne. pose proof (uint_digits u) as Hd.
    rewrite gen_step. pose proof (lex_num_digits _ _ Hd Hne Hl) as Hx.
    destruct (uint_chars u) as [|c d]; [congruence|]. simpl in Hd. apply andb_true_iff in Hd as [Hc Hd].
    destruct (digit_class c Hc) as (G1 & G2 & G3 & G4 & _).
    change ((c :: d) ++ l) with (c :: d ++ l) in *. unfold lex_one.
    destruct (ascii_dec c ";"); [contradiction|]. rewrite G2.
    destruct (ascii_dec c quote); [contradiction|]. rewrite G4, Hx. reflexivity.
  - pose proof (to_uint_nonnil z u (or_intror E)) as Hne. pose proof (uint_digits u) as Hd.
    rewrite gen_step. pose proof (lex_num_neg _ _ Hd Hne Hl) as Hx.
    change (("-"%char :: uint_chars u) ++ l) with ("-"%char :: uint_chars u ++ l).
    unfold lex_one. destruct (ascii_dec "-" ";"); [discriminate|].
    change (name_start "-") with false. destruct (ascii_dec "-" quote); [discriminate|].
    change (is_ws "-") with false. cbv iota. rewrite Hx. reflexivity.
Qed.


(** Reading the digits back. *)
Lemma digits_acc u : forall acc,
  fold_left (fun acc c => acc * 10 + digit_val c) (uint_chars u) (Z.pos acc) = Z.pos (Pos.of_uint_acc u acc).
Proof.
  induction u; intros acc; [reflexivity|..]; cbn [uint_chars fold_left Pos.of_uint_acc];
    rewrite <- IHu; f_equal; unfold digit_val, code; rewrite N_ascii_embedding by reflexivity; lia.
Qed.

Lemma digits_val_uint u : digits_val (uint_chars u) = Z.of_uint u.
Proof.
  unfold digits_val, Z.of_uint.
  induction u; [reflexivity|exact IHu|..]; cbn [uint_chars fold_left Pos.of_uint Z.of_N];
    rewrite <- digits_acc; f_equal; unfold digit_val, code; rewrite N_ascii_embedding by reflexivity; reflexivity.
Qed.

Lemma float_print z : float_of (print_Z z) = int_dec z.
Proof.
  pose proof (DecimalZ.of_to z) as Hz. unfold print_Z, float_of.
  destruct (Z.to_int z) as [u|u] eqn:E.
  - pose proof (to_uint_nonnil z u (or_introl E)) as Hne. pose proof (uint_digits u) as Hd.
    pose proof (span_exact is_digit (uint_chars u) [] Hd I) as Hs. rewrite app_nil_r in Hs.
    pose proof (digits_val_uint u) as Hv.
    destruct (uint_chars u) as [|c d]; [congruence|]. simpl in Hd. apply andb_true_iff in Hd as [Hc Hd].
    destruct (digit_class c Hc) as (_ & _ & _ & _ & H1 & H2 & _).
    destruct (ascii_dec c "-"); [contradiction|]. destruct (ascii_dec c "+"); [contradiction|].
    rewrite Hs, app_nil_r, Hv. unfold int_dec. rewrite <- Hz. reflexivity.
  - pose proof (uint_digits u) as Hd.
    pose proof (span_exact is_digit (uint_chars u) [] Hd I) as Hs. rewrite app_nil_r in Hs.
    pose proof (digits_val_uint u) as Hv.
    destruct (ascii_dec "-" "-"); [|congruence].
    rewrite Hs, app_nil_r, Hv. unfold int_dec. rewrite <- Hz. reflexivity.
Qed.

(** ** Closed pieces of text: their tokens do not depend on what follows. *)
Lemma span_extend f l rest : forall a b, span f l = (a, b) -> b <> [] ->
  span f (l ++ rest) = (a, b ++ rest).
Proof.
  induction l as [|c l IH]; simpl; intros a b E Hb; [injection E as <- <-; congruence|].
  destruct (f c); [|injection E as <- <-; reflexivity].
  destruct (span f l) as [x y]. injection E as <- <-. rewrite (IH x y eq_refl Hb). reflexivity.
Qed.

Lemma lex_num_extend l rest a b : lex_num l = Some (a, b) -> b <> [] ->
  lex_num (l ++ rest) = Some (a, b ++ rest).
Proof.
  unfold lex_num.
  set (sg := match l with | c :: tl => _ | [] => _ end).
  destruct sg as [sign r] eqn:Es. subst sg.
  set (sg := match l ++ rest with | c :: tl => _ | [] => _ end).
  intros E Hb.
  assert (Hl : l <> []).
  { intros ->. injection Es as <- <-. simpl in E. discriminate. }
  assert (Es' : sg = (sign, r ++ rest)).
  { subst sg. destruct l as [|c l]; [congruence|]. cbn [app].
    destruct (ascii_dec c "-"); [injection Es as <- <-; reflexivity|].
    destruct (ascii_dec c "+"); injection Es as <- <-; reflexivity. }
  rewrite Es'. clear Es' sg.
  destruct (span is_digit r) as [d1 r1] eqn:E1.
  destruct r1 as [|c r1].
  - exfalso. destruct d1; [discriminate|]. injection E as <- <-. congruence.
  - rewrite (span_extend _ _ rest _ _ E1 ltac:(discriminate)). cbn [app].
    destruct (ascii_dec c ".").
    + destruct (span is_digit r1) as [d2 r2] eqn:E2.
      destruct r2 as [|x r2].
      * exfalso. destruct d2.
        -- destruct d1; [discriminate|]. injection E as <- <-.
           apply span_app in E2. simpl in E2. congruence.
        -- injection E as <- <-. congruence.
      * rewrite (span_extend _ _ rest _ _ E2 ltac:(discriminate)).
        destruct d2 as [|y d2].
        -- destruct d1; [discriminate|]. injection E as <- <-. reflexivity.
        -- injection E as <- <-. reflexivity.
    + destruct d1; [discriminate|]. injection E as <- <-. reflexivity.
Qed.

Definition not_lit (t : Token) : bool := match ttype t with LIT => false | _ => true end.

Lemma lex_one_extend l rest t r : lex_one l = Some (t, r) -> not_lit t = true -> r <> [] ->
  lex_one (l ++ rest) = Some (t, r ++ rest).
Proof.
  destruct l as [|c l]; [discriminate|]. intros E Ht Hr. unfold lex_one in *. cbn [app].
  destruct (ascii_dec c ";"); [injection E as <- <-; reflexivity|].
  destruct (name_start c).
  { destruct (span name_char l) as [a b] eqn:E1. injection E as <- <-.
    rewrite (span_extend _ _ rest _ _ E1 Hr). reflexivity. }
  destruct (ascii_dec c quote).
  { destruct (span _ l) as [line rs]. destruct (last_quote line) as [[a b]|]; [|discriminate].
    injection E as <- <-. discriminate. }
  destruct (is_ws c).
  { destruct (span is_ws l) as [a b] eqn:E1. injection E as <- <-.
    rewrite (span_extend _ _ rest _ _ E1 Hr). reflexivity. }
  destruct (lex_num (c :: l)) as [[a b]|] eqn:E1; [|discriminate]. injection E as <- <-.
  change (c :: l ++ rest) with ((c :: l) ++ rest).
  rewrite (lex_num_extend _ rest _ _ E1 Hr). reflexivity.
Qed.

Lemma lex_one_ws_all l t : lex_one l = Some (t, []) -> ttype t = WS -> forallb is_ws l = true.
Proof.
  destruct l as [|c l]; [discriminate|]. unfold lex_one. intros E Ht.
  destruct (ascii_dec c ";"); [injection E as <- Hx; discriminate|].
  destruct (name_start c).
  { destruct (span name_char l) as [a b] eqn:E1. injection E as <- Hx; discriminate. }
  destruct (ascii_dec c quote).
  { destruct (span _ l) as [line rs]. destruct (last_quote line) as [[a b]|]; [|discriminate].
    injection E as <- Hx. discriminate. }
  destruct (is_ws c) eqn:Ec.
  { destruct (span is_ws l) as [a b] eqn:E1. injection E as <- ->.
    simpl. rewrite Ec. clear - E1. revert a E1. induction l as [|d l IH]; simpl; intros a E; [reflexivity|].
    destruct (is_ws d); [|discriminate]. destruct (span is_ws l) as [x y]. injection E as <- ->.
    rewrite (IH x eq_refl). reflexivity. }
  destruct (lex_num (c :: l)) as [[a b]|]; [|discriminate]. injection E as <- Hx; discriminate.
Qed.

Lemma lex_one_semi l t : lex_one l = Some (t, []) -> ttype t = SEMI -> l = str ";".
Proof.
  intros E Ht. pose proof (lex_one_app _ _ _ E) as [El _]. rewrite app_nil_r in El.
  destruct l as [|c l]; [discriminate|]. unfold lex_one in E.
  destruct (ascii_dec c ";") as [->|]; [injection E as <- ->; reflexivity|].
  destruct (name_start c).
  { destruct (span name_char l). injection E as <- Hx; discriminate. }
  destruct (ascii_dec c quote).
  { destruct (span _ l). destruct (last_quote _) as [[? ?]|]; [|discriminate]. injection E as <- Hx. discriminate. }
  destruct (is_ws c).
  { destruct (span is_ws l). injection E as <- Hx; discriminate. }
  destruct (lex_num (c :: l)) as [[? ?]|]; [|discriminate]. injection E as <- Hx; discriminate.
Qed.

Fixpoint clex (n : nat) (l : chars) : option (list Token) :=
  match n with
  | 0%nat => None
  | Datatypes.S n' =>
      match l with
      | [] => Some []
      | _ =>
        match lex_one l with
        | Some (t, r) =>
            if match r, ttype t with
               | _, LIT => false
               | [], WS => true
               | [], SEMI => true
               | [], _ => false
               | _, _ => true end
            then match clex n' r with
                 | Some ts => Some (match ttype t with WS => ts | _ => t :: ts end)
                 | None => None
                 end
            else None
        | None => None
        end
      end
  end.

Lemma gen_closed n : forall l rest ts, clex n l = Some ts -> gen (l ++ rest) = ts ++ gen rest.
Proof.
  induction n as [|n IH]; intros l rest ts E; [discriminate|]. cbn [clex] in E.
  destruct l as [|c l]; [injection E as <-; reflexivity|].
  destruct (lex_one (c :: l)) as [[t r]|] eqn:El; [|discriminate].
  destruct r as [|d r].
  - destruct (ttype t) eqn:Et; try discriminate.
    + destruct (clex n []) as [ts'|] eqn:En; [|discriminate]. injection E as <-.
      destruct n; [discriminate|]. simpl in En. injection En as <-.
      pose proof El as El'. apply lex_one_semi in El'; [|assumption]. rewrite El' in *. cbv in El. injection El as <-.
      change (str ";" ++ rest) with (";"%char :: rest). rewrite gen_semi. reflexivity.
    + destruct (clex n []) as [ts'|] eqn:En; [|discriminate]. injection E as <-.
      destruct n; [discriminate|]. simpl in En. injection En as <-.
      rewrite (gen_ws_all (c :: l) rest); [reflexivity|]. exact (lex_one_ws_all _ _ El Et).
  - assert (Ht : not_lit t = true) by (unfold not_lit; destruct (ttype t); auto; discriminate).
    rewrite gen_step, (lex_one_extend _ rest _ _ El Ht ltac:(discriminate)).
    destruct (clex n (d :: r)) as [ts'|] eqn:En; [|destruct (ttype t); discriminate].
    rewrite (IH _ rest _ En). destruct (ttype t); try discriminate; injection E as <-; reflexivity.
Qed.

(** Rewrite with the tokens of a closed literal prefix. *)
Ltac lit l :=
  let n := eval vm_compute in (Datatypes.S (List.length l)) in
  let l' := eval vm_compute in (clex n l) in
  match l' with
  | Some ?ts =>
      let Hc := fresh in
      assert (Hc : clex n l = Some ts) by (vm_compute; reflexivity);
      let Hg := fresh in
      pose proof (fun rest => gen_closed n l rest ts Hc) as Hg; clear Hc;
      rewrite Hg; clear Hg
  end.

Definition tN (s : chars) : Token := mkTok NAME s.
Definition tZ (z : Z) : Token := mkTok NUM (print_Z z).
Definition tS : Token := mkTok SEMI (str ";").
Definition kwt (s : string) : Token := tN (str s).

Definition rect_toks (r : Rect) : list Token :=
  [kwt "RECT"; tZ (llx r); tZ (lly r); tZ (urx r); tZ (ury r); tS].
Definition shape_toks (ly : chars) (r : Rect) : list Token :=
  [kwt "LAYER"; tN ly; tS] ++ rect_toks r.

Lemma gen_sp l : gen (sp ++ l) = gen l.
Proof. apply gen_ws_all. reflexivity. Qed.
Lemma gen_nl l : gen (nl ++ l) = gen l.
Proof. apply gen_ws_all. reflexivity. Qed.

Ltac numend := first [exact I | split; [reflexivity|discriminate]].

Lemma gen_indent (k : nat) l : gen (repeat " "%char k ++ l) = gen l.
Proof. apply gen_ws_all. induction k; simpl; auto. Qed.

Lemma gen_rect_line ind k r rest : str ind = repeat " "%char k ->
  gen (rect_line ind r ++ rest) = rect_toks r ++ gen rest.
Proof.
  intros Hi. unfold rect_line. rewrite Hi. repeat rewrite <- app_assoc. rewrite gen_indent.
  lit (str "RECT "). rewrite gen_num by numend. rewrite gen_sp.
  rewrite gen_num by numend. rewrite gen_sp. rewrite gen_num by numend. rewrite gen_sp.
  rewrite gen_num by numend. lit (str " ;"). rewrite gen_nl. reflexivity.
Qed.

Lemma gen_shape i1 k1 i2 k2 ly r rest : str i1 = repeat " "%char k1 -> str i2 = repeat " "%char k2 ->
  ident ly -> gen (shape_lines i1 i2 ly r ++ rest) = shape_toks ly r ++ gen rest.
Proof.
  intros H1 H2 Hly. unfold shape_lines. rewrite H1. repeat rewrite <- app_assoc. rewrite gen_indent.
  lit (str "LAYER "). rewrite gen_name by (assumption || reflexivity).
  lit (str " ;"). rewrite gen_nl. rewrite (gen_rect_line i2 k2) by assumption. reflexivity.
Qed.

Lemma gen_shapes i1 k1 i2 k2 (l : list (chars * Rect)) rest :
  str i1 = repeat " "%char k1 -> str i2 = repeat " "%char k2 ->
  (forall x, In x l -> ident (fst x)) ->
  gen (flat_map (fun x => shape_lines i1 i2 (fst x) (snd x)) l ++ rest)
  = flat_map (fun x => shape_toks (fst x) (snd x)) l ++ gen rest.
Proof.
  intros H1 H2. induction l as [|x l IH]; intros Hl; [reflexivity|].
  cbn [flat_map]. rewrite <- app_assoc. rewrite (gen_shape i1 k1 i2 k2); auto; [|apply Hl; left; reflexivity].
  rewrite IH by (intros; apply Hl; right; assumption). rewrite app_assoc. reflexivity.
Qed.

Definition pin_toks (nm : chars) (shapes : list (chars * Rect)) : list Token :=
  [kwt "PIN"; tN nm; kwt "DIRECTION"; kwt "INOUT"; tS; kwt "USE"; kwt "SIGNAL"; tS; kwt "PORT"]
  ++ flat_map (fun x => shape_toks (fst x) (snd x)) shapes ++ [kwt "END"; kwt "END"; tN nm].

Definition lr (t : Term) : chars * Rect := (t_layer t, t_rect t).

Lemma flat_map_map {A B C} (f : A -> B) (g : B -> list C) l :
  flat_map g (map f l) = flat_map (fun x => g (f x)) l.
Proof. induction l; simpl; [reflexivity|]. rewrite IHl. reflexivity. Qed.

Lemma gen_pin nm shapes rest : ident nm -> (forall t, In t shapes -> ident (t_layer t)) ->
  gen (pin_text nm shapes ++ rest) = pin_toks nm (map lr shapes) ++ gen rest.
Proof.
  intros Hn Hs. unfold pin_text, pin_toks. repeat rewrite <- app_assoc.
  lit (str "  PIN "). rewrite gen_name by (assumption || reflexivity). rewrite gen_nl.
  lit (str "    DIRECTION INOUT ;"). rewrite gen_nl. lit (str "    USE SIGNAL ;"). rewrite gen_nl.
  rewrite (app_assoc (str "    PORT") nl). lit (str "    PORT" ++ nl).
  pose proof (gen_shapes "      " 6 "        " 8 (map lr shapes)) as Hg.
  rewrite flat_map_map in Hg. unfold lr in Hg at 1 2. cbn [fst snd] in Hg.
  rewrite Hg; [|reflexivity|reflexivity|].
  2:{ intros x Hx. apply in_map_iff in Hx as (t & <- & Ht). apply Hs. assumption. }
  rewrite (app_assoc (str "    END") nl). lit (str "    END" ++ nl).
  lit (str "  END "). rewrite gen_name by (assumption || reflexivity). rewrite gen_nl.
  reflexivity.
Qed.

(** Obstruction shapes of one terminal, as (layer, rectangle) pairs. *)
Definition obs_shapes (c : lefcfg) (pins : list chars) (t : Term) : list (chars * Rect) :=
  let cond := match t_net t with Some nm => negb (mem (pin_name c nm) pins) | None => true end in
  if (negb (t_pin t) || cond) && (blockM c =? 0) && negb (mem (t_layer t) (exclude_layers c)) then
    [lr t]
  else if (blockM c =? 1) && chars_eqb (t_layer t) (str "Cboundary") then
    [(str "M1", t_rect t); (str "M2", t_rect t); (str "M3", t_rect t)]
  else [].

Lemma obs_text_shapes c pins t :
  obs_text c pins t = flat_map (fun x => shape_lines "    " "      " (fst x) (snd x)) (obs_shapes c pins t).
Proof.
  unfold obs_text, obs_shapes.
  destruct ((negb (t_pin t) || _) && (blockM c =? 0) && negb (mem (t_layer t) (exclude_layers c))).
  - cbn [flat_map]. rewrite app_nil_r. reflexivity.
  - destruct ((blockM c =? 1) && chars_eqb (t_layer t) (str "Cboundary")); reflexivity.
Qed.

Lemma flat_map_flat_map {A B C} (f : A -> list B) (g : B -> list C) l :
  flat_map g (flat_map f l) = flat_map (fun x => flat_map g (f x)) l.
Proof. induction l; simpl; [reflexivity|]. rewrite flat_map_app, IHl. reflexivity. Qed.

Lemma obs_shapes_ident c pins ts : (forall t, In t ts -> ident (t_layer t)) ->
  forall x, In x (flat_map (obs_shapes c pins) ts) -> ident (fst x).
Proof.
  intros Hl x Hx. apply in_flat_map in Hx as (t & Ht & Hx). unfold obs_shapes in Hx.
  destruct ((negb (t_pin t) || _) && (blockM c =? 0) && negb (mem (t_layer t) (exclude_layers c))).
  - destruct Hx as [<-|[]]. apply Hl. assumption.
  - destruct ((blockM c =? 1) && chars_eqb (t_layer t) (str "Cboundary")); [|destruct Hx].
    destruct Hx as [<-|[<-|[<-|[]]]]; split; reflexivity.
Qed.

Definition file_toks (c : lefcfg) (bbox : Rect) (pins : list (chars * list (chars * Rect)))
  (obs : list (chars * Rect)) : list Token :=
  [kwt "MACRO"; tN (out_lef c); kwt "UNITS"; kwt "DATABASE"; kwt "MICRONS"; kwt "UNITS";
   tZ (1000 * scale_factor c); tS; kwt "END"; kwt "UNITS"; kwt "ORIGIN"; tZ 0; tZ 0; tS;
   kwt "FOREIGN"; tN (out_lef c); tZ 0; tZ 0; tS; kwt "SIZE"; tZ (urx bbox); kwt "BY"; tZ (ury bbox); tS]
  ++ flat_map (fun p => pin_toks (fst p) (snd p)) pins
  ++ [kwt "OBS"] ++ flat_map (fun x => shape_toks (fst x) (snd x)) obs
  ++ [kwt "END"; kwt "END"; tN (out_lef c)].

Definition written_pins (c : lefcfg) (pts : list (chars * Term)) : list chars :=
  filter (fun p => negb (chars_eqb p (str "B") && (bodyswitch c =? 0)))
    (sorted_set (map (fun nt => pin_name c (fst nt)) pts)).

Lemma gen_pins (f : chars -> list Term) ps rest :
  (forall p, In p ps -> ident p) -> (forall p t, In p ps -> In t (f p) -> ident (t_layer t)) ->
  gen (flat_map (fun p => pin_text p (f p)) ps ++ rest)
  = flat_map (fun p => pin_toks (fst p) (snd p)) (map (fun p => (p, map lr (f p))) ps) ++ gen rest.
Proof.
  induction ps as [|p ps IH]; intros H1 H2; [reflexivity|].
  cbn [flat_map map fst snd]. rewrite <- app_assoc.
  rewrite gen_pin; [|apply H1; left; reflexivity|intros t; apply H2; left; reflexivity].
  rewrite IH; [rewrite app_assoc; reflexivity| |].
  - intros; apply H1; right; assumption.
  - intros q t Hq; apply H2; right; assumption.
Qed.

Lemma pin_terms_in ts : forall pts nm t, pin_terms ts = Some pts -> In (nm, t) pts ->
  In t ts /\ t_pin t = true /\ t_net t = Some nm.
Proof.
  induction ts as [|u ts IH]; simpl; intros pts nm t E Hin; [injection E as <-; destruct Hin|].
  destruct (t_pin u) eqn:Eu.
  - destruct (t_net u) as [n|] eqn:En; [|discriminate].
    destruct (pin_terms ts) as [l|]; [|discriminate]. injection E as <-.
    destruct Hin as [Hin|Hin].
    + injection Hin as -> ->. auto.
    + destruct (IH l nm t eq_refl Hin) as (? & ? & ?). auto.
  - destruct (IH pts nm t E Hin) as (? & ? & ?). auto.
Qed.

Lemma pin_terms_in' ts : forall pts nm t, pin_terms ts = Some pts ->
  In t ts -> t_pin t = true -> t_net t = Some nm -> In (nm, t) pts.
Proof.
  induction ts as [|u ts IH]; simpl; intros pts nm t E Hin Hp Hn; [destruct Hin|].
  destruct (t_pin u) eqn:Eu.
  - destruct (t_net u) as [n|] eqn:En; [|discriminate].
    destruct (pin_terms ts) as [l|]; [|discriminate]. injection E as <-.
    destruct Hin as [->|Hin].
    + left. congruence.
    + right. eapply IH; eauto.
  - destruct Hin as [->|Hin]; [congruence|]. eapply IH; eauto.
Qed.

Lemma pin_terms_filter c nm ts : forall pts, pin_terms ts = Some pts ->
  shapes_of c pts nm = filter (is_pin_shape c nm) ts.
Proof.
  unfold shapes_of. induction ts as [|u ts IH]; simpl; intros pts E; [injection E as <-; reflexivity|].
  unfold is_pin_shape at 1. destruct (t_pin u) eqn:Eu.
  - destruct (t_net u) as [n|] eqn:En; [|discriminate].
    destruct (pin_terms ts) as [l|]; [|discriminate]. injection E as <-.
    cbn [filter fst snd andb]. destruct (chars_eqb (pin_name c n) nm && _); cbn [map snd]; rewrite IH by reflexivity; reflexivity.
  - cbn [andb]. apply IH. assumption.
Qed.

Lemma set_insert_in x y l : In y (set_insert x l) <-> y = x \/ In y l.
Proof.
  induction l as [|z l IH]; simpl; [intuition|].
  destruct (chars_eqb x z) eqn:E.
  - apply chars_eqb_eq in E. subst. simpl. intuition.
  - destruct (chars_leb x z); simpl; [intuition|]. rewrite IH. intuition.
Qed.

Lemma sorted_set_in y l : In y (sorted_set l) <-> In y l.
Proof.
  unfold sorted_set.
  assert (H : forall acc, In y (fold_left (fun acc x => set_insert x acc) l acc) <-> In y acc \/ In y l).
  { induction l as [|x l IH]; simpl; intros acc; [tauto|]. rewrite IH, set_insert_in. intuition. }
  rewrite H. simpl. tauto.
Qed.

Lemma chars_lt_trans a b d : chars_lt a b -> chars_lt b d -> chars_lt a d.
Proof.
  intros H. revert d. induction H as [c l|c d l m Hc|c l m H IH]; intros e He; inversion He; subst.
  - constructor.
  - constructor.
  - apply lt_head. lia.
  - apply lt_head. assumption.
  - apply lt_head. assumption.
  - apply lt_tail. auto.
Qed.

Lemma chars_leb_lt a b : a <> b -> chars_leb a b = true -> chars_lt a b.
Proof.
  revert b. induction a as [|x a IH]; intros [|y b] Hne Hle; try congruence; try discriminate.
  - constructor.
  - simpl in Hle. destruct (N.ltb_spec (code x) (code y)); [apply lt_head; assumption|].
    destruct (N.eqb_spec (code x) (code y)) as [E|]; [|discriminate].
    assert (x = y).
    { unfold code in E. rewrite <- (ascii_N_embedding x), <- (ascii_N_embedding y), E. reflexivity. }
    subst y. apply lt_tail. apply IH; [congruence|assumption].
Qed.

Lemma chars_leb_gt a b : chars_leb a b = false -> chars_lt b a.
Proof.
  revert b. induction a as [|x a IH]; intros [|y b] Hle; try discriminate.
  - constructor.
  - simpl in Hle. destruct (N.ltb_spec (code x) (code y)); [discriminate|].
    destruct (N.eqb_spec (code x) (code y)) as [E|]; [|apply lt_head; lia].
    assert (x = y).
    { unfold code in E. rewrite <- (ascii_N_embedding x), <- (ascii_N_embedding y), E. reflexivity. }
    subst y. apply lt_tail. apply IH. assumption.
Qed.

Lemma set_insert_sorted x l : StronglySorted chars_lt l -> StronglySorted chars_lt (set_insert x l).
Proof.
  induction 1 as [|y l Hl IH Hy]; simpl; [repeat constructor|].
  destruct (chars_eqb x y) eqn:E; [constructor; assumption|].
  apply chars_eqb_neq in E. destruct (chars_leb x y) eqn:E2.
  - apply chars_leb_lt in E2; [|assumption]. constructor; [constructor; assumption|].
    constructor; [assumption|]. eapply Forall_impl; [|exact Hy]. intros z Hz. eapply chars_lt_trans; eassumption.
  - apply chars_leb_gt in E2. constructor; [assumption|]. apply Forall_forall. intros z Hz.
    apply set_insert_in in Hz as [->|Hz]; [assumption|]. rewrite Forall_forall in Hy. auto.
Qed.

Lemma sorted_set_sorted l : StronglySorted chars_lt (sorted_set l).
Proof.
  unfold sorted_set. apply fold_left_ind; [constructor|]. intros. apply set_insert_sorted. assumption.
Qed.

Lemma filter_sorted {A} (R : A -> A -> Prop) f l : StronglySorted R l -> StronglySorted R (filter f l).
Proof.
  induction 1 as [|x l Hl IH Hx]; simpl; [constructor|]. destruct (f x); [|assumption].
  constructor; [assumption|]. rewrite Forall_forall in *. intros y Hy. apply filter_In in Hy as [Hy _]. auto.
Qed.

Record idents (c : lefcfg) (ts : list Term) : Prop := {
  id_macro : ident (out_lef c);
  id_pins : forall nm, names_pin c ts nm -> ident nm;
  id_layers : forall t, In t ts -> ident (t_layer t) }.

Lemma written_names c ts pts : pin_terms ts = Some pts -> forall nm,
  In nm (written_pins c pts) <-> names_pin c ts nm /\ ~ (nm = str "B" /\ bodyswitch c = 0).
Proof.
  intros Hp nm. unfold written_pins. rewrite filter_In, sorted_set_in, in_map_iff.
  assert (H : (exists x, pin_name c (fst x) = nm /\ In x pts) <-> names_pin c ts nm).
  { split.
    - intros ((n & t) & <- & Hin). destruct (pin_terms_in _ _ _ _ Hp Hin) as (H1 & H2 & H3).
      exists t, n. auto.
    - intros (t & n & H1 & H2 & H3 & H4). exists (n, t). split; [assumption|]. eapply pin_terms_in'; eassumption. }
  rewrite H. rewrite negb_true_iff, andb_false_iff, Z.eqb_neq. rewrite chars_eqb_neq.
  destruct (list_eq_dec ascii_dec nm (str "B")); destruct (Z.eq_dec (bodyswitch c) 0); tauto.
Qed.

Lemma lef_tokens c bbox ts text : idents c ts -> lef_from_layout_d c bbox ts = Some text ->
  exists pts, pin_terms ts = Some pts /\
  gen text = file_toks c bbox (map (fun p => (p, map lr (shapes_of c pts p))) (written_pins c pts))
     (flat_map (obs_shapes c (sorted_set (map (fun nt => pin_name c (fst nt)) pts))) ts).
Proof.
  intros [Hm Hpn Hly]. unfold lef_from_layout_d.
  destruct ((m2pitch c =? 0) || (m3pitch c =? 0)); [discriminate|].
  destruct (negb ((ury bbox - lly bbox) mod m2pitch c =? 0)); [discriminate|].
  destruct (negb ((urx bbox - llx bbox) mod m3pitch c =? 0)); [discriminate|].
  destruct (pin_terms ts) as [pts|] eqn:Ep; [|discriminate].
  fold (written_pins c pts). set (pins := sorted_set _).
  destruct (forallb _ _); [|discriminate].
  match goal with |- Some ?x = Some text -> _ => intros E; assert (Ex : text = x) by congruence end.
  clear E. rewrite Ex. clear Ex text. exists pts. split; [reflexivity|].
  assert (Hsh : forall p t, In t (shapes_of c pts p) -> ident (t_layer t)).
  { intros p t Ht. rewrite (pin_terms_filter _ _ _ _ Ep) in Ht. apply filter_In in Ht as [Ht _]. auto. }
  lit (str "MACRO "). rewrite gen_name by (assumption || reflexivity). rewrite gen_nl.
  lit (str "  UNITS "). rewrite gen_nl. lit (str "    DATABASE MICRONS UNITS ").
  rewrite gen_num by numend. lit (str ";"). rewrite gen_nl. lit (str "  END UNITS "). rewrite gen_nl.
  lit (str "  ORIGIN 0 0 ;"). rewrite gen_nl. lit (str "  FOREIGN ").
  rewrite gen_name by (assumption || reflexivity). lit (str " 0 0 ;"). rewrite gen_nl.
  lit (str "  SIZE "). rewrite gen_num by numend. lit (str " BY "). rewrite gen_num by numend.
  lit (str " ;"). rewrite gen_nl.
  rewrite gen_pins; [| |intros p t _; apply Hsh].
  2:{ intros p Hp. apply (written_names c ts pts Ep) in Hp as [Hp _]. auto. }
  rewrite (app_assoc (str "  OBS") nl). lit (str "  OBS" ++ nl).
  rewrite (flat_map_ext _ _ (obs_text_shapes c pins)).
  rewrite <- flat_map_flat_map.
  rewrite (gen_shapes "    " 4 "      " 6); [|reflexivity|reflexivity|exact (obs_shapes_ident c pins ts Hly)].
  rewrite (app_assoc (str "  END") nl). lit (str "  END" ++ nl). lit (str "END ").
  rewrite gen_name by (assumption || reflexivity). change (gen nl) with (@nil Token).
  reflexivity.
Qed.

(** ** Parser on the token stream. *)
Definition dport (x : chars * Rect) : port := (fst x, dec_rect (snd x)).

Lemma kw_yes s l : kw (str s) (kwt s :: l) = Some l.
Proof. unfold kw, kwt, tN. cbn [ttype tvalue toktype_eqb andb]. rewrite chars_eqb_refl. reflexivity. Qed.
Lemma expect_kw_nm nm l : expect_kw nm (tN nm :: l) = Ok tt l.
Proof. unfold expect_kw, kw, tN. cbn [ttype tvalue toktype_eqb andb]. rewrite chars_eqb_refl. reflexivity. Qed.
Lemma kw_no s s' l : str s <> str s' -> kw (str s) (kwt s' :: l) = None.
Proof.
  intros H. unfold kw, kwt, tN. cbn [ttype tvalue toktype_eqb andb].
  assert (E : chars_eqb (str s') (str s) = false) by (apply chars_eqb_neq; congruence).
  rewrite E. reflexivity.
Qed.
Lemma expect_name nm l : expect NAME (tN nm :: l) = Ok nm l.
Proof. reflexivity. Qed.
Lemma expect_name_kw s l : expect NAME (kwt s :: l) = Ok (str s) l.
Proof. reflexivity. Qed.
Lemma expect_semi l : expect SEMI (tS :: l) = Ok (str ";") l.
Proof. reflexivity. Qed.
Lemma pA_num z l : pA (tZ z :: l) = Ok (int_dec z) l.
Proof. unfold pA, expect, tZ. cbn [ttype tvalue toktype_eqb bind]. rewrite float_print. reflexivity. Qed.

Lemma ports_shapes (l : list (chars * Rect)) rest : forall n layer acc,
  (2 * List.length l < n)%nat ->
  ports n layer acc (flat_map (fun x => shape_toks (fst x) (snd x)) l ++ kwt "END" :: rest)
  = Ok (acc ++ map dport l) rest.
Proof.
  induction l as [|x l IH]; intros n layer acc Hn.
  - destruct n as [|n]; [simpl in Hn; lia|]. cbn [flat_map app map ports]. rewrite kw_yes, app_nil_r. reflexivity.
  - simpl in Hn. destruct n as [|[|n]]; try lia.
    cbn [flat_map]. unfold shape_toks, rect_toks. cbn [app].
    cbn [ports]. rewrite (kw_no "END" "LAYER") by discriminate. rewrite kw_yes, expect_name. cbn [bind].
    rewrite expect_semi. cbn [bind]. rewrite (kw_no "END" "RECT"), (kw_no "LAYER" "RECT") by discriminate.
    rewrite kw_yes. rewrite pA_num. cbn [bind]. rewrite pA_num. cbn [bind]. rewrite pA_num. cbn [bind].
    rewrite pA_num. cbn [bind]. rewrite expect_semi. cbn [bind].
    rewrite IH by lia. rewrite <- app_assoc. reflexivity.
Qed.

Lemma shapes_length l : List.length (flat_map (fun x => shape_toks (fst x) (snd x)) l) = (9 * List.length l)%nat.
Proof. induction l as [|x l IH]; [reflexivity|]. cbn [flat_map]. rewrite app_length, IH. simpl. lia. Qed.

(** Tokens of a pin after its name. *)
Lemma pin_loop_toks nm shapes rest n :
  (List.length (pin_toks nm shapes) <= n)%nat ->
  pin_loop n (mkPin nm None None) (tl (tl (pin_toks nm shapes)) ++ rest)
  = Ok (mkPin nm (Some (str "INOUT")) (Some (map dport shapes))) rest.
Proof.
  intros Hn. unfold pin_toks in *. rewrite app_length, app_length, shapes_length in Hn. simpl in Hn.
  do 4 (destruct n as [|n]; [lia|]). cbn [app tl].
  cbn [pin_loop]. rewrite (kw_no "END" "DIRECTION") by discriminate. rewrite kw_yes, expect_name_kw. cbn [bind].
  rewrite expect_semi. cbn [bind]. cbn [p_nm p_dir p_ports].
  rewrite (kw_no "END" "USE"), (kw_no "DIRECTION" "USE") by discriminate. rewrite kw_yes, expect_name_kw.
  cbn [bind]. rewrite expect_semi. cbn [bind].
  rewrite (kw_no "END" "PORT"), (kw_no "DIRECTION" "PORT"), (kw_no "USE" "PORT") by discriminate.
  rewrite kw_yes. rewrite <- app_assoc. cbn [app].
  rewrite ports_shapes by lia. cbn [bind p_nm p_dir p_ports]. rewrite kw_yes, expect_kw_nm. reflexivity.
Qed.

Definition exp_pin (p : chars * list (chars * Rect)) : Pin :=
  mkPin (fst p) (Some (str "INOUT")) (Some (map dport (snd p))).

Lemma pin_toks_cons nm shapes : pin_toks nm shapes = kwt "PIN" :: tN nm :: tl (tl (pin_toks nm shapes)).
Proof. reflexivity. Qed.

Lemma macro_loop_pins (pins : list (chars * list (chars * Rect))) : forall n m rest,
  (List.length (flat_map (fun p => pin_toks (fst p) (snd p)) pins) < n)%nat ->
  exists n', (n <= n' + List.length (flat_map (fun p => pin_toks (fst p) (snd p)) pins))%nat /\
  macro_loop n m (flat_map (fun p => pin_toks (fst p) (snd p)) pins ++ rest)
  = macro_loop n' (mkMacro (m_name m) (m_origin m) (m_foreign m) (m_size m)
       (m_pins m ++ map exp_pin pins) (m_obs m) (m_scale m)) rest.
Proof.
  induction pins as [|p pins IH]; intros n m rest Hn.
  - exists n. split; [simpl; lia|]. cbn [flat_map app map]. rewrite app_nil_r. destruct m; reflexivity.
  - cbn [flat_map] in *. rewrite app_length in Hn. destruct n as [|n]; [lia|].
    assert (Hp : (2 <= List.length (pin_toks (fst p) (snd p)))%nat) by (rewrite pin_toks_cons; simpl; lia).
    destruct (IH n (mkMacro (m_name m) (m_origin m) (m_foreign m) (m_size m)
                     (m_pins m ++ [exp_pin p]) (m_obs m) (m_scale m)) rest) as (n' & Hn' & E); [lia|].
    exists n'. split; [rewrite app_length; lia|].
    rewrite <- app_assoc. rewrite pin_toks_cons. cbn [app]. cbn [macro_loop].
    rewrite (kw_no "END" "PIN"), (kw_no "ORIGIN" "PIN"), (kw_no "FOREIGN" "PIN"), (kw_no "SIZE" "PIN") by discriminate.
    rewrite kw_yes, expect_name. cbn [bind].
    rewrite pin_loop_toks by lia. cbn [bind]. fold (exp_pin p).
    rewrite E. cbn [m_name m_origin m_foreign m_size m_pins m_obs m_scale map]. rewrite <- app_assoc. reflexivity.
Qed.

Definition exp_macro (c : lefcfg) (bbox : Rect) pins obs : Macro :=
  mkMacro (out_lef c) (Some (int_dec 0, int_dec 0)) (Some (out_lef c, int_dec 0, int_dec 0))
    (Some (int_dec (urx bbox), int_dec (ury bbox))) (map exp_pin pins) (Some (map dport obs))
    (int_dec (1000 * scale_factor c)).

Lemma step_units n m z rest :
  macro_loop (Datatypes.S n) m (kwt "UNITS" :: kwt "DATABASE" :: kwt "MICRONS" :: kwt "UNITS" :: tZ z :: tS ::
      kwt "END" :: kwt "UNITS" :: rest)
  = macro_loop n (mkMacro (m_name m) (m_origin m) (m_foreign m) (m_size m) (m_pins m) (m_obs m) (int_dec z)) rest.
Proof.
  cbn [macro_loop].
  rewrite (kw_no "END" "UNITS"), (kw_no "ORIGIN" "UNITS"), (kw_no "FOREIGN" "UNITS"), (kw_no "SIZE" "UNITS"),
      (kw_no "PIN" "UNITS") by discriminate.
  rewrite kw_yes. do 3 (unfold expect_kw at 1; rewrite kw_yes; cbn [bind]).
  rewrite pA_num. cbn [bind]. rewrite expect_semi. cbn [bind].
  do 2 (unfold expect_kw at 1; rewrite kw_yes; cbn [bind]). reflexivity.
Qed.

Lemma step_origin n m x y rest :
  macro_loop (Datatypes.S n) m (kwt "ORIGIN" :: tZ x :: tZ y :: tS :: rest)
  = macro_loop n (mkMacro (m_name m) (Some (int_dec x, int_dec y)) (m_foreign m) (m_size m) (m_pins m) (m_obs m) (m_scale m)) rest.
Proof.
  cbn [macro_loop]. rewrite (kw_no "END" "ORIGIN") by discriminate. rewrite kw_yes, pA_num. cbn [bind].
  rewrite pA_num. cbn [bind]. rewrite expect_semi. reflexivity.
Qed.

Lemma step_foreign n m nm x y rest :
  macro_loop (Datatypes.S n) m (kwt "FOREIGN" :: tN nm :: tZ x :: tZ y :: tS :: rest)
  = macro_loop n (mkMacro (m_name m) (m_origin m) (Some (nm, int_dec x, int_dec y)) (m_size m) (m_pins m) (m_obs m) (m_scale m)) rest.
Proof.
  cbn [macro_loop]. rewrite (kw_no "END" "FOREIGN"), (kw_no "ORIGIN" "FOREIGN") by discriminate.
  rewrite kw_yes, expect_name. cbn [bind]. rewrite pA_num. cbn [bind]. rewrite pA_num. cbn [bind].
  rewrite expect_semi. reflexivity.
Qed.

Lemma step_size n m x y rest :
  macro_loop (Datatypes.S n) m (kwt "SIZE" :: tZ x :: kwt "BY" :: tZ y :: tS :: rest)
  = macro_loop n (mkMacro (m_name m) (m_origin m) (m_foreign m) (Some (int_dec x, int_dec y)) (m_pins m) (m_obs m) (m_scale m)) rest.
Proof.
  cbn [macro_loop]. rewrite (kw_no "END" "SIZE"), (kw_no "ORIGIN" "SIZE"), (kw_no "FOREIGN" "SIZE") by discriminate.
  rewrite kw_yes, pA_num. cbn [bind]. unfold expect_kw at 1. rewrite kw_yes. cbn [bind].
  rewrite pA_num. cbn [bind]. rewrite expect_semi. reflexivity.
Qed.

Lemma step_obs n m obs rest : (2 * List.length obs < n)%nat ->
  macro_loop (Datatypes.S n) m (kwt "OBS" :: flat_map (fun x => shape_toks (fst x) (snd x)) obs ++ kwt "END" :: rest)
  = macro_loop n (mkMacro (m_name m) (m_origin m) (m_foreign m) (m_size m) (m_pins m) (Some (map dport obs)) (m_scale m)) rest.
Proof.
  intros Hn. cbn [macro_loop].
  rewrite (kw_no "END" "OBS"), (kw_no "ORIGIN" "OBS"), (kw_no "FOREIGN" "OBS"), (kw_no "SIZE" "OBS"),
      (kw_no "PIN" "OBS"), (kw_no "UNITS" "OBS") by discriminate.
  rewrite kw_yes. rewrite ports_shapes by assumption. reflexivity.
Qed.

Lemma step_end n m rest : macro_loop (Datatypes.S n) m (kwt "END" :: tN (m_name m) :: rest) = Ok m rest.
Proof. cbn [macro_loop]. rewrite kw_yes, expect_kw_nm. reflexivity. Qed.

Lemma step_macro n ms nm r :
  whole (Datatypes.S n) ms (kwt "MACRO" :: tN nm :: r)
  = bind (macro_loop n (mkMacro nm None None None [] None (mkDec 10000 0)) r) (fun m r => whole n (ms ++ [m]) r).
Proof.
  cbn [whole].
  rewrite (kw_no "END" "MACRO"), (kw_no "VERSION" "MACRO"), (kw_no "BUSBITCHARS" "MACRO"),
    (kw_no "DIVIDERCHAR" "MACRO"), (kw_no "PROPERTYDEFINITIONS" "MACRO") by discriminate.
  rewrite kw_yes. unfold macro. rewrite expect_name. reflexivity.
Qed.

Lemma whole_end n ms : whole (Datatypes.S n) ms [] = Ok ms [].
Proof. reflexivity. Qed.

Lemma whole_file c bbox pins obs :
  whole (Datatypes.S (List.length (file_toks c bbox pins obs))) [] (file_toks c bbox pins obs)
  = Ok [exp_macro c bbox pins obs] [].
Proof.
  set (N0 := List.length (file_toks c bbox pins obs)).
  assert (HN : N0 = (24 + List.length (flat_map (fun p => pin_toks (fst p) (snd p)) pins)
                      + 1 + 9 * List.length obs + 3)%nat).
  { unfold N0, file_toks. rewrite !app_length, shapes_length. cbn [List.length]. lia. }
  clearbody N0. unfold file_toks. cbn [app]. rewrite step_macro.
  set (tail := flat_map (fun p => pin_toks (fst p) (snd p)) pins ++ _).
  assert (HE : exists k, (List.length (flat_map (fun p => pin_toks (fst p) (snd p)) pins) + 9 * List.length obs + 10 < k)%nat
     /\ N0 = (4 + k)%nat) by (exists (N0 - 4)%nat; lia).
  destruct HE as (k & Hk & HNk).
  assert (HM : macro_loop N0 (mkMacro (out_lef c) None None None [] None (mkDec 10000 0))
     (kwt "UNITS" :: kwt "DATABASE" :: kwt "MICRONS" :: kwt "UNITS" :: tZ (1000 * scale_factor c) :: tS ::
      kwt "END" :: kwt "UNITS" :: kwt "ORIGIN" :: tZ 0 :: tZ 0 :: tS :: kwt "FOREIGN" :: tN (out_lef c) ::
      tZ 0 :: tZ 0 :: tS :: kwt "SIZE" :: tZ (urx bbox) :: kwt "BY" :: tZ (ury bbox) :: tS :: tail)
     = Ok (exp_macro c bbox pins obs) []).
  { rewrite HNk. change (4 + k)%nat with (Datatypes.S (Datatypes.S (Datatypes.S (Datatypes.S k)))).
    rewrite step_units, step_origin, step_foreign, step_size.
    cbn [m_name m_origin m_foreign m_size m_pins m_obs m_scale].
    unfold tail.
    match goal with |- macro_loop k ?m (_ ++ ?r) = _ =>
      destruct (macro_loop_pins pins k m r) as (n' & Hn' & ->); [lia|] end.
    cbn [m_name m_origin m_foreign m_size m_pins m_obs m_scale app].
    destruct n' as [|[|n']]; [lia|lia|]. rewrite step_obs by lia. rewrite step_end. reflexivity. }
  rewrite HM. clear HM. unfold bind. destruct N0 as [|n0]; [lia|]. apply whole_end.
Qed.

Lemma parse_file c bbox ts text : idents c ts -> lef_from_layout_d c bbox ts = Some text ->
  exists pts, pin_terms ts = Some pts /\
  parse text = Ok [exp_macro c bbox (map (fun p => (p, map lr (shapes_of c pts p))) (written_pins c pts))
     (flat_map (obs_shapes c (sorted_set (map (fun nt => pin_name c (fst nt)) pts))) ts)] [].
Proof.
  intros Hid E. destruct (lef_tokens _ _ _ _ Hid E) as (pts & Hp & Hg).
  exists pts. split; [assumption|]. unfold parse. rewrite Hg. apply whole_file.
Qed.

(** ** The parser terminates on every token list: the loop bound is never exhausted. *)
Definition good {A} (l : list Token) (x : res A) : Prop :=
  match x with Ok _ r => (List.length r <= List.length l)%nat | Err => True | Fuel => False end.

Lemma kw_len k l r : kw k l = Some r -> List.length l = Datatypes.S (List.length r).
Proof.
  destruct l as [|t l]; simpl; [discriminate|].
  destruct (toktype_eqb (ttype t) NAME && chars_eqb (tvalue t) k); [|discriminate].
  intros E; injection E as ->. reflexivity.
Qed.
Lemma expect_good t l : good l (expect t l).
Proof. destruct l as [|k l]; simpl; [exact I|]. destruct (toktype_eqb (ttype k) t); simpl; [lia|exact I]. Qed.
Lemma expect_strict t l a r : expect t l = Ok a r -> List.length l = Datatypes.S (List.length r).
Proof. destruct l as [|k l]; simpl; [discriminate|]. destruct (toktype_eqb (ttype k) t); [|discriminate]. intros E; injection E as <- <-. reflexivity. Qed.
Lemma expect_kw_good k l : good l (expect_kw k l).
Proof. unfold expect_kw. destruct (kw k l) eqn:E; simpl; [apply kw_len in E; lia|exact I]. Qed.
Lemma bind_good {A B} (x : res A) (f : A -> list Token -> res B) l :
  good l x -> (forall a r, x = Ok a r -> (List.length r <= List.length l)%nat -> good r (f a r)) ->
  good l (bind x f).
Proof.
  destruct x as [a r| |]; simpl; intros Hx Hf; auto.
  specialize (Hf a r eq_refl Hx). destruct (f a r); simpl in *; auto. lia.
Qed.
Lemma good_weaken {A} l l' (x : res A) : good l x -> (List.length l <= List.length l')%nat -> good l' x.
Proof. destruct x; simpl; auto; lia. Qed.
Lemma pA_good l : good l (pA l).
Proof. unfold pA. apply bind_good; [apply expect_good|]. intros; simpl; lia. Qed.

Ltac gb := apply bind_good; [first [apply expect_good|apply expect_kw_good|apply pA_good]|intros].
Ltac kwc := match goal with
  | |- context [match kw ?k ?l with _ => _ end] =>
      let E := fresh "E" in destruct (kw k l) eqn:E; [apply kw_len in E|]
  end.

Lemma ports_good n : forall layer acc l, (List.length l < n)%nat -> good l (ports n layer acc l).
Proof.
  induction n as [|n IH]; intros layer acc l Hn; [lia|]. cbn [ports].
  kwc; [simpl; lia|]. kwc.
  { eapply good_weaken with (l := l0); [|lia]. gb. gb. apply IH. lia. }
  kwc; [|exact I]. eapply good_weaken with (l := l0); [|lia].
  do 5 gb. destruct layer; [apply IH; lia|exact I].
Qed.

Lemma pin_loop_good n : forall p l, (List.length l < n)%nat -> good l (pin_loop n p l).
Proof.
  induction n as [|n IH]; intros p l Hn; [lia|]. cbn [pin_loop].
  kwc. { eapply good_weaken with (l := l0); [|lia]. gb. simpl. lia. }
  kwc. { eapply good_weaken with (l := l0); [|lia]. gb. gb. apply IH. lia. }
  kwc. { eapply good_weaken with (l := l0); [|lia]. gb. gb. apply IH. lia. }
  kwc; [|exact I]. eapply good_weaken with (l := l0); [|lia].
  apply bind_good; [apply ports_good; lia|]. intros. apply IH. lia.
Qed.

Lemma macro_loop_good n : forall m l, (List.length l < n)%nat -> good l (macro_loop n m l).
Proof.
  induction n as [|n IH]; intros m l Hn; [lia|]. cbn [macro_loop].
  kwc. { eapply good_weaken with (l := l0); [|lia]. gb. simpl. lia. }
  kwc. { eapply good_weaken with (l := l0); [|lia]. do 3 gb. apply IH. lia. }
  kwc. { eapply good_weaken with (l := l0); [|lia]. do 4 gb. apply IH. lia. }
  kwc. { eapply good_weaken with (l := l0); [|lia]. do 4 gb. apply IH. lia. }
  kwc. { eapply good_weaken with (l := l0); [|lia]. gb.
         apply bind_good; [apply pin_loop_good; lia|]. intros. apply IH. lia. }
  kwc. { eapply good_weaken with (l := l0); [|lia]. do 7 gb. apply IH. lia. }
  kwc. { eapply good_weaken with (l := l0); [|lia]. apply bind_good; [apply ports_good; lia|].
         intros. apply IH. lia. }
  kwc. { eapply good_weaken with (l := l0); [|lia]. gb.
         destruct r as [|t r']; [exact I|].
         destruct (toktype_eqb (ttype t) LIT || toktype_eqb (ttype t) NUM); [|exact I].
         simpl in *. eapply good_weaken with (l := r'); [|simpl; lia]. gb. apply IH. simpl in *; lia. }
  apply bind_good; [apply expect_good|]. intros a r Hx Hr.
  apply expect_strict in Hx. apply IH. lia.
Qed.

Lemma propdefs_good n : forall l, (List.length l < n)%nat -> good l (propdefs n l).
Proof.
  induction n as [|n IH]; intros l Hn; [lia|]. cbn [propdefs].
  kwc. { kwc; simpl; lia. }
  kwc; [|exact I]. eapply good_weaken with (l := l0); [|lia]. do 3 gb. apply IH. lia.
Qed.

Lemma whole_good n : forall ms l, (List.length l < n)%nat -> good l (whole n ms l).
Proof.
  induction n as [|n IH]; intros ms l Hn; [lia|]. cbn [whole].
  kwc. { kwc; simpl; lia. }
  kwc. { eapply good_weaken with (l := l0); [|lia]. do 2 gb. apply IH. lia. }
  kwc. { eapply good_weaken with (l := l0); [|lia]. do 2 gb. apply IH. lia. }
  kwc. { eapply good_weaken with (l := l0); [|lia]. do 2 gb. apply IH. lia. }
  kwc. { eapply good_weaken with (l := l0); [|lia].
         apply bind_good; [apply propdefs_good; lia|]. intros. apply IH. lia. }
  kwc. { eapply good_weaken with (l := l0); [|lia].
         apply bind_good. { unfold macro. gb. apply macro_loop_good. lia. }
         intros. apply IH. lia. }
  destruct l; [simpl; lia|exact I].
Qed.

Lemma parse_total text : parse text <> Fuel.
Proof.
  unfold parse. intros E. pose proof (whole_good (Datatypes.S (List.length (gen text))) [] (gen text) ltac:(lia)) as H.
  rewrite E in H. exact H.
Qed.
