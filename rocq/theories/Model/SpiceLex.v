(** The tokens of a SPICE netlist (schema/parser.py:14-82).  Regular expressions are written in continuation-passing
    style, with the order of alternatives and the backtracking of Python's [re]: a matcher gets what follows it and the
    text, and gives the text left over. *)
From Coq Require Import String Ascii.
From Verif Require Import Base.Prelude Base.PyStr.

Definition mat := (chars -> option chars) -> chars -> option chars.
(** A character class, [p*], [p+]. *)
Definition cls (p : ascii -> bool) : mat := fun k s => match s with c :: t => if p c then k t else None | [] => None end.
Fixpoint star (p : ascii -> bool) (k : chars -> option chars) (s : chars) : option chars :=
  match s with
  | c :: t => if p c then match star p k t with Some r => Some r | None => k s end else k s
  | [] => k s
  end.
Definition seq (a b : mat) : mat := fun k => a (b k).
Definition plus (p : ascii -> bool) : mat := seq (cls p) (star p).
Definition alt (a b : mat) : mat := fun k s => match a k s with Some r => Some r | None => b k s end.
Definition opt (a : mat) : mat := fun k s => match a k s with Some r => Some r | None => k s end.
(** [(a)*] for an [a] that takes at least one character; the number of rounds is bounded by the length of the text. *)
Fixpoint rounds (n : nat) (a : mat) (k : chars -> option chars) (s : chars) : option chars :=
  match n with
  | O => k s
  | S n => match a (rounds n a k) s with Some r => Some r | None => k s end
  end.
Definition many (a : mat) : mat := fun k s => rounds (length s) a k s.
Definition chr (c : ascii) : mat := cls (Ascii.eqb c).
(** Flag IGNORECASE (line 54), for a pattern in upper case. *)
Definition up (c : ascii) : ascii := if ((97 <=? code c) && (code c <=? 122))%N then ascii_of_N (code c - 32) else c.
Definition lits (w : chars) : mat := fold_right (fun c m => seq (cls (fun d => Ascii.eqb (up d) c)) m) (fun k => k) w.
Definition alts (l : list mat) : mat := fold_right alt (fun _ _ => None) l.

(** [\s], for ASCII; [[\n\r]]. *)
Definition sp (c : ascii) : bool := (((9 <=? code c) && (code c <=? 13)) || ((28 <=? code c) && (code c <=? 32)))%N.
Definition nl (c : ascii) : bool := ((code c =? 10) || (code c =? 13))%N.
Definition among (l : string) (c : ascii) : bool := existsb (Ascii.eqb c) (str l).
(** 14-25. *)
Definition units : list chars := map str ["T"; "G"; "X"; "MEG"; "K"; "M"; "U"; "N"; "P"; "F"]%string.
(** 35-40: numericval, identifier, operator ([+-/] is a range), exprcontent, commentchars. *)
Definition numericval : mat :=
  seq (opt (cls (among "+-"))) (seq (alt (chr "0") (seq (cls (fun c => is_digit c && negb (Ascii.eqb c "0"))) (star is_digit)))
    (seq (opt (seq (chr ".") (plus is_digit))) (seq (opt (seq (lits (str "E")) (seq (opt (cls (among "+-"))) (plus is_digit)))) (opt (alts (map lits units)))))).
Definition ident (c : ascii) : bool := negb (sp c) && negb (among "{}()=;*" c).
Definition opchar (c : ascii) : bool := Ascii.eqb c "*" || Ascii.eqb c "%" || ((43 <=? code c) && (code c <=? 47))%N.
Definition operator : mat := seq (star sp) (seq (cls opchar) (star sp)).
Definition operand : mat := alt numericval (plus ident).
Definition exprcontent : mat := seq operand (many (seq operator operand)).
Definition commentchars : mat := alt (cls (among ";$")) (seq (chr "/") (chr "/")).

(** 42-53.  [(^|\s)*] and [(^|[\n\r])+]: a [^] takes no characters and only matches where the text starts. *)
Inductive ttype := tANNOTATION | tNLCOMMENT | tCOMMENT | tCONTINUE | tBACKSLASH | tNEWL | tEQUALS | tEXPR | tNUMBER | tDECL | tNAME | tWS.
Definition not_nl (c : ascii) : bool := negb (nl c).
Definition m_annotation : mat := seq (star sp) (seq (alt (chr "*") commentchars) (seq (many (alt (chr "*") commentchars)) (seq (star sp) (seq (chr "@") (seq (chr ":") (seq (star sp) (star not_nl))))))).
Definition lead (start : bool) : mat := if start then star nl else plus nl.
Definition m_nlcomment (start : bool) : mat := seq (lead start) (seq (chr "*") (star not_nl)).
Definition m_comment : mat := seq (star sp) (seq commentchars (star not_nl)).
Definition m_continue (start : bool) : mat := seq (lead start) (chr "+").
Definition m_backslash : mat := seq (chr "\") (seq (star sp) (cls nl)).
Definition m_newl : mat := plus nl.
Definition m_equals : mat := seq (star sp) (seq (chr "=") (star sp)).
Definition m_quoted : mat := fun k s => match s with c :: t => if (Ascii.eqb c "'" || Ascii.eqb c """")%char then exprcontent (chr c k) t else None | [] => None end.
Definition m_expr : mat := alt m_quoted (seq (chr "{") (seq exprcontent (chr "}"))).
(** [(?=\s|\Z|commentchars)]. *)
Definition at_end : mat := fun k s =>
  if match s with [] => true | c :: _ => sp c end || match commentchars Some s with Some _ => true | None => false end then k s else None.
Definition m_number : mat := seq numericval at_end.
Definition m_decl : mat := seq (chr ".") (plus ident).
Definition patterns (start : bool) : list (ttype * mat) :=
  [(tANNOTATION, m_annotation); (tNLCOMMENT, m_nlcomment start); (tCOMMENT, m_comment); (tCONTINUE, m_continue start); (tBACKSLASH, m_backslash); (tNEWL, m_newl);
   (tEQUALS, m_equals); (tEXPR, m_expr); (tNUMBER, m_number); (tDECL, m_decl); (tNAME, plus ident); (tWS, plus sp)].

(** One step of the scanner (76-77): the first pattern that matches here. *)
Fixpoint first_match (ps : list (ttype * mat)) (s : chars) : option (ttype * chars) :=
  match ps with
  | [] => None
  | (t, m) :: ps => match m Some s with Some r => Some (t, r) | None => first_match ps s end
  end.
(** All lexemes, and the text that is left when no pattern matches; the scanner stops there without an error. *)
Fixpoint lex (fuel : nat) (start : bool) (s : chars) : list (ttype * chars) * chars :=
  match fuel with
  | O => ([], s)
  | S fuel =>
      match first_match (patterns start) s with
      | None => ([], s)
      | Some (t, r) => let '(l, rest) := lex fuel false r in ((t, firstn (length s - length r) s) :: l, rest)
      end
  end.
Definition scan (s : chars) : list (ttype * chars) * chars := lex (S (length s)) true s.
(** [_generate_tokens] (73-82). *)
Definition kept (t : ttype) : bool := match t with tEXPR | tNUMBER | tDECL | tNAME | tNEWL | tEQUALS | tANNOTATION => true | _ => false end.
Definition tokens (s : chars) : list (ttype * chars) := filter (fun x => kept (fst x)) (fst (scan s)).

(** [annotation.split('@:')[1].strip()] (111). *)
Fixpoint after_mark (s : chars) : chars :=
  match s with
  | c :: ((d :: t) as r) => if Ascii.eqb c "@" && Ascii.eqb d ":" then t else after_mark r
  | _ => []
  end.
Fixpoint before_mark (s : chars) : chars :=
  match s with
  | [] => []
  | c :: t => match t with d :: _ => if Ascii.eqb c "@" && Ascii.eqb d ":" then [] else c :: before_mark t | [] => [c] end
  end.
Fixpoint lstrip (s : chars) : chars := match s with c :: t => if sp c then lstrip t else s | [] => [] end.
Definition strip (s : chars) : chars := rev (lstrip (rev (lstrip s))).
Definition note_text (s : chars) : chars := strip (before_mark (after_mark s)).

(** What [parse] (84-99) does with the tokens: statements, cut at line ends and annotations, and annotations. *)
Inductive event := EStmt (l : list (ttype * chars)) | ENote (txt : chars).
Definition flush (cache : list (ttype * chars)) : list event := match cache with [] => [] | _ => [EStmt cache] end.
Definition feed (st : list event * list (ttype * chars)) (tok : ttype * chars) : list event * list (ttype * chars) :=
  let '(done, cache) := st in
  match fst tok with
  | tNEWL => (done ++ flush cache, [])
  | tANNOTATION => (done ++ flush cache ++ [ENote (note_text (snd tok))], [])
  | _ => (done, cache ++ [tok])
  end.
Definition events (toks : list (ttype * chars)) : list event := let '(done, cache) := fold_left feed toks ([], []) in done ++ flush cache.
