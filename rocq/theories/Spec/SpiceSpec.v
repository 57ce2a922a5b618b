(** What a SPICE netlist says, line by line, independently of how it is read. *)
From Coq Require Import String Ascii.
From Verif Require Import Base.Prelude Base.PyStr Model.SpiceLex.

Definition blank (c : ascii) : bool := Ascii.eqb c " " || Ascii.eqb c (ascii_of_N 9).
Definition newline : ascii := ascii_of_N 10.
Definition letter (c : ascii) : bool := (((65 <=? code c) && (code c <=? 90)) || ((97 <=? code c) && (code c <=? 122)))%N.
(** Characters of names: none of the separators. *)
Definition name_char (c : ascii) : bool := ((33 <=? code c) && (code c <=? 126))%N && negb (existsb (Ascii.eqb c) (str "{}()=;*")).
Definition name_start (c : ascii) : bool := letter c || existsb (Ascii.eqb c) (str "_<>[]!#&?@^`|~:").
Definition name (w : chars) : Prop := match w with c :: t => name_start c = true /\ forallb name_char t = true | [] => False end.
Definition all_name (w : chars) : Prop := w <> [] /\ forallb name_char w = true.

(** Numbers: sign, integer part, fraction, exponent, unit. *)
Record numeral := mkNum { n_sign : option ascii; n_int : chars; n_frac : option chars; n_exp : option (ascii * option ascii * chars); n_unit : option chars }.
Definition sign_ok (c : option ascii) : Prop := match c with None => True | Some c => c = "+"%char \/ c = "-"%char end.
Definition digits (w : chars) : Prop := w <> [] /\ forallb is_digit w = true.
Definition upper_char (c : ascii) : ascii := if letter c && (97 <=? code c)%N then ascii_of_N (code c - 32) else c.
Definition unit_names : list chars := map str ["T"; "G"; "X"; "MEG"; "K"; "M"; "U"; "N"; "P"; "F"]%string.
Definition numeral_ok (n : numeral) : Prop :=
  sign_ok (n_sign n) /\ (n_int n = str "0" \/ digits (n_int n) /\ hd "0"%char (n_int n) <> "0"%char) /\
  match n_frac n with None => True | Some f => digits f end /\
  match n_exp n with None => True | Some (e, s, d) => (e = "e"%char \/ e = "E"%char) /\ sign_ok s /\ digits d end /\
  match n_unit n with None => True | Some u => In (map upper_char u) unit_names end.
Definition opt_chars (c : option ascii) : chars := match c with Some c => [c] | None => [] end.
Definition num_chars (n : numeral) : chars :=
  opt_chars (n_sign n) ++ n_int n ++ (match n_frac n with Some f => str "." ++ f | None => [] end) ++
  (match n_exp n with Some (e, s, d) => e :: opt_chars s ++ d | None => [] end) ++ (match n_unit n with Some u => u | None => [] end).

(** Values.  An expression in braces is a list of names and numbers with operators between them. *)
Inductive value := VName (w : chars) | VDecl (w : chars) | VNum (n : numeral) | VExpr (w : chars) (more : list ((chars * ascii * chars) * chars)).
Definition arith_op (c : ascii) : bool := existsb (Ascii.eqb c) (str "*+-/%").
Definition piece_ok (p : (chars * ascii * chars) * chars) : Prop :=
  let '((b1, o, b2), w) := p in forallb blank b1 = true /\ arith_op o = true /\ forallb blank b2 = true /\ all_name w.
Definition piece_chars (p : (chars * ascii * chars) * chars) : chars := let '((b1, o, b2), w) := p in b1 ++ o :: b2 ++ w.
Definition value_ok (v : value) : Prop :=
  match v with
  | VName w => name w
  | VDecl w => all_name w
  | VNum n => numeral_ok n
  | VExpr w more => all_name w /\ Forall piece_ok more
  end.
Definition value_chars (v : value) : chars :=
  match v with
  | VName w => w
  | VDecl w => "."%char :: w
  | VNum n => num_chars n
  | VExpr w more => "{"%char :: w ++ concat (map piece_chars more) ++ ["}"%char]
  end.
Definition value_type (v : value) : ttype := match v with VName _ => tNAME | VDecl _ => tDECL | VNum _ => tNUMBER | VExpr _ _ => tEXPR end.
Definition value_token (v : value) : ttype * chars := (value_type v, value_chars v).

(** Items: values and assignments. *)
Inductive item := Arg (v : value) | Kw (k b1 b2 : chars) (v : value).
Definition item_ok (i : item) : Prop := match i with Arg v => value_ok v | Kw k b1 b2 v => name k /\ forallb blank b1 = true /\ forallb blank b2 = true /\ value_ok v end.
Definition item_chars (i : item) : chars := match i with Arg v => value_chars v | Kw k b1 b2 v => k ++ b1 ++ "="%char :: b2 ++ value_chars v end.
Definition item_tokens (i : item) : list (ttype * chars) := match i with Arg v => [value_token v] | Kw k b1 b2 v => [(tNAME, k); (tEQUALS, b1 ++ "="%char :: b2); value_token v] end.

(** A comment; it does not start like an annotation. *)
Definition comment_ok (txt : chars) : Prop := forallb (fun c => negb (Ascii.eqb c newline) && negb (Ascii.eqb c (ascii_of_N 13))) txt = true /\
  exists pre c post, txt = pre ++ c :: post /\ forallb (fun c => blank c || existsb (Ascii.eqb c) (str "*;$/")) pre = true /\ name_start c = true /\ c <> "@"%char.
(** The text of an annotation. *)
Definition note_ok (txt : chars) : Prop := (exists c t, txt = c :: t /\ name_start c = true) /\ (exists c t, txt = t ++ [c] /\ (33 <=? code c)%N = true) /\
  forallb (fun c => (32 <=? code c)%N && (code c <=? 126)%N && negb (Ascii.eqb c "@")) txt = true.
(** What may follow the items of a line. *)
Inductive tail := Nothing | Comment (b txt : chars) | Note (b1 b2 b3 txt : chars).
Definition tail_ok (t : tail) : Prop :=
  match t with
  | Nothing => True
  | Comment b txt => forallb blank b = true /\ comment_ok txt
  | Note b1 b2 b3 txt => forallb blank b1 = true /\ forallb blank b2 = true /\ forallb blank b3 = true /\ note_ok txt
  end.
Definition tail_chars (t : tail) : chars :=
  match t with
  | Nothing => []
  | Comment b txt => b ++ ";"%char :: txt
  | Note b1 b2 b3 txt => b1 ++ ";"%char :: b2 ++ "@"%char :: ":"%char :: b3 ++ txt
  end.

(** Lines that are not empty: a statement, its continuation, a comment, an annotation. *)
Inductive line :=
| Stmt (indent : chars) (head : item) (rest : list (chars * item)) (t : tail)
| Cont (indent : chars) (head : item) (rest : list (chars * item)) (t : tail)
| CommentLine (txt : chars)
| NoteLine (b1 b2 b3 txt : chars).
Definition rest_ok (l : list (chars * item)) : Prop := Forall (fun x => fst x <> [] /\ forallb blank (fst x) = true /\ item_ok (snd x)) l.
Definition line_ok (l : line) : Prop :=
  match l with
  | Stmt i h r t => forallb blank i = true /\ (match h with Arg (VName _) | Arg (VDecl _) => True | _ => False end) /\ item_ok h /\ rest_ok r /\ tail_ok t
  | Cont i h r t => forallb blank i = true /\ item_ok h /\ rest_ok r /\ tail_ok t
  | CommentLine txt => comment_ok txt
  | NoteLine b1 b2 b3 txt => forallb blank b1 = true /\ forallb blank b2 = true /\ forallb blank b3 = true /\ note_ok txt
  end.
Definition rest_chars (l : list (chars * item)) : chars := concat (map (fun x => fst x ++ item_chars (snd x)) l).
Definition line_chars (l : line) : chars :=
  match l with
  | Stmt i h r t => i ++ item_chars h ++ rest_chars r ++ tail_chars t
  | Cont i h r t => "+"%char :: i ++ item_chars h ++ rest_chars r ++ tail_chars t
  | CommentLine txt => "*"%char :: txt
  | NoteLine b1 b2 b3 txt => b1 ++ "*"%char :: b2 ++ "@"%char :: ":"%char :: b3 ++ txt
  end.
(** A file: lines, each after one or more newlines; the first one may start the file. *)
Definition more_chars (ls : list (nat * line)) : chars := concat (map (fun x => repeat newline (S (fst x)) ++ line_chars (snd x)) ls).
Definition file_chars (n0 : nat) (first : line) (ls : list (nat * line)) (n1 : nat) : chars := repeat newline n0 ++ line_chars first ++ more_chars ls ++ repeat newline n1.

(** The meaning of a file: statements, with their continuations, and annotations, in order.  A continuation without a
    statement before it (at the start of the file or after an annotation) stands alone. *)
Definition line_items (h : item) (r : list (chars * item)) : list (ttype * chars) := item_tokens h ++ concat (map (fun x => item_tokens (snd x)) r).
Definition tail_events (t : tail) : list event := match t with Note _ _ _ txt => [ENote txt] | _ => [] end.
Definition add_event (evs : list event) (l : line) : list event :=
  match l with
  | Stmt _ h r t => evs ++ EStmt (line_items h r) :: tail_events t
  | Cont _ h r t => (match rev evs with EStmt s :: before => rev before ++ [EStmt (s ++ line_items h r)] | _ => evs ++ [EStmt (line_items h r)] end) ++ tail_events t
  | CommentLine _ => evs
  | NoteLine _ _ _ txt => evs ++ [ENote txt]
  end.
Definition meaning (ls : list line) : list event := fold_left add_event ls [].
