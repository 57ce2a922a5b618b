(** Model of align/cell_fabric/gen_lef.py (writer), lef_parser.py (tokenizer and parser) and
    lef_to_json.py (conversion to a layout), at the level of characters.
    Simplified: text is ASCII; floating point numbers are exact decimals. *)
From Coq Require Import String Ascii Decimal DecimalZ.
From Verif Require Export Base.PyStr.
From Verif Require Import Base.Prelude Model.Transformation.
Local Open Scope Z_scope.

(** ** Character classes of the token patterns (lef_parser.py:7-11). *)
Definition is_alpha (c : ascii) : bool :=
  ((65 <=? code c)%N && (code c <=? 90)%N) || ((97 <=? code c)%N && (code c <=? 122)%N).
Definition name_start (c : ascii) : bool := is_alpha c || (code c =? 95)%N.
Definition name_char (c : ascii) : bool := name_start c || is_digit c.
(** python \s on ASCII: tab, newline, vertical tab, form feed, return, 28..31, space. *)
Definition is_ws (c : ascii) : bool :=
  ((9 <=? code c)%N && (code c <=? 13)%N) || ((28 <=? code c)%N && (code c <=? 32)%N).
Definition newline : ascii := ascii_of_N 10.
Definition quote : ascii := ascii_of_N 34.

Inductive toktype := SEMI | NAME | NUM | LIT | WS.
Record Token := mkTok { ttype : toktype; tvalue : chars }.

(** Longest prefix of characters satisfying [f]. *)
Fixpoint span (f : ascii -> bool) (l : chars) : chars * chars :=
  match l with
  | [] => ([], [])
  | c :: tl => if f c then let '(a, b) := span f tl in (c :: a, b) else ([], l)
  end.

(** lef_parser.py:9 pattern NUM: [-+]?\d*\.\d+ | [-+]?\d+\.?  *)
Definition lex_num (l : chars) : option (chars * chars) :=
  let '(sign, r) := match l with
                    | c :: tl => if ascii_dec c "-" then ([c], tl)
                                 else if ascii_dec c "+" then ([c], tl) else ([], l)
                    | [] => ([], l)
                    end in
  let '(d1, r1) := span is_digit r in
  let second := match d1 with
                | [] => None
                | _ => match r1 with
                       | c :: tl => if ascii_dec c "." then Some (sign ++ d1 ++ [c], tl)
                                    else Some (sign ++ d1, r1)
                       | [] => Some (sign ++ d1, r1)
                       end
                end in
  match r1 with
  | c :: tl =>
      if ascii_dec c "." then
        let '(d2, r2) := span is_digit tl in
        match d2 with
        | [] => second
        | _ => Some (sign ++ d1 ++ c :: d2, r2)
        end
      else second
  | [] => second
  end.

(** lef_parser.py:10 pattern LIT: a quote, then greedily up to the last quote of the line.
    [last_quote] splits after the last quote of the given line. *)
Fixpoint last_quote (line : chars) : option (chars * chars) :=
  match line with
  | [] => None
  | c :: tl =>
      match last_quote tl with
      | Some (a, b) => Some (c :: a, b)
      | None => if ascii_dec c quote then Some ([c], tl) else None
      end
  end.

(** One match of the alternation at the current position (lef_parser.py:7-13).  The first
    characters of the five patterns are disjoint, so their order does not matter. *)
Definition lex_one (l : chars) : option (Token * chars) :=
  match l with
  | [] => None
  | c :: tl =>
      if ascii_dec c ";" then Some (mkTok SEMI [c], tl)
      else if name_start c then
        let '(a, b) := span name_char tl in Some (mkTok NAME (c :: a), b)
      else if ascii_dec c quote then
        let '(line, rest) := span (fun x => if ascii_dec x newline then false else true) tl in
        match last_quote line with
        | Some (a, b) => Some (mkTok LIT (c :: a), b ++ rest)
        | None => None
        end
      else if is_ws c then
        let '(a, b) := span is_ws tl in Some (mkTok WS (c :: a), b)
      else match lex_num l with
           | Some (a, b) => Some (mkTok NUM a, b)
           | None => None
           end
  end.

(** lef_parser.py:18-23 [generate_tokens]: tokens until the first position where no pattern
    matches; the rest of the text is then ignored.  Every match consumes a character, so
    [length text] rounds suffice. *)
Fixpoint lex_n (n : nat) (l : chars) : list Token :=
  match n with
  | 0%nat => []
  | Datatypes.S n' =>
      match lex_one l with
      | Some (t, r) => match ttype t with WS => lex_n n' r | _ => t :: lex_n n' r end
      | None => []
      end
  end.
Definition generate_tokens (l : chars) : list Token := lex_n (List.length l) l.

(** ** Numbers: [float(text)] of a NUM token as an exact decimal [num / 10^exp]. *)
Record dec := mkDec { d_num : Z; d_exp : nat }.

Definition digit_val (c : ascii) : Z := Z.of_N (code c) - 48.
Definition digits_val (l : chars) : Z := fold_left (fun acc c => acc * 10 + digit_val c) l 0.

Definition float_of (l : chars) : dec :=
  let '(neg, r) := match l with
                   | c :: tl => if ascii_dec c "-" then (true, tl)
                                else if ascii_dec c "+" then (false, tl) else (false, l)
                   | [] => (false, l)
                   end in
  let '(a, r1) := span is_digit r in
  let frac := match r1 with _ :: f => f | [] => [] end in
  let v := digits_val (a ++ frac) in
  mkDec (if neg then - v else v) (List.length frac).

(** ** Parser (lef_parser.py:61-236).  [Err] = SyntaxError, AssertionError;
    [Fuel] = the loop bound was exhausted (shown impossible). *)
Inductive res (A : Type) := Ok (a : A) (rest : list Token) | Err | Fuel.
Arguments Ok {A}. Arguments Err {A}. Arguments Fuel {A}.

Definition bind {A B} (x : res A) (f : A -> list Token -> res B) : res B :=
  match x with Ok a r => f a r | Err => Err | Fuel => Fuel end.

Definition toktype_eqb (a b : toktype) : bool :=
  match a, b with
  | SEMI, SEMI | NAME, NAME | NUM, NUM | LIT, LIT | WS, WS => true
  | _, _ => false
  end.

(** lef_parser.py:101-104 [_expect]; returns the text of the consumed token. *)
Definition expect (t : toktype) (l : list Token) : res chars :=
  match l with
  | k :: tl => if toktype_eqb (ttype k) t then Ok (tvalue k) tl else Err
  | [] => Err
  end.

(** lef_parser.py:93-99 [_accept_keyword]: [Some rest] if the next token is that NAME. *)
Definition kw (k : chars) (l : list Token) : option (list Token) :=
  match l with
  | t :: tl => if toktype_eqb (ttype t) NAME && chars_eqb (tvalue t) k then Some tl else None
  | [] => None
  end.

(** lef_parser.py:106-109 [_expect_keyword]. *)
Definition expect_kw (k : chars) (l : list Token) : res unit :=
  match kw k l with Some r => Ok tt r | None => Err end.

(** lef_parser.py:111-113 [pA]. *)
Definition pA (l : list Token) : res dec :=
  bind (expect NUM l) (fun s r => Ok (float_of s) r).

Definition port := (chars * (dec * dec * dec * dec))%type.

(** lef_parser.py:116-132 [ports]; [layer] and [acc] are the loop variables. *)
Fixpoint ports (n : nat) (layer : option chars) (acc : list port) (l : list Token) : res (list port) :=
  match n with
  | 0%nat => Fuel
  | Datatypes.S n' =>
      match kw (str "END") l with
      | Some r => Ok acc r
      | None =>
        match kw (str "LAYER") l with
        | Some r =>
            bind (expect NAME r) (fun ly r => bind (expect SEMI r) (fun _ r => ports n' (Some ly) acc r))
        | None =>
          match kw (str "RECT") l with
          | Some r =>
              bind (pA r) (fun a r => bind (pA r) (fun b r => bind (pA r) (fun c r => bind (pA r) (fun d r =>
              bind (expect SEMI r) (fun _ r =>
              match layer with
              | Some ly => ports n' layer (acc ++ [(ly, (a, b, c, d))]) r
              | None => Err
              end)))))
          | None => Err
          end
        end
      end
  end.

(** lef_parser.py:41-48 [Pin]; attributes never assigned are [None]. *)
Record Pin := mkPin { p_nm : chars; p_dir : option chars; p_ports : option (list port) }.

(** lef_parser.py:163-177, the loop over one pin.  Each PORT section replaces the ports
    (line 117 resets [pin.ports]). *)
Fixpoint pin_loop (n : nat) (p : Pin) (l : list Token) : res Pin :=
  match n with
  | 0%nat => Fuel
  | Datatypes.S n' =>
      match kw (str "END") l with
      | Some r => bind (expect_kw (p_nm p) r) (fun _ r => Ok p r)
      | None =>
        match kw (str "DIRECTION") l with
        | Some r => bind (expect NAME r) (fun d r => bind (expect SEMI r) (fun _ r =>
                      pin_loop n' (mkPin (p_nm p) (Some d) (p_ports p)) r))
        | None =>
          match kw (str "USE") l with
          | Some r => bind (expect NAME r) (fun _ r => bind (expect SEMI r) (fun _ r => pin_loop n' p r))
          | None =>
            match kw (str "PORT") l with
            | Some r => bind (ports n' None [] r) (fun ps r =>
                          pin_loop n' (mkPin (p_nm p) (p_dir p) (Some ps)) r)
            | None => Err
            end
          end
        end
      end
  end.

(** lef_parser.py:25-39 [Macro]; attributes never assigned are [None]. *)
Record Macro := mkMacro {
  m_name : chars; m_origin : option (dec * dec); m_foreign : option (chars * dec * dec);
  m_size : option (dec * dec); m_pins : list Pin; m_obs : option (list port); m_scale : dec }.

(** lef_parser.py:140-198, the loop over one macro. *)
Fixpoint macro_loop (n : nat) (m : Macro) (l : list Token) : res Macro :=
  match n with
  | 0%nat => Fuel
  | Datatypes.S n' =>
      match kw (str "END") l with
      | Some r => bind (expect_kw (m_name m) r) (fun _ r => Ok m r)
      | None =>
      match kw (str "ORIGIN") l with
      | Some r => bind (pA r) (fun x r => bind (pA r) (fun y r => bind (expect SEMI r) (fun _ r =>
          macro_loop n' (mkMacro (m_name m) (Some (x, y)) (m_foreign m) (m_size m) (m_pins m) (m_obs m) (m_scale m)) r)))
      | None =>
      match kw (str "FOREIGN") l with
      | Some r => bind (expect NAME r) (fun nm r => bind (pA r) (fun x r => bind (pA r) (fun y r =>
          bind (expect SEMI r) (fun _ r =>
          macro_loop n' (mkMacro (m_name m) (m_origin m) (Some (nm, x, y)) (m_size m) (m_pins m) (m_obs m) (m_scale m)) r))))
      | None =>
      match kw (str "SIZE") l with
      | Some r => bind (pA r) (fun x r => bind (expect_kw (str "BY") r) (fun _ r => bind (pA r) (fun y r =>
          bind (expect SEMI r) (fun _ r =>
          macro_loop n' (mkMacro (m_name m) (m_origin m) (m_foreign m) (Some (x, y)) (m_pins m) (m_obs m) (m_scale m)) r))))
      | None =>
      match kw (str "PIN") l with
      | Some r => bind (expect NAME r) (fun nm r => bind (pin_loop n' (mkPin nm None None) r) (fun p r =>
          macro_loop n' (mkMacro (m_name m) (m_origin m) (m_foreign m) (m_size m) (m_pins m ++ [p]) (m_obs m) (m_scale m)) r))
      | None =>
      match kw (str "UNITS") l with
      | Some r => bind (expect_kw (str "DATABASE") r) (fun _ r => bind (expect_kw (str "MICRONS") r) (fun _ r =>
          bind (expect_kw (str "UNITS") r) (fun _ r => bind (pA r) (fun sf r => bind (expect SEMI r) (fun _ r =>
          bind (expect_kw (str "END") r) (fun _ r => bind (expect_kw (str "UNITS") r) (fun _ r =>
          macro_loop n' (mkMacro (m_name m) (m_origin m) (m_foreign m) (m_size m) (m_pins m) (m_obs m) sf) r)))))))
      | None =>
      match kw (str "OBS") l with
      | Some r => bind (ports n' None [] r) (fun ps r =>
          macro_loop n' (mkMacro (m_name m) (m_origin m) (m_foreign m) (m_size m) (m_pins m) (Some ps) (m_scale m)) r)
      | None =>
      match kw (str "PROPERTY") l with
      | Some r => bind (expect NAME r) (fun _ r =>
          match r with
          | t :: r' => if toktype_eqb (ttype t) LIT || toktype_eqb (ttype t) NUM
                       then bind (expect SEMI r') (fun _ r => macro_loop n' m r) else Err
          | [] => Err
          end)
      | None => bind (expect NAME l) (fun _ r => macro_loop n' m r)
      end end end end end end end end
  end.

(** lef_parser.py:134-139 start of [macro]. *)
Definition macro (n : nat) (l : list Token) : res Macro :=
  bind (expect NAME l) (fun nm r =>
    macro_loop n (mkMacro nm None None None [] None (mkDec 10000 0)) r).

(** lef_parser.py:220-229, property definitions. *)
Fixpoint propdefs (n : nat) (l : list Token) : res unit :=
  match n with
  | 0%nat => Fuel
  | Datatypes.S n' =>
      match kw (str "END") l with
      | Some r => match kw (str "PROPERTYDEFINITIONS") r with Some r' => Ok tt r' | None => Ok tt r end
      | None =>
        match kw (str "MACRO") l with
        | Some r => bind (expect NAME r) (fun _ r => bind (expect NAME r) (fun _ r =>
                      bind (expect SEMI r) (fun _ r => propdefs n' r)))
        | None => Err
        end
      end
  end.

(** lef_parser.py:202-236 [whole]. *)
Fixpoint whole (n : nat) (ms : list Macro) (l : list Token) : res (list Macro) :=
  match n with
  | 0%nat => Fuel
  | Datatypes.S n' =>
      match kw (str "END") l with
      | Some r => match kw (str "LIBRARY") r with Some r' => Ok ms r' | None => Ok ms r end
      | None =>
      match kw (str "VERSION") l with
      | Some r => bind (expect NUM r) (fun _ r => bind (expect SEMI r) (fun _ r => whole n' ms r))
      | None =>
      match kw (str "BUSBITCHARS") l with
      | Some r => bind (expect LIT r) (fun _ r => bind (expect SEMI r) (fun _ r => whole n' ms r))
      | None =>
      match kw (str "DIVIDERCHAR") l with
      | Some r => bind (expect LIT r) (fun _ r => bind (expect SEMI r) (fun _ r => whole n' ms r))
      | None =>
      match kw (str "PROPERTYDEFINITIONS") l with
      | Some r => bind (propdefs n' r) (fun _ r => whole n' ms r)
      | None =>
      match kw (str "MACRO") l with
      | Some r => bind (macro n' r) (fun m r => whole n' (ms ++ [m]) r)
      | None => match l with [] => Ok ms [] | _ => Err end
      end end end end end end
  end.

(** lef_parser.py:73-78 [parse]. *)
Definition parse (text : chars) : res (list Macro) :=
  let toks := generate_tokens text in whole (Datatypes.S (List.length toks)) [] toks.

(** ** Writer (gen_lef.py). *)

(** One terminal of the layout dictionary. *)
Record Term := mkTerm { t_net : option chars; t_layer : chars; t_rect : Rect; t_pin : bool }.

(** Arguments of [lef_from_layout_d] (gen_lef.py:7).  [pin_map] is the
    'partially_routed_pins' dictionary (empty unless mode = 'placement'). *)
Record lefcfg := mkLef {
  out_lef : chars; bodyswitch : Z; blockM : Z; exclude_layers : list chars;
  scale_factor : Z; m2pitch : Z; m3pitch : Z; routing_mode : bool;
  pin_map : list (chars * chars) }.

Definition mem (x : chars) (l : list chars) : bool := existsb (chars_eqb x) l.

(** gen_lef.py:25-30 [pin_map.get(p, p)]. *)
Definition pin_name (c : lefcfg) (nm : chars) : chars :=
  if routing_mode c then nm
  else match find (fun kv => chars_eqb (fst kv) nm) (pin_map c) with Some kv => snd kv | None => nm end.

(** Python string order. *)
Fixpoint chars_leb (a b : chars) : bool :=
  match a, b with
  | [], _ => true
  | _ :: _, [] => false
  | x :: a', y :: b' => if (code x <? code y)%N then true
                        else if (code x =? code y)%N then chars_leb a' b' else false
  end.

(** [sorted(set(...))]: insertion of a new element, duplicates dropped. *)
Fixpoint set_insert (x : chars) (l : list chars) : list chars :=
  match l with
  | [] => [x]
  | y :: tl => if chars_eqb x y then l
               else if chars_leb x y then x :: l else y :: set_insert x tl
  end.
Definition sorted_set (l : list chars) : list chars := fold_left (fun acc x => set_insert x acc) l [].

(** gen_lef.py:23: names of pin terminals; [None] if one has no name ([sorted] raises
    TypeError when it is mixed with strings; an unnamed pin alone is not modelled). *)
Fixpoint pin_terms (ts : list Term) : option (list (chars * Term)) :=
  match ts with
  | [] => Some []
  | t :: tl =>
      if t_pin t then
        match t_net t, pin_terms tl with
        | Some nm, Some l => Some ((nm, t) :: l)
        | _, _ => None
        end
      else pin_terms tl
  end.

Definition nl : chars := [newline].
Definition sp : chars := str " ".
(** The "RECT" line with four numbers. *)
Definition rect_line (indent : string) (r : Rect) : chars :=
  str indent ++ (str "RECT ") ++ print_Z (llx r) ++ sp ++ print_Z (lly r) ++ sp ++ print_Z (urx r) ++ sp
    ++ print_Z (ury r) ++ (str " ;") ++ nl.

(** gen_lef.py:49-50 (pins) and 70-71, 74-75 (obstructions). *)
Definition shape_lines (i1 i2 : string) (ly : chars) (r : Rect) : chars :=
  str i1 ++ (str "LAYER ") ++ ly ++ (str " ;") ++ nl ++ rect_line i2 r.

(** gen_lef.py:42-61, one pin. *)
Definition pin_text (nm : chars) (shapes : list Term) : chars :=
  (str "  PIN ") ++ nm ++ nl ++ (str "    DIRECTION INOUT ;") ++ nl ++ (str "    USE SIGNAL ;") ++ nl
  ++ (str "    PORT") ++ nl
  ++ flat_map (fun t => shape_lines "      " "        " (t_layer t) (t_rect t)) shapes
  ++ (str "    END") ++ nl ++ (str "  END ") ++ nm ++ nl.

(** gen_lef.py:67-77, obstruction lines of one terminal. [pins] is the set of pin names. *)
Definition obs_text (c : lefcfg) (pins : list chars) (t : Term) : chars :=
  let cond := match t_net t with Some nm => negb (mem (pin_name c nm) pins) | None => true end in
  if (negb (t_pin t) || cond) && (blockM c =? 0) && negb (mem (t_layer t) (exclude_layers c)) then
    shape_lines "    " "      " (t_layer t) (t_rect t)
  else if (blockM c =? 1) && chars_eqb (t_layer t) (str "Cboundary") then
    flat_map (fun ly : string => shape_lines "    " "      " (str ly) (t_rect t)) ["M1"; "M2"; "M3"]%string
  else [].

(** gen_lef.py:34-40 and 48: terminals written for a pin. *)
Definition shapes_of (c : lefcfg) (pts : list (chars * Term)) (nm : chars) : list Term :=
  map snd (filter (fun nt => chars_eqb (pin_name c (fst nt)) nm &&
                     negb (routing_mode c && mem (t_layer (snd nt)) (exclude_layers c))) pts).

(** gen_lef.py:52-54: assertion on M2 pins. *)
Definition m2_ok (c : lefcfg) (t : Term) : bool :=
  if chars_eqb (t_layer t) (str "M2")
  then ((lly (t_rect t) + ury (t_rect t)) / 2) mod m2pitch c =? 0 else true.

(** gen_lef.py:7-81 [lef_from_layout_d]: the text written.  [None] = an exception (assertion,
    division by a zero pitch, unnamed pin).  Line 57's [cx % m3pitch] is only logged. *)
Definition lef_from_layout_d (c : lefcfg) (bbox : Rect) (ts : list Term) : option chars :=
  if (m2pitch c =? 0) || (m3pitch c =? 0) then None
  else if negb ((ury bbox - lly bbox) mod m2pitch c =? 0) then None
  else if negb ((urx bbox - llx bbox) mod m3pitch c =? 0) then None
  else
    match pin_terms ts with
    | None => None
    | Some pts =>
      let pins := sorted_set (map (fun nt => pin_name c (fst nt)) pts) in
      let written := filter (fun p => negb (chars_eqb p (str "B") && (bodyswitch c =? 0))) pins in
      if forallb (fun p => forallb (m2_ok c) (shapes_of c pts p)) written then
        Some ((str "MACRO ") ++ out_lef c ++ nl
              ++ (str "  UNITS ") ++ nl
              ++ (str "    DATABASE MICRONS UNITS ") ++ print_Z (1000 * scale_factor c) ++ (str ";") ++ nl
              ++ (str "  END UNITS ") ++ nl
              ++ (str "  ORIGIN 0 0 ;") ++ nl
              ++ (str "  FOREIGN ") ++ out_lef c ++ (str " 0 0 ;") ++ nl
              ++ (str "  SIZE ") ++ print_Z (urx bbox) ++ (str " BY ") ++ print_Z (ury bbox) ++ (str " ;") ++ nl
              ++ flat_map (fun p => pin_text p (shapes_of c pts p)) written
              ++ (str "  OBS") ++ nl
              ++ flat_map (obs_text c pins) ts
              ++ (str "  END") ++ nl
              ++ (str "END ") ++ out_lef c ++ nl)
      else None
    end.

(** ** lef_to_json.py. *)

(** python [round(q, 0)] of the rational a/b (b > 0): nearest integer, ties to even. *)
Definition round_half_even (a b : Z) : Z :=
  let q := a / b in
  let r := a mod b in
  if 2 * r <? b then q else if b <? 2 * r then q + 1 else if Z.even q then q else q + 1.

Definition pow10 (n : nat) : Z := 10 ^ Z.of_nat n.

(** lef_to_json.py:29-34 [ss].  [None] = division by a zero scale. *)
Definition ss (sf : Z) (mscale : dec) (s : dec) : option Z :=
  let num := 1000 * sf * d_num s * pow10 (d_exp mscale) in
  let den := d_num mscale * pow10 (d_exp s) in
  if den =? 0 then None
  else if 0 <? den then Some (round_half_even num den) else Some (round_half_even (- num) (- den)).

Definition sr (sf : Z) (mscale : dec) (r : dec * dec * dec * dec) : option Rect :=
  let '(a, b, c, d) := r in
  match ss sf mscale a, ss sf mscale b, ss sf mscale c, ss sf mscale d with
  | Some a, Some b, Some c, Some d => Some (mkRect a b c d)
  | _, _, _, _ => None
  end.

(** A terminal of the resulting layout: net (pin) name, layer, rectangle. *)
Definition jterm := (option chars * chars * Rect)%type.

Definition scale_ports (sf : Z) (mscale : dec) (net : option chars) (ps : list port) : option (list jterm) :=
  fold_right (fun lr acc => match sr sf mscale (snd lr), acc with
                            | Some r, Some l => Some ((net, fst lr, r) :: l)
                            | _, _ => None end) (Some []) ps.

Fixpoint pins_terms (sf : Z) (mscale : dec) (ps : list Pin) : option (list jterm) :=
  match ps with
  | [] => Some []
  | p :: tl =>
      match p_ports p with
      | None => None   (* AttributeError *)
      | Some pp => match scale_ports sf mscale (Some (p_nm p)) pp, pins_terms sf mscale tl with
                   | Some a, Some b => Some (a ++ b)
                   | _, _ => None
                   end
      end
  end.

(** Exact sum of decimals, used by [Macro.bbox] (lef_parser.py:37-39). *)
Definition dec_add (a b : dec) : dec :=
  mkDec (d_num a * pow10 (d_exp b) + d_num b * pow10 (d_exp a)) (d_exp a + d_exp b).

(** lef_to_json.py:8-75 [lef_txt_to_layout_d] with [nm=None] (exactly one macro): bounding box
    and terminals.  The grid checks (45-52, 61-68) only log. *)
Definition lef_txt_to_layout_d (txt : chars) (sf : Z) : option (Rect * list jterm) :=
  match parse txt with
  | Ok [m] _ =>
      match pins_terms sf (m_scale m) (m_pins m),
            match m_obs m with None => Some [] | Some ps => scale_ports sf (m_scale m) None ps end,
            m_origin m, m_size m with
      | Some a, Some b, Some (ox, oy), Some (sx, sy) =>
          match sr sf (m_scale m) (ox, oy, dec_add ox sx, dec_add oy sy) with
          | Some bb => Some (bb, a ++ b)
          | None => None
          end
      | _, _, _, _ => None
      end
  | _ => None
  end.
