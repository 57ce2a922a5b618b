(** Model of align/cell_fabric/remove_duplicates.py (everything except [dump], the log output
    and the unused [new_slr]). *)
From Coq Require Import String Ascii.
From Verif Require Import Base.Prelude Base.PyDict Model.Transformation Model.UnionFind Model.PySort.
Local Open Scope Z_scope.

Definition name := option string.

Definition name_eqb (a b : name) : bool :=
  match a, b with
  | Some x, Some y => String.eqb x y
  | None, None => true
  | _, _ => false
  end.

(** A terminal dictionary: layer, netName, rect, netType and the optional 'terminal' key. *)
Record term := mkTerm { t_layer : string; t_net : name; t_rect : Rect; t_type : string;
                        t_term : option (string * string) }.

(** remove_duplicates.py:178 [indicesTbl]: 'h' has dIndex 0, 'v' and '*' have dIndex 1. *)
Inductive sdir := DH | DV | DStar.
Definition dlo (d : sdir) (r : Rect) : Z := match d with DH => llx r | _ => lly r end. (* rect[dIndex] *)
Definition dhi (d : sdir) (r : Rect) : Z := match d with DH => urx r | _ => ury r end. (* rect[dIndex+2] *)
Definition wlo (d : sdir) (r : Rect) : Z := match d with DH => lly r | _ => llx r end. (* rect[indices[0]] *)
Definition whi (d : sdir) (r : Rect) : Z := match d with DH => ury r | _ => urx r end. (* rect[indices[1]] *)
Definition set_dhi (d : sdir) (r : Rect) (v : Z) : Rect :=
  match d with DH => mkRect (llx r) (lly r) v (ury r) | _ => mkRect (llx r) (lly r) (urx r) v end.
(** [all(rect[i] == rect0[i] for i in indices)]. *)
Definition same_width (d : sdir) (a b : Rect) : bool := (wlo d a =? wlo d b) && (whi d a =? whi d b).
(** remove_duplicates.py:193: sum over the indices. *)
Definition twice_center (d : sdir) (r : Rect) : Z := wlo d r + whi d r.

(** remove_duplicates.py:130-134 [touching]. *)
Definition touching (a b : Rect) : bool :=
  negb ((urx a <? llx b) || (urx b <? llx a) || (ury a <? lly b) || (ury b <? lly a)).

(** Python [s.split(':')]; [':' in s] is "more than one part". *)
Fixpoint split_colon (s : string) : list string :=
  match s with
  | EmptyString => [EmptyString]
  | String c tl =>
    if Ascii.eqb c ":"%char then EmptyString :: split_colon tl
    else match split_colon tl with
         | w :: ws => String c w :: ws
         | [] => [String c EmptyString]
         end
  end.

(** Python ['pin' in s] (substring). *)
Definition has_pin (s : string) : bool :=
  match String.index 0 "pin"%string s with Some _ => true | None => false end.

(** remove_duplicates.py:51-62 [new_slr_no_add]: netName and terminal of the new object;
    [None] = the assertion that there are exactly two parts failed. *)
Definition parse_name (n : name) : option (name * option (string * string)) :=
  match n with
  | None => Some (None, None)
  | Some s =>
    match split_colon s with
    | [a; b] => Some (None, Some (a, b))
    | [] | [_] => Some (Some s, None)
    | _ => None
    end
  end.

(** Shorts (remove_duplicates.py:294 with the two names at that moment, 283). *)
Inductive short :=
| SPair (layer : string) (a b : string)
| STerm (inst pin : string) (names : list name).

(** The objects of class [ScanlineRect] (lines 29-36), attribute by attribute, indexed by
    allocation order; plus [self.shorts] and the sets [subinsts[i].pins[p]] (as the list of
    additions, in order). *)
Record rst := mkS {
  s_dad : heap; s_rect : list Rect; s_net : list name; s_type : list string;
  s_term : list (option (string * string)); s_ported : list bool;
  s_shorts : list short; s_pins : list ((string * string) * nat) }.

Definition rst0 : rst := mkS [] [] [] [] [] [] [] [].

(** Attribute reads on an existing object (default never used on allocated ids). *)
Definition rect_of (s : rst) i := nth i (s_rect s) (mkRect 0 0 0 0).
Definition net_of (s : rst) i : name := nth i (s_net s) None.
Definition type_of (s : rst) i := nth i (s_type s) EmptyString.
Definition term_of (s : rst) i := nth i (s_term s) None.
Definition ported_of (s : rst) i := nth i (s_ported s) false.

(** Allocation of a new [ScanlineRect]. *)
Definition alloc (s : rst) (r : Rect) (n : name) (ty : string) (t : option (string * string)) (p : bool)
  : nat * rst :=
  (List.length (s_dad s),
   mkS (uf_new (s_dad s)) (s_rect s ++ [r]) (s_net s ++ [n]) (s_type s ++ [ty]) (s_term s ++ [t])
       (s_ported s ++ [p]) (s_shorts s) (s_pins s)).

Definition set_dad (s : rst) d := mkS d (s_rect s) (s_net s) (s_type s) (s_term s) (s_ported s) (s_shorts s) (s_pins s).
Definition set_net (s : rst) i n :=
  mkS (s_dad s) (s_rect s) (upd (s_net s) i n) (s_type s) (s_term s) (s_ported s) (s_shorts s) (s_pins s).
Definition add_short (s : rst) x :=
  mkS (s_dad s) (s_rect s) (s_net s) (s_type s) (s_term s) (s_ported s) (s_shorts s ++ [x]) (s_pins s).
Definition add_pin (s : rst) i :=
  match term_of s i with
  | None => s
  | Some t => mkS (s_dad s) (s_rect s) (s_net s) (s_type s) (s_term s) (s_ported s) (s_shorts s)
                  (s_pins s ++ [(t, i)])
  end.

(** [x.root()] and [a.connect(b)] on the state. *)
Definition st_root (s : rst) (x : nat) : option (nat * rst) :=
  match uf_root (s_dad s) x with Some (r, d) => Some (r, set_dad s d) | None => None end.
Definition st_connect (s : rst) (a b : nat) : option rst :=
  match uf_connect (s_dad s) a b with Some d => Some (set_dad s d) | None => None end.

(** remove_duplicates.py:285-302 [connectPair]; returns the boolean and the new state. *)
Definition connectPair (layer : string) (s : rst) (a b : nat) : option (bool * rst) :=
  let res :=
    match net_of s a, net_of s b with
    | None, nb =>
        match st_connect (set_net s a nb) a b with Some s' => Some (true, s') | None => None end
    | Some x, None =>
        match st_connect (set_net s b (Some x)) a b with Some s' => Some (true, s') | None => None end
    | Some x, Some y =>
        if String.eqb x y
        then match st_connect (set_net s b (Some x)) a b with Some s' => Some (true, s') | None => None end
        else Some (false, add_short s (SPair layer x y))
    end in
  match res with
  | None => None
  | Some (ok, s') =>
    match term_of s' a, term_of s' b with
    | None, None => Some (ok, s')
    | _, _ => Some (false, add_pin (add_pin s' a) b)
    end
  end.

(** remove_duplicates.py:72-74 [merge_slr]. *)
Definition merge_slr (d : sdir) (s : rst) (base new : nat) : rst :=
  mkS (s_dad s)
      (upd (s_rect s) base (set_dhi d (rect_of s base) (Z.max (dhi d (rect_of s base)) (dhi d (rect_of s new)))))
      (s_net s) (s_type s) (s_term s)
      (upd (s_ported s) base (ported_of s base || ported_of s new)) (s_shorts s) (s_pins s).

(** One entry of a bin: (rect, netName, netType, isPorted) (line 195). *)
Record entry := mkE { e_rect : Rect; e_net : name; e_type : string; e_ported : bool }.

(** remove_duplicates.py:231-247: the body of the loop over the sorted bin.  The accumulator is
    ([current_slr], [sl.rects] as ids, state). *)
Definition is_blockage (ty : string) : bool := String.eqb ty "blockage"%string.

Definition line_step (layer : string) (d : sdir) (acc : option nat * list nat * rst) (e : entry)
  : option (option nat * list nat * rst) :=
  let '(cur, ids, s) := acc in
  match parse_name (e_net e) with
  | None => None
  | Some (n, t) =>
    let '(p, s1) := alloc s (e_rect e) n (e_type e) t (e_ported e) in
    match cur with
    | None => Some (Some p, ids ++ [p], s1)
    | Some c =>
      if (dlo d (e_rect e) <=? dhi d (rect_of s1 c)) && same_width d (e_rect e) (rect_of s1 c) then
        match connectPair layer s1 c p with
        | None => None
        | Some (ok, s2) =>
          if ok && negb (is_blockage (type_of s2 p)) && negb (is_blockage (type_of s2 c))
          then Some (Some c, ids, merge_slr d s2 c p)
          else Some (Some p, ids ++ [p], s2)
        end
      else Some (Some p, ids ++ [p], s1)
    end
  end.

Fixpoint foldM {S E} (f : S -> E -> option S) (l : list E) (s : S) : option S :=
  match l with
  | [] => Some s
  | e :: tl => match f s e with Some s' => foldM f tl s' | None => None end
  end.

(** remove_duplicates.py:228-247: one scan line. *)
Definition build_line (layer : string) (d : sdir) (s : rst) (v : list entry) : option (list nat * rst) :=
  match foldM (line_step layer d) (sort_by (fun e => dlo d (e_rect e)) v) (None, [], s) with
  | Some (_, ids, s') => Some (ids, s')
  | None => None
  end.

(** Layer structures (lines 156-178): [cf_layers] is [self.layers] in order, [cf_skip] is
    [self.skip_layers], [cf_stack] is [canvas.layer_stack] as (via, (mv, mh)). *)
Record rdcfg := mkRC { cf_layers : list (string * sdir); cf_skip : list string;
                       cf_stack : list (string * (option string * option string));
                       cf_open_ok : list string; cf_allow_opens : bool }.

Definition in_strs (x : string) (l : list string) : bool := existsb (String.eqb x) l.

Definition bins := list (Z * list entry).
Definition tbl := list (string * bins).

(** remove_duplicates.py:181-199 [build_centerline_tbl]; [None] = the assertion that a pin has
    a net name. *)
Definition centerline_step (cf : rdcfg) (t : tbl) (d : term) : option tbl :=
  let ported := has_pin (t_type d) in
  match ported, t_net d with
  | true, None => None
  | _, _ =>
    if in_strs (t_layer d) (cf_skip cf) then Some t
    else match dget String.eqb (cf_layers cf) (t_layer d) with
         | None => Some t
         | Some dir =>
           Some (dupd String.eqb t (t_layer d)
                   (fun o => dappend Z.eqb (match o with Some b => b | None => [] end)
                               (twice_center dir (t_rect d))
                               (mkE (t_rect d) (t_net d) (t_type d) ported)))
         end
  end.
Definition build_centerline_tbl (cf : rdcfg) (ts : list term) : option tbl :=
  foldM (centerline_step cf) ts [].

(** Scan lines: layer -> twice_center -> (dIndex, rect ids). *)
Definition lines := list (Z * list nat).
Definition store := list (string * lines).

(** remove_duplicates.py:214-226: one (layer, bin) gives one report per rectangle that differs
    from the first one, except on layer 'Active'. *)
Definition widths_of_bin (layer : string) (d : sdir) (v : list entry) : nat :=
  if String.eqb layer "Active"%string then 0%nat
  else match v with
       | [] => 0%nat
       | e0 :: tl => List.length (filter (fun e => negb (same_width d (e_rect e) (e_rect e0))) tl)
       end.

(** remove_duplicates.py:202-251 [build_scan_lines].  The last component counts
    [self.different_widths]. *)
Definition build_layer (layer : string) (d : sdir) (acc : lines * rst * nat) (b : Z * list entry)
  : option (lines * rst * nat) :=
  let '(ls, s, w) := acc in
  match build_line layer d s (snd b) with
  | None => None
  | Some (ids, s') => Some (ls ++ [(fst b, ids)], s', (w + widths_of_bin layer d (snd b))%nat)
  end.

Definition build_scan_lines (cf : rdcfg) (t : tbl) : option (store * rst * nat) :=
  foldM (fun (acc : store * rst * nat) (ld : string * sdir) =>
           let '(st, s, w) := acc in
           match dget String.eqb t (fst ld) with
           | None => Some acc
           | Some bs =>
             match foldM (build_layer (fst ld) (snd ld)) bs ([], s, w) with
             | None => None
             | Some (ls, s', w') => Some (st ++ [(fst ld, ls)], s', w')
             end
           end) (cf_layers cf) ([], rst0, 0%nat).

(** remove_duplicates.py:79-90 [find_touching]: the first touching rectangle, else assertion. *)
Definition find_touching (s : rst) (ids : list nat) (v : nat) : option nat :=
  find (fun m => touching (rect_of s v) (rect_of s m)) ids.

(** Lines 264-266 and 269-276: connect one via. *)
Definition via_mv (via : string) (mids : list nat) (s : rst) (v : nat) : option rst :=
  match find_touching s mids v with
  | None => None
  | Some m =>
    match st_root s m with
    | None => None
    | Some (rm, s1) =>
      match st_root s1 v with
      | None => None
      | Some (rv, s2) => option_map snd (connectPair via s2 rm rv)
      end
    end
  end.

Definition get_lines (st : store) (layer : string) : lines :=
  match dget String.eqb st layer with Some l => l | None => [] end.

Definition via_mh (via : string) (hlines : lines) (s : rst) (v : nat) : option rst :=
  match dget Z.eqb hlines (lly (rect_of s v) + ury (rect_of s v)) with
  | None => Some s
  | Some mids =>
    match find_touching s mids v with
    | None => None
    | Some m =>
      match st_root s v with
      | None => None
      | Some (rv, s1) =>
        match st_root s1 m with
        | None => None
        | Some (rm, s2) => option_map snd (connectPair via s2 rv rm)
        end
      end
    end
  end.

(** remove_duplicates.py:258-276, one scan line of vias.  The [continue] on line 262 also skips
    the horizontal metal. *)
Definition via_line (via : string) (st : store) (mv mh : option string) (s : rst) (l : Z * list nat)
  : option rst :=
  let horizontal s1 :=
    match mh with
    | None => Some s1
    | Some h => foldM (via_mh via (get_lines st h)) (snd l) s1
    end in
  match mv with
  | None => horizontal s
  | Some m =>
    match dget Z.eqb (get_lines st m) (fst l) with
    | None => Some s
    | Some mids =>
      match foldM (via_mv via mids) (snd l) s with
      | None => None
      | Some s1 => horizontal s1
      end
    end
  end.

(** remove_duplicates.py:253-276 [check_shorts_induced_by_vias].  (Reading a missing layer of
    the defaultdict inserts an empty entry, which no later step can observe.) *)
Definition check_vias (cf : rdcfg) (st : store) (s : rst) : option rst :=
  foldM (fun s (e : string * (option string * option string)) =>
           let '(via, (mv, mh)) := e in
           match mv, mh with
           | None, None => Some s
           | _, _ =>
             match dget String.eqb st via with
             | None => Some s
             | Some ls => foldM (via_line via st mv mh) ls s
             end
           end) (cf_stack cf) s.

(** Name of [x.root()] (the path compression of the call is kept). *)
Definition root_name (s : rst) (x : nat) : option (name * rst) :=
  match st_root s x with Some (r, s') => Some (net_of s' r, s') | None => None end.

Fixpoint root_names (s : rst) (xs : list nat) : option (list name * rst) :=
  match xs with
  | [] => Some ([], s)
  | x :: tl =>
    match root_name s x with
    | None => None
    | Some (n, s1) =>
      match root_names s1 tl with None => None | Some (ns, s2) => Some (n :: ns, s2) end
    end
  end.

Definition key_eqb (a b : string * string) : bool := String.eqb (fst a) (fst b) && String.eqb (snd a) (snd b).

Fixpoint dedup {A} (eqb : A -> A -> bool) (l : list A) : list A :=
  match l with
  | [] => []
  | x :: tl => x :: filter (fun y => negb (eqb x y)) (dedup eqb tl)
  end.

(** remove_duplicates.py:278-283 [check_shorts_induced_by_terminals]: for each pin of each
    sub-instance the set of root names of the rectangles recorded for it.  (The pins are visited in the order of their first rectangle; python
    visits them instance by instance, so only the order of the reports may differ.) *)
Definition check_terms (s : rst) : option rst :=
  foldM (fun s (g : (string * string) * list ((string * string) * nat)) =>
           match root_names s (map snd (snd g)) with
           | None => None
           | Some (ns, s') =>
             let names := dedup name_eqb ns in
             if (1 <? Z.of_nat (List.length names))
             then Some (add_short s' (STerm (fst (fst g)) (snd (fst g)) names))
             else Some s'
           end)
        (group_by key_eqb fst (s_pins s)) s.

(** Opens (lines 118, 122): an unnamed terminal, or a net with several roots. *)
Inductive open_ := OTerm (t : string * string) | ONet (n : string) (roots : list nat).

(** All ids in the store, in iteration order (lines 109-111, 316-318). *)
Definition all_ids (st : store) : list nat := concat (map snd (concat (map snd st))).

(** remove_duplicates.py:105-122 [check_opens] and 152-154 [set_open].  [set_open] looks the
    name (or the terminal tuple, never a name) up in [nets_allowed_to_be_open]. *)
Definition opens_step (acc : list (string * list nat) * list open_ * rst) (x : nat)
  : option (list (string * list nat) * list open_ * rst) :=
  let '(tb, ops, s) := acc in
  match st_root s x with
  | None => None
  | Some (r, s') =>
    match net_of s' r with
    | Some nm => Some (dupd String.eqb tb nm
                         (fun o => let l := match o with Some l => l | None => [] end in
                                   if existsb (Nat.eqb r) l then l else l ++ [r]), ops, s')
    | None =>
      match term_of s' x with
      | Some t => Some (tb, ops ++ [OTerm t], s')
      | None => Some (tb, ops, s')
      end
    end
  end.

Definition check_opens (cf : rdcfg) (st : store) (s : rst) : option (list open_ * rst) :=
  match foldM opens_step (all_ids st) ([], [], s) with
  | None => None
  | Some (tb, ops, s') =>
    let allowed nm := in_strs nm (cf_open_ok cf) || cf_allow_opens cf in
    Some ((if cf_allow_opens cf then [] else ops) ++
          map (fun p => ONet (fst p) (snd p))
              (filter (fun p => (1 <? Z.of_nat (List.length (snd p))) && negb (allowed (fst p))) tb), s')
  end.

(** remove_duplicates.py:304-326 [generate_rectangles]. *)
Definition out_term (s : rst) (layer : string) (i : nat) : option (term * rst) :=
  match root_name s i with
  | None => None
  | Some (n, s') =>
    Some (mkTerm layer n (rect_of s' i) (if ported_of s' i then "pin"%string else type_of s' i) (term_of s' i), s')
  end.

Definition layer_ids (st : store) : list (string * nat) :=
  flat_map (fun ll => map (fun i => (fst ll, i)) (concat (map snd (snd ll)))) st.

Definition generate_rectangles (cf : rdcfg) (ts : list term) (st : store) (s : rst) : option (list term * rst) :=
  foldM (fun (acc : list term * rst) (li : string * nat) =>
           match out_term (snd acc) (fst li) (snd li) with
           | None => None
           | Some (t, s') => Some (fst acc ++ [t], s')
           end)
        (layer_ids st)
        (filter (fun d => in_strs (t_layer d) (cf_skip cf)) ts, s).

(** remove_duplicates.py:328-354 [remove_duplicates]: the output terminals together with the
    three error lists ([self.shorts], [self.opens], number of [self.different_widths]). *)
Record rd_result := mkRes { r_terms : list term; r_shorts : list short; r_opens : list open_;
                            r_widths : nat; r_store : store; r_state : rst }.

Definition remove_duplicates (cf : rdcfg) (ts : list term) : option rd_result :=
  match build_centerline_tbl cf ts with
  | None => None
  | Some t =>
    match build_scan_lines cf t with
    | None => None
    | Some (st, s1, w) =>
      match check_vias cf st s1 with
      | None => None
      | Some s2 =>
        match check_terms s2 with
        | None => None
        | Some s3 =>
          match check_opens cf st s3 with
          | None => None
          | Some (ops, s4) =>
            match generate_rectangles cf ts st s4 with
            | None => None
            | Some (out, s5) => Some (mkRes out (s_shorts s5) ops w st s5)
            end
          end
        end
      end
    end
  end.
