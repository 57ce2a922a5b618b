(** Proofs about the GDSII conversions (Model/GdsConv.v). *)
From Coq Require Import String Ascii ZifyBool.
From Verif Require Import Base.Prelude Base.PyDict Base.PyStr Model.Lef Model.Netlist Model.UpdateConst Model.GdsConv Spec.GdsSpec Proofs.LefP Proofs.NetlistP Proofs.SeriesP.
Local Open Scope Z_scope.

(** * Text of numbers *)
Lemma mapO_map {A B C} (f : B -> option C) (g : A -> B) (h : A -> C) l :
  (forall a, In a l -> f (g a) = Some (h a)) -> mapO f (map g l) = Some (map h l).
Proof.
  induction l as [|a l IH]; intros H; [reflexivity|]. cbn. fold (mapO f (map g l)). rewrite (H a (or_introl eq_refl)), IH; [reflexivity|]. intros. apply H. now right.
Qed.
Lemma split_none c s : ~ In c s -> split_on c s = [s].
Proof.
  induction s as [|a s IH]; intros H; [reflexivity|]. cbn. destruct (Ascii.eqb_spec a c) as [->|Hn]; [exfalso; apply H; now left|]. rewrite IH; [reflexivity|]. intros Hi. apply H. now right.
Qed.
Lemma split_app c a s : ~ In c a -> split_on c (a ++ c :: s) = a :: split_on c s.
Proof.
  induction a as [|x a IH]; intros H; cbn.
  - now rewrite Ascii.eqb_refl.
  - destruct (Ascii.eqb_spec x c) as [->|Hn]; [exfalso; apply H; now left|]. rewrite IH; [reflexivity|]. intros Hi. apply H. now right.
Qed.
Lemma split_join a l : Forall (fun s => ~ In ","%char s) (a :: l) -> split_on ","%char (join_comma (a :: l)) = a :: map (fun s => " "%char :: s) l.
Proof.
  intros H. assert (G : forall l a, Forall (fun s => ~ In ","%char s) (a :: l) -> forall p, ~ In ","%char p -> split_on ","%char (p ++ join_comma (a :: l)) = (p ++ a) :: map (fun s => " "%char :: s) l).
  { clear. induction l as [|b l IH]; intros a H p Hp; apply Forall_cons_iff in H as (Ha & Hl).
    - cbn [join_comma map]. apply split_none. rewrite in_app_iff. tauto.
    - change (map (fun s : list ascii => " "%char :: s) (b :: l)) with ((" "%char :: b) :: map (fun s : list ascii => " "%char :: s) l).
      assert (E : p ++ join_comma (a :: b :: l) = (p ++ a) ++ ","%char :: ([" "%char] ++ join_comma (b :: l))) by (rewrite <- app_assoc; reflexivity).
      rewrite E, split_app; [|rewrite in_app_iff; tauto]. f_equal. apply (IH b Hl [" "%char]). intros [E0|[]]; discriminate. }
  apply (G l a H []). tauto.
Qed.
Lemma ltrim_id s : match s with [] => True | c :: _ => is_ws c = false end -> ltrim s = s.
Proof. destruct s as [|c s]; [reflexivity|]. cbn. now intros ->. Qed.
Lemma trim_id s : Forall (fun c => is_ws c = false) s -> trim s = s.
Proof.
  intros H. unfold trim. rewrite (ltrim_id s); [|destruct H; auto]. rewrite (ltrim_id (rev s)), rev_involutive; [reflexivity|].
  apply Forall_rev in H. destruct H; auto.
Qed.
Lemma trim_space s : trim (" "%char :: s) = trim s.
Proof. reflexivity. Qed.
Definition solid (s : chars) : Prop := s <> [] /\ Forall (fun c => c <> ","%char /\ is_ws c = false) s.
Lemma solid_comma s : solid s -> ~ In ","%char s.
Proof. intros (_ & H) Hi. rewrite Forall_forall in H. now apply H in Hi as (Hi & _). Qed.
Lemma solid_trim s : solid s -> trim s = s.
Proof. intros (_ & H). apply trim_id. eapply Forall_impl; [|exact H]. now intros c (_ & Hc). Qed.
Lemma digit_solid c : is_digit c = true -> c <> ","%char /\ is_ws c = false.
Proof. unfold is_digit, is_ws. intros H. split; [intros ->; discriminate|]. lia. Qed.
Lemma solid_Z z : solid (print_Z z).
Proof.
  destruct (print_Z_form z) as (neg & ds & E & Hne & Hd). rewrite E. split.
  - destruct neg; [discriminate|exact Hne].
  - apply Forall_app. split.
    + destruct neg; repeat constructor. discriminate.
    + apply Forall_forall. intros c Hc. apply digit_solid. rewrite forallb_forall in Hd. now apply Hd.
Qed.
Lemma py_intc_print z : py_intc (print_Z z) = Some z.
Proof. unfold py_intc. rewrite (solid_trim _ (solid_Z z)). apply py_int_zstr. Qed.

(** * Rendering and parsing fields *)
Lemma chop_wrap a b s : chop ([a] ++ s ++ [b]) = s.
Proof. unfold chop. cbn [app tl]. apply removelast_last. Qed.
Lemma join_solid l a : Forall solid (a :: l) -> join_comma (a :: l) <> [] /\ Forall (fun c => c <> newline /\ c <> ascii_of_N 13) (join_comma (a :: l)) /\
  (exists c t, join_comma (a :: l) = c :: t /\ is_ws c = false) /\ (exists c t, join_comma (a :: l) = t ++ [c] /\ is_ws c = false).
Proof.
  assert (Hs : forall s, solid s -> Forall (fun c => c <> newline /\ c <> ascii_of_N 13) s).
  { intros s (_ & H). eapply Forall_impl; [|exact H]. intros c (_ & Hw). split; intros ->; discriminate. }
  assert (Hl : forall s, solid s -> exists c t, s = t ++ [c] /\ is_ws c = false).
  { intros s (Hne & H). destruct (exists_last Hne) as (t & c & ->). exists c, t. split; [reflexivity|]. apply Forall_app in H as (_ & H). now apply Forall_inv in H. }
  revert a. induction l as [|b l IH]; intros a H; apply Forall_cons_iff in H as (Ha & H).
  - cbn [join_comma]. destruct Ha as (Hne & Ha'). pose proof (conj Hne Ha') as Ha. repeat split; [exact Hne|now apply Hs| |now apply Hl].
    destruct a as [|c t]; [congruence|]. exists c, t. split; [reflexivity|]. now apply Forall_inv in Ha'.
  - destruct (IH b H) as (_ & IH1 & _ & (c & t & E & Hc)). cbn [join_comma] in *. pose proof Ha as (Hne & Ha'). split; [destruct a; [congruence|discriminate]|]. split; [|split].
    + rewrite !Forall_app. split; [now apply Hs|]. split; [|exact IH1]. repeat constructor; discriminate.
    + destruct a as [|d u]; [congruence|]. eexists _, _. split; [reflexivity|]. now apply Forall_inv in Ha'.
    + exists c, (a ++ str ", " ++ t). split; [|exact Hc]. rewrite E. now rewrite <- !app_assoc.
Qed.
Lemma span_split p a c s : forallb p a = true -> p c = false -> span p (a ++ c :: s) = (a, c :: s).
Proof. intros Ha Hc. induction a as [|x a IH]; cbn in *; [now rewrite Hc|]. apply andb_true_iff in Ha as (-> & Ha). now rewrite (IH Ha). Qed.
Lemma span_all p a : forallb p a = true -> span p a = (a, []).
Proof. intros Ha. induction a as [|x a IH]; cbn in *; [reflexivity|]. apply andb_true_iff in Ha as (-> & Ha). now rewrite (IH Ha). Qed.

Section Fields.
  Context {R : Type} (rstr : R -> chars) (rparse : chars -> option R).
  Hypothesis HR : reals_ok rstr rparse.
  Notation json := (json R).
  Lemma solid_R r : solid (rstr r).
  Proof. destruct (HR r) as (_ & H1 & H2). now split. Qed.
  Lemma float_rstr r : float rparse (rstr r) = Some r.
  Proof. unfold float. rewrite (solid_trim _ (solid_R r)). apply HR. Qed.

  Definition compat (ty : gtype) (h : how) (k : kind) : bool :=
    match ty, h, k with
    | (INT2 | INT4 | BITARRAY), Plain, KInt | (INT2 | INT4), Unbracket, KInts | REAL8, Plain, KReal | REAL8, Unbracket, KReals
    | ASCII, Quote, KStr => true
    | _, _, _ => false
    end.
  (** What is printed is on one line, starts and ends with no blank, and is read back. *)
  Definition tight (s : chars) : Prop := (exists c t, s = c :: t /\ is_ws c = false) /\ (exists c t, s = t ++ [c] /\ is_ws c = false).
  Lemma solid_tight s : solid s -> tight s /\ one_line s.
  Proof.
    intros H. destruct (join_solid [] s (Forall_cons _ H (Forall_nil _))) as (_ & H1 & H2 & H3). cbn [join_comma] in *. split; [now split|].
    rewrite Forall_forall in H1. split; intros Hi; apply H1 in Hi as (N1 & N2); first [exact (N1 eq_refl)|exact (N2 eq_refl)].
  Qed.
  Lemma join_tight a l : Forall solid (a :: l) -> tight (join_comma (a :: l)) /\ one_line (join_comma (a :: l)).
  Proof.
    intros H. destruct (join_solid l a H) as (_ & H1 & H2 & H3). split; [now split|]. rewrite Forall_forall in H1. split; intros Hi; apply H1 in Hi as (N1 & N2); first [exact (N1 eq_refl)|exact (N2 eq_refl)].
  Qed.
  Lemma split_map {A} (f : A -> chars) (p : chars -> option A) a l :
    (forall x, solid (f x) /\ p (f x) = Some x /\ p (" "%char :: f x) = Some x) ->
    mapO p (split_on ","%char (join_comma (map f (a :: l)))) = Some (a :: l).
  Proof.
    intros Hf. cbn [map]. rewrite split_join.
    - rewrite map_map. cbn. destruct (Hf a) as (_ & -> & _). fold (mapO p (map (fun x => " "%char :: f x) l)).
      rewrite (mapO_map p (fun x => " "%char :: f x) (fun x => x)); [now rewrite map_id|]. intros x _. apply Hf.
    - change (f a :: map f l) with (map f (a :: l)). apply Forall_forall. intros s Hs. apply in_map_iff in Hs as (x & <- & _). apply solid_comma, Hf.
  Qed.
  Lemma ints_ok x : solid (print_Z x) /\ py_intc (print_Z x) = Some x /\ py_intc (" "%char :: print_Z x) = Some x.
  Proof. split; [apply solid_Z|]. split; [apply py_intc_print|]. unfold py_intc. rewrite trim_space. apply py_intc_print. Qed.
  Lemma floats_ok x : solid (rstr x) /\ float rparse (rstr x) = Some x /\ float rparse (" "%char :: rstr x) = Some x.
  Proof. split; [apply solid_R|]. split; [apply float_rstr|]. unfold float. rewrite trim_space. apply float_rstr. Qed.
  Lemma scalars_int l : mapO (scalar rstr) (map JInt l) = Some (map print_Z l).
  Proof. now apply mapO_map. Qed.
  Lemma scalars_real l : mapO (scalar rstr) (map JReal l) = Some (map rstr l).
  Proof. now apply mapO_map. Qed.
  Lemma forall_solid {A} (f : A -> chars) l : (forall x, solid (f x)) -> Forall solid (map f l).
  Proof. intros H. apply Forall_forall. intros s Hs. apply in_map_iff in Hs as (x & <- & _). apply H. Qed.

  Lemma render_ok clean t ty h k (v : json) : type_of_tag t = Some ty -> compat ty h k = true -> of_kind clean k v ->
    exists s d, render rstr h v = Some s /\ store_data rparse t (Some s) = Some (t, d) /\ show_data d = Some v /\ print_data rparse ty (Some s) = Some v /\
      tight s /\ ((forall x, clean x -> one_line x) -> one_line s).
  Proof.
    intros Ht Hc Hk. unfold store_data. rewrite Ht.
    destruct k; cbn [of_kind] in Hk.
    - destruct Hk as (z & ->). assert (h = Plain) as -> by (destruct ty, h; cbn in Hc; congruence). exists (print_Z z).
      assert (S1 : split_on ","%char (print_Z z) = [print_Z z]) by apply split_none, solid_comma, solid_Z.
      destruct (solid_tight _ (solid_Z z)) as (T1 & T2).
      destruct ty; cbn in Hc; try discriminate; cbn [print_data]; rewrite ?S1; cbn [mapO fold_right option_map bind]; rewrite py_intc_print; eexists; repeat split; cbn; auto; apply T1 || apply T2.
    - destruct Hk as (a & b & l & ->). assert (h = Unbracket) as -> by (destruct ty, h; cbn in Hc; congruence).
      exists (join_comma (map print_Z (a :: b :: l))), (DInts (a :: b :: l)).
      assert (E : render rstr Unbracket (JArr (JInt a :: JInt b :: map JInt l)) = Some (join_comma (map print_Z (a :: b :: l)))).
      { cbn [render py_str]. change (JInt a :: JInt b :: map JInt l) with (map (@JInt R) (a :: b :: l)). rewrite scalars_int. cbn [option_map]. f_equal. apply chop_wrap. }
      rewrite E. pose proof (split_map print_Z py_intc a (b :: l) ints_ok) as S1.
      assert (T : tight (join_comma (map print_Z (a :: b :: l))) /\ one_line (join_comma (map print_Z (a :: b :: l)))) by (apply join_tight, (forall_solid print_Z (a :: b :: l)), solid_Z).
      destruct T as (T1 & T2). cbn [print_data].
      destruct ty; cbn in Hc; try discriminate; rewrite S1; repeat split; auto; apply T1 || apply T2.
    - destruct Hk as (r & ->). assert (h = Plain) as -> by (destruct ty, h; cbn in Hc; congruence). assert (ty = REAL8) as -> by (destruct ty; cbn in Hc; congruence).
      exists (rstr r), (DReals [r]).
      assert (S1 : split_on ","%char (rstr r) = [rstr r]) by apply split_none, solid_comma, solid_R.
      destruct (solid_tight _ (solid_R r)) as (T1 & T2). cbn [print_data]. rewrite S1. cbn [mapO fold_right option_map bind]. rewrite float_rstr. repeat split; auto; apply T1 || apply T2.
    - destruct Hk as (a & b & l & ->). assert (h = Unbracket) as -> by (destruct ty, h; cbn in Hc; congruence). assert (ty = REAL8) as -> by (destruct ty; cbn in Hc; congruence).
      exists (join_comma (map rstr (a :: b :: l))), (DReals (a :: b :: l)).
      assert (E : render rstr Unbracket (JArr (JReal a :: JReal b :: map JReal l)) = Some (join_comma (map rstr (a :: b :: l)))).
      { cbn [render py_str]. change (JReal a :: JReal b :: map JReal l) with (map (@JReal R) (a :: b :: l)). rewrite scalars_real. cbn [option_map]. f_equal. apply chop_wrap. }
      rewrite E. pose proof (split_map rstr (float rparse) a (b :: l) floats_ok) as S1.
      assert (T : tight (join_comma (map rstr (a :: b :: l))) /\ one_line (join_comma (map rstr (a :: b :: l)))) by (apply join_tight, (forall_solid rstr (a :: b :: l)), solid_R).
      destruct T as (T1 & T2). cbn [print_data]. rewrite S1. repeat split; auto; apply T1 || apply T2.
    - destruct Hk as (s & -> & Hs). assert (h = Quote) as -> by (destruct ty, h; cbn in Hc; congruence). assert (ty = ASCII) as -> by (destruct ty; cbn in Hc; congruence).
      exists (str """" ++ s ++ str """"), (DAscii s). cbn [print_data render]. assert (E : chop (str """" ++ s ++ str """") = s) by apply chop_wrap. rewrite E.
      split; [reflexivity|]. split; [reflexivity|]. split; [reflexivity|]. split; [reflexivity|]. split.
      + split; [eexists _, _; split; [reflexivity|reflexivity]|]. exists """"%char, (str """" ++ s). split; [now rewrite app_assoc|reflexivity].
      + intros H. destruct (H s Hs) as (H1 & H2). unfold one_line. rewrite !in_app_iff. split; intros [[E'|[]]|[Hi|[E'|[]]]]; try discriminate; tauto.
  Qed.

  (** * The writers and the readers, for any kind of output [O] *)
  Section Both.
    Context {O : Type} (emit : string -> option chars -> option O) (rows : string -> option (string * list row)).
    Variable (rd : state (R := R) -> O -> option (state (R := R))) (good : O -> Prop) (clean : chars -> Prop) (lim : nat).
    Hypothesis Hlim : (7 <= lim)%nat.
    Hypothesis Hdata : forall t ty h k v, type_of_tag t = Some ty -> compat ty h k = true -> of_kind clean k v ->
      exists s o, render rstr h v = Some s /\ emit t (Some s) = Some o /\ good o /\ forall st, rd st o = read_record lim st t ty (Some v).
    Hypothesis Hnone : forall t, type_of_tag t = Some NODATA ->
      exists o, emit t None = Some o /\ good o /\ forall st, exists d, rd st o = read_record lim st t NODATA d.
    Definition Wr (st : state (R := R)) (f : list O -> option (list O)) (st' : state (R := R)) : Prop :=
      forall out, exists os, f out = Some (out ++ os) /\ Forall good os /\ foldO rd os st = Some st'.
    Lemma foldO_app' {A B} (f : B -> A -> option B) l1 l2 b b' : foldO f l1 b = Some b' -> foldO f (l1 ++ l2) b = foldO f l2 b'.
    Proof. revert b. induction l1 as [|a l1 IH]; cbn; intros b H; [injection H as ->; reflexivity|]. destruct (f b a); [now apply IH|discriminate]. Qed.
    Lemma wr_id st : Wr st (fun out => Some out) st.
    Proof. intros out. exists []. rewrite app_nil_r. repeat split. constructor. Qed.
    Lemma wr_bind st f st1 g st2 : Wr st f st1 -> Wr st1 g st2 -> Wr st (fun out => bind (f out) g) st2.
    Proof.
      intros Hf Hg out. destruct (Hf out) as (o1 & -> & G1 & R1). destruct (Hg (out ++ o1)) as (o2 & E2 & G2 & R2). cbn. exists (o1 ++ o2).
      rewrite E2, app_assoc, (foldO_app' _ _ _ _ _ R1). repeat split; auto. now apply Forall_app.
    Qed.
    Lemma wr_put t ty h k v st st' : type_of_tag t = Some ty -> compat ty h k = true -> of_kind clean k v -> read_record lim st t ty (Some v) = Some st' ->
      Wr st (put rstr emit t h (Some v)) st'.
    Proof.
      intros Ht Hc Hk Hr out. destruct (Hdata t ty h k v Ht Hc Hk) as (s & o & E1 & E2 & G & Hd). exists [o]. cbn [put]. rewrite E1, E2. cbn. rewrite Hd, Hr. repeat split; auto.
    Qed.
    Lemma wr_put0 t st st' : type_of_tag t = Some NODATA -> (forall d, read_record lim st t NODATA d = Some st') -> Wr st (put0 emit t) st'.
    Proof.
      intros Ht Hr out. destruct (Hnone t Ht) as (o & E & G & Hd). exists [o]. unfold put0. rewrite E. cbn. destruct (Hd st) as (d & ->). rewrite Hr. repeat split; auto.
    Qed.
    Lemma wr_fold {A} (f : list O -> A -> option (list O)) (P : list A -> state) l : forall pre,
      (forall pre x, In x l -> Wr (P pre) (fun out => f out x) (P (pre ++ [x]))) -> Wr (P pre) (foldO f l) (P (pre ++ l)).
    Proof.
      induction l as [|x l IH]; intros pre H.
      - rewrite app_nil_r. apply wr_id.
      - intros out. destruct (wr_bind _ _ _ (foldO f l) (P (pre ++ x :: l)) (H pre x (or_introl eq_refl))) with (out := out) as (os & E & G & Hr).
        + replace (pre ++ x :: l) with ((pre ++ [x]) ++ l) by now rewrite <- app_assoc. apply IH. intros. apply H. now right.
        + exists os. split; [|now split]. cbn [foldO]. unfold bind in E. destruct (f out x); exact E.
    Qed.

    (** A list of finished values inside an object, opened with the first one. *)
    Definition nest (d : list (string * json)) (key : string) (items : list json) (up : list (frame * string)) : state :=
      match items with [] => Live (FObj d) up | _ => Live (FArr items) ((FObj d, key) :: up) end.
    Definition inside (d : list (string * json)) (key : string) (items : list json) (up : list (frame (R := R) * string)) : list (frame * string) :=
      (FArr items, EmptyString) :: (FObj d, key) :: up.
    Definition close (d : list (string * json)) (key : string) (items : list json) : json :=
      JObj (match items with [] => d | _ => dset String.eqb d key (JArr items) end).
    Lemma nest_begin t data v d key items up : (length up < 5)%nat ->
      (if is_element t then "elements"%string else lower t) = key ->
      (if is_element t then starts3 t "BGN" = false /\ v = [("type"%string, JStr (str (lower t)))] else starts3 t "BGN" = true /\ exists x, data = Some x /\ v = [("time"%string, x)]) ->
      forall cur st, nest d key items up = Live cur st -> begin lim t data (cur, st) = Some (FObj v, inside d key items up).
    Proof.
      intros Hl Hk Hv cur st E.
      assert (L1 : (length up + 1 <? lim)%nat = true) by (apply Nat.ltb_lt; lia). assert (L2 : (S (length up) + 1 <? lim)%nat = true) by (apply Nat.ltb_lt; lia).
      assert (G : begin lim t data (cur, st) = bind (Some (@FObj R [], inside d key items up)) (fun st =>
         let d := if is_element t then [("type"%string, JStr (str (lower t)))] else [] in
         if starts3 t "BGN" then match data with Some v => Some (FObj (dset String.eqb d "time"%string v), snd st) | None => None end else Some (FObj d, snd st))).
      { unfold begin. rewrite Hk. destruct items as [|x items]; cbn [nest] in E; injection E as <- <-; cbn [fst]; unfold open_value.
        - rewrite L1. cbn [bind length]. rewrite L2. reflexivity.
        - cbn [bind length]. rewrite L2. reflexivity. }
      rewrite G. cbn [bind snd]. destruct (is_element t).
      - destruct Hv as (-> & ->). reflexivity.
      - destruct Hv as (-> & x & -> & ->). reflexivity.
    Qed.
    Lemma nest_end d key items up o : down (FObj o) (inside d key items up) = nest d key (items ++ [JObj o]) up.
    Proof. cbn. unfold nest. now destruct items. Qed.
    Lemma down_nest d key items d2 k2 i2 up : forall cur st, nest d key items (inside d2 k2 i2 up) = Live cur st -> down cur st = nest d2 k2 (i2 ++ [close d key items]) up.
    Proof.
      intros cur st E. destruct items as [|x items]; injection E as <- <-.
      - apply nest_end.
      - cbn. unfold nest. now destruct i2.
    Qed.

    (** Writing the fields of an element. *)
    Definition row_ok (sc : schema) (r : row) : bool :=
      let '(f, t, h) := r in
      match type_of_tag t with
      | Some ty => negb (is_nodata ty) && negb (starts3 t "BGN") && negb (is_element t) && String.eqb (lower t) f && existsb (fun p => String.eqb (fst p) f && compat ty h (snd p)) sc
      | None => false
      end.
    Lemma fields_names sc (fs : list (string * json)) : fields clean sc fs -> forall f v, In (f, v) fs -> exists k, In (f, k) sc.
    Proof.
      induction 1 as [|f k s fs _ IH|f k s v fs _ _ IH]; intros g w Hi; [contradiction| |].
      - destruct (IH g w Hi) as (k' & Hk). exists k'. now right.
      - destruct Hi as [[= <- <-]|Hi]; [exists k; now left|]. destruct (IH g w Hi) as (k' & Hk). exists k'. now right.
    Qed.
    Lemma dset_new (d : list (string * json)) k v : ~ In k (map fst d) -> dset String.eqb d k v = d ++ [(k, v)].
    Proof.
      unfold dset. induction d as [|(a, b) d IH]; cbn; intros H; [reflexivity|]. destruct (String.eqb_spec k a) as [->|Hn]; [exfalso; apply H; now left|]. f_equal. apply IH. tauto.
    Qed.
    Lemma dget_app (d1 d2 : list (string * json)) k : ~ In k (map fst d1) -> dget String.eqb (d1 ++ d2) k = dget String.eqb d2 k.
    Proof. induction d1 as [|(a, b) d IH]; cbn; intros H; [reflexivity|]. destruct (String.eqb_spec k a) as [->|Hn]; [exfalso; apply H; now left|]. apply IH. tauto. Qed.
    Lemma dget_out (d : list (string * json)) k : ~ In k (map fst d) -> dget String.eqb d k = None.
    Proof. induction d as [|(a, b) d IH]; cbn; intros H; [reflexivity|]. destruct (String.eqb_spec k a) as [->|Hn]; [exfalso; apply H; now left|]. apply IH. tauto. Qed.
    (** The rows of a writer against the fields of an element: other rows find no value. *)
    Inductive covers (e : json) : schema -> list row -> Prop :=
    | cov_nil : covers e [] []
    | cov_row f k sc t h rs : row_ok [(f, k)] (f, t, h) = true -> covers e sc rs -> covers e ((f, k) :: sc) ((f, t, h) :: rs)
    | cov_extra f t h sc rs : jget e f = None -> covers e sc rs -> covers e sc ((f, t, h) :: rs).
    Lemma write_fields up e : forall sc rs, covers e sc rs -> forall fs, fields clean sc fs ->
      forall pre, NoDup (map fst sc) -> (forall f, In f (map fst sc) -> ~ In f (map fst pre)) ->
      (forall f, In f (map fst sc) -> jget e f = dget String.eqb fs f) ->
      Wr (Live (FObj pre) up) (foldO (write_row rstr emit e) rs) (Live (FObj (pre ++ fs)) up).
    Proof.
      induction 1 as [|f k sc t h rs Hr Hcov IH|f t h sc rs Hx Hcov IH]; intros fs Hf pre Hsc Hpre He.
      - inversion Hf; subst. rewrite app_nil_r. apply wr_id.
      - apply NoDup_cons_iff in Hsc as (Hnf & Hsc). inversion Hf as [|? ? ? ? Hf'|? ? ? v fs' Hk Hf']; subst.
        + intros out. destruct (IH fs Hf' pre Hsc) with (out := out) as (os & E & G & Hrd).
          * intros x Hx. apply Hpre. now right.
          * intros x Hx. apply He. now right.
          * exists os. split; [|now split]. cbn [foldO write_row]. rewrite (He f (or_introl eq_refl)), dget_out; [exact E|].
            intros Hi. apply in_map_iff in Hi as ((f', v) & Ef & Hi). cbn in Ef. subst f'. destruct (fields_names _ _ Hf' _ _ Hi) as (k' & Hk'). apply Hnf. exact (in_map fst _ _ Hk').
        + cbn [row_ok] in Hr. destruct (type_of_tag t) as [ty|] eqn:Et; [|discriminate]. cbn [existsb fst snd] in Hr. rewrite String.eqb_refl, orb_false_r in Hr.
          apply andb_true_iff in Hr as (Hr & Hc). apply andb_true_iff in Hr as (Hr & Hl). apply andb_true_iff in Hr as (Hr & Hel). apply andb_true_iff in Hr as (Hnd1 & Hb).
          cbn in Hc. apply String.eqb_eq in Hl. apply negb_true_iff in Hel, Hb.
          assert (Hfp : ~ In f (map fst pre)) by (apply Hpre; now left).
          assert (Hw : Wr (Live (FObj pre) up) (put rstr emit t h (Some v)) (Live (FObj (pre ++ [(f, v)])) up)).
          { apply (wr_put t ty h k v); auto. cbn [read_record]. rewrite Hb, Hel, andb_false_r, Hnd1. cbn [orb bind negb andb]. rewrite Hl. now rewrite dset_new. }
          intros out. destruct (wr_bind _ _ _ (foldO (write_row rstr emit e) rs) (Live (FObj ((pre ++ [(f, v)]) ++ fs')) up) Hw) with (out := out) as (os & E & G & Hrd).
          * apply IH; auto.
            -- intros x Hx. rewrite map_app, in_app_iff. intros [Hi|[Hi|[]]]; [apply (Hpre x); [now right|exact Hi]|]. cbn in Hi. subst x. contradiction.
            -- intros x Hx. rewrite (He x (or_intror Hx)). cbn. destruct (String.eqb_spec x f) as [->|]; [contradiction|reflexivity].
          * exists os. rewrite <- app_assoc in Hrd. split; [|now split]. cbn [foldO write_row]. rewrite (He f (or_introl eq_refl)). cbn [dget]. rewrite String.eqb_refl.
            unfold bind in E. exact E.
      - intros out. destruct (IH fs Hf pre Hsc Hpre He out) as (os & E & G & Hrd). exists os. split; [|now split]. cbn [foldO write_row]. rewrite Hx. exact E.
    Qed.

    (** Every kind of element has its rows. *)
    Variable kinds : list (string * schema).
    Definition tag_ok (t tag : string) : Prop := type_of_tag tag = Some NODATA /\ is_element tag = true /\ lower tag = t /\ starts3 tag "BGN" = false /\ starts3 tag "END" = false.
    Hypothesis Hkinds : forall t sc fs, In (t, sc) kinds -> fields clean sc fs -> NoDup (map fst sc) /\ ~ In "type"%string (map fst sc) /\
      exists tag rs, rows t = Some (tag, rs) /\ tag_ok t tag /\ covers (JObj (("type"%string, JStr (str t)) :: fs)) sc rs.
    Lemma wr_elem e c items up : (length up < 5)%nat -> wf_elem clean kinds e ->
      Wr (nest c "elements" items up) (fun out => write_elem rstr emit rows out e) (nest c "elements" (items ++ [e]) up).
    Proof.
      intros Hl (t & sc & fs & Hin & Hf & ->). destruct (Hkinds t sc fs Hin Hf) as (Hnd & Hty & tag & rs & Er & (Ht1 & Ht2 & Ht3 & Ht4 & Ht5) & Hcov).
      set (e := JObj (("type"%string, JStr (str t)) :: fs)) in *.
      assert (Eq : forall out, write_elem rstr emit rows out e = bind (bind (put0 emit tag out) (foldO (write_row rstr emit e) rs)) (put0 emit "ENDEL")).
      { intros out. unfold write_elem, e at 1. cbn [jget dget]. rewrite String.eqb_refl. unfold str. rewrite string_of_list_ascii_of_string, Er. reflexivity. }
      assert (W : Wr (nest c "elements" items up) (fun out => bind (bind (put0 emit tag out) (foldO (write_row rstr emit e) rs)) (put0 emit "ENDEL")) (nest c "elements" (items ++ [e]) up)).
      { apply (wr_bind _ _ (Live (FObj (("type"%string, JStr (str t)) :: fs)) (inside c "elements" items up))).
        - apply (wr_bind _ _ (Live (FObj [("type"%string, JStr (str t))]) (inside c "elements" items up))).
          + apply wr_put0; [exact Ht1|]. intros d. destruct (nest c "elements" items up) as [cur st|] eqn:En; [|destruct items; discriminate].
            cbn [read_record is_nodata negb andb]. rewrite Ht2. cbn [orb].
            rewrite (nest_begin tag d [("type"%string, JStr (str t))] c "elements" items up Hl); [|now rewrite Ht2|rewrite Ht2, Ht3; now split|exact En].
            cbn [bind]. now rewrite Ht5.
          + apply (write_fields (inside c "elements" items up) e sc rs Hcov fs Hf [("type"%string, JStr (str t))]); [exact Hnd| |].
            * intros f Hi [E|[]]. cbn in E. subst f. contradiction.
            * intros f Hi. unfold e. cbn. destruct (String.eqb_spec f "type"); [subst f; contradiction|reflexivity].
        - apply wr_put0; [reflexivity|]. intros d. cbn [read_record is_nodata negb andb]. change (is_element "ENDEL") with false. cbn [orb bind].
          change (starts3 "ENDEL" "END") with true. cbv iota. f_equal. apply nest_end. }
      intros out. destruct (W out) as (os & E & G & Hr). exists os. rewrite Eq. now split.
    Qed.

    Lemma wr_ext st f g st' : (forall out, f out = g out) -> Wr st f st' -> Wr st g st'.
    Proof. intros E H out. destruct (H out) as (os & ? & ? & ?). exists os. rewrite <- E. now split. Qed.
    (** A data record in the current object. *)
    Lemma wr_field t ty h k v d up : type_of_tag t = Some ty -> compat ty h k = true -> of_kind clean k v ->
      is_nodata ty = false -> starts3 t "BGN" = false -> is_element t = false -> ~ In (lower t) (map fst d) ->
      Wr (Live (FObj d) up) (put rstr emit t h (Some v)) (Live (FObj (d ++ [(lower t, v)])) up).
    Proof.
      intros Ht Hc Hk Hn Hb He Hd. apply (wr_put t ty h k v); auto. cbn [read_record]. rewrite Hn, Hb, He. cbn [orb bind negb andb]. now rewrite dset_new.
    Qed.
    (** A library or a structure opens. *)
    Lemma wr_open t v d key items up : (length up < 5)%nat -> type_of_tag t = Some INT2 -> of_kind clean KInts v -> is_element t = false -> starts3 t "BGN" = true -> starts3 t "END" = false ->
      lower t = key -> Wr (nest d key items up) (put rstr emit t Unbracket (Some v)) (Live (FObj [("time"%string, v)]) (inside d key items up)).
    Proof.
      intros Hl Ht Hk He Hb Hend Hkey. apply (wr_put t INT2 Unbracket KInts v); auto. destruct (nest d key items up) as [cur st|] eqn:En; [|destruct items; discriminate].
      cbn [read_record is_nodata negb]. rewrite Hb. cbn [andb orb].
      rewrite (nest_begin t (Some v) [("time"%string, v)] d key items up Hl); [|now rewrite He|rewrite He; split; [exact Hb|exists v; now split]|exact En].
      cbn [bind negb andb]. now rewrite Hend.
    Qed.
    Lemma wr_cell c d items up : (length up < 3)%nat -> wf_cell clean kinds c ->
      Wr (nest d "bgnstr" items up) (fun out => write_cell rstr emit rows out c) (nest d "bgnstr" (items ++ [c]) up).
    Proof.
      intros Hl (time & name & es & Ht & Hn & Hes & Ec).
      set (cd := [("time"%string, time); ("strname"%string, name)]).
      assert (G1 : jget c "time" = Some time) by (subst c; reflexivity). assert (G2 : jget c "strname" = Some name) by (subst c; reflexivity).
      assert (G3 : jget c "elements" = match es with [] => None | _ => Some (JArr es) end) by (subst c; now destruct es).
      unfold write_cell. rewrite G1, G2, G3.
      apply (wr_bind _ _ (Live (FObj [("time"%string, time)]) (inside d "bgnstr" items up))).
      { apply wr_open; auto; cbn; lia. }
      apply (wr_bind _ _ (Live (FObj cd) (inside d "bgnstr" items up))).
      { apply (wr_field "STRNAME" ASCII Quote KStr); auto. cbn. intros [E|[]]; discriminate. }
      apply (wr_bind _ _ (nest cd "elements" es (inside d "bgnstr" items up))).
      { destruct es as [|x es]; [apply wr_id|]. cbn [jlist bind].
        apply (wr_fold (write_elem rstr emit rows) (fun l => nest cd "elements" l (inside d "bgnstr" items up)) (x :: es) []).
        intros pre y Hy. apply wr_elem; [cbn; lia|]. rewrite Forall_forall in Hes. now apply Hes. }
      apply wr_put0; [reflexivity|]. intros dd. destruct (nest cd "elements" es (inside d "bgnstr" items up)) as [cur st|] eqn:En; [|destruct es; discriminate].
      cbn [read_record is_nodata negb andb]. change (is_element "ENDSTR") with false. cbn [orb bind]. change (starts3 "ENDSTR" "END") with true. cbv iota. f_equal.
      rewrite (down_nest _ _ _ _ _ _ _ _ _ En). f_equal. f_equal. f_equal. subst c. unfold close. now destruct es.
    Qed.
    Lemma wr_lib l d items : wf_lib clean kinds l ->
      Wr (nest d "bgnlib" items []) (fun out => write_lib rstr emit rows out l) (nest d "bgnlib" (items ++ [l]) []).
    Proof.
      intros (time & name & units & cells & Ht & Hn & Hu & Hcs & Hne & El).
      set (ld := [("time"%string, time); ("libname"%string, name); ("units"%string, units)]).
      assert (G1 : jget l "time" = Some time) by (subst l; reflexivity). assert (G2 : jget l "libname" = Some name) by (subst l; reflexivity).
      assert (G3 : jget l "units" = Some units) by (subst l; reflexivity). assert (G4 : jget l "bgnstr" = Some (JArr cells)) by (subst l; reflexivity).
      unfold write_lib. rewrite G1, G2, G3, G4.
      apply (wr_bind _ _ (Live (FObj [("time"%string, time)]) (inside d "bgnlib" items []))).
      { apply wr_open; auto; cbn; lia. }
      apply (wr_bind _ _ (Live (FObj [("time"%string, time); ("libname"%string, name)]) (inside d "bgnlib" items []))).
      { apply (wr_field "LIBNAME" ASCII Quote KStr); auto. cbn. intros [E|[]]; discriminate. }
      apply (wr_bind _ _ (Live (FObj ld) (inside d "bgnlib" items []))).
      { apply (wr_field "UNITS" REAL8 Unbracket KReals); auto. cbn. intros [E|[E|[]]]; discriminate. }
      cbn [jlist bind].
      apply (wr_bind _ _ (nest ld "bgnstr" cells (inside d "bgnlib" items []))).
      { apply (wr_fold (write_cell rstr emit rows) (fun l => nest ld "bgnstr" l (inside d "bgnlib" items [])) cells []).
        intros pre y Hy. apply wr_cell; [cbn; lia|]. rewrite Forall_forall in Hcs. now apply Hcs. }
      apply wr_put0; [reflexivity|]. intros dd. destruct (nest ld "bgnstr" cells (inside d "bgnlib" items [])) as [cur st|] eqn:En; [|destruct cells; discriminate].
      cbn [read_record is_nodata negb andb]. change (is_element "ENDLIB") with false. cbn [orb bind]. change (starts3 "ENDLIB" "END") with true. cbv iota. f_equal.
      rewrite (down_nest _ _ _ _ _ _ _ _ _ En). f_equal. f_equal. f_equal. subst l. unfold close. destruct cells; [congruence|reflexivity].
    Qed.
    Theorem round_trip doc : wf_doc clean kinds doc ->
      exists os st, write rstr emit rows doc = Some os /\ Forall good os /\ foldO rd os (Live (FObj []) []) = Some st /\ top st = doc.
    Proof.
      intros (h & libs & Hl & Hne & ->). set (hd := [("header"%string, @JInt R h)]).
      assert (W : Wr (Live (FObj []) []) (fun out => bind (put rstr emit "HEADER" Plain (Some (JInt h)) out) (foldO (write_lib rstr emit rows) libs)) (nest hd "bgnlib" libs [])).
      { apply (wr_bind _ _ (nest hd "bgnlib" [] [])).
        - apply (wr_field "HEADER" INT2 Plain KInt); auto. exists h. reflexivity.
        - apply (wr_fold (write_lib rstr emit rows) (fun l => nest hd "bgnlib" l []) libs []). intros pre y Hy. apply wr_lib. rewrite Forall_forall in Hl. now apply Hl. }
      destruct (W []) as (os & E & G & Hr). exists os, (nest hd "bgnlib" libs []). split; [exact E|]. split; [exact G|]. split; [exact Hr|].
      unfold nest. destruct libs; [congruence|reflexivity].
    Qed.
  End Both.
End Fields.

(** * GDSII records *)
Definition gds_kinds : list (string * schema) := [boundary; path; text; sref].
Definition txt_kinds : list (string * schema) := [boundary; text; sref].
Lemma fields_absent {R} clean (t f : string) sc (fs : list (string * json R)) : fields clean sc fs -> ~ In f ("type"%string :: map fst sc) -> jget (JObj (("type"%string, JStr (str t)) :: fs)) f = None.
Proof.
  intros Hf Hn. cbn [jget]. apply (proj2 (dget_none String.eqb String.eqb_eq _ _)). cbn [map fst]. intros [E|Hi]; [apply Hn; left; exact E|]. apply Hn. right. apply in_map_iff in Hi as ((g, v) & E & Hi). cbn in E. subst g.
  destruct (fields_names clean _ _ Hf _ _ Hi) as (k & Hk). exact (in_map fst _ _ Hk).
Qed.
Ltac nodup_tac := repeat (constructor; [cbn; intuition discriminate|]); constructor.
Lemma rows_cover {R} clean (rows : string -> option (string * list row)) kinds :
  (forall t, In t ["boundary"; "text"; "sref"]%string -> rows t = gds_rows t) ->
  (In path kinds -> rows "path"%string = gds_rows "path") -> incl kinds gds_kinds ->
  forall t sc (fs : list (string * json R)), In (t, sc) kinds -> fields clean sc fs -> NoDup (map fst sc) /\ ~ In "type"%string (map fst sc) /\
      exists tag rs, rows t = Some (tag, rs) /\ tag_ok t tag /\ covers (JObj (("type"%string, JStr (str t)) :: fs)) sc rs.
Proof.
  intros H1 H2 Hincl t sc fs Hin Hf. pose proof (Hincl _ Hin) as Hg. destruct Hg as [E|[E|[E|[E|[]]]]]; injection E as <- <-; (split; [nodup_tac|]); (split; [cbn; intuition discriminate|]).
  - rewrite H1 by (cbn; tauto). eexists _, _. split; [reflexivity|]. split; [repeat split|]. repeat (apply cov_row; [reflexivity|]). constructor.
  - rewrite H2 by exact Hin. eexists _, _. split; [reflexivity|]. split; [repeat split|]. do 4 (apply cov_row; [reflexivity|]). apply cov_extra.
    + eapply fields_absent; [exact Hf|]. cbn. intuition discriminate.
    + repeat (apply cov_row; [reflexivity|]). constructor.
  - rewrite H1 by (cbn; tauto). eexists _, _. split; [reflexivity|]. split; [repeat split|]. repeat (apply cov_row; [reflexivity|]). constructor.
  - rewrite H1 by (cbn; tauto). eexists _, _. split; [reflexivity|]. split; [repeat split|]. repeat (apply cov_row; [reflexivity|]). constructor.
Qed.

Section Top.
  Context {R : Type} (rstr : R -> chars) (rparse : chars -> option R).
  Hypothesis HR : reals_ok rstr rparse.
  Theorem gds_round_trip doc : wf_doc (fun _ => True) gds_kinds doc -> exists recs, json2gds rstr rparse doc = Some recs /\ gds2json recs = Some doc.
  Proof.
    intros Hw.
    destruct (round_trip rstr (store_data rparse) gds_rows
      (fun st r => match type_of_tag (fst r) with Some ty => read_record 23 st (fst r) ty (show_data (snd r)) | None => None end) (fun _ => True) (fun _ => True) 23) with (kinds := gds_kinds) (doc := doc) as (os & st & E & _ & Er & Et); auto.
    - lia.
    - intros t ty h k v Ht Hc Hk. destruct (render_ok rstr rparse HR _ t ty h k v Ht Hc Hk) as (s & d & E1 & E2 & E3 & _). exists s, (t, d). repeat split; auto. intros st. cbn [fst snd]. now rewrite Ht, E3.
    - intros t Ht. exists (t, DNone). unfold store_data. rewrite Ht. repeat split. intros st. exists (show_data DNone). cbn [fst snd]. now rewrite Ht.
    - apply rows_cover; auto. apply incl_refl.
    - exists os. split; [exact E|]. unfold gds2json. rewrite Er. cbn [option_map]. now rewrite Et.
  Qed.

  (** * Text *)
  Lemma lines_app b s : one_line b -> lines (b ++ newline :: s) = b :: lines s.
  Proof.
    intros Hb. unfold lines.
    assert (G : forall b acc, one_line b -> lines_go acc (b ++ newline :: s) = (rev acc ++ b) :: lines_go [] s).
    { clear. induction b as [|c b IH]; intros acc (H1 & H2).
      - cbn. rewrite app_nil_r. f_equal. now destruct s.
      - cbn [app lines_go]. assert (N1 : Ascii.eqb c newline = false) by (apply Ascii.eqb_neq; intros ->; apply H1; now left).
        assert (N2 : Ascii.eqb c (ascii_of_N 13) = false) by (apply Ascii.eqb_neq; intros ->; apply H2; now left). rewrite N1, N2. cbn [orb].
        rewrite IH; [|split; intros Hi; [apply H1|apply H2]; now right]. cbn [rev]. now rewrite <- app_assoc. }
    apply (G b [] Hb).
  Qed.
  Definition good_line (o : chars) : Prop := exists b, o = b ++ [newline] /\ one_line b.
  Lemma lines_concat os : Forall good_line os -> lines (concat os) = map (fun o => removelast o) os.
  Proof.
    induction 1 as [|o os (b & -> & Hb) _ IH]; [reflexivity|]. cbn [concat map]. rewrite <- app_assoc. cbn [app]. rewrite lines_app, IH by exact Hb. f_equal. now rewrite removelast_last.
  Qed.
  Definition tag_char (c : ascii) : bool := negb (is_ws c) && negb (Ascii.eqb c ":").
  Lemma tag_chars t ty : type_of_tag t = Some ty -> str t <> [] /\ forallb tag_char (str t) = true.
  Proof.
    intros H. apply (dget_in _ String.eqb_eq) in H.
    assert (A : forallb (fun p => negb (match str (fst p) with [] => true | _ => false end) && forallb tag_char (str (fst p))) tags = true) by reflexivity.
    rewrite forallb_forall in A. apply A in H. cbn [fst] in H. apply andb_true_iff in H as (H1 & H2). split; [|exact H2]. intros E. now rewrite E in H1.
  Qed.
  Lemma tag_line s : forallb tag_char s = true -> one_line s.
  Proof. rewrite forallb_forall. intros H. split; intros Hi; apply H in Hi; discriminate. Qed.
  Lemma trim_tight s : tight s -> trim s = s.
  Proof.
    intros ((c & t & E & Hc) & (c' & t' & E' & Hc')). unfold trim. rewrite (ltrim_id s) by (now rewrite E). rewrite E', rev_app_distr. cbn [rev app]. rewrite ltrim_id by exact Hc'.
    cbn [rev]. now rewrite rev_involutive.
  Qed.
  Lemma parse_tag t ty : type_of_tag t = Some ty -> parse_line (str t) = Some (t, None).
  Proof.
    intros Ht. destruct (tag_chars t ty Ht) as (Hne & Hc). unfold parse_line. rewrite trim_id.
    - rewrite span_all.
      + destruct (str t) eqn:E; [congruence|]. rewrite <- E. unfold str. now rewrite string_of_list_ascii_of_string.
      + rewrite forallb_forall in *. intros c Hi. apply Hc in Hi. unfold tag_char in Hi. now apply andb_true_iff in Hi.
    - rewrite forallb_forall in Hc. apply Forall_forall. intros c Hi. apply Hc in Hi. unfold tag_char in Hi. apply andb_true_iff in Hi as (Hi & _). now apply negb_true_iff in Hi.
  Qed.
  Lemma parse_data t ty s : type_of_tag t = Some ty -> tight s -> parse_line (str t ++ str ": " ++ s) = Some (t, Some s).
  Proof.
    intros Ht Hs. destruct (tag_chars t ty Ht) as (Hne & Hc). unfold parse_line.
    assert (Hsp : forallb (fun c => negb (Ascii.eqb c ":")) (str t) = true).
    { rewrite forallb_forall in *. intros c Hi. apply Hc in Hi. unfold tag_char in Hi. now apply andb_true_iff in Hi. }
    rewrite trim_tight.
    - change (str ": " ++ s) with (":"%char :: " "%char :: s). rewrite span_split; [|exact Hsp|reflexivity].
      destruct (str t) eqn:E; [congruence|]. rewrite <- E. unfold str. rewrite string_of_list_ascii_of_string. f_equal. f_equal. f_equal.
      change (ltrim (" "%char :: s)) with (ltrim s). apply ltrim_id. destruct Hs as ((x & u & -> & Hc') & _). exact Hc'.
    - destruct Hs as ((c & u & Eu & Hcu) & (c' & u' & Eu' & Hcu')). split.
      + destruct (str t) as [|x l] eqn:E; [congruence|]. exists x, (l ++ str ": " ++ s). split; [reflexivity|]. cbn in Hc. apply andb_true_iff in Hc as (Hx & _). unfold tag_char in Hx. apply andb_true_iff in Hx as (Hx & _). now apply negb_true_iff in Hx.
      + exists c', (str t ++ str ": " ++ u'). split; [|exact Hcu']. rewrite Eu', <- !app_assoc. reflexivity.
  Qed.
  Lemma foldO_map {A B C} (f : C -> B -> option C) (g : A -> B) l : forall c, foldO f (map g l) c = foldO (fun c a => f c (g a)) l c.
  Proof. induction l as [|a l IH]; intros c; cbn; [reflexivity|]. destruct (f c (g a)); auto. Qed.
  Theorem txt_round_trip doc : wf_doc one_line txt_kinds doc -> exists s, json2txt rstr doc = Some s /\ txt2json rparse s = Some doc.
  Proof.
    intros Hw.
    destruct (round_trip rstr print_line txt_rows (fun st o => read_line rparse st (removelast o)) good_line one_line 7) with (kinds := txt_kinds) (doc := doc) as (os & st & E & Hg & Er & Et); auto.
    - intros t ty h k v Ht Hc Hk. destruct (render_ok rstr rparse HR _ t ty h k v Ht Hc Hk) as (s & d & E1 & _ & _ & E4 & T & Ho). exists s, ((str t ++ str ": " ++ s) ++ [newline]). split; [exact E1|]. split; [reflexivity|]. split.
      + eexists. split; [reflexivity|]. destruct (tag_chars t ty Ht) as (_ & Htc). destruct (tag_line _ Htc) as (A1 & A2). destruct Ho as (B1 & B2); [auto|].
        unfold one_line. rewrite !in_app_iff. split; intros [Hi|[[E|[E|[]]]|Hi]]; try discriminate; tauto.
      + intros st. rewrite removelast_last. unfold read_line. rewrite (parse_data t ty s Ht T). cbn [bind]. rewrite Ht. cbn [bind]. now rewrite E4.
    - intros t Ht. exists (str t ++ [newline]). split; [reflexivity|]. split.
      + eexists. split; [reflexivity|]. eapply tag_line, tag_chars, Ht.
      + intros st. rewrite removelast_last. unfold read_line. rewrite (parse_tag t NODATA Ht). cbn [bind]. rewrite Ht. cbn [bind]. eexists. reflexivity.
    - apply rows_cover.
      + intros t [<-|[<-|[<-|[]]]]; reflexivity.
      + intros [H|[H|[H|[]]]]; discriminate.
      + intros x [<-|[<-|[<-|[]]]]; cbn; tauto.
    - exists (concat os). unfold json2txt. rewrite E. split; [reflexivity|]. unfold txt2json. rewrite (lines_concat os Hg).
      assert (X : foldO (read_line rparse) (map (fun o => removelast o) os) (Live (FObj []) []) = Some st) by (rewrite foldO_map; exact Er).
      rewrite X. cbn [option_map]. now rewrite Et.
  Qed.
End Top.
