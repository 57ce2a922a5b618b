(** C69: layouts survive the conversion from JSON to GDSII records or text and back. *)
From Coq Require Import String Ascii.
From Verif Require Import Base.Prelude Base.PyDict Base.PyStr Model.Lef Model.Netlist Model.UpdateConst Model.GdsConv Spec.GdsSpec Proofs.SeriesP Proofs.GdsConvP.
Local Open Scope Z_scope.

(** JSON to GDSII to JSON, for documents of boundaries, paths (without [bgnextn]), texts and references. *)
Theorem C69_gds : forall R (rstr : R -> chars) rparse, reals_ok rstr rparse ->
  forall doc, wf_doc (fun _ => True) [boundary; path; text; sref] doc ->
  exists recs, json2gds rstr rparse doc = Some recs /\ gds2json recs = Some doc.
Proof. intros R rstr rparse HR doc. apply (gds_round_trip rstr rparse HR). Qed.
Print Assumptions C69_gds.

(** JSON to text to JSON, for documents of boundaries, texts and references whose strings have no line breaks. *)
Theorem C69_txt : forall R (rstr : R -> chars) rparse, reals_ok rstr rparse ->
  forall doc, wf_doc one_line [boundary; text; sref] doc ->
  exists s, json2txt rstr doc = Some s /\ txt2json rparse s = Some doc.
Proof. intros R rstr rparse HR doc. apply (txt_round_trip rstr rparse HR). Qed.
Print Assumptions C69_txt.

(** The magnification of a reference is never written, whatever the rest of the document. *)
Theorem C69_mag_lost : forall R (rstr : R -> chars) (rparse : chars -> option R) d v, dget String.eqb d "type"%string = Some (JStr (str "sref")) ->
  (forall out, write_elem rstr (store_data rparse) gds_rows out (JObj (dset String.eqb d "mag"%string v)) = write_elem rstr (store_data rparse) gds_rows out (JObj d)) /\
  (forall out, write_elem rstr print_line txt_rows out (JObj (dset String.eqb d "mag"%string v)) = write_elem rstr print_line txt_rows out (JObj d)).
Proof.
  intros R rstr rparse d v Ht.
  assert (G : forall k, k <> "mag"%string -> jget (JObj (dset String.eqb d "mag"%string v)) k = jget (JObj d) k).
  { intros k Hk. cbn [jget]. clear Ht. unfold dset. induction d as [|(a, b) d IH]; cbn [dget dupd].
    - destruct (String.eqb_spec k "mag"); [contradiction|reflexivity].
    - destruct (String.eqb "mag" a) eqn:E; cbn [dget].
      + apply String.eqb_eq in E. subst a. destruct (String.eqb_spec k "mag"); [contradiction|reflexivity].
      + destruct (String.eqb k a); [reflexivity|exact IH]. }
  assert (W : forall O (emit : string -> option chars -> option O) rows, rows "sref"%string = gds_rows "sref" ->
    forall out, write_elem rstr emit rows out (JObj (dset String.eqb d "mag"%string v)) = write_elem rstr emit rows out (JObj d)).
  { intros O emit rows Hr out. unfold write_elem. rewrite G by discriminate. cbn [jget]. rewrite Ht. change (string_of_list_ascii (str "sref")) with "sref"%string. rewrite Hr.
    change (gds_rows "sref") with (Some ("SREF", [("sname", "SNAME", Quote); ("strans", "STRANS", Plain); ("angle", "ANGLE", Plain); ("xy", "XY", Unbracket)]))%string. cbv iota.
    unfold bind. destruct (put0 emit "SREF" out) as [out'|]; [|reflexivity].
    cbn [foldO]. unfold write_row. rewrite !G by discriminate. reflexivity. }
  split; intros out; apply W; reflexivity.
Qed.
Print Assumptions C69_mag_lost.

(** An element of another type is replaced by a lone end record, whatever it holds. *)
Theorem C69_other_types_lost : forall R (rstr : R -> chars) (rparse : chars -> option R) e t, jget e "type" = Some (JStr (str t)) ->
  (gds_rows t = None -> forall out, write_elem rstr (store_data rparse) gds_rows out e = Some (out ++ [("ENDEL"%string, DNone)])) /\
  (txt_rows t = None -> forall out, write_elem rstr print_line txt_rows out e = Some (out ++ [str "ENDEL" ++ [newline]])).
Proof.
  intros R rstr rparse e t Ht. split; intros Hr out; unfold write_elem; rewrite Ht; unfold str at 1; rewrite string_of_list_ascii_of_string, Hr; reflexivity.
Qed.
Print Assumptions C69_other_types_lost.

(** Examples, with integers for real numbers. *)
Local Open Scope string_scope. Local Open Scope list_scope.
Definition rp (s : chars) : option Z := py_int (string_of_list_ascii s).
Notation J := (json Z).
Lemma rp_ok : reals_ok print_Z rp.
Proof. intros r. destruct (solid_Z r) as (H1 & H2). split; [apply py_int_zstr|]. now split. Qed.
Definition nums (l : list Z) : J := JArr (map JInt l).
Definition cell (name : string) (es : list J) : J := JObj [("time", nums [2019; 4]); ("strname", JStr (str name)); ("elements", JArr es)].
Definition lib (name : string) (cells : list J) : J := JObj [("time", nums [2019; 5]); ("libname", JStr (str name)); ("units", JArr [JReal 1; JReal 2]); ("bgnstr", JArr cells)].
Definition doc (libs : list J) : J := JObj [("header", JInt 600); ("bgnlib", JArr libs)].
Definition box : J := JObj [("type", JStr (str "boundary")); ("layer", JInt 21); ("xy", nums [-36; 0; 36; -7]); ("propvalue", JStr (str "a: b "))].
Definition label : J := JObj [("type", JStr (str "text")); ("layer", JInt 2); ("mag", JReal 3); ("xy", nums [4; 5]); ("string", JStr (str "vdd"))].
Definition use (name : string) : J := JObj [("type", JStr (str "sref")); ("sname", JStr (str name)); ("angle", JReal 90); ("xy", nums [4; 5])].
Definition wire (more : list (string * J)) : J := JObj ([("type", JStr (str "path")); ("layer", JInt 3); ("width", JInt 40)] ++ more ++ [("xy", nums [0; 0; 100; 0])]).
Definition there_txt (d : J) : option J := match json2txt print_Z d with Some s => txt2json rp s | None => None end.
Definition there_gds (d : J) : option J := match json2gds print_Z rp d with Some s => gds2json s | None => None end.

(** The path is missing from the text, and its end record closes the structure: the second structure, which the path's
    structure preceded in a library, comes back as a library of its own. *)
Theorem C69_path_text_refuted : exists d d', wf_doc one_line [boundary; path; text; sref] d /\ there_gds d = Some d /\ there_txt d = Some d' /\
  d = doc [lib "l" [cell "c" [box; wire []]; cell "e" [box]]] /\
  d' = doc [JObj [("time", nums [2019; 5]); ("libname", JStr (str "l")); ("units", JArr [JReal 1; JReal 2]); ("bgnstr", JArr [cell "c" [box]])]; cell "e" [box]].
Proof.
  exists (doc [lib "l" [cell "c" [box; wire []]; cell "e" [box]]]), (doc [lib "l" [cell "c" [box]]; cell "e" [box]]). split; [|repeat split; vm_compute; reflexivity].
  assert (L : forall s, one_line (str s) <-> forallb (fun c => negb (Ascii.eqb c (ascii_of_N 10)) && negb (Ascii.eqb c (ascii_of_N 13))) (str s) = true).
  { intros s. rewrite forallb_forall. unfold one_line. split.
    - intros (H1 & H2) c Hc. apply andb_true_iff. split; apply negb_true_iff, Ascii.eqb_neq; intros ->; contradiction.
    - intros H. split; intros Hi; apply H in Hi; discriminate. }
  assert (K : forall s, forallb (fun c => negb (Ascii.eqb c (ascii_of_N 10)) && negb (Ascii.eqb c (ascii_of_N 13))) (str s) = true -> of_kind (R := Z) one_line KStr (JStr (str s))).
  { intros s Hs. exists (str s). split; [reflexivity|]. now apply L. }
  assert (T : forall a b, of_kind (R := Z) one_line KInts (nums [a; b])) by (intros a b; exists a, b, []; reflexivity).
  assert (B : wf_elem (R := Z) one_line [boundary; path; text; sref] box).
  { exists "boundary", (snd boundary). eexists. split; [left; reflexivity|]. split; [|reflexivity].
    apply fields_take; [now exists 21|]. apply fields_skip. apply fields_take; [exists (-36), 0, [36; -7]; reflexivity|]. apply fields_skip. apply fields_take; [now apply (K "a: b ")|]. constructor. }
  assert (W : wf_elem (R := Z) one_line [boundary; path; text; sref] (wire [])).
  { exists "path", (snd path). eexists. split; [right; left; reflexivity|]. split; [|reflexivity].
    apply fields_take; [now exists 3|]. do 2 apply fields_skip. apply fields_take; [now exists 40|]. apply fields_skip. apply fields_take; [exists 0, 0, [100; 0]; reflexivity|]. constructor. }
  assert (C : forall n es, Forall (wf_elem one_line [boundary; path; text; sref]) es -> es <> [] -> of_kind (R := Z) one_line KStr (JStr (str n)) -> wf_cell one_line [boundary; path; text; sref] (cell n es)).
  { intros n es Hes Hne Hn. exists (nums [2019; 4]), (JStr (str n)), es. split; [apply T|]. split; [exact Hn|]. split; [exact Hes|]. destruct es; [congruence|reflexivity]. }
  exists 600, [lib "l" [cell "c" [box; wire []]; cell "e" [box]]]. split; [|split; [discriminate|reflexivity]]. constructor; [|constructor].
  exists (nums [2019; 5]), (JStr (str "l")), (JArr [JReal 1; JReal 2]), [cell "c" [box; wire []]; cell "e" [box]].
  split; [apply T|]. split; [now apply K|]. split; [exists 1, 2, []; reflexivity|]. split; [|split; [discriminate|reflexivity]].
  constructor; [|constructor; [|constructor]]; apply C; try discriminate; try (now apply K); repeat constructor; auto.
Qed.
Print Assumptions C69_path_text_refuted.

(** A path with [bgnextn]: the reader takes the record for the start of a structure, so the rest of the path, and the
    elements after it, end up in a list inside the path. *)
Theorem C69_bgnextn_refuted :
  there_gds (doc [lib "l" [cell "c" [wire [("bgnextn", JInt 5)]; box]]]) =
  Some (doc [lib "l" [cell "c" [JObj [("type", JStr (str "path")); ("layer", JInt 3); ("width", JInt 40);
     ("bgnextn", JArr [JObj [("time", JInt 5); ("xy", nums [0; 0; 100; 0])]; box])]]]]).
Proof. vm_compute. reflexivity. Qed.
Print Assumptions C69_bgnextn_refuted.

(** A list of one number comes back as a number, an empty list does not come back. *)
Theorem C69_lists_refuted :
  (exists d d', there_gds d = Some d' /\ there_txt d = Some d' /\ d' <> d /\ d = doc [lib "l" [cell "c" [JObj [("type", JStr (str "text")); ("xy", nums [4])]]]]
     /\ d' = doc [lib "l" [cell "c" [JObj [("type", JStr (str "text")); ("xy", JInt 4)]]]]) /\
  there_gds (doc []) = Some (JObj [("header", JInt 600)]) /\ there_txt (doc []) = Some (JObj [("header", JInt 600)]).
Proof.
  split; [|split; vm_compute; reflexivity]. eexists _, (doc [lib "l" [cell "c" [JObj [("type", JStr (str "text")); ("xy", JInt 4)]]]]).
  split; [|split; [|split; [|split; [reflexivity|reflexivity]]]]; [vm_compute; reflexivity|vm_compute; reflexivity|discriminate].
Qed.
Print Assumptions C69_lists_refuted.

Example C69_nonvacuous : exists d, wf_doc (R := Z) one_line [boundary; text; sref] d /\ d = doc [lib "l" [cell "c" [box; label]; cell "e" [use "c"; use "c"]]] /\
  there_txt d = Some d /\ there_gds d = Some d.
Proof.
  exists (doc [lib "l" [cell "c" [box; label]; cell "e" [use "c"; use "c"]]]). split; [|repeat split; vm_compute; reflexivity].
  assert (K : forall s, forallb (fun c => negb (Ascii.eqb c (ascii_of_N 10)) && negb (Ascii.eqb c (ascii_of_N 13))) (str s) = true -> of_kind (R := Z) one_line KStr (JStr (str s))).
  { intros s Hs. exists (str s). split; [reflexivity|]. rewrite forallb_forall in Hs. split; intros Hi; apply Hs in Hi; discriminate. }
  assert (T : forall a b, of_kind (R := Z) one_line KInts (nums [a; b])) by (intros a b; exists a, b, []; reflexivity).
  assert (C : forall n es, Forall (wf_elem one_line [boundary; text; sref]) es -> es <> [] -> of_kind (R := Z) one_line KStr (JStr (str n)) -> wf_cell one_line [boundary; text; sref] (cell n es)).
  { intros n es Hes Hne Hn. exists (nums [2019; 4]), (JStr (str n)), es. split; [apply T|]. split; [exact Hn|]. split; [exact Hes|]. destruct es; [congruence|reflexivity]. }
  assert (B : wf_elem (R := Z) one_line [boundary; text; sref] box).
  { exists "boundary", (snd boundary). eexists. split; [left; reflexivity|]. split; [|reflexivity].
    apply fields_take; [now exists 21|]. apply fields_skip. apply fields_take; [exists (-36), 0, [36; -7]; reflexivity|]. apply fields_skip. apply fields_take; [now apply (K "a: b ")|]. constructor. }
  assert (L : wf_elem (R := Z) one_line [boundary; text; sref] label).
  { exists "text", (snd text). eexists. split; [right; left; reflexivity|]. split; [|reflexivity].
    apply fields_take; [now exists 2|]. do 3 apply fields_skip. apply fields_take; [now exists 3|]. apply fields_skip. apply fields_take; [apply T|]. apply fields_take; [now apply (K "vdd")|]. constructor. }
  assert (U : wf_elem (R := Z) one_line [boundary; text; sref] (use "c")).
  { exists "sref", (snd sref). eexists. split; [right; right; left; reflexivity|]. split; [|reflexivity].
    apply fields_take; [now apply (K "c")|]. apply fields_skip. apply fields_take; [now exists 90|]. apply fields_take; [apply T|]. constructor. }
  exists 600, [lib "l" [cell "c" [box; label]; cell "e" [use "c"; use "c"]]]. split; [|split; [discriminate|reflexivity]]. constructor; [|constructor].
  exists (nums [2019; 5]), (JStr (str "l")), (JArr [JReal 1; JReal 2]), [cell "c" [box; label]; cell "e" [use "c"; use "c"]].
  split; [apply T|]. split; [now apply K|]. split; [exists 1, 2, []; reflexivity|]. split; [|split; [discriminate|reflexivity]].
  constructor; [|constructor; [|constructor]]; apply C; try discriminate; try (now apply K); repeat constructor; auto.
Qed.
Example C69_hypotheses : reals_ok print_Z rp /\ gds_rows "aref" = None /\ txt_rows "path" = None.
Proof. split; [apply rp_ok|split; reflexivity]. Qed.
