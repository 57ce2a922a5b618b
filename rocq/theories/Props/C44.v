(** Property C44: LEF written for a block parses back. *)
From Coq Require Import String Ascii.
From Verif Require Import Base.Prelude Model.Transformation Model.Lef Spec.LefSpec Proofs.LefP.
Local Open Scope Z_scope.

(** The pins of a layout that the writer lists. *)
Definition lists_pins (c : lefcfg) (ts : list Term) (pins : list chars) : Prop :=
  StronglySorted chars_lt pins /\
  forall nm, In nm pins <-> names_pin c ts nm /\ ~ (nm = str "B" /\ bodyswitch c = 0).

(** C44. For every layout, configuration and text written: parsing the text succeeds, consumes
    all tokens, and yields exactly one macro with the name, size, scale, pins (sorted, each
    with exactly its shapes, in layout order) and obstructions of the layout. *)
Theorem C44_roundtrip : forall c bbox ts text,
  idents c ts -> lef_from_layout_d c bbox ts = Some text ->
  exists m pins, parse text = Ok [m] [] /\
    m_name m = out_lef c /\
    m_origin m = Some (int_dec 0, int_dec 0) /\
    m_size m = Some (int_dec (urx bbox), int_dec (ury bbox)) /\
    m_scale m = int_dec (1000 * scale_factor c) /\
    lists_pins c ts pins /\
    m_pins m = map (fun nm => mkPin nm (Some (str "INOUT")) (Some (pin_shapes c ts nm))) pins /\
    (blockM c = 0 -> m_obs m = Some (obstructions c ts)).
Proof.
  intros c bbox ts text Hid E. destruct (parse_file _ _ _ _ Hid E) as (pts & Hp & Hparse).
  eexists. exists (written_pins c pts). split; [exact Hparse|].
  do 4 (split; [reflexivity|]). split; [|split].
  - split; [|intros nm; apply written_names; assumption].
    unfold written_pins. apply filter_sorted. apply sorted_set_sorted.
  - cbn [exp_macro m_pins]. rewrite map_map. apply map_ext. intros nm. unfold exp_pin. cbn [fst snd].
    do 2 f_equal. rewrite (pin_terms_filter _ _ _ _ Hp). unfold pin_shapes. rewrite map_map. reflexivity.
  - intros Hb. cbn [exp_macro m_obs]. f_equal. unfold obstructions.
    assert (Hall : forall t, In t ts -> obs_shapes c (sorted_set (map (fun nt => pin_name c (fst nt)) pts)) t
       = if negb (t_pin t) && negb (mem (t_layer t) (exclude_layers c)) then [lr t] else []).
    { intros t Ht. unfold obs_shapes. rewrite Hb. cbn [Z.eqb].
      rewrite !andb_true_r. destruct (t_pin t) eqn:Et; cbn [negb orb andb]; [|reflexivity].
      assert (Hc : match t_net t with
                   | Some nm => negb (mem (pin_name c nm) (sorted_set (map (fun nt => pin_name c (fst nt)) pts)))
                   | None => true end = false).
      { destruct (t_net t) as [nm|] eqn:En.
        - apply negb_false_iff. unfold mem. apply existsb_exists. exists (pin_name c nm).
          split; [|apply chars_eqb_refl]. apply sorted_set_in. apply in_map_iff. exists (nm, t).
          split; [reflexivity|]. eapply pin_terms_in'; eassumption.
        - exfalso. clear - Hp Ht Et En. revert pts Hp. induction ts as [|u ts IH]; [destruct Ht|].
          simpl. intros pts Hp. destruct Ht as [->|Ht].
          + rewrite Et, En in Hp. discriminate.
          + destruct (t_pin u).
            * destruct (t_net u); [|discriminate]. destruct (pin_terms ts) as [l|]; [|discriminate].
              exact (IH Ht l eq_refl).
            * exact (IH Ht pts Hp). }
      rewrite Hc. reflexivity. }
    clear - Hall. induction ts as [|t ts IH]; [reflexivity|]. cbn [flat_map filter].
    rewrite (Hall t) by (left; reflexivity). rewrite map_app, IH by (intros; apply Hall; right; assumption).
    destruct (negb (t_pin t) && negb (mem (t_layer t) (exclude_layers c))); reflexivity.
Qed.
Print Assumptions C44_roundtrip.

(** ** Reading the file back as a layout. *)
Lemma round_exact z k : 0 < k -> round_half_even (k * z) k = z.
Proof.
  intros Hk. unfold round_half_even. rewrite (Z.mul_comm k z), Z.mod_mul, Z.div_mul by lia.
  destruct (2 * 0 <? k) eqn:E; [reflexivity|lia].
Qed.

Lemma ss_exact sf z : 0 < sf -> ss sf (int_dec (1000 * sf)) (int_dec z) = Some z.
Proof.
  intros Hs. unfold ss, int_dec. cbn [d_num d_exp]. change (pow10 0) with 1. rewrite !Z.mul_1_r.
  destruct (1000 * sf =? 0) eqn:E1; [lia|]. destruct (0 <? 1000 * sf) eqn:E2; [|lia].
  rewrite round_exact by lia. reflexivity.
Qed.

Lemma sr_exact sf r : 0 < sf -> sr sf (int_dec (1000 * sf)) (dec_rect r) = Some r.
Proof. intros Hs. unfold sr, dec_rect. rewrite !ss_exact by assumption. destruct r; reflexivity. Qed.

Lemma scale_ports_exact sf net (f : Term -> bool) ts : 0 < sf ->
  scale_ports sf (int_dec (1000 * sf)) net (map (fun t => (t_layer t, dec_rect (t_rect t))) (filter f ts))
  = Some (map (fun t => (net, t_layer t, t_rect t)) (filter f ts)).
Proof.
  intros Hs. generalize (filter f ts). intros l. induction l as [|t l IH]; [reflexivity|].
  cbn [map scale_ports fold_right snd fst]. unfold scale_ports in IH. rewrite IH, sr_exact by assumption. reflexivity.
Qed.

(** Writing a layout as LEF and reading it back with the same scale gives the same shapes. *)
Theorem C44_layout_roundtrip : forall c bbox ts text,
  idents c ts -> 0 < scale_factor c -> blockM c = 0 ->
  lef_from_layout_d c bbox ts = Some text ->
  exists pins, lists_pins c ts pins /\
    lef_txt_to_layout_d text (scale_factor c) =
      Some (mkRect 0 0 (urx bbox) (ury bbox),
            flat_map (fun nm => map (fun t => (Some nm, t_layer t, t_rect t)) (filter (is_pin_shape c nm) ts)) pins
            ++ map (fun t => (None, t_layer t, t_rect t))
                 (filter (fun t => negb (t_pin t) && negb (mem (t_layer t) (exclude_layers c))) ts)).
Proof.
  intros c bbox ts text Hid Hs Hb E.
  destruct (C44_roundtrip c bbox ts text Hid E) as (m & pins & Hparse & _ & Ho & Hsz & Hsc & Hl & Hpins & Hobs).
  exists pins. split; [assumption|]. unfold lef_txt_to_layout_d. rewrite Hparse, Ho, Hsz, Hsc, Hpins, (Hobs Hb).
  unfold obstructions. rewrite scale_ports_exact by assumption.
  assert (Hp : pins_terms (scale_factor c) (int_dec (1000 * scale_factor c))
    (map (fun nm => mkPin nm (Some (str "INOUT")) (Some (pin_shapes c ts nm))) pins)
    = Some (flat_map (fun nm => map (fun t => (Some nm, t_layer t, t_rect t)) (filter (is_pin_shape c nm) ts)) pins)).
  { clear - Hs. induction pins as [|nm pins IH]; [reflexivity|].
    cbn [map pins_terms p_ports p_nm flat_map]. unfold pin_shapes at 1.
    rewrite scale_ports_exact by assumption. rewrite IH. reflexivity. }
  rewrite Hp.
  assert (Hd : forall z, dec_add (int_dec 0) (int_dec z) = int_dec z)
    by (intros z; unfold dec_add, int_dec; cbn [d_num d_exp]; f_equal; change (pow10 0) with 1; lia).
  rewrite !Hd.
  change (int_dec 0, int_dec 0, int_dec (urx bbox), int_dec (ury bbox))
    with (dec_rect (mkRect 0 0 (urx bbox) (ury bbox))).
  rewrite sr_exact by assumption. reflexivity.
Qed.
Print Assumptions C44_layout_roundtrip.

(** The parser terminates (with a result or a syntax error) on every text. *)
Theorem C44_parser_total : forall text, parse text <> Fuel.
Proof. exact parse_total. Qed.
Print Assumptions C44_parser_total.

(** Non-vacuity: a layout with two pins (one with a negative coordinate) and an obstruction. *)
Definition ex_cfg := mkLef (str "cell_1") 1 0 [str "V0"] 10 60 80 true [].
Definition ex_ts :=
  [mkTerm (Some (str "S")) (str "M1") (mkRect (-40) 0 40 600) true;
   mkTerm (Some (str "D")) (str "M2") (mkRect 0 40 800 80) true;
   mkTerm None (str "M1") (mkRect 100 0 140 600) false;
   mkTerm (Some (str "D")) (str "V0") (mkRect 0 0 1 1) false;
   mkTerm (Some (str "S")) (str "M1") (mkRect 200 0 240 600) true].

Example C44_nonvacuous : idents ex_cfg ex_ts /\
  exists text, lef_from_layout_d ex_cfg (mkRect 0 0 800 600) ex_ts = Some text /\
    lef_txt_to_layout_d text 10 = Some (mkRect 0 0 800 600,
      [(Some (str "D"), str "M2", mkRect 0 40 800 80);
       (Some (str "S"), str "M1", mkRect (-40) 0 40 600);
       (Some (str "S"), str "M1", mkRect 200 0 240 600);
       (None, str "M1", mkRect 100 0 140 600)]).
Proof.
  split.
  - constructor.
    + split; reflexivity.
    + intros nm (t & n & Hin & Hp & Hn & <-). unfold ex_ts in Hin. simpl in Hin.
      destruct Hin as [<-|[<-|[<-|[<-|[<-|[]]]]]]; simpl in *; try discriminate;
        injection Hn as <-; split; reflexivity.
    + intros t Hin. unfold ex_ts in Hin. simpl in Hin.
      destruct Hin as [<-|[<-|[<-|[<-|[<-|[]]]]]]; split; reflexivity.
  - eexists. split; [reflexivity|]. vm_compute. reflexivity.
Qed.

(** ** Findings. *)

(** The SIZE written is the upper right corner, not the extent: for a layout whose box does
    not start at the origin the size read back is wrong. *)
Theorem C44_size_refuted : exists c bbox ts text m,
  idents c ts /\ lef_from_layout_d c bbox ts = Some text /\ parse text = Ok [m] [] /\
  m_size m <> Some (int_dec (urx bbox - llx bbox), int_dec (ury bbox - lly bbox)).
Proof.
  exists ex_cfg, (mkRect (-80) 0 720 600), [].
  do 2 eexists. split.
  - constructor; [split; reflexivity| |]; [intros nm (t & n & [] & _)|intros t []].
  - split; [reflexivity|]. split; [vm_compute; reflexivity|]. vm_compute. discriminate.
Qed.
Print Assumptions C44_size_refuted.

(** With [bodyswitch = 0] the metal of pin B is written neither as pin nor as obstruction. *)
Theorem C44_body_metal_lost_refuted : exists c bbox ts text t,
  idents c ts /\ In t ts /\ mem (t_layer t) (exclude_layers c) = false /\
  lef_from_layout_d c bbox ts = Some text /\
  (exists bb, lef_txt_to_layout_d text (scale_factor c) = Some (bb, [])).
Proof.
  exists (mkLef (str "cell_1") 0 0 [] 10 60 80 true []), (mkRect 0 0 800 600),
    [mkTerm (Some (str "B")) (str "M1") (mkRect 0 0 40 600) true].
  do 2 eexists. split.
  - constructor.
    + split; reflexivity.
    + intros nm (t & n & [<-|[]] & _ & Hn & <-). injection Hn as <-. split; reflexivity.
    + intros t [<-|[]]. split; reflexivity.
  - split; [left; reflexivity|]. split; [reflexivity|]. split; [reflexivity|]. eexists. vm_compute. reflexivity.
Qed.
Print Assumptions C44_body_metal_lost_refuted.

(** Pin names outside [A-Za-z_][A-Za-z_0-9]* (bus bits) are written but cannot be parsed. *)
Theorem C44_bus_pin_refuted : exists c bbox ts text,
  lef_from_layout_d c bbox ts = Some text /\ parse text = Err.
Proof.
  exists ex_cfg, (mkRect 0 0 800 600), [mkTerm (Some (str "A[0]")) (str "M1") (mkRect 0 0 40 600) true].
  eexists. split; [reflexivity|]. vm_compute. reflexivity.
Qed.
Print Assumptions C44_bus_pin_refuted.

(** Text after a character that starts no token is silently ignored: a second macro after a
    comment disappears without an error. *)
Theorem C44_truncation_refuted : exists a b ma mb,
  parse a = Ok [ma] [] /\ parse b = Ok [mb] [] /\
  parse (a ++ str "# second macro" ++ nl ++ b) = Ok [ma] [] /\ parse (a ++ b) = Ok [ma; mb] [].
Proof.
  exists (str "MACRO a END a "), (str "MACRO b END b ").
  do 2 eexists. repeat split; vm_compute; reflexivity.
Qed.
Print Assumptions C44_truncation_refuted.

(** A pin with two PORT sections keeps only the shapes of the last one. *)
Theorem C44_multiport_refuted : exists text m p,
  parse text = Ok [m] [] /\ m_pins m = [p] /\
  p_ports p = Some [(str "M2", dec_rect (mkRect 5 6 7 8))] /\
  text = str "MACRO a PIN z PORT LAYER M1 ; RECT 1 2 3 4 ; END PORT LAYER M2 ; RECT 5 6 7 8 ; END END z END a ".
Proof. do 3 eexists. repeat split; vm_compute; reflexivity. Qed.
Print Assumptions C44_multiport_refuted.
