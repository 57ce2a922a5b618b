(** C76: the wires of a transistor array connect exactly the terminals of each net. *)
From Coq Require Import String Ascii ZifyBool Relations.
From Verif Require Import Base.Prelude Base.PyDict Model.Transformation Model.Canvas Model.TransistorArray Model.MosGen Spec.LvsSpec Proofs.CanvasP Proofs.MosGenP Proofs.MosWireP.
Local Open Scope Z_scope.

(** A netlist: devices with the nets of their pins.  All wires and vias of the array, without their net names. *)
Definition netlist := list (string * list (mpin * string)).
Definition net_is (els : netlist) (d : string) (q : mpin) (n : string) : Prop := exists fs, In (d, fs) els /\ In (q, n) fs.
Definition as_shape (l : metal) (w : mwire) : shape := mkSh l (mw_track w) (mw_lo w) (mw_hi w).
Definition extract (p : mosp) (X Y : Z) (dev : Z -> Z -> string) (conns : list (string * list (string * mpin))) (ord : list mpin -> list mpin) : layout :=
  mkLay (map (fun e => as_shape L1 (snd e)) (m1_wires p X Y dev) ++ map (fun e => as_shape L2 (snd e)) (m2_wires p X Y dev conns ord) ++ map (fun e => as_shape L3 (snd e)) (m3_wires p X Y dev conns ord))
        (v1_vias p X Y dev conns ord) (v2_vias p X Y dev conns ord).

(** The connections handed to the generator. *)
Lemma connections_ok pins els conns : connections pins els = Some conns -> NoDup pins -> map fst conns = pins /\ forall n d q, (exists c, In (n, c) conns /\ In (d, q) c) <-> net_is els d q n.
Proof.
  intros H Hp. unfold connections in H.
  set (prs := flat_map (fun e : string * list (mpin * string) => map (pair (fst e)) (snd e)) els).
  assert (E : forall acc, fold_left (fun acc (e : string * list (mpin * string)) => fold_left (add_conn (fst e)) (snd e) acc) els acc = fold_left (fun acc (x : string * (mpin * string)) => add_conn (fst x) acc (snd x)) prs acc).
  { subst prs. clear H. induction els as [|[d fs] els IH]; intros acc; [reflexivity|]. cbn [fold_left flat_map fst snd]. rewrite fold_left_app, IH. f_equal. clear. revert acc. induction fs as [|f fs IH]; intros acc; [reflexivity|]. cbn. apply IH. }
  rewrite E in H. clear E.
  assert (G : map fst conns = pins /\ forall n d q, (exists c, In (n, c) conns /\ In (d, q) c) <-> In (d, (q, n)) prs).
  { revert conns H. induction prs as [|[d0 [q0 n0]] prs IH] using rev_ind; intros conns H.
    - cbn in H. injection H as <-. rewrite map_map, map_id. split; [reflexivity|]. intros n d q. split; [|intros []]. intros (c & Hc & Hi). apply in_map_iff in Hc as (x & Ec & _). injection Ec as _ <-. destruct Hi.
    - rewrite fold_left_app in H. cbn [fold_left fst snd] in H. destruct (fold_left _ prs _) as [c0|] eqn:Ef; [|discriminate]. destruct (IH c0 eq_refl) as (K & I). clear IH. unfold add_conn in H. cbn [fst snd] in H.
      destruct (dget String.eqb c0 n0) as [l|] eqn:El; [|discriminate]. injection H as <-.
      assert (K' : NoDup (map fst c0)) by now rewrite K. set (c1 := dupd String.eqb c0 n0 (fun _ => l ++ [(d0, q0)])).
      assert (K1 : NoDup (map fst c1)) by now apply (dupd_nodup _ String.eqb_eq).
      split.
      + subst c1. rewrite dupd_keys. unfold dmem. rewrite El. exact K.
      + intros n d q. rewrite in_app_iff. destruct (string_dec n n0) as [->|N].
        * assert (D1 : dget String.eqb c1 n0 = Some (l ++ [(d0, q0)])) by apply (dget_dupd_same _ String.eqb_eq). split.
          -- intros (c & Hc & Hi). apply (in_dget _ String.eqb_eq) in Hc; [|exact K1]. rewrite D1 in Hc. injection Hc as <-. apply in_app_iff in Hi as [Hi|[Hi|[]]]; [left; apply I; exists l; split; [now apply (dget_in _ String.eqb_eq)|exact Hi]|injection Hi as <- <-; right; now left].
          -- intros Hi. exists (l ++ [(d0, q0)]). split; [now apply (dget_in _ String.eqb_eq)|]. apply in_app_iff. destruct Hi as [Hi|[Hi|[]]]; [|injection Hi as <- <-; right; now left]. apply I in Hi as (c & Hc & Hi). apply (in_dget _ String.eqb_eq) in Hc; [|exact K']. left. congruence.
        * assert (D1 : dget String.eqb c1 n = dget String.eqb c0 n) by (apply (dget_dupd_other _ String.eqb_eq); exact N). rewrite <- (app_nil_r prs) at 1. rewrite app_nil_r. split.
          -- intros (c & Hc & Hi). left. apply I. exists c. split; [|exact Hi]. apply (in_dget _ String.eqb_eq) in Hc; [|exact K1]. apply (dget_in _ String.eqb_eq). congruence.
          -- intros [Hi|[Hi|[]]]; [|congruence]. apply I in Hi as (c & Hc & Hi). exists c. split; [|exact Hi]. apply (in_dget _ String.eqb_eq) in Hc; [|exact K']. apply (dget_in _ String.eqb_eq). congruence. }
  destruct G as (G1 & G2). split; [exact G1|]. intros n d q. rewrite G2. subst prs. rewrite in_flat_map. unfold net_is. split.
  - intros ((d' & fs) & Hd & Hi). cbn [fst snd] in Hi. apply in_map_iff in Hi as (f & Ef & Hi). injection Ef as <- ->. exists fs. now split.
  - intros (fs & Hd & Hi). exists (d, fs). split; [exact Hd|]. cbn [fst snd]. apply in_map_iff. exists (q, n). now split.
Qed.

Section Bounds.
  Variables (p : mosp) (X Y : Z) (dev : Z -> Z -> string) (conns : list (string * list (string * mpin))) (ord : list mpin -> list mpin) (els : netlist).
  Hypothesis Hs : 1 <= mp_stack p.
  Hypothesis Hord : forall l, Permutation (ord l) l.
  Hypothesis Hnet : forall n d q, (exists c, In (n, c) conns /\ In (d, q) c) <-> net_is els d q n.
  Hypothesis Hkeys : NoDup (map fst conns).
  Hypothesis Hpins : forall d fs, In (d, fs) els -> NoDup (map fst fs).
  Definition has (q : mpin) (e : string * list (string * mpin)) : bool := existsb (fun x => mpin_eqb (snd x) q) (snd e).
  Lemma has_count q : (length (filter (has q) conns) <= length els)%nat.
  Proof.
    set (L := flat_map (fun e : string * list (mpin * string) => match dget mpin_eqb (snd e) q with Some n => [n] | None => [] end) els).
    assert (HL : (length L <= length els)%nat). { subst L. clear. induction els as [|e tl IH]; [auto|]. cbn. rewrite app_length. destruct (dget mpin_eqb (snd e) q); cbn; lia. }
    eapply Nat.le_trans; [|exact HL]. rewrite <- (map_length fst). apply NoDup_incl_length.
    - clear - Hkeys. induction conns as [|e tl IH]; [constructor|]. cbn in *. apply NoDup_cons_iff in Hkeys as (H1 & H2). destruct (has q e); [|now apply IH]. cbn. constructor; [|now apply IH]. intros H. apply H1. apply in_map_iff in H as (x & <- & H). apply filter_In in H as (H & _). now apply in_map.
    - intros n Hn. apply in_map_iff in Hn as ((n' & c) & <- & Hn). apply filter_In in Hn as (Hc & Hh). unfold has in Hh. cbn [snd fst] in *. apply existsb_exists in Hh as ((d & q') & Hi & E). cbn in E. apply mpin_eqb_ok in E as ->.
      assert (Hn : net_is els d q n') by (apply Hnet; eauto). destruct Hn as (fs & Hd & Hf). subst L. apply in_flat_map. exists (d, fs). split; [exact Hd|]. cbn [snd]. rewrite (in_dget _ mpin_eqb_ok _ _ n' (Hpins d fs Hd) Hf). now left.
  Qed.
  Lemma pins_has y e q : In q (pins p X Y dev ord y (snd e)) -> has q e = true.
  Proof.
    intros H. apply pins_ok in H as (col & H); auto. apply contacts_ok in H as (x & w & _ & _ & Hi & _); auto. unfold has. apply existsb_exists. exists (dev x y, q). split; [exact Hi|]. now apply mpin_eqb_ok.
  Qed.
  Lemma cnt_le (f : mpin -> bool) qs L : NoDup qs -> (forall q, In q qs -> f q = true -> In q L) -> cnt f qs <= Z.of_nat (length L).
  Proof.
    intros Hn H. unfold cnt. apply Nat2Z.inj_le. apply NoDup_incl_length; [now apply NoDup_filter|]. intros q Hq. apply filter_In in Hq as (Hq & E). now apply H.
  Qed.
  Lemma ng_le y : ng p X Y dev ord y conns <= Z.of_nat (length els).
  Proof.
    eapply Z.le_trans; [|apply Nat2Z.inj_le, (has_count PG)]. clear Hnet Hkeys. induction conns as [|e tl IH]; [cbn; lia|]. unfold ng in *. cbn [fold_right filter].
    assert (H : cnt is_g (pins p X Y dev ord y (snd e)) <= if has PG e then 1 else 0).
    { etransitivity; [apply (cnt_le is_g _ (if has PG e then [PG] else [])); [now apply pins_nodup|]|destruct (has PG e); cbn; lia]. intros q Hq Hf. apply pins_has in Hq. destruct q; try discriminate. rewrite Hq. now left. }
    destruct (has PG e); cbn [length]; lia.
  Qed.
  Lemma nds_le y : nds p X Y dev ord y conns <= 2 * Z.of_nat (length els).
  Proof.
    assert (G : nds p X Y dev ord y conns <= Z.of_nat (length (filter (has PD) conns)) + Z.of_nat (length (filter (has PS) conns))).
    { clear Hnet Hkeys. induction conns as [|e tl IH]; [cbn; lia|]. unfold nds in *. cbn [fold_right filter].
      assert (H : cnt is_ds (pins p X Y dev ord y (snd e)) <= (if has PD e then 1 else 0) + (if has PS e then 1 else 0)).
      { etransitivity; [apply (cnt_le is_ds _ ((if has PD e then [PD] else []) ++ (if has PS e then [PS] else []))); [now apply pins_nodup|]|destruct (has PD e), (has PS e); cbn; lia]. intros q Hq Hf. apply pins_has in Hq. apply in_app_iff. destruct q; try discriminate; rewrite Hq; [left|right]; now left. }
      destruct (has PD e), (has PS e); cbn [length]; lia. }
    pose proof (has_count PD). pose proof (has_count PS). lia.
  Qed.
End Bounds.

(** The array of any two (or three) devices, whatever the pattern: terminals are connected exactly if they are on the
    same net of the netlist. *)
Theorem C76_lvs p X Y dev pins els conns ord :
  1 <= mp_stack p -> 0 < mp_gd p -> 6 <= mp_h p -> 4 <= mp_lfin p -> (forall l, Permutation (ord l) l) ->
  connections pins els = Some conns -> NoDup pins -> NoDup (map fst els) -> (forall d fs, In (d, fs) els -> NoDup (map fst fs)) ->
  (length els <= 3)%nat -> 2 * Z.of_nat (length els) <= mp_h p - 5 -> Z.of_nat (length pins) <= mp_h p - 1 ->
  (forall x y q, 0 <= x < X -> 0 <= y < Y -> q <> PB \/ mp_body p = true -> exists n, net_is els (dev x y) q n) ->
  (mp_sd p = true -> forall d d' n n', net_is els d PS n -> net_is els d' PS n' -> n = n') ->
  (mp_body p = true -> forall d d' n n', net_is els d PB n -> net_is els d' PB n' -> n = n') ->
  forall T w T' w' n n', In (T, w) (m1_wires p X Y dev) -> In (T', w') (m1_wires p X Y dev) -> net_is els (mt_dev T) (mt_pin T) n -> net_is els (mt_dev T') (mt_pin T') n' ->
  (connected (extract p X Y dev conns ord) (as_shape L1 w) (as_shape L1 w') <-> n = n').
Proof.
  intros Hs Hgd Hh Hl Hord Hc Hp Hd Hf H3 H2 Hn Htot Hsd Hbody T w T' w' n n' HT HT' Hn1 Hn2. destruct (connections_ok _ _ _ Hc Hp) as (K & N).
  assert (Kc : NoDup (map fst conns)) by now rewrite K.
  assert (NO : forall d q m, netof conns d q m <-> net_is els d q m) by (intros d q m; apply N).
  change (extract p X Y dev conns ord) with (lay p X Y dev conns ord). change as_shape with sh.
  apply (lvs p X Y dev conns ord Hs Hgd Hh Hl Hord Kc) with (T := T) (T' := T'); auto.
  - intros d q m m' E1 E2. apply NO in E1 as (fs & A1 & A2), E2 as (fs' & B1 & B2). assert (fs = fs') as <-.
    { apply (in_dget _ String.eqb_eq) in A1; [|exact Hd]. apply (in_dget _ String.eqb_eq) in B1; [|exact Hd]. congruence. }
    apply (in_dget _ mpin_eqb_ok) in A2; [|now apply (Hf d)]. apply (in_dget _ mpin_eqb_ok) in B2; [|now apply (Hf d)]. congruence.
  - intros E d d' m m' E1 E2. apply NO in E1, E2. eauto.
  - intros E d d' m m' E1 E2. apply NO in E1, E2. eauto.
  - intros y. pose proof (ng_le p X Y dev conns ord els Hs Hord N Kc Hf y). lia.
  - intros y. pose proof (nds_le p X Y dev conns ord els Hs Hord N Kc Hf y). lia.
  - assert (length conns = length pins) by (rewrite <- K; now rewrite map_length). lia.
  - intros x y q w0 Hx Hy Hq. destruct (Htot x y q Hx Hy) as (m & Hm); [destruct q; try (left; congruence); right; exact (proj1 Hq)|]. exists m. now apply NO.
  - now apply NO.
  - now apply NO.
Qed.
Print Assumptions C76_lvs.

(** * Findings *)
(** The body contacts of a column are one wire, whatever the body nets of its devices: different nets are shorted. *)
Theorem C76_body_refuted p X Y dev conns ord x y y' : mp_body p = true -> 1 <= mp_stack p -> 0 <= x < X -> 0 <= y < Y -> 0 <= y' < Y ->
  exists w, In (mkMt x y (dev x y) PB, w) (m1_wires p X Y dev) /\ In (mkMt x y' (dev x y') PB, w) (m1_wires p X Y dev) /\ connected (extract p X Y dev conns ord) (as_shape L1 w) (as_shape L1 w).
Proof.
  intros Hb Hs Hx Hy Hy'. exists (mkMw (gate_x p x) (body_row p Y - 1) (body_row p Y + 1)). repeat split; [| |apply rt_refl]; (apply m1_ok; [exact Hs|]); [exists x, y, PB|exists x, y', PB]; repeat split; auto; lia.
Qed.
Print Assumptions C76_body_refuted.
(** Body straps of different nets lie on one track; if their wires meet they are shorted too (here two cells in a row). *)
Theorem C76_body_track_refuted p X Y dev conns ord n n' t cols cols' :
  In (n, t, cols) (straps p X Y dev conns ord) -> In (n', t, cols') (straps p X Y dev conns ord) -> (exists z, zmin cols <= z <= zmax cols /\ zmin cols' <= z <= zmax cols') ->
  connected (extract p X Y dev conns ord) (as_shape L2 (mkMw t (zmin cols) (zmax cols))) (as_shape L2 (mkMw t (zmin cols') (zmax cols'))).
Proof.
  intros H H' (z & Hz & Hz'). apply rt_step. assert (G : forall m u c, In (m, u, c) (straps p X Y dev conns ord) -> In (as_shape L2 (mkMw u (zmin c) (zmax c))) (shapes (extract p X Y dev conns ord))).
  { intros m u c Hi. cbn [extract shapes]. apply in_app_iff. right. apply in_app_iff. left. apply in_map_iff. exists (m, mkMw u (zmin c) (zmax c)). split; [reflexivity|]. unfold m2_wires. apply in_app_iff. left. apply in_map_iff. exists (m, u, c). now split. }
  split; [now apply (G n)|]. split; [now apply (G n')|]. left. split; [reflexivity|]. split; [reflexivity|]. exists z. now split.
Qed.
Print Assumptions C76_body_track_refuted.
(** With shared diffusion, neighbouring cells share the source wire, whatever their source nets. *)
Theorem C76_shared_refuted p X Y dev x y : mp_sd p = true -> 1 <= mp_stack p -> 0 <= x -> x + 1 < X -> 0 <= y < Y ->
  exists w, In (mkMt x y (dev x y) PS, w) (m1_wires p X Y dev) /\ In (mkMt (x + 1) y (dev (x + 1) y) PS, w) (m1_wires p X Y dev).
Proof.
  intros Hsd Hs Hx HX Hy. exists (mkMw (gate_x p x + mp_stack p) (row_lo p y) (row_hi p y)). split; (apply m1_ok; [exact Hs|]); [exists x, y, PS|exists (x + 1), y, PS]; repeat split; try lia; [right; reflexivity|left].
  f_equal. unfold gate_x, per_cell, gates. rewrite Hsd. lia.
Qed.
Print Assumptions C76_shared_refuted.
(** With more nets than tracks, a warning is logged and no wire above M1 is drawn at all. *)
Theorem C76_many_refuted p X Y dev conns ord : 1 <= mp_h p -> mp_h p - 1 < Z.of_nat (length conns) ->
  m2_wires p X Y dev conns ord = [] /\ m3_wires p X Y dev conns ord = [] /\ v1_vias p X Y dev conns ord = [].
Proof.
  intros Hh Hn. assert (Es : straps p X Y dev conns ord = []).
  { unfold straps, minvias. destruct (Z.ltb_spec (mp_h p - 1) (Z.of_nat (length conns))); [|lia]. rewrite Z.div_small by lia. reflexivity. }
  assert (Et : net_table p X Y dev conns ord = []) by (unfold net_table; now rewrite Es).
  unfold m2_wires, m3_wires, v1_vias, numbered. rewrite Es, Et. repeat split; reflexivity.
Qed.
Print Assumptions C76_many_refuted.

Local Open Scope string_scope.
Local Open Scope list_scope.
Definition ex_els : netlist := [("MA", [(PD, "DA"); (PG, "GA"); (PS, "S"); (PB, "B")]); ("MB", [(PD, "DB"); (PG, "DA"); (PS, "S"); (PB, "B")])].
Definition ex_p : mosp := mkMp 12 3 false 1 24 true.
Definition ex_dev (x y : Z) : string := if ((x + y) mod 2 =? 0)%Z then "MA" else "MB".
(** A cross-coupled pair: all hypotheses hold; the drain of MA and the gate of MB are connected by M1, M2 and M3. *)
Example C76_nonvacuous : exists conns, connections ["DA"; "DB"; "GA"; "S"; "B"] ex_els = Some conns /\
  1 <= mp_stack ex_p /\ 0 < mp_gd ex_p /\ 6 <= mp_h ex_p /\ 4 <= mp_lfin ex_p /\ NoDup (map fst ex_els) /\ (forall d fs, In (d, fs) ex_els -> NoDup (map fst fs)) /\
  (length ex_els <= 3)%nat /\ 2 * Z.of_nat (length ex_els) <= mp_h ex_p - 5 /\
  (forall x y q, exists n, net_is ex_els (ex_dev x y) q n) /\
  (forall d d' n n', net_is ex_els d PB n -> net_is ex_els d' PB n' -> n = n') /\
  length (m1_wires ex_p 4 2 ex_dev) = 40%nat /\ length (m2_wires ex_p 4 2 ex_dev conns (fun l => l)) = 22%nat /\ length (m3_wires ex_p 4 2 ex_dev conns (fun l => l)) = 4%nat.
Proof.
  eexists. split; [vm_compute; reflexivity|]. cbn [mp_stack mp_gd mp_h mp_lfin ex_p]. do 4 (split; [lia|]). split; [repeat constructor; cbn; intuition congruence|]. split; [|split; [|split; [|split; [|split]]]].
  - intros d fs [E|[E|[]]]; injection E as <- <-; repeat constructor; cbn; intuition congruence.
  - vm_compute. lia.
  - vm_compute. congruence.
  - intros x y q. unfold ex_dev. destruct ((x + y) mod 2 =? 0)%Z; destruct q; eexists; eexists; (split; [first [left; reflexivity|right; left; reflexivity]|]); cbn; auto.
  - intros d d' n n' (fs & [E|[E|[]]] & H) (fs' & [E'|[E'|[]]] & H'); injection E as <- <-; injection E' as <- <-; cbn in H, H'; intuition congruence.
  - vm_compute. auto.
Qed.
