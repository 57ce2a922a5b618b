(** C72: preprocessing keeps what a circuit does, align/compiler/preprocess.py:12-60, 147-406. *)
From Coq Require Import String Ascii.
From Verif Require Import Base.Prelude Base.PyDict Base.PyStr Model.RemoveDuplicates Model.Netlist Model.DefineSD Model.Preprocess Spec.NetlistSpec Spec.ChannelSpec Spec.PhysicsSpec.
From Verif Require Import Proofs.NetlistP Proofs.ParallelP Proofs.PreprocessP Proofs.PhysicsP Proofs.PreproSemP.
Local Open Scope string_scope. Local Open Scope list_scope. Local Open Scope Z_scope.

(** Whatever transistors do, as long as they are physical, whatever else the circuit contains, whichever passes are switched
    on and however sets are iterated: with the supplies at their values, the values of the nets that the result allows are
    those that the original circuit allows, up to the internal nets that disappear. *)
Theorem C72_behaviour {V} (I : interp V) (pol : string -> option polarity) (hi lo : V) ord sw L pins power gnd els out :
  physical I pol hi lo ->
  (forall m, get_base_model L m = "PMOS" \/ get_base_model L m = "NMOS" -> pol m <> None) ->
  (forall m, root L m "NMOS" -> pol m = Some Nch) -> (forall m, root L m "PMOS" -> pol m = Some Pch) ->
  (forall l, Permutation (ord l) l) -> wf_netlist els -> stack_ok els -> stack_pos els ->
  preprocess ord sw L pins power gnd els = Some out ->
  wf_netlist out /\ (forall n, In n (nets out) -> In n (nets els)) /\
  forall r, (forall n, In n power -> r n = hi) -> (forall n, In n gnd -> r n = lo) ->
    (sat I r out <-> exists r', (forall n, In n (nets out) \/ ~ internal pins els n -> r' n = r n) /\ sat I r' els).
Proof.
  intros PH Hb HN HP Ho Hwf Hst Hpos E. destruct (preprocess_sat I pol hi lo L PH Hb HN HP ord sw pins power gnd els out Ho Hwf Hst Hpos E) as (H1 & H2 & H3 & H4).
  split; [exact H1|]. split; [exact H2|]. intros r Hhi Hlo. split; [now apply H3|]. intros (r' & Hr & Hs). apply (sat_ext I r' r out H1); [intros n Hn; apply Hr; now left|now apply H4].
Qed.
Print Assumptions C72_behaviour.

(** Finding: a circuit with a single transistor counts as that transistor when it is instantiated, whatever its pins called
    D and S are connected to inside; they are exchanged too. *)
Theorem C72_wrapper_refuted : exists L els ports, dget String.eqb L "W" = Some (MCkt ["NFET"]) /\
  define_SD L ports ["VDD"] ["VSS"] els = Some [mkElem "R" "RES" [("D", "VDD"); ("S", "A")] []; mkElem "X1" "W" [("D", "A"); ("S", "VSS")] []] /\
  els = [mkElem "R" "RES" [("D", "VDD"); ("S", "A")] []; mkElem "X1" "W" [("D", "VSS"); ("S", "A")] []].
Proof.
  exists [("W", MCkt ["NFET"]); ("NFET", MDev (Some "NMOS")); ("NMOS", MDev None); ("RES", MDev None)]%list, [mkElem "R" "RES" [("D", "VDD"); ("S", "A")] []; mkElem "X1" "W" [("D", "VSS"); ("S", "A")] []], ["VDD"; "VSS"].
  split; [reflexivity|]. split; [vm_compute; reflexivity|reflexivity].
Qed.
Print Assumptions C72_wrapper_refuted.

(** * A switch is physical *)
Definition pol_of (m : string) : option polarity := if in_strs m ["NFET"; "NMOS"] then Some Nch else if in_strs m ["PFET"; "PMOS"] then Some Pch else None.
Definition sw_unit (m : string) (g : string -> option Z) (a b : Z) : Prop :=
  match pol_of m with
  | Some Nch => (exists v, g "G" = Some v /\ v <= 0) \/ a = b
  | Some Pch => (exists v, g "G" = Some v /\ 1 <= v) \/ a = b
  | None => True
  end.
Definition sw_dev (m : string) (g : string -> option Z) : Prop := forall a b, g "D" = Some a -> g "S" = Some b -> sw_unit m g a b.
Lemma sw_unit_ext m g g' a b : g "G" = g' "G" -> sw_unit m g a b -> sw_unit m g' a b.
Proof. intros E. unfold sw_unit. now rewrite E. Qed.
Definition switch : interp Z.
Proof.
  refine (mkInterp Z (fun m _ g => sw_dev m g) (fun m _ g a b => sw_unit m g a b) _ _).
  - intros m f f' g g' _ Hg H a b Ha Hb. apply (sw_unit_ext m g g'); [apply Hg|]. apply H; now rewrite Hg.
  - intros m f f' g g' a b _ Hg. apply sw_unit_ext, Hg.
Defined.
Lemma sw_sym m g a b : sw_unit m g a b -> sw_unit m g b a.
Proof. unfold sw_unit. destruct (pol_of m) as [[|]|]; intuition auto. Qed.
Lemma switch_physical : physical switch pol_of 1 0.
Proof.
  split; cbn.
  - intros m _ g _ H a b Ha Hb. unfold exchange in Ha, Hb. cbn in Ha, Hb. apply (sw_unit_ext m g); [reflexivity|]. apply sw_sym, H; assumption.
  - intros m _ g a b _. apply sw_sym.
  - intros m _ _ g _ H. exact H.
  - intros m _ _ g a b _ H. exact H.
  - intros m _ g H a b _ _. unfold sw_unit. destruct H as [(-> & H)|(-> & H)]; left; eexists; (split; [exact H|lia]).
  - intros m _ g a b H. unfold sw_unit. destruct H as [(-> & H)|(-> & H)]; left; eexists; (split; [exact H|lia]).
  - intros m _ g a _ Hd _ Hs x y Hx Hy. unfold sw_unit. assert (x = y) by congruence. destruct (pol_of m) as [[|]|]; auto.
  - intros m _ g a _ _. unfold sw_unit. destruct (pol_of m) as [[|]|]; auto.
Qed.

Definition pp_lib : models := [("NFET", MDev (Some "NMOS")); ("PFET", MDev (Some "PMOS")); ("NMOS", MDev None); ("PMOS", MDev None)].
Definition fet (i m d g s st : string) : elem := mkElem i m [("D", d); ("G", g); ("S", s); ("B", "VSS")] [("PARALLEL", "1"); ("STACK", st)].
(** An inverter: two parallel PMOS, a stack of two NMOS one of which is upside down, and a dummy. *)
Definition pp_els : list elem := [fet "MP1" "PFET" "O" "I" "VDD" "1"; fet "MP2" "PFET" "O" "I" "VDD" "1"; fet "MN1" "NFET" "X" "I" "O" "2"; fet "MN2" "NFET" "X" "I" "VSS" "1"; fet "MN3" "NFET" "O" "VSS" "VSS" "1"].
Definition pp_out : list elem := [mkElem "MP1" "PFET" [("D", "O"); ("G", "I"); ("S", "VDD"); ("B", "VSS")] [("PARALLEL", "2"); ("STACK", "1")]; fet "MN1" "NFET" "O" "I" "VSS" "3"].
Lemma pp_mos e : In e pp_els -> exists i m d g s st, e = fet i m d g s st /\ (st = "1" \/ st = "2").
Proof. intros H. cbn in H. repeat (destruct H as [<-|H]; [do 6 eexists; split; [reflexivity|auto]|]). destruct H. Qed.
Example C72_nonvacuous :
  physical switch pol_of 1 0 /\ wf_netlist pp_els /\ stack_ok pp_els /\ stack_pos pp_els /\
  (forall m, get_base_model pp_lib m = "PMOS" \/ get_base_model pp_lib m = "NMOS" -> pol_of m <> None) /\
  (forall m, root pp_lib m "NMOS" -> pol_of m = Some Nch) /\ (forall m, root pp_lib m "PMOS" -> pol_of m = Some Pch) /\
  preprocess (fun l => l) (mkSw false true true true true) pp_lib ["I"; "O"; "VDD"; "VSS"] ["VDD"] ["VSS"] pp_els = Some pp_out.
Proof.
  assert (Hl : forall m v, dget String.eqb pp_lib m = Some v -> In m ["NFET"; "PFET"; "NMOS"; "PMOS"]) by (intros m v H; apply (dget_in _ String.eqb_eq) in H; apply (in_map fst) in H; exact H).
  split; [exact switch_physical|]. split; [|split; [|split; [|split; [|split; [|split; [|vm_compute; reflexivity]]]]]].
  - split; [cbn; repeat constructor; cbn; intuition discriminate|]. split.
    + apply Forall_forall. intros e He. destruct (pp_mos e He) as (? & ? & ? & ? & ? & ? & -> & _). repeat split; cbn; try discriminate; try (repeat constructor; cbn; intuition discriminate); intros; cbn in *; intuition (subst; discriminate).
    + intros a b Ha Hb _. destruct (pp_mos a Ha) as (? & ? & ? & ? & ? & ? & -> & _), (pp_mos b Hb) as (? & ? & ? & ? & ? & ? & -> & _). split; intros k; reflexivity.
  - split.
    + intros e s He. destruct (pp_mos e He) as (? & ? & ? & ? & ? & st & -> & Hk). cbn. intros [= <-]. destruct Hk as [-> | ->]; [exists 1|exists 2]; split; vm_compute; congruence.
    + intros e p q He H1 H2 H3 H4. destruct (pp_mos e He) as (? & ? & ? & ? & ? & ? & -> & _). cbn in H2, H4. intuition (subst; discriminate).
  - intros e s k He. destruct (pp_mos e He) as (? & ? & ? & ? & ? & st & -> & Hk). cbn. intros [= <-]. destruct Hk as [-> | ->]; vm_compute; intros [= <-]; reflexivity.
  - intros m Hm. destruct (dget String.eqb pp_lib m) as [v|] eqn:E.
    + apply Hl in E. cbn in E. destruct E as [<-|[<-|[<-|[<-|[]]]]]; discriminate.
    + unfold get_base_model in Hm. cbn [base_go] in Hm. rewrite E in Hm. destruct Hm as [-> | ->]; discriminate.
  - intros m Hm. inversion Hm as [? H|? b ? H Hr]; subst; [reflexivity|]. pose proof (Hl _ _ H) as Hi. cbn in Hi. destruct Hi as [<-|[<-|[<-|[<-|[]]]]]; try reflexivity; try discriminate.
    injection H as <-. inversion Hr as [? H|? b ? H Hr']; subst. discriminate.
  - intros m Hm. inversion Hm as [? H|? b ? H Hr]; subst; [reflexivity|]. pose proof (Hl _ _ H) as Hi. cbn in Hi. destruct Hi as [<-|[<-|[<-|[<-|[]]]]]; try reflexivity; try discriminate.
    injection H as <-. inversion Hr as [? H|? b ? H Hr']; subst. discriminate.
Qed.
