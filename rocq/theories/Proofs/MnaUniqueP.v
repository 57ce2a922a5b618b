(** The laws of a network fix the potentials of the nodes that are fed: the power of the difference of two solutions is 0. *)
From Coq Require Import ZArith QArith Qcanon Lqa ZifyBool.
From Verif Require Import Base.Prelude Model.CapPlace Model.Mna Spec.MnaSpec Proofs.MnaP.
Local Open Scope Z_scope.
Local Notation Qz := (0%Qc).

Fixpoint zipsub (a b : list Qc) : list Qc := match a, b with x :: a, y :: b => (x - y)%Qc :: zipsub a b | _, _ => [] end.
Definition delement (w : Z -> Qc) (d : device) (c : Qc) : Prop :=
  match d_kind d with KR => (c * d_value d = w (d_start d) - w (d_end d))%Qc | KI => c = Qz | KV => w (d_start d) = Qz end.
Lemma diff_ok v v' ds : forall cs cs', Forall2 (element v) ds cs -> Forall2 (element v') ds cs' ->
  Forall2 (delement (fun k => v k - v' k)%Qc) ds (zipsub cs cs') /\ forall k, leaving k ds (zipsub cs cs') = (leaving k ds cs - leaving k ds cs')%Qc.
Proof.
  induction ds as [|d ds IH]; intros cs cs' F F'; inversion F as [|? c ? l e Fl]; inversion F' as [|? c' ? l' e' Fl']; subst; cbn [zipsub leaving].
  - split; [constructor|]. intros k. ring.
  - destruct (IH _ _ Fl Fl') as [h1 h2]. split.
    + constructor; [|exact h1]. unfold element, delement in *. destruct (d_kind d).
      * transitivity (c * d_value d - c' * d_value d)%Qc; [ring|]. rewrite e, e'. ring.
      * rewrite e, e'. ring.
      * rewrite e, e'. ring.
    + intros k. rewrite h2. destruct (d_start d =? k), (d_end d =? k); ring.
Qed.
Definition ext (N : Z) (w : Z -> Qc) (k : Z) : Qc := if (1 <=? k) && (k <=? N) then w k else Qz.
Fixpoint power (N : Z) (w : Z -> Qc) (ds : list device) (cs : list Qc) : Qc :=
  match ds, cs with d :: ds, c :: cs => (c * (ext N w (d_start d) - ext N w (d_end d)) + power N w ds cs)%Qc | _, _ => Qz end.
Lemma pick_ext N w (k : Z) (c : Qc) : 0 <= N -> bsum (fun i => w (i + 1)%Z * (if k =? i + 1 then c else Qz))%Qc (zrange N) = (c * ext N w k)%Qc.
Proof.
  intros h. unfold ext. destruct ((1 <=? k) && (k <=? N)) eqn:e.
  - rewrite (bsum_ext _ (fun i => if i =? k - 1 then (w (i + 1)%Z * c)%Qc else Qz)).
    + rewrite pick by lia. replace (k - 1 + 1) with k by lia. ring.
    + intros i _. destruct (k =? i + 1) eqn:e1, (i =? k - 1) eqn:e2; try (exfalso; lia); ring.
  - rewrite bsum_zero; [ring|]. intros i hi. apply zrange_in in hi. replace (k =? i + 1) with false by lia. ring.
Qed.
Lemma tellegen N w ds : 0 <= N -> forall cs, bsum (fun i => w (i + 1)%Z * leaving (i + 1) ds cs)%Qc (zrange N) = power N w ds cs.
Proof.
  intros h. induction ds as [|d ds IH]; intros cs; [apply bsum_zero; intros; cbn; ring|]. destruct cs as [|c cs]; [apply bsum_zero; intros; cbn; ring|].
  cbn [leaving power]. rewrite (bsum_ext _ (fun i => (w (i + 1)%Z * (if d_start d =? i + 1 then c else Qz) + (w (i + 1)%Z * (if d_end d =? i + 1 then - c else Qz) + w (i + 1)%Z * leaving (i + 1) ds cs))%Qc)).
  - rewrite !bsum_add, !pick_ext, IH by exact h. ring.
  - intros i _. destruct (d_start d =? i + 1), (d_end d =? i + 1); ring.
Qed.
Lemma square_pos (c r : Qc) : (0 < r)%Qc -> (0 <= c * c * r)%Qc.
Proof.
  intros h. unfold Qcle, Qclt in *. cbn [this] in *. unfold Qcmult, Q2Qc. cbn [this]. rewrite !Qred_correct. change (0 <= this c * this c * this r)%Q. assert (0 < this r)%Q by exact h. 
  generalize dependent (this r). generalize (this c). clear. intros a b h1 h2. nra.
Qed.
Lemma add_pos (a b : Qc) : (0 <= a)%Qc -> (0 <= b)%Qc -> (0 <= a + b)%Qc.
Proof.
  unfold Qcle, Qcplus, Q2Qc. cbn [this]. rewrite !Qred_correct. change (this 0%Qc) with 0%Q. generalize (this a), (this b). clear. intros. lra.
Qed.
Lemma zero_sum (a b : Qc) : (0 <= a)%Qc -> (0 <= b)%Qc -> (a + b = 0)%Qc -> a = Qz.
Proof.
  intros h1 h2 h. apply Qcle_antisym; [|exact h1]. replace a with (- b)%Qc.
  - replace Qz with (- Qz)%Qc by ring. apply Qcopp_le_compat. exact h2.
  - transitivity (a + b - b)%Qc; [rewrite h; ring|ring].
Qed.
Section Net.
Variables (N : Z) (w : Z -> Qc).
Definition net_dev (d : device) : Prop :=
  match d_kind d with KR => 1 <= d_start d <= N /\ 1 <= d_end d <= N /\ (0 < d_value d)%Qc | KI => True | KV => d_end d < 1 end.
Lemma power_term d c : net_dev d -> delement w d c -> (0 <= c * (ext N w (d_start d) - ext N w (d_end d)))%Qc /\
  (d_kind d = KR -> c * (ext N w (d_start d) - ext N w (d_end d)) = Qz -> w (d_start d) = w (d_end d))%Qc.
Proof.
  intros n e. unfold net_dev, delement in *. destruct (d_kind d).
  - destruct n as (n1 & n2 & n3). unfold ext. replace ((1 <=? d_start d) && (d_start d <=? N)) with true by lia. replace ((1 <=? d_end d) && (d_end d <=? N)) with true by lia. rewrite <- e.
    replace (c * (c * d_value d))%Qc with (c * c * d_value d)%Qc by ring. split; [apply square_pos; exact n3|]. intros _ z.
    assert (c = Qz). { apply Qcmult_integral in z. destruct z as [z|z]; [apply Qcmult_integral in z; tauto|]. rewrite z in n3. destruct (Qclt_not_eq _ _ n3 eq_refl). }
    subst c. transitivity (w (d_start d) - w (d_end d) + w (d_end d))%Qc; [ring|]. rewrite <- e. ring.
  - subst c. split; [|discriminate]. replace (Qz * _)%Qc with Qz by ring. apply Qcle_refl.
  - split; [|discriminate]. unfold ext. replace ((1 <=? d_end d) && (d_end d <=? N)) with false by lia. rewrite e.
    match goal with |- (0 <= ?z)%Qc => replace z with Qz by (destruct (_ && _); ring) end. apply Qcle_refl.
Qed.
Lemma power_pos ds : Forall net_dev ds -> forall cs, Forall2 (delement w) ds cs -> (0 <= power N w ds cs)%Qc.
Proof.
  intros F cs E. induction E as [|d c ds cs e E IH]; [apply Qcle_refl|]. inversion F as [|? ? n F']; subst. cbn [power]. apply add_pos; [apply (power_term d c n e)|exact (IH F')].
Qed.
Lemma power_zero ds : Forall net_dev ds -> forall cs, Forall2 (delement w) ds cs -> power N w ds cs = Qz -> forall d, In d ds -> d_kind d = KR -> w (d_start d) = w (d_end d).
Proof.
  intros F cs E. induction E as [|d c ds cs e E IH]; intros p x I k; [destruct I|]. inversion F as [|? ? n F']; subst. cbn [power] in p. destruct (power_term d c n e) as [h1 h2].
  assert (h3 := power_pos ds F' cs E). destruct I as [<-|I].
  - apply h2; [exact k|]. exact (zero_sum _ _ h1 h3 p).
  - apply IH; [exact F'| |exact I|exact k]. apply (zero_sum _ _ h3 h1). rewrite Qcplus_comm. exact p.
Qed.
End Net.
Lemma unique N ds v v' cs cs' : 0 <= N -> Forall (net_dev N) ds -> circuit N ds v cs -> circuit N ds v' cs' -> forall k, fed ds k -> v k = v' k.
Proof.
  intros N0 F [E K] [E' K'] k H. set (w := fun k => (v k - v' k)%Qc). destruct (diff_ok v v' ds cs cs' E E') as [D L].
  assert (p : power N w ds (zipsub cs cs') = Qz).
  { rewrite <- (tellegen N w ds N0). apply bsum_zero. intros i hi. apply zrange_in in hi. rewrite L, K, K' by lia. ring. }
  assert (R := power_zero N w ds F _ D p).
  assert (W : w k = Qz).
  { induction H as [d I k|d I k H IH|d I k H IH].
    - revert I k D. clear. intros I k D. fold w in D. induction D as [|x c l m e D IH]; [destruct I|]. destruct I as [<-|I]; [|exact (IH I)]. unfold delement in e. rewrite k in e. exact e.
    - rewrite <- (R d I k). exact IH.
    - rewrite (R d I k). exact IH. }
  unfold w in W. transitivity (v k - v' k + v' k)%Qc; [ring|]. rewrite W. ring.
Qed.
