(** Which cell goes to which net. *)
From Coq Require Import ZArith ZifyBool.
From Verif Require Import Base.Prelude Model.CapPlace Spec.CapPlaceSpec Proofs.CapGridP Proofs.CapSeqP Proofs.CapNetP.
Local Open Scope Z_scope.

Definition given (u : pair * pair) : list (nat * nat) :=
  match snd (snd u), snd (fst u) with Some b, Some y => [(fst (fst u), fst (snd u)); (y, b)] | _, _ => [(fst (fst u), fst (snd u))] end.
Definition two (p : pair) : Prop := exists y, snd p = Some y.
Lemma assign_two nets : Forall two nets -> forall ps, Forall two ps ->
  assign nets ps = if (length nets <=? length ps)%nat then Some (flat_map given (combine ps nets)) else None.
Proof.
  induction nets as [|[a b] nets IH]; intros F ps Fp; [now destruct ps|]. inversion F as [|? ? [b' E] F']; subst. cbn in E. subst b. destruct ps as [|[x y] ps]; [reflexivity|]. inversion Fp as [|? ? [y' E] Fp']; subst. cbn in E. subst y.
  cbn [assign length combine flat_map]. rewrite IH by assumption. cbn [Nat.leb]. now destruct (length nets <=? length ps)%nat.
Qed.
Lemma combine_fst {A B} (l : list A) : forall (l' : list B), (length l' <= length l)%nat -> exists rest, l = map fst (combine l l') ++ rest /\ map snd (combine l l') = l'.
Proof.
  induction l as [|a l IH]; intros [|b l'] H; cbn in *; try lia; [now exists []|now exists (a :: l)|]. destruct (IH l') as (rest & E1 & E2); [lia|]. exists rest. rewrite <- E1, E2. split; reflexivity.
Qed.
Definition share (nets cs mid lone : list pair) (ev : list (nat * nat)) (U : list (pair * pair)) (skip rest : list pair) : Prop :=
  ev = flat_map given U /\ map snd U = nets /\ cs = skip ++ map fst U ++ rest /\ (skip = [] \/ skip = mid /\ lone = []) /\ forall u, In u U -> two (snd u) -> two (fst u).
Section Assign.
Variables nets lone cp cs mid ps : list pair.
Hypotheses (En : nets = lone ++ cp) (Hl : lone = [] \/ exists a, lone = [(a, None)]) (Hc : Forall two cp).
Hypotheses (Ec : cs = mid ++ ps) (Hm : mid = [] \/ exists c, mid = [(c, None)]) (Hp : Forall two ps).
Lemma pair_two (l l' : list pair) u : Forall two l -> In u (combine l l') -> two (fst u).
Proof. intros F H. destruct u as [p q]. apply in_combine_l in H. rewrite Forall_forall in F. now apply F. Qed.
Lemma two_len l : Forall two l -> length (all_cells l) = (2 * length l)%nat.
Proof. induction 1 as [|p l [y E] F IH]; [reflexivity|]. change (all_cells (p :: l)) with (cells_of p ++ all_cells l). rewrite app_length, IH. unfold cells_of. rewrite E. cbn. lia. Qed.
Lemma assign_main : match assign nets cs with Some ev => exists U skip rest, share nets cs mid lone ev U skip rest | None => (length (all_cells cs) < length (all_cells nets))%nat end.
Proof.
  assert (forall l, length (all_cells (lone ++ l)) = (length lone + length (all_cells l))%nat) as Ll by (intros l; rewrite all_app, app_length; destruct Hl as [->|(a & ->)]; reflexivity).
  assert (forall l, length (all_cells (mid ++ l)) = (length mid + length (all_cells l))%nat) as Lm by (intros l; rewrite all_app, app_length; destruct Hm as [->|(a & ->)]; reflexivity).
  assert (length (all_cells nets) = (length lone + 2 * length cp)%nat) as Lx by (rewrite En, Ll, two_len; auto).
  assert (length (all_cells cs) = (length mid + 2 * length ps)%nat) as Ly by (rewrite Ec, Lm, two_len; auto). rewrite Lx, Ly. clear Ll Lm Lx Ly.
  destruct Hl as [El|(a & El)]; rewrite El in En |- *; cbn [app] in En; rewrite En.
  - assert (match assign cp ps with Some ev => exists U rest, ev = flat_map given U /\ map snd U = cp /\ ps = map fst U ++ rest /\ forall u, In u U -> two (fst u) | None => (length ps < length cp)%nat end) as Q.
    { rewrite assign_two by assumption. destruct (Nat.leb_spec (length cp) (length ps)) as [L|L]; [|exact L]. destruct (combine_fst ps cp L) as (rest & E1 & E2). exists (combine ps cp), rest. repeat split; auto. intros u Hu. now apply (pair_two ps cp). }
    destruct Hm as [Em|(c & Em)]; rewrite Em in *; cbn [app] in Ec.
    + rewrite Ec. revert Q. destruct (assign cp ps) as [ev|]; intros Q; [|cbn; lia]. destruct Q as (U & rest & Q1 & Q2 & Q3 & Q4). exists U, [], rest. repeat split; auto.
    + assert (match assign cp cs with Some ev => assign cp ps = Some ev | None => assign cp ps = None /\ (cp <> []) end) as W.
      { rewrite Ec. clear Q. destruct cp as [|[a b] t]; [reflexivity|]. inversion Hc as [|? ? [b' E] _]; subst. cbn in E. subst b. cbn [assign]. destruct ps as [|[x y] u]; [split; [reflexivity|discriminate]|]. inversion Hp as [|? ? [y' E] _]; subst. cbn in E. subst y. destruct (assign t u); [reflexivity|split; [reflexivity|discriminate]]. }
      revert W. destruct (assign cp cs) as [ev|]; intros W.
      * rewrite W in Q. destruct Q as (U & rest & Q1 & Q2 & Q3 & Q4). exists U, [(c, None)], rest. split; [exact Q1|]. split; [exact Q2|]. split; [rewrite Ec, <- Q3; reflexivity|]. split; auto.
      * destruct W as [W _]. rewrite W in Q. cbn. lia.
  - cbn [assign]. destruct Hm as [Em|(c & Em)]; rewrite Em in *; cbn [app] in Ec; rewrite Ec.
    + destruct ps as [|p ps'] eqn:Ep; [cbn; lia|]. destruct (Forall_inv Hp) as [y Ey]. pose proof (Forall_inv_tail Hp) as Hp'. destruct p as [x y']. cbn in Ey. subst y'. rewrite assign_two by assumption. destruct (Nat.leb_spec (length cp) (length ps')) as [L|L]; [|cbn; lia]. cbn [option_map].
      destruct (combine_fst ps' cp L) as (rest & E1 & E2). exists (((x, Some y), (a, None)) :: combine ps' cp), [], rest. repeat split; auto; [cbn; congruence|cbn; congruence|]. intros u [<-|Hu]; [intros [b Eb]; discriminate|]. intros _. now apply (pair_two ps' cp).
    + rewrite assign_two by assumption. destruct (Nat.leb_spec (length cp) (length ps)) as [L|L]; [|cbn; lia]. cbn [option_map].
      destruct (combine_fst ps cp L) as (rest & E1 & E2). exists (((c, None), (a, None)) :: combine ps cp), [], rest. repeat split; auto; [cbn; congruence|cbn; congruence|]. intros u [<-|Hu]; [intros [b Eb]; discriminate|]. intros _. now apply (pair_two ps cp).
Qed.
Lemma assign_most ev : assign nets cs = Some ev -> (length lone + 2 * length cp <= length mid + 2 * length ps)%nat.
Proof.
  intros E. pose proof assign_main as M. rewrite E in M. destruct M as (U & skip & rest & E1 & E2 & E3 & E4 & E5).
  assert (length nets = (length lone + length cp)%nat) as A by (now rewrite En, app_length). assert (length cs = (length mid + length ps)%nat) as B by (now rewrite Ec, app_length).
  assert (length U = length nets) as C by (now rewrite <- E2, map_length). assert (length cs = (length skip + (length U + length rest))%nat) as D by (rewrite E3 at 1; now rewrite !app_length, map_length).
  destruct Hl as [El|(a & El)], Hm as [Em|(c & Em)]; rewrite El, Em in *; cbn in *; try lia.
  destruct E4 as [E4|[E4 _]]; rewrite E4 in *; cbn in *; [|lia]. clear - E D A B C E4 En Ec Hc Hp El Em E2 E3 E5.
  destruct U as [|u U]; [cbn in *; lia|]. cbn in E3. rewrite Ec in E3. injection E3 as Eu E3. assert (two (fst u)) as [y Ey]. { apply E5; [now left|]. cbn in E2. rewrite En in E2. rewrite Forall_forall in Hc. apply Hc. rewrite <- E2. now left. } rewrite <- Eu in Ey. discriminate.
Qed.
End Assign.

Lemma nodup_app_iff {A} (l l' : list A) : NoDup (l ++ l') <-> NoDup l /\ NoDup l' /\ forall x, In x l -> ~ In x l'.
Proof.
  induction l as [|a l IH]; cbn; [split; [intros H; repeat split; auto; constructor|tauto]|]. split.
  - intros H. inversion H as [|? ? Ha Hl]; subst. apply IH in Hl. destruct Hl as (A1 & A2 & A3). rewrite in_app_iff in Ha. repeat split; auto; [constructor; tauto|]. intros x [<-|Hx]; [tauto|auto].
  - intros (H1 & H2 & H3). inversion H1; subst. constructor; [rewrite in_app_iff; intros [Q|Q]; [contradiction|apply (H3 a); auto]|]. apply IH. repeat split; auto.
Qed.
Lemma given_cells u : exists t, cells_of (fst u) = map fst (given u) ++ t.
Proof. unfold given, cells_of. destruct u as [[x [y|]] [a [b|]]]; cbn; [exists []|exists [y]|exists []|exists []]; reflexivity. Qed.
Lemma given_fst U c : In c (map fst (flat_map given U)) -> In c (all_cells (map fst U)).
Proof.
  induction U as [|u U IH]; [auto|]. cbn [flat_map]. rewrite map_app, in_app_iff. change (all_cells (map fst (u :: U))) with (cells_of (fst u) ++ all_cells (map fst U)). rewrite in_app_iff. intros [H|H]; [left|auto]. destruct (given_cells u) as [t ->]. apply in_app_iff. auto.
Qed.
Lemma given_nodup U : NoDup (all_cells (map fst U)) -> NoDup (map fst (flat_map given U)).
Proof.
  induction U as [|u U IH]; [constructor|]. change (all_cells (map fst (u :: U))) with (cells_of (fst u) ++ all_cells (map fst U)). cbn [flat_map]. rewrite map_app, !nodup_app_iff. intros (A & B & C). destruct (given_cells u) as [t E]. rewrite E in A. apply nodup_app_iff in A. repeat split; [tauto|auto|].
  intros c Hc H. apply (C c); [rewrite E; apply in_app_iff; auto|]. now apply given_fst.
Qed.
Lemma given_snd U : (forall u, In u U -> two (snd u) -> two (fst u)) -> map snd (flat_map given U) = all_cells (map snd U).
Proof.
  induction U as [|u U IH]; intros H; [reflexivity|]. cbn [flat_map]. rewrite map_app, IH by (intros v Hv; apply H; now right). change (all_cells (map snd (u :: U))) with (cells_of (snd u) ++ all_cells (map snd U)). f_equal.
  specialize (H u (or_introl eq_refl)). unfold given, cells_of, two in *. destruct u as [[x y] [a [b|]]]; cbn in *; [|now destruct y]. destruct H as [y' ->]; [eauto|]. reflexivity.
Qed.
Lemma in_given c k u : In (c, k) (given u) -> In c (cells_of (fst u)) /\ In k (cells_of (snd u)).
Proof. unfold given, cells_of. destruct u as [[x [y|]] [a [b|]]]; cbn; intros H; repeat destruct H as [H|H]; try (injection H as <- <-; auto); try contradiction. Qed.
Lemma ssorted_app {A} (R : A -> A -> Prop) l l' : StronglySorted R (l ++ l') <-> StronglySorted R l /\ StronglySorted R l' /\ forall x y, In x l -> In y l' -> R x y.
Proof.
  induction l as [|a l IH]; cbn; [split; [intros H; repeat split; auto; [constructor|tauto]|tauto]|]. split.
  - intros H. inversion H as [|? ? Hs Hf]; subst. apply IH in Hs. destruct Hs as (A1 & A2 & A3). rewrite Forall_forall in Hf. repeat split; auto; [constructor; auto; apply Forall_forall; intros x Hx; apply Hf, in_app_iff; auto|]. intros x y [<-|Hx] Hy; [apply Hf, in_app_iff; auto|auto].
  - intros (H1 & H2 & H3). inversion H1 as [|? ? Hs Hf]; subst. constructor; [apply IH; repeat split; auto|]. rewrite Forall_forall in *. intros x Hx. apply in_app_iff in Hx. destruct Hx; auto.
Qed.
Lemma zsum_perm l l' : Permutation l l' -> zsum l = zsum l'.
Proof. unfold zsum. induction 1; cbn in *; lia. Qed.
Lemma zsum_flip {A} (f g : A -> Z) m l : (forall x, In x l -> f x + g x = m) -> zsum (map f l) + zsum (map g l) = Z.of_nat (length l) * m.
Proof. induction l as [|a l IH]; intros H; [reflexivity|]. specialize (IH (fun x Hx => H x (or_intror Hx))). specialize (H a (or_introl eq_refl)). cbn [map zsum fold_right length]. fold (zsum (map f l)) (zsum (map g l)). nia. Qed.
Lemma closed_centred r s l : 0 < r -> 0 < s -> NoDup l -> (forall c, In c l -> (c < length (caps r s))%nat /\ In (opp r s c) l) -> centred r s (map (pos r s) l).
Proof.
  intros Hr Hs N C. assert (Permutation (map (opp r s) l) l) as P.
  { apply NoDup_Permutation_bis; [|rewrite map_length; lia|]. 
    - apply nodup_map_in; [exact N|]. intros x y Hx Hy E. apply C in Hx, Hy. unfold opp in E. lia.
    - intros z Hz. apply in_map_iff in Hz. destruct Hz as (c & <- & Hc). now apply C. }
  unfold centred. rewrite map_length, !map_map. split.
  - pose proof (zsum_perm _ _ (Permutation_map (fun c => fst (pos r s c)) P)) as E. rewrite map_map in E. pose proof (zsum_flip (fun c => fst (pos r s c)) (fun c => fst (pos r s (opp r s c))) (r - 1) l) as F. rewrite <- F; [lia|]. intros c Hc. apply C in Hc. now apply opp_facing.
  - pose proof (zsum_perm _ _ (Permutation_map (fun c => snd (pos r s c)) P)) as E. rewrite map_map in E. pose proof (zsum_flip (fun c => snd (pos r s c)) (fun c => snd (pos r s (opp r s c))) (s - 1) l) as F. rewrite <- F; [lia|]. intros c Hc. apply C in Hc. now apply opp_facing.
Qed.
