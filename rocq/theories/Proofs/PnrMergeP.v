(** Stems and variants. *)
From Coq Require Import String Ascii ZifyBool.
From Verif Require Import Base.Prelude Base.PyDict Model.PnrMerge Model.UpdateConst Model.Canvas Spec.FileStem Proofs.CanvasP.
Local Open Scope list_scope. Local Open Scope Z_scope.

(** * stem *)
Lemma slen_app a b : slen (a ++ b) = slen a + slen b.
Proof. unfold slen. induction a as [|c a IH]; [reflexivity|]. change (String.length (String c a ++ b)) with (Datatypes.S (String.length (a ++ b))). change (String.length (String c a)) with (Datatypes.S (String.length a)). lia. Qed.
Lemma slen_cons c a : slen (String c a) = 1 + slen a.
Proof. unfold slen. change (String.length (String c a)) with (Datatypes.S (String.length a)). lia. Qed.
Lemma slen_nonneg a : 0 <= slen a. Proof. unfold slen. lia. Qed.
Lemma free_cons c d s : free c (String d s) -> c <> d /\ free c s.
Proof.
  intros H. split.
  - intros ->. apply H. now exists EmptyString, s.
  - intros (a & b & ->). apply H. now exists (String d a), b.
Qed.
Lemma last_of_free c s p : free c s -> last_of_from c p s = npos.
Proof.
  revert p. induction s as [|d s IH]; intros p H; [reflexivity|]. cbn [last_of_from]. apply free_cons in H as (H1 & H2). rewrite IH by exact H2. rewrite Z.eqb_refl. destruct (Ascii.eqb_spec c d); [contradiction|reflexivity].
Qed.
Lemma last_of_app c a s p : free c s -> last_of_from c p (a ++ s) = last_of_from c p a.
Proof.
  intros H. revert p. induction a as [|d a IH]; intros p; [now apply last_of_free|]. change (String d a ++ s)%string with (String d (a ++ s)). cbn [last_of_from]. now rewrite IH.
Qed.
Lemma last_of_bound c s p : last_of_from c p s = npos \/ p <= last_of_from c p s < p + slen s.
Proof.
  revert p. induction s as [|d s IH]; intros p; [now left|]. cbn [last_of_from]. rewrite slen_cons. pose proof (slen_nonneg s). destruct (IH (p + 1)) as [->|H0].
  - rewrite Z.eqb_refl. destruct (Ascii.eqb c d); [right; lia|now left].
  - destruct (last_of_from c (p + 1) s =? npos); [|right; lia]. destruct (Ascii.eqb c d); [right; lia|now left].
Qed.
Lemma last_of_at c a s p : free c s -> 0 <= p -> p + slen a < npos -> last_of_from c p (a ++ String c s) = p + slen a.
Proof.
  intros H. revert p. induction a as [|d a IH]; intros p Hp L.
  - cbn [append last_of_from]. rewrite last_of_free by exact H. rewrite Z.eqb_refl, Ascii.eqb_refl. unfold slen. cbn. lia.
  - change (String d a ++ String c s)%string with (String d (a ++ String c s)). cbn [last_of_from]. rewrite slen_cons in *. pose proof (slen_nonneg a). rewrite IH by lia. destruct (Z.eqb_spec (p + 1 + slen a) npos); lia.
Qed.
Lemma substring_app a b n m : n = String.length a -> String.substring n m (a ++ b) = String.substring 0 m b.
Proof. intros ->. induction a as [|c a IH]; [reflexivity|]. change (String.substring (Datatypes.S (String.length a)) m (String c (a ++ b)) = String.substring 0 m b). exact IH. Qed.
Lemma substring_prefix b c m : m = String.length b -> String.substring 0 m (b ++ c) = b.
Proof. intros ->. induction b as [|d b IH]; [now destruct c|]. change (String d (String.substring 0 (String.length b) (b ++ c)) = String d b). now rewrite IH. Qed.
Lemma substr_mid a b c n : Z.min n (slen b + slen c) = slen b -> substr (a ++ b ++ c) (slen a) n = Some b.
Proof.
  intros H. unfold substr. rewrite !slen_app. pose proof (slen_nonneg b). pose proof (slen_nonneg c). destruct (Z.ltb_spec (slen a + (slen b + slen c)) (slen a)); [lia|]. f_equal.
  replace (slen a + (slen b + slen c) - slen a) with (slen b + slen c) by lia. rewrite H. rewrite substring_app by (unfold slen; lia). apply substring_prefix. unfold slen. lia.
Qed.
Lemma app_nil_s s : (s ++ "")%string = s. Proof. induction s as [|c s IH]; [reflexivity|]. change (String c (s ++ "") = String c s). now rewrite IH. Qed.
Lemma app_assoc_s a b c : ((a ++ b) ++ c)%string = (a ++ (b ++ c))%string. Proof. induction a as [|d a IH]; [reflexivity|]. change (String d ((a ++ b) ++ c) = String d (a ++ (b ++ c))). now rewrite IH. Qed.
Lemma u32_npos : u32 npos = 2 ^ 32 - 1. Proof. reflexivity. Qed.
Lemma u32_small z : 0 <= z < 2 ^ 32 -> u32 z = z. Proof. intros H. unfold u32. now apply Z.mod_small. Qed.
Lemma u32_not_npos z : (u32 z =? npos) = false.
Proof. unfold u32, npos. pose proof (Z.mod_pos_bound z (2 ^ 32) ltac:(reflexivity)). assert (2 ^ 32 < 2 ^ 64 - 1) by reflexivity. lia. Qed.
Theorem stem_ok s r : slen s < 2 ^ 32 - 1 -> file_stem s r -> stem s = Some r.
Proof.
  intros L (dir & name & -> & Hd & Hn & Hr). rewrite slen_app in L. pose proof (slen_nonneg dir) as Ld. pose proof (slen_nonneg name) as Ln.
  assert (N64 : 2 ^ 32 < npos) by reflexivity.
  unfold stem. rewrite !u32_not_npos. cbn [negb].
  assert (Es : u32 (u32 (find_last_of "/" (dir ++ name)) + 1) = slen dir).
  { unfold find_last_of. destruct Hd as [->|(d & ->)].
    - change ("" ++ name)%string with name. rewrite last_of_free by exact Hn. reflexivity.
    - rewrite last_of_app by exact Hn. rewrite slen_app in *. change (slen "/") with 1 in *. pose proof (slen_nonneg d). rewrite last_of_at; [|intros (a & b & E); destruct a; discriminate|lia|lia]. rewrite (u32_small (0 + slen d)) by lia. rewrite u32_small; lia. }
  rewrite Es. destruct Hr as [(Hf & ->)|(ext & -> & Hf)].
  - rewrite <- (app_nil_s name) at 1. apply substr_mid. change (slen "") with 0. unfold find_last_of. destruct (last_of_bound "." (dir ++ name) 0) as [E|E].
    + rewrite E, u32_npos. rewrite u32_small by lia. lia.
    + rewrite last_of_app in * by exact Hf. destruct (last_of_bound "." dir 0) as [F|F].
      { rewrite F in E. rewrite slen_app in E. lia. }
      rewrite (u32_small (last_of_from _ _ _)) by lia. set (e := last_of_from "." 0 dir) in *. unfold u32. replace ((e - slen dir) mod 2 ^ 32) with (e - slen dir + 2 ^ 32); [lia|]. apply Z.mod_unique with (-1); [left; lia|lia].
  - change (r ++ "." ++ ext)%string with (r ++ String "." ext)%string in *. apply substr_mid. rewrite slen_app, slen_cons in *. pose proof (slen_nonneg r). pose proof (slen_nonneg ext).
    assert (Ed : u32 (find_last_of "." (dir ++ r ++ String "." ext)) = slen dir + slen r).
    { unfold find_last_of. rewrite <- app_assoc_s. rewrite last_of_at; [|exact Hf|lia|rewrite slen_app; lia]. rewrite slen_app. rewrite u32_small; lia. }
    rewrite Ed. rewrite u32_small by lia. lia.
Qed.
Lemma split_last c s : free c s \/ exists a b, s = (a ++ String c b)%string /\ free c b.
Proof.
  induction s as [|d s IH]; [left; intros (a & b & E); destruct a; discriminate|]. destruct IH as [H|(a & b & -> & H)].
  - destruct (ascii_dec c d) as [<-|N]; [right; exists EmptyString, s; auto|]. left. intros (a & b & E). destruct a as [|e a]; [injection E as E _; congruence|]. injection E as _ E. apply H. now exists a, b.
  - right. exists (String d a), b. auto.
Qed.
Theorem stem_exists s : exists r, file_stem s r.
Proof.
  assert (G : exists dir name, s = (dir ++ name)%string /\ (dir = EmptyString \/ exists d, dir = (d ++ "/")%string) /\ free "/" name).
  { destruct (split_last "/" s) as [H|(a & b & -> & H)]; [exists EmptyString, s; auto|]. exists (a ++ "/")%string, b. split; [now rewrite app_assoc_s|]. split; [right; now exists a|exact H]. }
  destruct G as (dir & name & E & Hd & Hn). destruct (split_last "." name) as [H|(a & b & E2 & H)].
  - exists name, dir, name. split; [exact E|]. split; [exact Hd|]. split; [exact Hn|]. left. auto.
  - exists a, dir, name. split; [exact E|]. split; [exact Hd|]. split; [exact Hn|]. right. exists b. auto.
Qed.

(** * The map *)
Lemma files_app ps qs k : files (ps ++ qs) k = files ps k ++ files qs k.
Proof. induction ps as [|p ps IH]; [reflexivity|]. cbn. destruct (string_dec (fst p) k); cbn; now rewrite IH. Qed.
Lemma construct_ok ps k : dget String.eqb (construct_map ps) k = match files ps k with [] => None | fs => Some fs end.
Proof.
  unfold construct_map. induction ps as [|p ps IH] using rev_ind; [reflexivity|]. rewrite fold_left_app, files_app. cbn [fold_left files]. unfold dappend at 1. set (d := fold_left _ ps []) in *.
  destruct (string_dec (fst p) k) as [<-|N].
  - rewrite (dget_dupd_same _ String.eqb_eq), IH. destruct (files ps (fst p)); reflexivity.
  - rewrite (dget_dupd_other _ String.eqb_eq) by congruence. rewrite app_nil_r. exact IH.
Qed.
Lemma prefix_ok x s : String.prefix x s = true <-> exists b, s = (x ++ b)%string.
Proof.
  revert s. induction x as [|c x IH]; intros s; [split; [intros _; now exists s|intros _; now destruct s]|]. destruct s as [|d s]; [cbn; split; [discriminate|intros (b & E); discriminate E]|].
  cbn [String.prefix]. destruct (ascii_dec c d) as [<-|N]; [rewrite IH; split; intros (b & E); exists b; [cbn; now rewrite E|now injection E]|]. split; [discriminate|]. intros (b & E). injection E as E _. congruence.
Qed.
Lemma has_sub_ok x s : has_sub x s = true <-> part x s.
Proof.
  induction s as [|d s IH]; cbn [has_sub]; rewrite orb_true_iff, prefix_ok.
  - split; [intros [(b & E)|E]; [exists EmptyString, b; exact E|discriminate]|]. intros (a & b & E). left. destruct a; [exists b; exact E|discriminate].
  - rewrite IH. split.
    + intros [(b & E)|(a & b & E)]; [exists EmptyString, b; exact E|exists (String d a), b; cbn; now rewrite E].
    + intros (a & b & E). destruct a as [|e a]; [left; exists b; exact E|]. right. injection E as _ E. now exists a, b.
Qed.
Lemma capish_ok s : capish s = true <-> part "Cap" s \/ part "CAP" s \/ part "cap" s.
Proof. unfold capish. rewrite !orb_true_iff, !has_sub_ok. tauto. Qed.

Lemma NoDup_app1 {A} (l : list A) x : NoDup l -> ~ In x l -> NoDup (l ++ [x]).
Proof. intros H N. apply (Permutation_NoDup (l := x :: l)); [apply Permutation_cons_append|now constructor]. Qed.

(** * Merging *)
Section Merging.
  Variable G : Type.
  Variable lef : list (string * list (macro G)).
  Variable pairs : list (string * string).
  (** Whether a template is a leaf depends on its name only. *)
  Variable leafof : string -> bool.
  Definition fresh (b : mblock G) (i : minst G) : Prop := mb_insts G b = [i] /\ mb_leaf G b = leafof (mi_master G i).
  Definition lost (k : string) : Prop := files pairs k = [] /\ capish k = false /\ leafof k = true.
  (** The map during the run: that of the file, and empty lists for missing leaves. *)
  Definition mgood (st : mstate) : Prop :=
    NoDup (snd st) /\ (forall k, In k (snd st) -> lost k) /\
      forall k, (files pairs k <> [] -> dget String.eqb (fst st) k = Some (files pairs k)) /\
      (files pairs k = [] -> if in_dec string_dec k (snd st) then dget String.eqb (fst st) k = Some [] else dget String.eqb (fst st) k = None).
  (** What a block becomes. *)
  Definition merged (b b' : mblock G) : Prop :=
    exists i, fresh b i /\ mb_leaf G b' = mb_leaf G b /\
      (files pairs (mi_master G i) <> [] -> Forall2 (fun f i' => variant G lef i f = Some i') (files pairs (mi_master G i)) (mb_insts G b') /\ mb_num G b' = List.length (files pairs (mi_master G i))) /\
      (files pairs (mi_master G i) = [] -> capish (mi_master G i) = true \/ mb_leaf G b = false -> b' = b) /\
      (lost (mi_master G i) -> mb_insts G b' = [] /\ mb_num G b' = 0%nat).
  Lemma mgood0 : mgood (construct_map pairs, []).
  Proof. split; [constructor|]. split; [intros k []|]. intros k. cbn [fst snd]. rewrite construct_ok. split; intros H; [now destruct (files pairs k)|]. rewrite H. now destruct (in_dec string_dec k []). Qed.
  Lemma mapM_F2' {A B} (f : A -> option B) l r : mapM f l = Some r -> Forall2 (fun a b => f a = Some b) l r.
  Proof.
    revert r. induction l as [|a l IH]; intros r; cbn; [intros [= <-]; constructor|]. destruct (f a) eqn:E; [|discriminate]. destruct (mapM f l); [|discriminate]. intros [= <-]. constructor; auto.
  Qed.
  Lemma merge_block_ok st b i : mgood st -> fresh b i ->
    match merge_block G lef st b with
    | Some (st', b') => mgood st' /\ merged b b' /\ (forall k, In k (snd st') <-> In k (snd st) \/ k = mi_master G i /\ lost k) /\ (forall f, In f (files pairs (mi_master G i)) -> variant G lef i f <> None)
    | None => exists f, In f (files pairs (mi_master G i)) /\ variant G lef i f = None
    end.
  Proof.
    intros (M1 & M2 & M3) (F1 & F2). unfold merge_block. rewrite F1. set (k := mi_master G i) in *. destruct (M3 k) as (Ka & Kb). destruct (files pairs k) as [|f0 fs0] eqn:Ef.
    - specialize (Kb eq_refl). destruct (in_dec string_dec k (snd st)) as [Hin|Hin]; rewrite Kb.
      + cbn [mapM]. destruct (M2 k Hin) as (L1 & L2 & L3). split; [split; [exact M1|]; split; [exact M2|exact M3]|]. split.
        * exists i. split; [split; assumption|]. split; [reflexivity|]. fold k. rewrite Ef. split; [now intros []|]. cbn [mb_insts mb_num]. split; [intros _ [H|H]; congruence|]. intros _. split; reflexivity.
        * split; [|intros f []]. intros k'. split; [now left|]. intros [H|(-> & H)]; assumption.
      + destruct (capish k || negb (mb_leaf G b)) eqn:Ec.
        * split; [split; [exact M1|]; split; [exact M2|exact M3]|]. split.
          -- exists i. split; [split; assumption|]. split; [reflexivity|]. fold k. rewrite Ef. split; [now intros []|]. split; [reflexivity|]. intros (_ & L2 & L3). rewrite L2, F2 in Ec. fold k in Ec. rewrite L3 in Ec. discriminate.
          -- split; [|intros f []]. intros k'. split; [now left|]. intros [H|(-> & (_ & L2 & L3))]; [exact H|]. rewrite L2, F2 in Ec. fold k in Ec. rewrite L3 in Ec. discriminate.
        * cbn [mapM]. apply orb_false_iff in Ec as (Ec1 & Ec2). apply negb_false_iff in Ec2. rewrite F2 in Ec2. fold k in Ec2. assert (Lk : lost k) by (split; [exact Ef|]; split; assumption).
          split.
          -- split; [cbn [snd]; apply NoDup_app1; assumption|]. cbn [fst snd]. split; [intros k' H; apply in_app_iff in H as [H|[<-|[]]]; auto|]. intros k'. destruct (M3 k') as (Ka' & Kb'). destruct (string_dec k' k) as [->|N].
             ++ rewrite Ef. split; [now intros []|]. intros _. unfold dset. rewrite (dget_dupd_same _ String.eqb_eq). destruct (in_dec string_dec k (snd st ++ [k])) as [H|H]; [reflexivity|]. exfalso. apply H, in_app_iff. right. now left.
             ++ unfold dset. rewrite (dget_dupd_other _ String.eqb_eq) by congruence. split; [exact Ka'|]. intros H. specialize (Kb' H). destruct (in_dec string_dec k' (snd st)) as [I1|I1], (in_dec string_dec k' (snd st ++ [k])) as [I2|I2]; try exact Kb'; exfalso.
                ** apply I2, in_app_iff. now left.
                ** apply in_app_iff in I2 as [I2|[I2|[]]]; [contradiction|congruence].
          -- split.
             ++ exists i. split; [split; assumption|]. split; [reflexivity|]. fold k. rewrite Ef. split; [now intros []|]. cbn [mb_insts mb_num]. split; [intros _ [H|H]; congruence|]. intros _. split; reflexivity.
             ++ split; [|intros f []]. cbn [snd]. intros k'. rewrite in_app_iff. cbn. split; [intros [H|[<-|[]]]; auto|]. intros [H|(-> & _)]; auto.
    - rewrite Ka by discriminate. destruct (mapM (variant G lef i) (f0 :: fs0)) as [is|] eqn:E.
      + pose proof (mapM_F2' _ _ _ E) as E2. split; [split; [exact M1|]; split; [exact M2|exact M3]|]. split.
        * exists i. split; [split; assumption|]. split; [reflexivity|]. fold k. rewrite Ef. split; [intros _; split; [exact E2|reflexivity]|]. split; [discriminate|]. intros (L1 & _). congruence.
        * split; [intros k'; split; [now left|]; intros [H|(-> & (L1 & _))]; [exact H|congruence]|]. intros f Hf. destruct (mapM_in _ _ _ _ E Hf) as (i' & Hi & _). congruence.
      + clear - E. revert E. generalize (f0 :: fs0). induction l as [|f l IH]; [discriminate|]. cbn. destruct (variant G lef i f) eqn:Ev; [|intros _; exists f; auto]. destruct (mapM _ l); [discriminate|]. intros _. destruct (IH eq_refl) as (f' & ? & ?). exists f'. auto.
  Qed.
  Definition all_fresh (bs : list (mblock G)) : Prop := forall b, In b bs -> exists i, fresh b i.
  Definition seen (bs : list (mblock G)) (k : string) : Prop := exists b i, In b bs /\ fresh b i /\ mi_master G i = k.
  Definition bad (bs : list (mblock G)) : Prop := exists b i f, In b bs /\ fresh b i /\ In f (files pairs (mi_master G i)) /\ variant G lef i f = None.
  Lemma fresh_inj b i i' : fresh b i -> fresh b i' -> i = i'.
  Proof. intros (H & _) (H' & _). congruence. Qed.
  Lemma merge_blocks_ok bs st : mgood st -> all_fresh bs ->
    match merge_blocks G lef st bs with
    | Some (st', bs') => mgood st' /\ Forall2 merged bs bs' /\ (forall k, In k (snd st') <-> In k (snd st) \/ seen bs k /\ lost k) /\ ~ bad bs
    | None => bad bs
    end.
  Proof.
    revert st. induction bs as [|b bs IH]; intros st M A; cbn [merge_blocks].
    - split; [exact M|]. split; [constructor|]. split; [intros k; split; [now left|intros [H|((b & i & [] & _) & _)]; exact H]|]. intros (b & i & f & [] & _).
    - destruct (A b (or_introl eq_refl)) as (i & Fi). pose proof (merge_block_ok st b i M Fi) as H. destruct (merge_block G lef st b) as [(st1 & b1)|].
      + destruct H as (M1 & H1 & H2 & H3). specialize (IH st1 M1 (fun c Hc => A c (or_intror Hc))). destruct (merge_blocks G lef st1 bs) as [(st2 & bs2)|].
        * destruct IH as (M2 & I1 & I2 & I3). split; [exact M2|]. split; [constructor; assumption|]. split.
          -- intros k. rewrite I2, H2. split.
             ++ intros [[H|(-> & H)]|((c & j & Hc & Hf & Hk) & H)]; [now left|right; split; [exists b, i; split; [now left|]; auto|exact H]|right; split; [exists c, j; split; [now right|]; auto|exact H]].
             ++ intros [H|((c & j & [<-|Hc] & Hf & Hk) & H)]; [now left; left| |right; split; [exists c, j; auto|exact H]]. left; right. rewrite (fresh_inj _ _ _ Fi Hf). auto.
          -- intros (c & j & f & [<-|Hc] & Hf & Hi & Hv); [rewrite (fresh_inj _ _ _ Hf Fi) in *; exact (H3 f Hi Hv)|apply I3; exists c, j, f; auto].
        * destruct IH as (c & j & f & Hc & K). exists c, j, f. split; [now right|exact K].
      + destruct H as (f & Hf & Hv). exists b, i, f. split; [now left|]. auto.
  Qed.
  Lemma merge_tree_ok t : (forall bs, In bs t -> all_fresh bs) ->
    match merge_tree G lef pairs t with
    | Some (st, t') => Forall2 (Forall2 merged) t t' /\ NoDup (snd st) /\ (forall k, In k (snd st) <-> (exists bs, In bs t /\ seen bs k) /\ lost k) /\ forall bs, In bs t -> ~ bad bs
    | None => exists bs, In bs t /\ bad bs
    end.
  Proof.
    intros A. unfold merge_tree.
    assert (H : match merge_tree G lef pairs t with
      | Some (st, t') => mgood st /\ Forall2 (Forall2 merged) t t' /\ (forall k, In k (snd st) <-> (exists bs, In bs t /\ seen bs k) /\ lost k) /\ forall bs, In bs t -> ~ bad bs
      | None => exists bs, In bs t /\ bad bs end).
    { unfold merge_tree. induction t as [|bs t IH] using rev_ind.
      - cbn. split; [exact mgood0|]. split; [constructor|]. split; [intros k; split; [intros []|intros ((bs & [] & _) & _)]|intros bs []].
      - rewrite fold_left_app. cbn [fold_left]. specialize (IH (fun c Hc => A c (proj2 (in_app_iff t [bs] c) (or_introl Hc)))). destruct (fold_left _ t _) as [(st & t')|].
        + destruct IH as (M & I1 & I2 & I3). pose proof (merge_blocks_ok bs st M (A bs (proj2 (in_app_iff t [bs] bs) (or_intror (or_introl eq_refl))))) as K. destruct (merge_blocks G lef st bs) as [(st1 & bs1)|].
          * destruct K as (M1 & K1 & K2 & K3). split; [exact M1|]. split; [apply Forall2_app; [exact I1|repeat constructor; exact K1]|]. split.
            -- intros k. rewrite K2, I2. split.
               ++ intros [((c & Hc & Hs) & H)|(Hs & H)]; (split; [|exact H]); [exists c; split; [apply in_app_iff; now left|exact Hs]|exists bs; split; [apply in_app_iff; right; now left|exact Hs]].
               ++ intros ((c & Hc & Hs) & H). apply in_app_iff in Hc as [Hc|[<-|[]]]; [left; split; [exists c; auto|exact H]|right; auto].
            -- intros c Hc. apply in_app_iff in Hc as [Hc|[<-|[]]]; auto.
          * exists bs. split; [apply in_app_iff; right; now left|exact K].
        + destruct IH as (c & Hc & Hb). exists c. split; [apply in_app_iff; now left|exact Hb]. }
    unfold merge_tree in H. destruct (fold_left _ t _) as [(st & t')|]; [|exact H]. destruct H as ((H1 & _) & H2 & H3 & H4). auto.
  Qed.
End Merging.
