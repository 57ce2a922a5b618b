(** Electrical connection of boxes on numbered layers. *)
From Coq Require Import Relations.
From Verif Require Import Base.Prelude.
Local Open Scope Z_scope.

Record box := mkBox { b_layer : Z; b_x0 : Z; b_y0 : Z; b_x1 : Z; b_y1 : Z }.
(** A via on layer [c_layer] at a point: it joins boxes of that layer and of the next that contain the point. *)
Record contact := mkCt { c_layer : Z; c_x : Z; c_y : Z }.
Definition covers (b : box) (x y : Z) : Prop := b_x0 b <= x <= b_x1 b /\ b_y0 b <= y <= b_y1 b.
(** Two boxes of one layer meet if they have a point in common. *)
Definition meet (a b : box) : Prop := b_layer a = b_layer b /\ exists x y, covers a x y /\ covers b x y.
Definition via_joins (c : contact) (a b : box) : Prop := b_layer a = c_layer c /\ b_layer b = c_layer c + 1 /\ covers a (c_x c) (c_y c) /\ covers b (c_x c) (c_y c).
Definition linked (bs : list box) (cs : list contact) (a b : box) : Prop :=
  In a bs /\ In b bs /\ (meet a b \/ exists c, In c cs /\ (via_joins c a b \/ via_joins c b a)).
Definition net_connected (bs : list box) (cs : list contact) : box -> box -> Prop := clos_refl_trans box (linked bs cs).

(** Proof tool: a classification that respects meeting and vias respects connection. *)
Lemma net_sound {A} (bs : list box) (cs : list contact) (R : box -> A -> Prop) :
  (forall a, In a bs -> exists n, R a n) ->
  (forall a b n m, In a bs -> In b bs -> R a n -> R b m -> meet a b -> n = m) ->
  (forall c a b n m, In c cs -> In a bs -> In b bs -> R a n -> R b m -> via_joins c a b -> n = m) ->
  forall a b n m, In a bs -> (forall n', R a n' -> n' = n) -> R b m -> net_connected bs cs a b -> n = m.
Proof.
  intros Ht Hm Hv a b n m Ia Ha Hb H. apply clos_rt_rtn1 in H. revert m Hb. induction H as [|b c (Ib & Ic & Hbc) Hab IH]; intros m Hb; [symmetry; now apply Ha|].
  destruct (Ht b Ib) as (k & Hk). assert (n = k) as -> by now apply IH. destruct Hbc as [M|(v & Hv' & [V|V])]; [eapply Hm; [exact Ib|exact Ic|exact Hk|exact Hb|exact M]|eapply Hv; [exact Hv'|exact Ib|exact Ic|exact Hk|exact Hb|exact V]|symmetry; eapply Hv; [exact Hv'|exact Ic|exact Ib|exact Hb|exact Hk|exact V]].
Qed.
Lemma net_sym bs cs a b : net_connected bs cs a b -> net_connected bs cs b a.
Proof.
  intros H. induction H as [a b (Ia & Ib & H)|a|a b c _ IH1 _ IH2]; [|apply rt_refl|eapply rt_trans; eauto].
  apply rt_step. repeat split; auto. destruct H as [(E & x & y & H1 & H2)|(c & Hc & [H|H])]; [left; split; [now symmetry|]; exists x, y; now split|right; exists c; split; auto|right; exists c; split; auto].
Qed.
