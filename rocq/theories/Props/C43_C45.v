(** Properties C43 (shift to the origin) and C45 (GDS polygons). *)
From Coq Require Import String.
From Verif Require Import Base.Prelude Model.Transformation Spec.Geometry Model.LayoutIO Spec.PolygonSpec.
Local Open Scope Z_scope.

(** C43. One common translation moves every rectangle; payloads and order are unchanged; the
    new bounding box starts at the origin; rectangles inside the box stay inside it (and so
    have non-negative coordinates). *)
Theorem C43_common_translation : forall A (j : layout A),
  exists dx dy, 
    length (l_terms (json_pos j)) = length (l_terms j) /\
    (forall i a r, nth_error (l_terms j) i = Some (a, r) ->
       exists r', nth_error (l_terms (json_pos j)) i = Some (a, r') /\
         forall x y, in_box r' (x + dx, y + dy) <-> in_box r (x, y)) /\
    (forall x y, in_box (l_bbox (json_pos j)) (x + dx, y + dy) <-> in_box (l_bbox j) (x, y)) /\
    llx (l_bbox (json_pos j)) = 0 /\ lly (l_bbox (json_pos j)) = 0.
Proof.
  intros A j. exists (- llx (l_bbox j)), (- lly (l_bbox j)). unfold json_pos; cbn [l_terms l_bbox].
  split; [apply map_length|]. split.
  - intros i a r E. exists (shift_rect (llx (l_bbox j)) (lly (l_bbox j)) r).
    rewrite nth_error_map, E. split; [reflexivity|]. intros x y.
    unfold in_box, shift_rect; simpl. lia.
  - split; [|split; reflexivity]. intros x y. unfold in_box; simpl. lia.
Qed.
Print Assumptions C43_common_translation.

(** Corner coordinates (also of degenerate or unordered rectangles) move by the same vector. *)
Theorem C43_corners : forall A (j : layout A) i a r, nth_error (l_terms j) i = Some (a, r) ->
  nth_error (l_terms (json_pos j)) i =
    Some (a, mkRect (llx r - llx (l_bbox j)) (lly r - lly (l_bbox j))
                    (urx r - llx (l_bbox j)) (ury r - lly (l_bbox j))).
Proof. intros A j i a r E. unfold json_pos; cbn [l_terms]. rewrite nth_error_map, E. reflexivity. Qed.
Print Assumptions C43_corners.

Theorem C43_nonnegative : forall A (j : layout A) a r',
  In (a, r') (l_terms (json_pos j)) ->
  (forall b r, In (b, r) (l_terms j) ->
     llx (l_bbox j) <= llx r /\ lly (l_bbox j) <= lly r /\
     llx (l_bbox j) <= urx r /\ lly (l_bbox j) <= ury r) ->
  0 <= llx r' /\ 0 <= lly r' /\ 0 <= urx r' /\ 0 <= ury r'.
Proof.
  intros A j a r' Hin Hb. unfold json_pos in Hin; cbn [l_terms] in Hin.
  apply in_map_iff in Hin as ((b & r) & E & Hin). injection E as <- <-.
  specialize (Hb b r Hin). simpl. lia.
Qed.
Print Assumptions C43_nonnegative.

(** Running the pass twice is the same as running it once. *)
Theorem C43_idempotent : forall A (j : layout A), json_pos (json_pos j) = json_pos j.
Proof.
  intros A j. unfold json_pos; cbn [l_terms l_bbox llx lly urx ury]. f_equal.
  - f_equal; lia.
  - rewrite map_map. apply map_ext. intros [a r]. unfold shift_rect; simpl. do 2 f_equal; lia.
Qed.
Print Assumptions C43_idempotent.

Example C43_example :
  json_pos (mkLayout (mkRect (-10) 5 30 25) [(7, mkRect (-10) 5 0 9); (8, mkRect 3 6 30 25)])
  = mkLayout (mkRect 0 0 40 20) [(7, mkRect 0 0 10 4); (8, mkRect 13 1 40 20)].
Proof. reflexivity. Qed.

(** C45. Every boundary polygon is the closed rectangle. *)
Theorem C45_polygon : forall r, draws_rect (flat_rect_to_boundary r) r.
Proof.
  intros [a b c d]. exists [(a,b);(a,d);(c,d);(c,b);(a,b)]. split; [reflexivity|]. split; [reflexivity|].
  split; [reflexivity|]. split; [simpl; auto 10|].
  cbn [llx lly urx ury]. split; [|cbn [area2]; ring]. intros x y. split; intros H.
  - destruct H as [H|[H|[H|[H|[H|[]]]]]]; injection H as <- <-; auto.
  - destruct H as [[-> | ->] [-> | ->]]; simpl; auto 10.
Qed.
Print Assumptions C45_polygon.

(** Every drawn element comes from a terminal (or is the bounding box), and draws its
    rectangle; every non-excluded terminal outside the V0 guard-ring rule is drawn. *)
Lemma gds_nonvia_sound c labels t els labels' e :
  gds_nonvia c labels t = (els, labels') -> In e els ->
  in_viagen c (g_layer t) = false /\ excluded c (g_net t) = false /\
  match e with
  | GBoundary l dt xy => l = g_layer t /\
      (draws_rect xy (g_rect t) \/
       (dt = Draw /\ l = "V0"%string /\ v0_limit c < urx (g_rect t) - llx (g_rect t) /\
        exists n, (n < v0_num c)%nat /\
          let x := llx (g_rect t) + Z.of_nat n * (v0_w c + v0_s c) in
          draws_rect xy (mkRect x (lly (g_rect t)) (x + v0_w c) (ury (g_rect t)))))
  | GText l s xy => l = g_layer t /\ s = g_net t /\ g_pin t = true /\
      in_box (g_rect t) xy
  | GSref _ _ => False
  end.
Proof.
  unfold gds_nonvia. intros E Hin.
  destruct (in_viagen c (g_layer t)); [injection E as <- <-; destruct Hin|].
  destruct (excluded c (g_net t)); [injection E as <- <-; destruct Hin|].
  cbn [orb] in E. split; [reflexivity|]. split; [reflexivity|].
  assert (Hcol : forall e, In e match g_color t with
            | Some col => [GBoundary (g_layer t) (ColorT col) (flat_rect_to_boundary (g_rect t))]
            | None => [] end -> exists dt xy, e = GBoundary (g_layer t) dt xy /\ draws_rect xy (g_rect t)).
  { intros e' H. destruct (g_color t); [|destruct H]. destruct H as [<-|[]].
    do 2 eexists. split; [reflexivity|]. apply C45_polygon. }
  destruct (String.eqb (g_layer t) "V0" && (v0_limit c <? urx (g_rect t) - llx (g_rect t))) eqn:E1.
  - injection E as <- <-. apply andb_true_iff in E1 as [E1 E2].
    apply String.eqb_eq in E1. apply Z.ltb_lt in E2.
    apply in_app_or in Hin as [Hin|Hin].
    + apply in_map_iff in Hin as (n & <- & Hn). apply in_seq in Hn. split; [reflexivity|].
      right. repeat split; auto. exists n. split; [lia|]. apply C45_polygon.
    + destruct (Hcol _ Hin) as (dt & xy & -> & H). auto.
  - destruct (pinSwitch c && g_pin t) eqn:E2.
    + apply andb_true_iff in E2 as [_ E2].
      destruct (has_label c (g_layer t) && _ && _).
      * injection E as <- <-. destruct Hin as [<-|[<-|Hin]].
        -- split; [reflexivity|]. left. apply C45_polygon.
        -- repeat split; auto; unfold in_box, int_half; simpl;
             pose proof (Z.quot_rem' (llx (g_rect t) + urx (g_rect t)) 2);
             pose proof (Z.quot_rem' (lly (g_rect t) + ury (g_rect t)) 2);
             pose proof (Z.rem_bound_abs (llx (g_rect t) + urx (g_rect t)) 2 ltac:(lia));
             pose proof (Z.rem_bound_abs (lly (g_rect t) + ury (g_rect t)) 2 ltac:(lia)); lia.
        -- destruct (Hcol _ Hin) as (dt & xy & -> & H). auto.
      * injection E as <- <-. destruct Hin as [<-|Hin].
        -- split; [reflexivity|]. left. apply C45_polygon.
        -- destruct (Hcol _ Hin) as (dt & xy & -> & H). auto.
    + injection E as <- <-. destruct Hin as [<-|Hin].
      * split; [reflexivity|]. left. apply C45_polygon.
      * destruct (Hcol _ Hin) as (dt & xy & -> & H). auto.
Qed.

Lemma gds_nonvias_in c ts : forall labels e, In e (gds_nonvias c labels ts) ->
  exists t labels0 els labels1, In t ts /\ gds_nonvia c labels0 t = (els, labels1) /\ In e els.
Proof.
  induction ts as [|t ts IH]; simpl; intros labels e Hin; [destruct Hin|].
  destruct (gds_nonvia c labels t) as [els labels'] eqn:E. apply in_app_or in Hin as [Hin|Hin].
  - exists t, labels, els, labels'. auto.
  - destruct (IH _ _ Hin) as (t' & l0 & els' & l1 & H1 & H2 & H3). exists t', l0, els', l1. auto.
Qed.

Theorem C45_every_element : forall c bbox ts e, In e (translate_data c bbox ts) ->
  match e with
  | GBoundary l dt xy => exists r, draws_rect xy r
  | GText l s xy => exists t, In t ts /\ g_pin t = true /\ l = g_layer t /\ s = g_net t /\
                      in_box (g_rect t) xy
  | GSref l xy => exists t, In t ts /\ in_viagen c l = true /\ l = g_layer t /\
                      in_box (g_rect t) xy
  end.
Proof.
  intros c bbox ts e Hin. unfold translate_data in Hin.
  apply in_app_or in Hin as [Hin|Hin].
  - destruct (gds_nonvias_in _ _ _ _ Hin) as (t & l0 & els & l1 & Ht & E & He).
    pose proof (gds_nonvia_sound _ _ _ _ _ _ E He) as (_ & _ & H).
    destruct e as [l dt xy|l s xy|l xy].
    + destruct H as [_ [H|(_ & _ & _ & n & _ & H)]]; eauto.
    + destruct H as (-> & -> & Hp & Hb). exists t. auto.
    + destruct H.
  - apply in_app_or in Hin as [Hin|[<-|[]]].
    + apply in_flat_map in Hin as (t & Ht & Hin).
      destruct (negb (in_viagen c (g_layer t)) || excluded c (g_net t)) eqn:E; [destruct Hin|].
      destruct Hin as [<-|[]]. exists t. apply orb_false_iff in E as [E _].
      apply negb_false_iff in E. repeat split; auto; unfold in_box; simpl; lia.
    + eexists. apply C45_polygon.
Qed.
Print Assumptions C45_every_element.

(** Completeness: no non-excluded terminal disappears. *)
Theorem C45_complete : forall c bbox ts t, In t ts -> excluded c (g_net t) = false ->
  (in_viagen c (g_layer t) = true ->
     exists x y, In (GSref (g_layer t) (x, y)) (translate_data c bbox ts) /\
       2 * x <= llx (g_rect t) + urx (g_rect t) < 2 * x + 2 /\
       2 * y <= lly (g_rect t) + ury (g_rect t) < 2 * y + 2) /\
  (in_viagen c (g_layer t) = false ->
     (g_layer t <> "V0"%string \/ urx (g_rect t) - llx (g_rect t) <= v0_limit c) ->
     exists dt xy, In (GBoundary (g_layer t) dt xy) (translate_data c bbox ts) /\ draws_rect xy (g_rect t) /\
       dt = (if pinSwitch c && g_pin t then PinT else Draw)).
Proof.
  intros c bbox ts t Ht Hex. split; intros Hv.
  - exists ((llx (g_rect t) + urx (g_rect t)) / 2), ((lly (g_rect t) + ury (g_rect t)) / 2).
    split; [|lia]. unfold translate_data. apply in_or_app. right. apply in_or_app. left.
    apply in_flat_map. exists t. split; [assumption|]. rewrite Hv, Hex. left. reflexivity.
  - intros Hv0.
    exists (if pinSwitch c && g_pin t then PinT else Draw), (flat_rect_to_boundary (g_rect t)).
    split; [|split; [apply C45_polygon|reflexivity]].
    unfold translate_data. apply in_or_app. left.
    generalize (@nil (option string)) as labels. induction ts as [|u ts IH]; [destruct Ht|].
    intros labels. simpl. destruct (gds_nonvia c labels u) as [els labels'] eqn:E.
    apply in_or_app. destruct Ht as [->|Ht].
    + left. unfold gds_nonvia in E. rewrite Hv, Hex in E. cbn [orb] in E.
      assert (E1 : String.eqb (g_layer t) "V0" && (v0_limit c <? urx (g_rect t) - llx (g_rect t)) = false).
      { destruct Hv0 as [H|H].
        - apply String.eqb_neq in H. rewrite H. reflexivity.
        - apply andb_false_iff. right. apply Z.ltb_ge. lia. }
      rewrite E1 in E. destruct (pinSwitch c && g_pin t).
      * destruct (has_label c (g_layer t) && _ && _); injection E as <- <-; left; reflexivity.
      * injection E as <- <-. left. reflexivity.
    + right. apply IH. assumption.
Qed.
Print Assumptions C45_complete.

Example C45_example :
  let c := mkCfg (fun l => String.eqb l "V1") (fun _ => false) (fun _ => true) (fun _ => true)
                 true true 320 5 32 40 in
  translate_data c (mkRect 0 0 100 50)
    [mkG "M1" (Some "A"%string) true None (mkRect 0 0 10 20);
     mkG "V1" (Some "A"%string) false None (mkRect 2 2 8 8);
     mkG "M1" (Some "A"%string) true None (mkRect 0 30 10 40)] =
  [GBoundary "M1" PinT [0;0;0;20;10;20;10;0;0;0]; GText "M1" (Some "A"%string) (5,10);
   GBoundary "M1" PinT [0;30;0;40;10;40;10;30;0;30]; GSref "V1" (5,5);
   GBoundary "Bbox" Draw [0;0;0;50;100;50;100;0;0;0]].
Proof. reflexivity. Qed.
