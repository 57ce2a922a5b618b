(** Properties C05 (canvas transforms) and C47 (wire covers its vias). *)
From Verif Require Import Base.Prelude Model.Transformation Model.Grid Model.Canvas
  Spec.CanvasSpec Spec.GridSpec Proofs.TransformationP Proofs.GridP Proofs.CanvasP.
Local Open Scope Z_scope.

(** C05. For every program, from the initial canvas: the canvas fails exactly when the abstract
    machine does, and otherwise emits exactly the images of the rectangles under the enclosing
    transformations applied one after the other. *)
Theorem C05_canvas_program : forall p,
  match crun c_init p, arun (mkA [[]] []) p with
  | Some s, Some a => terms s = out a /\ length (trStack s) = length (frames a)
  | None, None => True
  | _, _ => False
  end.
Proof.
  intros p. pose proof (crun_refines p c_init (mkA [[]] [])) as Hc.
  destruct (crun c_init p) as [s|], (arun (mkA [[]] []) p) as [a|];
    try (apply Hc; split; reflexivity).
  destruct Hc as [E1 E2]; [split; reflexivity|].
  split; [assumption|]. rewrite E1, map_length. reflexivity.
Qed.
Print Assumptions C05_canvas_program.

(** A block that pushes, runs a balanced body and pops leaves the transform stack unchanged. *)
Theorem C05_block_restores_stack : forall t0 p t st tm, neutral p ->
  exists tm', crun (mkC (t :: st) tm) (OPush t0 :: p ++ [OPop]) = Some (mkC (t :: st) (tm ++ tm')).
Proof. intros. now apply block_restores. Qed.
Print Assumptions C05_block_restores_stack.

Example C05_nonvacuous :
  neutral [OAdd 1 (mkRect 0 0 2 3); OPush (mkTr 10 0 (-1) 1) ; OAdd 2 (mkRect 0 0 2 3); OPop] /\
  (exists s, crun c_init
     [OAdd 1 (mkRect 0 0 2 3); OPush (mkTr 10 0 (-1) 1); OAdd 2 (mkRect 0 0 2 3); OPop] = Some s /\
   terms s = [(1, mkRect 0 0 2 3); (2, mkRect 8 0 10 3)]).
Proof.
  split.
  - apply n_add. apply (n_block _ [OAdd 2 (mkRect 0 0 2 3)] []); repeat constructor.
  - eexists. split; reflexivity.
Qed.

(** C47, single via kind (addWireAndViaSet) or several with the same metal extension: the wire
    covers every via centre plus that extension. *)
Theorem C47_wire_covers_vias : forall w c lp vr r p e,
  spg_ok (w_spg w) p ->
  (forall v, In v (map fst (flat_vias lp)) -> center_to_metal_edge v (w_dir w) = e) ->
  addWireAndMultiViaSet w c lp = Some (vr, r) ->
  forall vi, In vi (flat_vias lp) ->
  exists cc, via_center (w_dir w) vi = Some cc /\
    lo (w_dir w) r <= cc - e /\ cc + e <= hi (w_dir w) r.
Proof.
  intros w c lp vr r p e Hok He Hadd vi Hvi.
  destruct (add_success_inv _ _ _ _ _ Hadd) as (cs & mnP & mxP & Hcs & Hext).
  destruct (wire_covers_extent _ _ _ _ _ _ _ _ _ Hok Hadd Hcs Hext) as [H1 H2].
  destruct (wire_extent_uniform _ _ _ _ _ _ He Hext) as (mn & mx & Hmn & Hmx & -> & ->).
  destruct (mapM_in _ _ _ _ Hcs Hvi) as (cc & Hcc & Hin).
  exists cc. split; [assumption|].
  pose proof (zmin_list_le _ _ _ Hmn Hin). pose proof (zmax_list_ge _ _ _ Hmx Hin). lia.
Qed.
Print Assumptions C47_wire_covers_vias.

(** ... and therefore every via rectangle drawn lies inside the wire along its direction, when
    the extension is at least half the via size. *)
Theorem C47_via_rects_inside : forall w c lp vr r p e,
  spg_ok (w_spg w) p ->
  (forall v, In v (map fst (flat_vias lp)) -> center_to_metal_edge v (w_dir w) = e /\
     (match w_dir w with H => v_WidthX v | V => v_WidthY v end) / 2 <= e) ->
  addWireAndMultiViaSet w c lp = Some (vr, r) ->
  length vr = length (flat_vias lp) /\
  forall q, In q vr -> lo (w_dir w) r <= lo (w_dir w) q /\ hi (w_dir w) q <= hi (w_dir w) r.
Proof.
  intros w c lp vr r p e Hok He Hadd.
  pose proof (via_rects _ _ _ _ _ Hadd) as Hm.
  split; [exact (mapM_length _ _ _ Hm)|]. intros q Hq.
  apply In_nth_error in Hq as (i & Hi). destruct (mapM_nth _ _ _ _ _ Hm Hi) as (vi & Hn & Hv).
  apply nth_error_In in Hn.
  destruct (via_rect_extent _ _ _ _ Hv) as (cc & Hcc & -> & ->).
  destruct (C47_wire_covers_vias w c lp vr r p e Hok) with (vi := vi) as (cc' & Hcc' & H1 & H2); auto.
  { intros v Hin. apply (He v Hin). }
  rewrite Hcc in Hcc'. injection Hcc' as <-.
  pose proof (He (fst vi) (in_map fst _ _ Hn)) as [_ Hw]. lia.
Qed.
Print Assumptions C47_via_rects_inside.

(** The call succeeds whenever there is a via and all indices given are legal. *)
Theorem C47_succeeds : forall w c lp p,
  spg_ok (w_spg w) p -> flat_vias lp <> [] ->
  (exists cc wd col, value (w_clg w) c true = Some (cc, Some (wd, col))) ->
  (forall vi, In vi (flat_vias lp) ->
     match w_dir w with
     | H => value (v_vclg (fst vi)) (snd vi) true <> None /\ value (v_hclg (fst vi)) c true <> None
     | V => value (v_hclg (fst vi)) (snd vi) true <> None /\ value (v_vclg (fst vi)) c true <> None
     end) ->
  exists vr r, addWireAndMultiViaSet w c lp = Some (vr, r).
Proof. intros. eapply add_succeeds; eassumption. Qed.
Print Assumptions C47_succeeds.

(** Several via kinds with non-negative extensions: every via centre is covered. *)
Theorem C47_wire_covers_centers : forall w c lp vr r p,
  spg_ok (w_spg w) p ->
  (forall v, In v (map fst (flat_vias lp)) -> 0 <= center_to_metal_edge v (w_dir w)) ->
  addWireAndMultiViaSet w c lp = Some (vr, r) ->
  forall vi, In vi (flat_vias lp) ->
  exists cc, via_center (w_dir w) vi = Some cc /\ lo (w_dir w) r <= cc <= hi (w_dir w) r.
Proof.
  intros w c lp vr r p Hok He Hadd vi Hvi.
  destruct (add_success_inv _ _ _ _ _ Hadd) as (cs & mnP & mxP & Hcs & Hext).
  destruct (wire_covers_extent _ _ _ _ _ _ _ _ _ Hok Hadd Hcs Hext) as [H1 H2].
  destruct (wire_extent_general _ _ _ _ _ Hext) as (v1 & v2 & mn & mx & Hv1 & Hv2 & Hmn & Hmx & -> & ->).
  destruct (mapM_in _ _ _ _ Hcs Hvi) as (cc & Hcc & Hin).
  exists cc. split; [assumption|].
  pose proof (zmin_list_le _ _ _ Hmn Hin). pose proof (zmax_list_ge _ _ _ Hmx Hin).
  pose proof (He _ Hv1). pose proof (He _ Hv2). lia.
Qed.
Print Assumptions C47_wire_covers_centers.

(** The full claim fails for several via kinds: only the extreme centre's extension is used. *)
Definition c47_clg := UncoloredCenterLineGrid 10 4 0 1.
Definition c47_spg := SingleGrid 1 0 1.
Definition c47_wire := mkWire H c47_clg c47_spg.
Definition c47_via_small := mkVia c47_clg c47_clg 4 4 2 2.
Definition c47_via_big := mkVia c47_clg c47_clg 4 4 30 30.

Theorem C47_mixed_vias_refuted : exists w c lp vr r p vi cc,
  spg_ok (w_spg w) p /\ addWireAndMultiViaSet w c lp = Some (vr, r) /\
  In vi (flat_vias lp) /\ via_center (w_dir w) vi = Some cc /\
  hi (w_dir w) r < cc + center_to_metal_edge (fst vi) (w_dir w).
Proof.
  exists c47_wire, (Flat 0), [(c47_via_big, [Flat 3]); (c47_via_small, [Flat 4])].
  exists [mkRect 28 (-2) 32 2; mkRect 38 (-2) 42 2], (mkRect 0 (-2) 42 2), 1, (c47_via_big, Flat 3), 30.
  split; [apply (lines_ok None 1 0 1); lia|].
  split; [vm_compute; reflexivity|]. split; [left; reflexivity|]. split; [vm_compute; reflexivity|].
  vm_compute. reflexivity.
Qed.
Print Assumptions C47_mixed_vias_refuted.

Example C47_nonvacuous : exists vr r,
  addWireAndMultiViaSet c47_wire (Flat 0) [(c47_via_small, [Flat 1; Flat 7; Flat (-2)])] = Some (vr, r) /\
  r = mkRect (-22) (-2) 72 2 /\ spg_ok (w_spg c47_wire) 1.
Proof. eexists. eexists. split; [vm_compute; reflexivity|]. split; [reflexivity|]. apply (lines_ok None 1 0 1); lia. Qed.

(** On a non-monotonic stop-point grid (stop point > pitch/2, which the code only logs) the
    wire may end before the via edge. *)
Theorem C47_nonmonotone_refuted : exists w c lp vr r vi cc,
  periodic (w_spg w) 10 /\ addWireAndMultiViaSet w c lp = Some (vr, r) /\
  In vi (flat_vias lp) /\ via_center (w_dir w) vi = Some cc /\ cc < lo (w_dir w) r.
Proof.
  exists (mkWire H c47_clg (EnclosureGrid 10 0 7)), (Flat 0),
    [(mkVia c47_clg (UncoloredCenterLineGrid 10 4 6 1) 4 4 0 0, [Flat 0; Flat 1])].
  eexists. eexists. exists (mkVia c47_clg (UncoloredCenterLineGrid 10 4 6 1) 4 4 0 0, Flat 0), 6.
  split; [apply enclosure_periodic; lia|].
  split; [vm_compute; reflexivity|]. split; [left; reflexivity|]. split; [reflexivity|].
  vm_compute. reflexivity.
Qed.
Print Assumptions C47_nonmonotone_refuted.
