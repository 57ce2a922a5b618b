(** Geometry of the placer's and router's database: orientations and the transformation of nodes.
    PlaceRouteHierFlow/PnRDB/PnRdatabase.cpp. C's int is Z here (no overflow). *)
From Verif Require Import Base.Prelude.
Local Open Scope Z_scope.

(** PnRDB/datatype.h:77 *)
Inductive omark := oN | oS | oW | oE | oFN | oFS | oFW | oFE.
(** PnRDB/datatype.h:80 *)
Inductive ttype := Forward | Backward.
(** PnRDB/datatype.h:83-160 *)
Definition point : Type := Z * Z.
Definition bbox : Type := point * point.
Definition padd (p q : point) : point := (fst p + fst q, snd p + snd q).
Definition psub (p q : point) : point := (fst p - fst q, snd p - snd q).

(** PnRdatabase.cpp:393-479, TransformPoint *)
Definition transform_point (p t : point) (w h : Z) (o : omark) (d : ttype) : point :=
  match d with
  | Forward =>
      let '(x, y) := p in
      padd (match o with
            | oN => (x, y)
            | oS => (w - x, h - y)
            | oW => (h - y, x)
            | oE => (y, w - x)
            | oFN => (w - x, y)
            | oFS => (x, h - y)
            | oFW => (y, x)
            | oFE => (h - y, w - x)
            end) t
  | Backward =>
      let '(x, y) := psub p t in
      match o with
      | oN => (x, y)
      | oS => (w - x, h - y)
      | oW => (y, h - x)
      | oE => (w - y, x)
      | oFN => (w - x, y)
      | oFS => (x, h - y)
      | oFW => (y, x)
      | oFE => (w - y, h - x)
      end
  end.
(** PnRdatabase.cpp:276-384, TransformBbox *)
Definition transform_bbox (b : bbox) (t : point) (w h : Z) (o : omark) (d : ttype) : bbox :=
  match d with
  | Forward =>
      let '((lx, ly), (ux, uy)) := b in
      let '(ll, ur) :=
        match o with
        | oN => ((lx, ly), (ux, uy))
        | oS => ((w - ux, h - uy), (w - lx, h - ly))
        | oW => ((h - uy, lx), (h - ly, ux))
        | oE => ((ly, w - ux), (uy, w - lx))
        | oFN => ((w - ux, ly), (w - lx, uy))
        | oFS => ((lx, h - uy), (ux, h - ly))
        | oFW => ((ly, lx), (uy, ux))
        | oFE => ((h - uy, w - ux), (h - ly, w - lx))
        end in
      (padd ll t, padd ur t)
  | Backward =>
      let '((lx, ly), (ux, uy)) := (psub (fst b) t, psub (snd b) t) in
      match o with
      | oN => ((lx, ly), (ux, uy))
      | oS => ((w - ux, h - uy), (w - lx, h - ly))
      | oW => ((ly, h - ux), (uy, h - lx))
      | oE => ((w - uy, lx), (w - ly, ux))
      | oFN => ((w - ux, ly), (w - lx, uy))
      | oFS => ((lx, h - uy), (ux, h - ly))
      | oFW => ((ly, lx), (uy, ux))
      | oFE => ((w - uy, h - ux), (w - ly, h - lx))
      end
  end.
(** PnRdatabase.cpp:506-560, RelOrt2AbsOrt: the table, row by row *)
Definition rel2abs (cur child : omark) : omark :=
  let row '(a, b, c, d, e, f, g, h) := match child with oN => a | oS => b | oW => c | oE => d | oFN => e | oFS => f | oFW => g | oFE => h end in
  match cur with
  | oN => row (oN, oS, oW, oE, oFN, oFS, oFW, oFE)
  | oS => row (oS, oN, oE, oW, oFS, oFN, oFE, oFW)
  | oW => row (oW, oE, oS, oN, oFE, oFW, oFN, oFS)
  | oE => row (oE, oW, oN, oS, oFW, oFE, oFS, oFN)
  | oFN => row (oFN, oFS, oFW, oFE, oN, oS, oW, oE)
  | oFS => row (oFS, oFN, oFE, oFW, oS, oN, oE, oW)
  | oFW => row (oFW, oFE, oFS, oFN, oE, oW, oN, oS)
  | oFE => row (oFE, oFW, oFN, oFS, oW, oE, oS, oN)
  end.
(** PnRdatabase.cpp:152-164, TransformNode: width and height in the node's own frame, from its box *)
Definition node_size (b : bbox) (o : omark) : Z * Z :=
  let '((lx, ly), (ux, uy)) := b in
  match o with
  | oN | oFN | oS | oFS => (ux - lx, uy - ly)
  | oW | oFW | oE | oFE => (uy - ly, ux - lx)
  end.
(** A rectangle with its placed and its original pose (datatype.h: contact; layer and net dropped) *)
Record contact := mkContact { c_placed : bbox; c_origin : bbox; c_pcenter : point; c_ocenter : point }.
(** PnRdatabase.cpp:267-273, TransformContact *)
Definition transform_contact (t : point) (w h : Z) (o : omark) (d : ttype) (c : contact) : contact :=
  mkContact (transform_bbox (c_placed c) t w h o d) (transform_bbox (c_origin c) t w h o d)
    (transform_point (c_pcenter c) t w h o d) (transform_point (c_ocenter c) t w h o d).
(** PnRdatabase.cpp:260-265, TransformContacts *)
Definition transform_contacts (t : point) (w h : Z) (o : omark) (d : ttype) (cs : list contact) : list contact := map (transform_contact t w h o d) cs.
(** PnRdatabase.cpp:174-179, TransformTerminal: all contacts, once for each contact *)
Definition transform_terminal (t : point) (w h : Z) (o : omark) (d : ttype) (cs : list contact) : list contact :=
  fold_left (fun cs' _ => transform_contacts t w h o d cs') cs cs.
(** PnRdatabase.cpp:235-243, TransformGuardring: its corners, as points *)
Definition transform_guardring (t : point) (w h : Z) (o : omark) (d : ttype) (b : bbox) : bbox :=
  (transform_point (fst b) t w h o d, transform_point (snd b) t w h o d).
(** PnRdatabase.cpp:590-606, TransformIntermetalsOriginToPlaced *)
Definition origin_to_placed (t : point) (w h : Z) (o : omark) (c : contact) : contact :=
  let f := transform_contact t w h o Forward c in
  let b := transform_contact t w h o Backward f in
  mkContact (c_origin f) (c_origin b) (c_ocenter f) (c_ocenter b).
(** PnRdatabase.cpp:630-671, CheckinChildnodetoBlock: the child's metals, put into the block whose box has the
    given lower left corner; the child's width and height are those of its box *)
Definition checkin (child : bbox) (t : point) (o : omark) (cs : list contact) : list contact :=
  let w := fst (snd child) - fst (fst child) in
  let h := snd (snd child) - snd (fst child) in
  map (origin_to_placed t w h o) cs.
