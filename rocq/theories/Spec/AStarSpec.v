(** What the path search has to give, stated on the grid and on the list of nodes alone. *)
From Coq Require Import ZArith QArith.
From Verif Require Import Base.Prelude Model.AStar.
Local Open Scope Z_scope.

Definition size (j : job) : nat := length (g j).
Definition sides (j : job) (u : nat) : list nat := north (at_ j u) ++ south (at_ j u) ++ east (at_ j u) ++ west (at_ j u).
(** A grid as the router makes it: the neighbours on a metal are the next nodes of a track, the ones above and below are at the same place. *)
Record wf (j : job) : Prop := {
  w_side : forall u v, (u < size j)%nat -> In v (sides j u) -> (v < size j)%nat /\ metal (at_ j v) = metal (at_ j u) /\
    if horizontal (t j) (metal (at_ j u))
    then vy (at_ j v) = vy (at_ j u) /\ (vx (at_ j u) < vx (at_ j v) /\ v = S u \/ vx (at_ j v) < vx (at_ j u) /\ u = S v)
    else vx (at_ j v) = vx (at_ j u) /\ (vy (at_ j u) < vy (at_ j v) /\ v = S u \/ vy (at_ j v) < vy (at_ j u) /\ u = S v);
  w_up : forall u v, (u < size j)%nat -> up (at_ j u) = Some v -> (v < size j)%nat /\ metal (at_ j v) = metal (at_ j u) + 1 /\ vx (at_ j v) = vx (at_ j u) /\ vy (at_ j v) = vy (at_ j u);
  w_down : forall u v, (u < size j)%nat -> down (at_ j u) = Some v -> (v < size j)%nat /\ metal (at_ j v) = metal (at_ j u) - 1 /\ vx (at_ j v) = vx (at_ j u) /\ vy (at_ j v) = vy (at_ j u);
  w_source : forall u, In u (source j) -> (u < size j)%nat }.
(** Each metal of the grid has a via above. *)
Definition has_vias (j : job) : Prop := forall u, (u < size j)%nat -> via_R (t j) (metal (at_ j u)) <> None.
Definition clean (s : state) : Prop := forall u, cost s u = None /\ parent s u = None.

(** From u the wire may go on to v. *)
Definition next (j : job) (u v : nat) : Prop :=
  active (at_ j u) = true /\ active (at_ j v) = true /\
  (In v (sides j u) \/ up (at_ j u) = Some v /\ via_up (at_ j u) = true /\ via_down (at_ j v) = true \/
   down (at_ j u) = Some v /\ via_down (at_ j u) = true /\ via_up (at_ j v) = true).
Definition consecutive (P : nat -> nat -> Prop) (p : list nat) : Prop := forall a u v b, p = a ++ u :: v :: b -> P u v.
Record route (j : job) (p : list nat) : Prop := {
  r_source : exists u, hd_error p = Some u /\ In u (source j);
  r_dest : exists v, hd_error (rev p) = Some v /\ In v (dest j);
  r_steps : consecutive (next j) p;
  r_distinct : NoDup p;
  r_inner : forall a u v b, p = a ++ u :: v :: b -> ~ In v (source j) /\ ~ In u (dest j) }.

(** The wire that starts after u can be made at least d longer: there are free nodes of the same track, one after the other. *)
Definition room (j : job) (dir : Z) (u : nat) (d : Z) : Prop :=
  d <= 0 \/ exists k, (0 < k)%nat /\ (forall i, (0 < i <= k)%nat -> let n := Z.of_nat u + dir * Z.of_nat i in 0 <= n < Z.of_nat (size j) /\
      let w := at_ j (Z.to_nat n) in active w = true /\ metal w = metal (at_ j u) /\ (vx w = vx (at_ j u) \/ vy w = vy (at_ j u))) /\
    d <= dist j (Z.to_nat (Z.of_nat u + dir * Z.of_nat k)) u.
Definition back (a b : nat) : Z := if (a <=? b)%nat then -1 else 1.
Definition can_extend (j : job) (a b : nat) (d : Z) : Prop :=
  (exists h, d <= 2 * h /\ room j (back a b) a h /\ room j (- back a b) b h) \/ room j (back a b) a d \/ room j (- back a b) b d.
Definition two_vias (j : job) (m m' : Z) : Z := if horizontal (t j) m then via_x (t j) (Z.min m m') else via_y (t j) (Z.min m m').
(** Every inner stretch on one metal is long enough or can be extended, and two vias to the same metal have room. *)
Definition spaced (j : job) (p : list nat) : Prop := forall a q r v b, p = a ++ q :: r ++ v :: b -> r <> [] ->
  forall m, (forall w, In w r -> metal (at_ j w) = m) -> metal (at_ j q) <> m -> metal (at_ j v) <> m ->
  let x := hd 0%nat r in let y := last r 0%nat in
  (metal (at_ j q) = metal (at_ j v) -> two_vias j m (metal (at_ j v)) <= dist j y x) /\
  (minL (t j) m <= dist j y x \/ can_extend j x y (minL (t j) m - dist j y x)).
Definition legal (j : job) (p : list nat) : Prop := route j p /\ spaced j p.
(** No rule on lengths and vias. *)
Definition free (j : job) : Prop := forall m, minL (t j) m <= 0 /\ via_x (t j) m <= 0 /\ via_y (t j) m <= 0.

(** The stretches of a path. *)
Record parts (j : job) (p : list nat) (rs : list (list nat)) : Prop := {
  p_all : concat rs = p;
  p_some : forall r, In r rs -> r <> [];
  p_metal : forall r w, In r rs -> In w r -> metal (at_ j w) = metal (at_ j (hd 0%nat r));
  p_differ : forall a r r' b, rs = a ++ r :: r' :: b -> metal (at_ j (hd 0%nat r)) <> metal (at_ j (hd 0%nat r')) }.
Definition line_of (j : job) (r : list nat) : line :=
  let a := at_ j (hd 0%nat r) in let b := at_ j (last r 0%nat) in Line (metal a) (vx a) (vy a) (vx b) (vy b).
Definition straight (j : job) (l : line) : Prop := if horizontal (t j) (l_metal l) then l_y0 l = l_y1 l else l_x0 l = l_x1 l.
(** Two lines meet at a via. *)
Definition meet (a b : line) : Prop := l_x1 a = l_x0 b /\ l_y1 a = l_y0 b /\ Z.abs (l_metal a - l_metal b) = 1.
(** The resistance of a path: each step has the one of its wire or of its via. *)
Definition step_R (j : job) (u v : nat) : Q :=
  if metal (at_ j u) =? metal (at_ j v) then (inject_Z (dist j u v) * unit_R (t j) (metal (at_ j u)))%Q
  else match via_R (t j) (Z.min (metal (at_ j u)) (metal (at_ j v))) with Some r => r | None => 0%Q end.
Fixpoint resistance (j : job) (p : list nat) : Q :=
  match p with u :: ((v :: _) as r) => (step_R j u v + resistance j r)%Q | _ => 0%Q end.
