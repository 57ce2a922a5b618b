(** What the placement flow is to give. *)
From Coq Require Import ZArith QArith.
From Verif Require Import Base.Prelude Model.SeqEnum Model.SymmGroup Model.KeepOrder Model.SeqCheck Model.PlaceRows Model.PlaceFlow
  Spec.SeqCheckSpec Spec.PlaceRowsSpec.
Local Open Scope Z_scope.

(** The solver gives solutions only. *)
Definition sound_solver (solve : bool -> bool -> option (nat -> Z * Z) -> (nat -> Z * Z) -> option assign)
    (d : idesign) (pos neg : list nat) : Prop :=
  forall flush snap prev cur a, solve flush snap prev cur = Some a -> solution d pos neg flush snap prev cur a.

(** The placement that a state stands for. *)
Definition state_at (d : idesign) (s : pstate) : flipped := Flipped (Placement (st_x s) (st_y s) (bw d) (bh d)) (st_h s) (st_v s).
Definition same_state (s t : pstate) : Prop :=
  forall i, st_x s i = st_x t i /\ st_y s i = st_y t i /\ st_h s i = st_h t i /\ st_v s i = st_v t i.

(** All blocks are on the routing grid. *)
Definition all_on_grid (d : idesign) (s : pstate) : Prop :=
  forall i, (i < length (i_blocks d))%nat -> (exists k, st_x s i = i_xp d * k) /\ (exists k, st_y s i = i_yp d * k).

(** Half the perimeter of the smallest box around shapes. *)
Definition shape_x (d : idesign) (s : pstate) (ib : nat * pbox) : Z * Z :=
  let '(i, b) := ib in if st_h s i =? 0 then (st_x s i + llx b, st_x s i + urx b) else (st_x s i + bw d i - urx b, st_x s i + bw d i - llx b).
Definition shape_y (d : idesign) (s : pstate) (ib : nat * pbox) : Z * Z :=
  let '(i, b) := ib in if st_v s i =? 0 then (st_y s i + lly b, st_y s i + ury b) else (st_y s i + bh d i - ury b, st_y s i + bh d i - lly b).
Definition least (l : list Z) (m : Z) : Prop := In m l /\ forall x, In x l -> m <= x.
Definition greatest (l : list Z) (m : Z) : Prop := In m l /\ forall x, In x l -> x <= m.
Definition half_perimeter (d : idesign) (s : pstate) (l : list (nat * pbox)) (p : Z) : Prop :=
  exists x0 x1 y0 y1, least (map (fun b => fst (shape_x d s b)) l) x0 /\ greatest (map (fun b => snd (shape_x d s b)) l) x1 /\
    least (map (fun b => fst (shape_y d s b)) l) y0 /\ greatest (map (fun b => snd (shape_y d s b)) l) y1 /\
    p = (x1 - x0) + (y1 - y0).
Definition on_blocks (d : idesign) (l : list (nat * pbox)) : Prop :=
  forall i b, In (i, b) l -> (i < length (i_blocks d))%nat /\ 0 <= llx b /\ llx b <= urx b /\ urx b <= bw d i /\ 0 <= lly b /\ lly b <= ury b /\ ury b <= bh d i.
Definition pairless (d : idesign) : Prop := forall g, In g (i_syms d) -> g_pairs g = [].
