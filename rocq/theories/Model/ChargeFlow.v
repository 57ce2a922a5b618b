(** The [ChargeFlow] part of [PnRConstraintWriter.map_valid_const], align/pnr/write_constraint.py:51-56, 179-232.
    Simplified: floats are rationals; root mean squares are kept squared, so [math.sqrt] is absent and the scale is
    the square of [maxrmsc]; the dictionary key [f'{src},{snk}'] is the pair. *)
From Coq Require Import String QArith Qminmax Qabs.
From Verif Require Import Base.Prelude Base.PyDict Model.PlaceGrid Model.UpdateConst.
Local Open Scope Q_scope.

Notation pin := string.
Definition pair_eqb (a b : pin * pin) : bool := String.eqb (fst a) (fst b) && String.eqb (snd a) (snd b).
(** [a < b] on rationals. *)
Definition Qltb (a b : Q) : bool := negb (Qle_bool b a).
Definition qsum (l : list Q) : Q := fold_right Qplus 0 l.

(** An instance of the module: name (empty when absent, 184) and [fa_map] as (formal, actual). *)
Record finst := mkFinst { fi_name : string; fi_map : list (string * string) }.

(** 182-190: the pins on each net that is no power, ground or clock port. *)
Definition add_pin (d : list (string * list pin)) (net : string) (p : pin) : list (string * list pin) :=
  dupd String.eqb d net (fun o => match o with
                                  | Some ps => if existsb (String.eqb p) ps then ps else ps ++ [p]
                                  | None => [p]
                                  end).
Definition nets_of (supplies : list string) (insts : list finst) : list (string * list pin) :=
  fold_left (fun d ip => if existsb (String.eqb (snd (snd ip))) supplies then d
                         else add_pin d (snd (snd ip)) (fst ip ++ "/" ++ fst (snd ip))%string)
            (flat_map (fun i => map (fun f => (fi_name i, f)) (fi_map i)) insts) [].

Section flows.
(** The order in which the set of pins of a net is traversed (194). *)
Variable order : list pin -> list pin.

(** 193-196: the pins with a given current. *)
Definition known (currents : list (pin * list Q)) (pins : list pin) : list (pin * list Q) :=
  flat_map (fun p => match dget String.eqb currents p with Some c => [(p, c)] | None => [] end) (order pins).

(** 200-208: the currents at one time; [None] = IndexError. *)
Definition at_time (i : nat) (pc : list (pin * list Q)) : option (list (pin * Q)) :=
  mapM (fun x => option_map (pair (fst x)) (nth_error (snd x) i)) pc.
Definition sources (cs : list (pin * Q)) := filter (fun c => Qle_bool 0 (snd c)) cs.
Definition sinks (cs : list (pin * Q)) := filter (fun c => negb (Qle_bool 0 (snd c))) cs.
(** 203: [sumc]. *)
Definition supply (cs : list (pin * Q)) : Q := qsum (map snd (sources cs)).

Fixpoint set_at (i : nat) (v : Q) (l : list Q) : list Q :=
  match l, i with
  | [], _ => []
  | _ :: tl, O => v :: tl
  | x :: tl, Datatypes.S i => x :: set_at i v tl
  end.
(** 211-216 for one source and one sink. *)
Definition put (n i : nat) (src snk : pin) (v : Q) (pp : list ((pin * pin) * list Q)) : list ((pin * pin) * list Q) :=
  let pp := if dmem pair_eqb pp (src, snk) || dmem pair_eqb pp (snk, src) then pp
            else dset pair_eqb pp (src, snk) (repeat 0 n) in
  let k := if dmem pair_eqb pp (src, snk) then (src, snk) else (snk, src) in
  dupd pair_eqb pp k (fun o => match o with Some l => set_at i v l | None => [] end).
(** 209-216; [None] = ZeroDivisionError. *)
Definition time_step (n : nat) (pc : list (pin * list Q)) (pp : list ((pin * pin) * list Q)) (i : nat) : option (list ((pin * pin) * list Q)) :=
  match at_time i pc with
  | None => None
  | Some cs =>
      let pairs := flat_map (fun k => map (fun s => (s, k)) (sources cs)) (sinks cs) in
      match pairs with
      | [] => Some pp
      | _ => if Qeq_bool (supply cs) 0 then None
             else Some (fold_left (fun pp sk => put n i (fst (fst sk)) (fst (snd sk))
                                      (Qabs (snd (snd sk)) * snd (fst sk) / supply cs) pp) pairs pp)
      end
  end.
(** 198-216: the current between two pins at each time. *)
Definition pair_currents (n : nat) (pc : list (pin * list Q)) : option (list ((pin * pin) * list Q)) :=
  foldO (time_step n pc) (List.seq 0 n) [].

(** 219: sum of [(time[i+1] - time[i]) * (c[i] + c[i+1]) ** 2 / 4]. *)
Fixpoint charge2 (time cur : list Q) : Q :=
  match time, cur with
  | t :: ((t' :: _) as time'), c :: ((c' :: _) as cur') => (t' - t) * ((c + c') * (c + c')) / 4 + charge2 time' cur'
  | _, _ => 0
  end.
Definition span (time : list Q) : Q := last time 0 - hd 0 time.
(** 219, squared; [None] = ZeroDivisionError or a negative argument of [sqrt]. *)
Definition mean2 (time cur : list Q) : option Q :=
  if Qeq_bool (span time) 0 then None
  else let m := charge2 time cur / span time in if Qle_bool 0 m then Some m else None.

(** 192-222: one net; the empty list is not stored (220). *)
Definition net_flow (time : list Q) (currents : list (pin * list Q)) (pins : list pin) : option (list ((pin * pin) * Q)) :=
  match known currents pins with
  | [] => Some []
  | pc => match pair_currents (length time) pc with
          | None => None
          | Some pp => mapM (fun e => option_map (pair (fst e)) (mean2 time (snd e))) pp
          end
  end.
Definition const_flow (supplies : list string) (insts : list finst) (time : list Q) (currents : list (pin * list Q)) :
    option (list (string * list ((pin * pin) * Q))) :=
  option_map (filter (fun e => match snd e with [] => false | _ => true end))
    (mapM (fun e => option_map (pair (fst e)) (net_flow time currents (snd e))) (nets_of supplies insts)).

(** 57, 222: the square of [maxrmsc]; 0 when it stayed at -1 or is 0. *)
Definition max2 (rs : list (list (string * list ((pin * pin) * Q)))) : Q :=
  fold_right Qmax 0 (map snd (concat (map snd (concat rs)))).
(** 226-231. *)
Definition scaled (rs : list (list (string * list ((pin * pin) * Q)))) : list (list (string * list ((pin * pin) * Q))) :=
  if Qltb 0 (max2 rs)
  then map (map (fun e => (fst e, map (fun q => (fst q, snd q / max2 rs)) (snd e)))) rs
  else rs.
(** All [ChargeFlow] constraints of a module, (time, pin_current) each. *)
Definition charge_flows (supplies : list string) (insts : list finst) (cons : list (list Q * list (pin * list Q))) :
    option (list (list (string * list ((pin * pin) * Q)))) :=
  option_map scaled (mapM (fun c => const_flow supplies insts (fst c) (snd c)) cons).
End flows.
