(** Python strings as lists of ASCII characters, and [str] of an integer. *)
From Coq Require Import String Ascii Decimal DecimalZ DecimalPos.
From Verif Require Import Base.Prelude.
Local Open Scope Z_scope.

Definition chars := list ascii.
Definition str (s : string) : chars := list_ascii_of_string s.

Definition chars_eqb (a b : chars) : bool :=
  if list_eq_dec ascii_dec a b then true else false.

Definition code (c : ascii) : BinNums.N := N_of_ascii c.
Definition is_digit (c : ascii) : bool := (48 <=? code c)%N && (code c <=? 57)%N.

(** python [str(int)]. *)
Fixpoint uint_chars (u : Decimal.uint) : chars :=
  match u with
  | Nil => []
  | D0 u => ascii_of_N 48 :: uint_chars u | D1 u => ascii_of_N 49 :: uint_chars u
  | D2 u => ascii_of_N 50 :: uint_chars u | D3 u => ascii_of_N 51 :: uint_chars u
  | D4 u => ascii_of_N 52 :: uint_chars u | D5 u => ascii_of_N 53 :: uint_chars u
  | D6 u => ascii_of_N 54 :: uint_chars u | D7 u => ascii_of_N 55 :: uint_chars u
  | D8 u => ascii_of_N 56 :: uint_chars u | D9 u => ascii_of_N 57 :: uint_chars u
  end.
Definition print_Z (z : Z) : chars :=
  match Z.to_int z with
  | Pos u => uint_chars u
  | Neg u => "-"%char :: uint_chars u
  end.

Lemma chars_eqb_ok a b : chars_eqb a b = true <-> a = b.
Proof. unfold chars_eqb. destruct (list_eq_dec ascii_dec a b); split; congruence. Qed.

Lemma uint_chars_inj u v : uint_chars u = uint_chars v -> u = v.
Proof. revert v. induction u; destruct v; simpl; intros E; try discriminate; try reflexivity; f_equal; apply IHu; congruence. Qed.

(** The printed form: an optional minus sign and a non-empty digit string. *)
Lemma print_Z_form z : exists neg ds, print_Z z = (if neg : bool then ["-"%char] else []) ++ ds /\ ds <> [] /\ forallb is_digit ds = true.
Proof.
  assert (D : forall u, forallb is_digit (uint_chars u) = true) by (intros u; induction u; simpl; auto).
  assert (Ne : forall u, u <> Nil -> uint_chars u <> []) by (intros u Hu; destruct u; [congruence|discriminate..]).
  unfold print_Z. destruct z as [|p|p]; cbn [Z.to_int].
  - exists false, (uint_chars (D0 Nil)). split; [reflexivity|]. split; [discriminate|reflexivity].
  - exists false, (uint_chars (Pos.to_uint p)). split; [reflexivity|]. split; [apply Ne, Unsigned.to_uint_nonnil|apply D].
  - exists true, (uint_chars (Pos.to_uint p)). split; [reflexivity|]. split; [apply Ne, Unsigned.to_uint_nonnil|apply D].
Qed.

Lemma print_Z_inj a b : print_Z a = print_Z b -> a = b.
Proof.
  intros E. apply DecimalZ.to_int_inj. unfold print_Z in E.
  assert (D : forall u, forallb is_digit (uint_chars u) = true) by (intros u; induction u; simpl; auto).
  destruct (Z.to_int a) as [u|u], (Z.to_int b) as [v|v].
  - f_equal. now apply uint_chars_inj.
  - specialize (D u). rewrite E in D. discriminate D.
  - specialize (D v). rewrite <- E in D. discriminate D.
  - f_equal. apply uint_chars_inj. congruence.
Qed.
