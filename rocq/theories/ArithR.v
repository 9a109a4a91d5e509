(** ArithR.v — exact real arithmetic with the crate's tolerance.

    The comparison tolerance is the exact value of the double nearest to 1.0E-14
    (the literal used by every [approx_eq!] of the crate). *)

From Coq Require Import Reals ZArith Lra Psatz.
From Verif Require Import Arith.
Local Open Scope R_scope.

(** [1.0E-14f64] = 6338253001141147 / 2^99. *)
Definition eps : R := IZR 6338253001141147 / IZR (2 ^ 99).

Definition Rltb (x y : R) : bool := if Rlt_dec x y then true else false.
Definition Rleb (x y : R) : bool := if Rle_dec x y then true else false.
Definition Reqb (x y : R) : bool := if Req_EM_T x y then true else false.

(** float_cmp's [approx_eq!] without rounding. *)
Definition Raeq (x y : R) : bool := Rleb (Rabs (x - y)) eps.

(** 3x3 and 4x4 determinants by cofactors (the value LU computes, unrounded). *)
Definition Rdet3 (a b c d e f g h i : R) : R :=
  a * (e * i - h * f) - b * (d * i - g * f) + c * (d * h - g * e).
Definition Rdet4 (r1 r2 r3 r4 : R * R * R * R) : R :=
  let '(a1, b1, c1, d1) := r1 in
  let '(a2, b2, c2, d2) := r2 in
  let '(a3, b3, c3, d3) := r3 in
  let '(a4, b4, c4, d4) := r4 in
  a1 * Rdet3 b2 c2 d2 b3 c3 d3 b4 c4 d4
  - b1 * Rdet3 a2 c2 d2 a3 c3 d3 a4 c4 d4
  + c1 * Rdet3 a2 b2 d2 a3 b3 d3 a4 b4 d4
  - d1 * Rdet3 a2 b2 c2 a3 b3 c3 a4 b4 c4.

Lemma eps_pos : 0 < eps.
Proof. unfold eps. apply Rdiv_lt_0_compat; apply IZR_lt; reflexivity. Qed.

Lemma Raeq_refl : forall x, Raeq x x = true.
Proof.
  intros x. unfold Raeq, Rleb. rewrite Rminus_diag_eq by reflexivity. rewrite Rabs_R0.
  destruct (Rle_dec 0 eps) as [h|h]; [reflexivity|].
  exfalso; apply h; left; apply eps_pos.
Qed.

(** [x.round() as usize]: nearest integer, halves away from zero, negatives
    saturate to 0 (the upper saturation at 2^64-1 is not modelled). *)
Definition Rround_usize (x : R) : nat := Z.to_nat (up (x + / 2) - 1).

Definition ArithR : Arith := {|
  T := R;
  fadd := Rplus; fsub := Rminus; fmul := Rmult; fdiv := Rdiv; fneg := Ropp;
  flt := Rltb; fle := Rleb; feq := Reqb;
  fsqrt := sqrt; facos := acos; fcos := cos; fsin := sin; fpi := PI;
  fofnat := INR; fround_usize := Rround_usize; fhalf := / 2;
  aeq := Raeq; det4 := Rdet4; same := Req_EM_T; aeq_refl := Raeq_refl
|}.
