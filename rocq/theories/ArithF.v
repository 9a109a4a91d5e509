(** ArithF.v — IEEE-754 binary64 arithmetic (Coq's [SpecFloat], computable and
    axiom free), used for concrete runs.

    +, -, *, /, sqrt, comparisons, casts and determinants round exactly like the
    crate's f64 code.  [acos], [sin] and [cos] are approximations (libm is not
    modelled); they only serve to order candidate directions in the polyline
    operations and to place circle points, and no theorem depends on their
    last bits.  NaN payloads are identified. *)

From Coq Require Import List ZArith Bool Floats.SpecFloat Lia.
From Verif Require Import Arith.
Import ListNotations.
Local Open Scope Z_scope.

Notation sf := spec_float.
Definition fpadd : sf -> sf -> sf := SFadd 53 1024.
Definition fpsub : sf -> sf -> sf := SFsub 53 1024.
Definition fpmul : sf -> sf -> sf := SFmul 53 1024.
Definition fpdiv : sf -> sf -> sf := SFdiv 53 1024.
Definition fpopp : sf -> sf := SFopp.
Definition fpsqrt : sf -> sf := SFsqrt 53 1024.
Definition fpabs : sf -> sf := SFabs.
Definition fpz (z : Z) : sf := binary_normalize 53 1024 z 0 false.
(** The double nearest to [p/q] (for |p|, |q| < 2^53 this is how a decimal
    literal is read). *)
Definition fpq (p q : Z) : sf := fpdiv (fpz p) (fpz q).

Definition f0 := fpz 0.
Definition f1 := fpz 1.
(** [1.0E-14f64] *)
Definition feps : sf := S754_finite false 6338253001141147 (-99).
(** [0.5] *)
Definition fphalf : sf := S754_finite false 4503599627370496 (-53).
(** [std::f64::consts::PI] *)
Definition fppi : sf := S754_finite false 7074237752028440 (-51).

Definition sf_dec (a b : sf) : {a = b} + {a <> b}.
Proof. decide equality; try apply bool_dec; try apply Z.eq_dec; apply Pos.eq_dec. Defined.

(** float_cmp 0.x [ApproxEq] with epsilon 1e-14 and ulps 0: equal, or closer than
    epsilon, or the same bit pattern. *)
Definition fpaeq (a b : sf) : bool :=
  SFeqb a b || SFleb (fpabs (fpsub a b)) feps || (if sf_dec a b then true else false).

Lemma fpaeq_refl : forall x, fpaeq x x = true.
Proof.
  intros x. unfold fpaeq. destruct (sf_dec x x) as [_|n]; [|congruence].
  apply orb_true_r.
Qed.

(** ** nalgebra's determinant of a 4x4 matrix: LU with partial pivoting. *)
Section LU.
  Definition row := list sf.

  (** index of the entry of largest magnitude in column [k] (first one wins) *)
  Fixpoint icamax (k : nat) (rows : list row) (i best : nat) (bv : sf) : nat :=
    match rows with
    | [] => best
    | r :: rows' =>
        let x := fpabs (nth k r f0) in
        if SFltb bv x then icamax k rows' (S i) i x else icamax k rows' (S i) best bv
    end.

  Definition swap0 (j : nat) (rows : list row) : list row :=
    match j with
    | O => rows
    | S j' =>
        match rows with
        | [] => []
        | r0 :: rest => nth j' rest [] :: firstn j' rest ++ r0 :: skipn (S j') rest
        end
    end.

  Definition is_zero (x : sf) : bool := SFeqb x f0.

  (** Eliminates on the leading column of the rows (which are already cut to the
      remaining columns) and returns the product of the pivots times the sign. *)
  Fixpoint lu_det (n : nat) (rows : list row) (acc : sf) (neg : bool) : sf :=
    match n with
    | O => if neg then fpmul acc (fpopp f1) else fpmul acc f1
    | S n' =>
        match rows with
        | [] => acc
        | r :: rest =>
            let j := icamax 0 rest 1 0 (fpabs (nth 0 r f0)) in
            let diag := nth 0 (nth j rows []) f0 in
            if is_zero diag then lu_det n' (map (fun r => tl r) rest) (fpmul acc diag) neg
            else
              match swap0 j rows with
              | [] => acc
              | pr :: rest' =>
                  let inv := fpdiv f1 diag in
                  let next := map (fun r =>
                    let c := fpmul (nth 0 r f0) inv in
                    map (fun '(x, pv) => fpadd (fpmul (fpopp pv) c) x) (combine (tl r) (tl pr))) rest' in
                  lu_det n' next (fpmul acc diag) (xorb neg (negb (Nat.eqb j 0)))
              end
        end
    end.
End LU.

Definition fpdet4 (r1 r2 r3 r4 : sf * sf * sf * sf) : sf :=
  let row '(a, b, c, d) := [a; b; c; d] in
  lu_det 4 [row r1; row r2; row r3; row r4] f1 false.

(** ** Approximate transcendental functions. *)

(** Abramowitz-Stegun 4.4.46, |error| < 2e-8 on [0, 1]. *)
Definition fpacos_pos (x : sf) : sf :=
  let a := [fpq (-12624911) 10000000000; fpq 66700901 10000000000; fpq (-170881256) 10000000000;
            fpq 308918810 10000000000; fpq (-501743046) 10000000000; fpq 889789874 10000000000;
            fpq (-2145988016) 10000000000; fpq 15707963050 10000000000] in
  fpmul (fpsqrt (fpsub f1 x)) (fold_left (fun acc c => fpadd (fpmul acc x) c) a f0).
Definition fpacos (x : sf) : sf :=
  if SFleb f0 x then fpacos_pos x
  else fpsub fppi (fpacos_pos (fpopp x)).

(** Taylor sums, accurate for the range [0, 2 pi]. *)
Fixpoint taylor (n : nat) (k : Z) (x2 term acc : sf) : sf :=
  match n with
  | O => acc
  | S n' =>
      let term' := fpopp (fpdiv (fpmul term x2) (fpz (k * (k + 1)))) in
      taylor n' (k + 2) x2 term' (fpadd acc term')
  end.
Definition fpcos (x : sf) : sf := taylor 20 1 (fpmul x x) f1 f1.
Definition fpsin (x : sf) : sf := taylor 20 2 (fpmul x x) x x.

(** [x.round() as usize] *)
Definition fpround_usize (x : sf) : nat :=
  match x with
  | S754_finite false m e =>
      Z.to_nat (if 0 <=? e then Zpos m * 2 ^ e
                else (Zpos m * 2 + 2 ^ (- e)) / (2 ^ (- e + 1)))
  | S754_infinity false => Z.to_nat (2 ^ 64 - 1)
  | _ => O
  end.

Definition ArithF : Arith := {|
  T := sf;
  fadd := fpadd; fsub := fpsub; fmul := fpmul; fdiv := fpdiv; fneg := fpopp;
  flt := SFltb; fle := SFleb; feq := SFeqb;
  fsqrt := fpsqrt; facos := fpacos; fcos := fpcos; fsin := fpsin; fpi := fppi;
  fofnat := fun n => fpz (Z.of_nat n); fround_usize := fpround_usize; fhalf := fphalf;
  aeq := fpaeq; det4 := fpdet4; same := sf_dec; aeq_refl := fpaeq_refl
|}.
