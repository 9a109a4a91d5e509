(** Arith.v — the arithmetic the crate computes with.

    All modelled functions are written once, over an arbitrary record of f64
    operations.  A theorem quantified over [A : Arith] assumes nothing about
    rounding (NaN, infinities, overflow included).  Two instances matter:
    - [ArithR]  (file ArithR.v): exact real arithmetic, same tolerances as the
      crate; used for the geometric theorems;
    - [ArithF]  (file ArithF.v): IEEE binary64 (Coq's [SpecFloat]); used for
      concrete runs and for the refutations. *)

Record Arith : Type := {
  T : Type;
  (* f64 operators *)
  fadd : T -> T -> T;
  fsub : T -> T -> T;
  fmul : T -> T -> T;
  fdiv : T -> T -> T;
  fneg : T -> T;
  (* f64 comparison operators: <, <=, == *)
  flt : T -> T -> bool;
  fle : T -> T -> bool;
  feq : T -> T -> bool;
  (* f64 methods and casts used by the crate *)
  fsqrt : T -> T;
  facos : T -> T;
  fcos : T -> T;
  fsin : T -> T;
  fpi : T;
  fofnat : nat -> T;            (* [n as f64] *)
  fround_usize : T -> nat;      (* [x.round() as usize] *)
  fhalf : T;                    (* 0.5 *)
  (* external crate float_cmp: [approx_eq!(f64, a, b, epsilon = 1.0E-14f64)] *)
  aeq : T -> T -> bool;
  (* external crate nalgebra: [Matrix4::new(rows).determinant()] *)
  det4 : T * T * T * T -> T * T * T * T -> T * T * T * T -> T * T * T * T -> T;
  (* identity of the values fed to the hasher (vertex.rs:18-32) *)
  same : forall x y : T, {x = y} + {x <> y};
  (* approx_eq! of a value with itself is true (its first test is ==, its last
     one is the ulps distance of the bit patterns, 0 for identical bits) *)
  aeq_refl : forall x, aeq x x = true
}.

Arguments fadd {_}. Arguments fsub {_}. Arguments fmul {_}. Arguments fdiv {_}.
Arguments fneg {_}. Arguments flt {_}. Arguments fle {_}. Arguments feq {_}.
Arguments fsqrt {_}. Arguments facos {_}. Arguments fcos {_}. Arguments fsin {_}.
Arguments fofnat {_}. Arguments fround_usize {_}. Arguments aeq {_}.
Arguments det4 {_}. Arguments same {_}.
Arguments fpi {_}. Arguments fhalf {_}.

Declare Scope f64_scope.
Delimit Scope f64_scope with f64.
Infix "+" := fadd : f64_scope.
Infix "-" := fsub : f64_scope.
Infix "*" := fmul : f64_scope.
Infix "/" := fdiv : f64_scope.
Notation "- x" := (fneg x) : f64_scope.
Infix "<?" := flt (at level 70, no associativity) : f64_scope.
Infix "<=?" := fle (at level 70, no associativity) : f64_scope.
Notation "x >? y" := (flt y x) (at level 70, no associativity, only parsing) : f64_scope.
Notation "x >=? y" := (fle y x) (at level 70, no associativity, only parsing) : f64_scope.
Infix "=?" := feq (at level 70, no associativity) : f64_scope.

(** Float literals of the source. *)
Definition c0 {A : Arith} : T A := fofnat 0.
Definition c1 {A : Arith} : T A := fofnat 1.
Definition c2 {A : Arith} : T A := fofnat 2.
Definition c3 {A : Arith} : T A := fofnat 3.
Definition c4 {A : Arith} : T A := fofnat 4.
