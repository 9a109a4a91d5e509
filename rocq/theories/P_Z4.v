(** P_Z4.v — every grid point has a vertex of doubles; cases for the theorems on
    binary64, and the in-circle test on points of one circle. *)

From Coq Require Import Reals List ZArith Bool Lia Lra Floats.SpecFloat.
From Verif Require Import Base Arith ArithR ArithF Geometry Elements Polyline Triangulator Spec SpecR SpecF Samples P_RX P_Z1 P_Z2 P_Z3.
Import ListNotations.
Local Open Scope R_scope.

Lemma grid_number : forall k z, spacing k -> (- 2 ^ 24 <= z <= 2 ^ 24)%Z -> exists x, double x (IZR z * pw k).
Proof.
  intros k z Hk Hz. unfold spacing in Hk. assert (S : small z k) by (split; lia). exists (binary_normalize 53 1024 z k false).
  apply exactly_double; [exact S|]. apply normalize_exact; [exact S|reflexivity].
Qed.
Lemma grid_readable : forall k w, spacing k -> grid_point k w -> exists v, reads v w.
Proof.
  intros k w Hk ((i & Hi & Ei) & (j & Hj & Ej) & Hg). destruct (grid_number k i Hk Hi) as (x & Dx). destruct (grid_number k j Hk Hj) as (y & Dy).
  exists (V (A:=ArithF) x y false). unfold reads. cbn [vx vy vghost]. rewrite Ei, Ej, Hg. auto.
Qed.

Lemma fpz_double : forall z, (- 2 ^ 24 <= z <= 2 ^ 24)%Z -> double (fpz z) (IZR z).
Proof.
  intros z Hz. assert (S : small z 0) by (split; lia). rewrite <- (Rmult_1_r (IZR z)). change 1 with (pw 0). apply exactly_double; [exact S|]. apply normalize_exact; [exact S|reflexivity].
Qed.
Lemma integer_grid : forall z, (- 2 ^ 24 <= z <= 2 ^ 24)%Z -> on_grid 0 (IZR z).
Proof. intros z Hz. exists z. split; [exact Hz|]. change (powerRZ 2 0) with 1. ring. Qed.
Lemma pt_reads : forall x y, (- 2 ^ 24 <= x <= 2 ^ 24)%Z -> (- 2 ^ 24 <= y <= 2 ^ 24)%Z -> grid_reads 0 (pt x y) (at_ (IZR x) (IZR y)).
Proof.
  intros x y Hx Hy. split.
  - split; [apply fpz_double; exact Hx|]. split; [apply fpz_double; exact Hy|reflexivity].
  - split; [apply integer_grid; exact Hx|]. split; [apply integer_grid; exact Hy|reflexivity].
Qed.

(** A square with a square hole, three vertices. *)
Lemma case_square : spacing 0 /\ Forall2 (grid_reads 0) [pt 0 0; pt 8 0; pt 8 8; pt 0 8] [at_ 0 0; at_ 8 0; at_ 8 8; at_ 0 8] /\
  Forall2 (Forall2 (grid_reads 0)) [[pt 2 2; pt 4 2; pt 4 4; pt 2 4]] [[at_ 2 2; at_ 4 2; at_ 4 4; at_ 2 4]] /\
  Forall2 (grid_reads 0) [pt 1 1; pt 3 3; pt 8 5] [at_ 1 1; at_ 3 3; at_ 8 5].
Proof.
  split; [unfold spacing; lia|]. split; [|split]; repeat match goal with |- Forall2 _ (_ :: _) (_ :: _) => constructor | |- Forall2 _ [] [] => constructor end; apply pt_reads; lia.
Qed.

(** Four points of the circle of radius 5 around the origin, counterclockwise. *)
Lemma circle_case : continence (A:=ArithF) (pt (-4) (-3)) (pt (-3) (-4)) (pt 4 (-3)) (pt 4 3) = Inside /\
  continence (A:=ArithF) (pt (-3) (-4)) (pt 4 (-3)) (pt (-4) (-3)) (pt 4 3) = Outside /\
  continence (A:=ArithF) (pt (-3) (-4)) (pt 4 (-3)) (pt 4 3) (pt (-4) (-3)) = Inside.
Proof. vm_compute. auto. Qed.
Lemma cocircular_wrong : exists a b c d a' b' c' d' o,
  grid_reads 0 a a' /\ grid_reads 0 b b' /\ grid_reads 0 c c' /\ grid_reads 0 d d' /\
  0 < area2 a' b' c' /\ 0 < area2 a' c' d' /\ 0 < area2 a' b' d' /\ 0 < area2 b' c' d' /\ d2 o b' = d2 o a' /\ d2 o c' = d2 o a' /\ d2 o d' = d2 o a' /\
  continence (A:=ArithF) a b c d = Inside /\ continence (A:=ArithF) b c a d = Outside /\ continence (A:=ArithF) b c d a = Inside.
Proof.
  exists (pt (-4) (-3)), (pt (-3) (-4)), (pt 4 (-3)), (pt 4 3), (at_ (-4) (-3)), (at_ (-3) (-4)), (at_ 4 (-3)), (at_ 4 3), (at_ 0 0).
  split; [apply pt_reads; lia|]. split; [apply pt_reads; lia|]. split; [apply pt_reads; lia|]. split; [apply pt_reads; lia|].
  unfold area2, d2, X, Y. cbn [vx vy at_]. split; [lra|]. split; [lra|]. split; [lra|]. split; [lra|]. split; [lra|]. split; [lra|]. split; [lra|]. exact circle_case.
Qed.
