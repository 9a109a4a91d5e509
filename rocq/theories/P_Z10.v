(** P_Z10.v — the in-circle test of binary64 on small grids, in terms of circles;
    cases. *)

From Coq Require Import Reals List ZArith Bool Lia Lra.
From Verif Require Import Base Arith ArithR ArithF Geometry Elements SpecR SpecF Samples P_R1 P_RX P_Z4 P_Z9.
Import ListNotations.
Local Open Scope R_scope.

Lemma float_circle : forall k, fine_spacing k -> forall (a b c d : vertex ArithF) (a' b' c' d' : pnt),
  fine_point k a' -> fine_point k b' -> fine_point k c' -> fine_point k d' -> reads a a' -> reads b b' -> reads c c' -> reads d d' ->
  forall o, d2 o a' = d2 o b' -> d2 o a' = d2 o c' -> 0 < area2 a' b' c' -> d2 o d' <> d2 o a' ->
  (continence a b c d = Inside <-> d2 o d' < d2 o a') /\ (continence a b c d = Outside <-> d2 o a' < d2 o d').
Proof.
  intros k Hk a b c d a' b' c' d' Fa Fb Fc Fd Ra Rb Rc Rd o Eb Ec HA HN.
  assert (E : incircle a' b' c' d' = area2 a' b' c' * (d2 o a' - d2 o d')) by (apply incircle_power; assumption).
  assert (HI : incircle a' b' c' d' <> 0).
  { rewrite E. intros Z. apply Rmult_integral in Z. destruct Z as [Z|Z]; [lra|]. apply HN. lra. }
  rewrite (float_incircle k Hk a b c d a' b' c' d' Fa Fb Fc Fd Ra Rb Rc Rd HI). unfold Rltb. rewrite E.
  destruct (Rtotal_order (d2 o d') (d2 o a')) as [L|[L|L]]; [|contradiction|].
  - assert (P : 0 < area2 a' b' c' * (d2 o a' - d2 o d')) by (apply Rmult_lt_0_compat; lra).
    destruct (Rlt_dec 0 (area2 a' b' c' * (d2 o a' - d2 o d'))); [|lra]. split; split; intros; try discriminate; try reflexivity; lra.
  - assert (P : 0 < area2 a' b' c' * (d2 o d' - d2 o a')) by (apply Rmult_lt_0_compat; lra).
    destruct (Rlt_dec 0 (area2 a' b' c' * (d2 o a' - d2 o d'))); [lra|]. split; split; intros; try discriminate; try reflexivity; lra.
Qed.

Lemma float_turned : forall k, fine_spacing k -> forall (a b c d : vertex ArithF) (a' b' c' d' : pnt),
  fine_point k a' -> fine_point k b' -> fine_point k c' -> fine_point k d' -> reads a a' -> reads b b' -> reads c c' -> reads d d' ->
  forall o, d2 o a' = d2 o b' -> d2 o a' = d2 o c' -> area2 a' b' c' < 0 -> d2 o d' <> d2 o a' ->
  (continence a b c d = Outside <-> d2 o d' < d2 o a') /\ (continence a b c d = Inside <-> d2 o a' < d2 o d').
Proof.
  intros k Hk a b c d a' b' c' d' Fa Fb Fc Fd Ra Rb Rc Rd o Eb Ec HA HN.
  assert (E : incircle a' b' c' d' = area2 a' b' c' * (d2 o a' - d2 o d')) by (apply incircle_power; assumption).
  assert (HI : incircle a' b' c' d' <> 0).
  { rewrite E. intros Z. apply Rmult_integral in Z. destruct Z as [Z|Z]; [lra|]. apply HN. lra. }
  rewrite (float_incircle k Hk a b c d a' b' c' d' Fa Fb Fc Fd Ra Rb Rc Rd HI). unfold Rltb. rewrite E.
  destruct (Rtotal_order (d2 o d') (d2 o a')) as [L|[L|L]]; [|contradiction|].
  - assert (P : 0 < - area2 a' b' c' * (d2 o a' - d2 o d')) by (apply Rmult_lt_0_compat; lra).
    destruct (Rlt_dec 0 (area2 a' b' c' * (d2 o a' - d2 o d'))); [lra|]. split; split; intros; try discriminate; try reflexivity; lra.
  - assert (P : 0 < - area2 a' b' c' * (d2 o d' - d2 o a')) by (apply Rmult_lt_0_compat; lra).
    destruct (Rlt_dec 0 (area2 a' b' c' * (d2 o a' - d2 o d'))); [|lra]. split; split; intros; try discriminate; try reflexivity; lra.
Qed.

Lemma fine_int : forall z, (- 2 ^ 10 <= z <= 2 ^ 10)%Z -> fine_number 0 (IZR z).
Proof. intros z Hz. exists z. split; [exact Hz|]. change (powerRZ 2 0) with 1. ring. Qed.
Lemma pt_fine : forall x y, (- 2 ^ 10 <= x <= 2 ^ 10)%Z -> (- 2 ^ 10 <= y <= 2 ^ 10)%Z -> reads (pt x y) (at_ (IZR x) (IZR y)) /\ fine_point 0 (at_ (IZR x) (IZR y)).
Proof.
  intros x y Hx Hy. split; [apply pt_reads; lia|]. split; [apply fine_int; exact Hx|]. split; [apply fine_int; exact Hy|reflexivity].
Qed.
(** The circle of radius 5 around the origin, a point just outside and one just
    inside. *)
Lemma circle_near : fine_spacing 0 /\ fine_point 0 (at_ (-4) (-3)) /\ fine_point 0 (at_ 5 0) /\ fine_point 0 (at_ 3 4) /\ fine_point 0 (at_ 1 5) /\ fine_point 0 (at_ (-2) 4) /\
  reads (pt (-4) (-3)) (at_ (-4) (-3)) /\ reads (pt 5 0) (at_ 5 0) /\ reads (pt 3 4) (at_ 3 4) /\ reads (pt 1 5) (at_ 1 5) /\ reads (pt (-2) 4) (at_ (-2) 4) /\
  let o := at_ 0 0 in d2 o (at_ (-4) (-3)) = d2 o (at_ 5 0) /\ d2 o (at_ (-4) (-3)) = d2 o (at_ 3 4) /\ 0 < area2 (at_ (-4) (-3)) (at_ 5 0) (at_ 3 4) /\
    area2 (at_ (-4) (-3)) (at_ 3 4) (at_ 5 0) < 0 /\
    d2 o (at_ (-4) (-3)) < d2 o (at_ 1 5) /\ d2 o (at_ (-2) 4) < d2 o (at_ (-4) (-3)).
Proof.
  split; [unfold fine_spacing; lia|].
  do 5 (split; [apply pt_fine; lia|]). do 5 (split; [apply pt_fine; lia|]).
  cbv zeta. unfold area2, d2, X, Y. cbn [vx vy at_]. repeat split; lra.
Qed.
