(** P_Z3.v — the predicates of the crate on points of a grid, in binary64:
    no tolerance is left, and every answer is the exact one. *)

From Coq Require Import Reals List ZArith Bool Lia Lra Floats.SpecFloat.
From Verif Require Import Base Arith ArithR ArithF Geometry Elements Polyline Triangulator Spec SpecR SpecF P_Base P_R1 P_R2 P_R6 P_Contains P_Z1 P_Z2 P_Triangulator.
Import ListNotations.
Local Open Scope R_scope.

Ltac real := match goal with |- @eq _ ?u ?v => change (@eq R u v) end.

(** A value on a grid of at least 2^-46 is zero when it is within the tolerance. *)
Lemma eps_small : eps < pw (-46).
Proof.
  unfold eps. replace (-46)%Z with (- (46))%Z by lia. rewrite powerRZ_neg'. rewrite (pw_int 46) by lia.
  apply Rmult_lt_reg_r with (IZR (2 ^ 99)); [apply IZR_lt; reflexivity|]. unfold Rdiv. rewrite Rmult_assoc, Rinv_l by (apply not_0_IZR; discriminate). rewrite Rmult_1_r.
  apply Rmult_lt_reg_l with (IZR (2 ^ 46)); [apply IZR_lt; reflexivity|]. rewrite <- Rmult_assoc, Rinv_r by (apply not_0_IZR; discriminate). rewrite Rmult_1_l, <- mult_IZR. apply IZR_lt. reflexivity.
Qed.
Lemma pw_mono : forall a b, (a <= b)%Z -> pw a <= pw b.
Proof.
  intros a b H. destruct (Z.eq_dec a b) as [->|Hd]; [lra|]. rewrite (pw_split a b) by lia. rewrite <- (Rmult_1_l (pw a)) at 1. apply Rmult_le_compat_r; [apply Rlt_le, pw_pos|].
  apply IZR_le. assert (0 < 2 ^ (b - a))%Z by (apply Z.pow_pos_nonneg; lia). lia.
Qed.
Lemma grid_gap : forall z e, (-46 <= e)%Z -> z <> 0%Z -> eps < Rabs (IZR z * pw e).
Proof.
  intros z e He Hz. apply Rlt_le_trans with (pw (-46)); [exact eps_small|]. apply Rle_trans with (pw e); [apply pw_mono; exact He|].
  rewrite Rabs_mult, (Rabs_pos_eq (pw e)) by (apply Rlt_le, pw_pos). rewrite <- (Rmult_1_l (pw e)) at 1. apply Rmult_le_compat_r; [apply Rlt_le, pw_pos|].
  rewrite <- abs_IZR. apply IZR_le. lia.
Qed.
Lemma grid_zero : forall r z e, (-46 <= e)%Z -> r = IZR z * pw e -> - eps <= r <= eps -> r = 0.
Proof.
  intros r z e He E H. destruct (Z.eq_dec z 0) as [->|Hz]; [rewrite E; ring|]. pose proof (grid_gap z e He Hz) as G. rewrite <- E in G. unfold Rabs in G. destruct (Rcase_abs r); lra.
Qed.

Section Grid.
  Variable k : Z.
  Hypothesis Hk : spacing k.

  Lemma area_grid : forall a b c ia ja ib jb ic jc a' b' c', gp k a a' ia ja -> gp k b b' ib jb -> gp k c c' ic jc ->
    exists z, area2 a' b' c' = IZR z * pw (k + k).
  Proof.
    intros a b c ia ja ib jb ic jc a' b' c' (_ & _ & _ & Ea & Fa & _) (_ & _ & _ & Eb & Fb & _) (_ & _ & _ & Ec & Fc & _).
    exists ((ib - ia) * (jc - ja) - (jb - ja) * (ic - ia))%Z. unfold area2, X, Y. rewrite Ea, Eb, Ec, Fa, Fb, Fc, pw_add, !minus_IZR, !mult_IZR, !minus_IZR. ring.
  Qed.

  Section Three.
    Variables (a b c : vertex ArithF) (a' b' c' : pnt).
    Hypotheses (Ga : grid_point k a') (Gb : grid_point k b') (Gc : grid_point k c') (Ra : reads a a') (Rb : reads b b') (Rc : reads c c').

    Lemma grid_area_zero : - eps <= area2 a' b' c' <= eps -> area2 a' b' c' = 0.
    Proof.
      destruct (grid_gp k a a' Hk Ra Ga) as (i1 & j1 & P1). destruct (grid_gp k b b' Hk Rb Gb) as (i2 & j2 & P2). destruct (grid_gp k c c' Hk Rc Gc) as (i3 & j3 & P3).
      destruct (area_grid _ _ _ _ _ _ _ _ _ _ _ _ P1 P2 P3) as (z & Ez). unfold spacing in Hk. apply (grid_zero _ z (k + k)); [lia|exact Ez].
    Qed.
    Lemma orientation_same : orientation (A:=ArithF) a b c = orientation (A:=ArithR) a' b' c'.
    Proof.
      destruct (grid_gp k a a' Hk Ra Ga) as (i1 & j1 & P1). destruct (grid_gp k b b' Hk Rb Gb) as (i2 & j2 & P2). destruct (grid_gp k c c' Hk Rc Gc) as (i3 & j3 & P3).
      exact (orient_exact k Hk _ _ _ _ _ _ _ _ _ _ _ _ P1 P2 P3).
    Qed.
    Lemma float_orientation : (orientation (A:=ArithF) a b c = CCW <-> 0 < area2 a' b' c') /\ (orientation (A:=ArithF) a b c = CW <-> area2 a' b' c' < 0) /\ (orientation (A:=ArithF) a b c = Colinear <-> area2 a' b' c' = 0).
    Proof.
      rewrite orientation_same. destruct (orientation_spec a' b' c') as (O1 & O2 & O3). pose proof grid_area_zero as Z. pose proof eps_pos.
      rewrite O1, O2, O3. destruct (Rle_dec (- eps) (area2 a' b' c')) as [L|L]; [destruct (Rle_dec (area2 a' b' c') eps) as [U|U]; [specialize (Z (conj L U))|]|]; repeat split; intros; try lra.
    Qed.
    Lemma float_area : double (area_triangle (A:=ArithF) a b c) (area2 a' b' c' / 2).
    Proof.
      destruct (grid_gp k a a' Hk Ra Ga) as (i1 & j1 & P1). destruct (grid_gp k b b' Hk Rb Gb) as (i2 & j2 & P2). destruct (grid_gp k c c' Hk Rc Gc) as (i3 & j3 & P3).
      destruct (det_dz k Hk _ _ _ _ _ _ _ _ _ _ _ _ P1 P2 P3) as (z & D & E & _). unfold area_triangle.
      unfold spacing in Hk. pose proof (dz_double _ _ _ (dz_half _ _ _ D ltac:(lia))) as Q. change (fdiv (a:=ArithF)) with fpdiv. change (@c2 ArithF) with (fpz 2).
      replace (area2 a' b' c' / 2) with (IZR z * pw (k + k - 1)); [exact Q|].
      assert (E1 : pw (k + k) = pw (k + k - 1) * 2). { pose proof (pw_add (k + k - 1) 1) as Hp. replace (k + k - 1 + 1)%Z with (k + k)%Z in Hp by lia. rewrite Hp, powerRZ_1. reflexivity. }
      assert (E2 : area2 a' b' c' = IZR z * pw (k + k)). { rewrite <- E. unfold det3, c1, area2, X, Y. cbn [fadd fsub fmul fofnat ArithR INR]. real. ring. }
      rewrite E2, E1. field.
    Qed.
    Lemma encroach_same : encroach (A:=ArithF) a b c = encroach (A:=ArithR) a' b' c' /\ (- eps <= dotp a' c' b' c' <= eps -> dotp a' c' b' c' = 0).
    Proof.
      destruct (grid_gp k a a' Hk Ra Ga) as (i1 & j1 & (B1 & C1) & X1 & Y1 & E1 & F1 & _). destruct (grid_gp k b b' Hk Rb Gb) as (i2 & j2 & (B2 & C2) & X2 & Y2 & E2 & F2 & _). destruct (grid_gp k c c' Hk Rc Gc) as (i3 & j3 & (B3 & C3) & X3 & Y3 & E3 & F3 & _).
      unfold spacing in Hk. pose proof (mul_bound (i3 - i2) (i3 - i1) (2 ^ 25) (2 ^ 25) ltac:(lia) ltac:(lia)) as P1. pose proof (mul_bound (j3 - j2) (j3 - j1) (2 ^ 25) (2 ^ 25) ltac:(lia) ltac:(lia)) as P2.
      assert (D : dz (fpadd (fpmul (fpsub (vx c) (vx b)) (fpsub (vx c) (vx a))) (fpmul (fpsub (vy c) (vy b)) (fpsub (vy c) (vy a)))) ((i3 - i2) * (i3 - i1) + (j3 - j2) * (j3 - j1)) (k + k)).
      { apply dz_add; [apply dz_mul; [apply dz_sub; [assumption|assumption|lia]|apply dz_sub; [assumption|assumption|lia]|lia|lia]..|lia]. }
      assert (E : (vx c' - vx b') * (vx c' - vx a') + (vy c' - vy b') * (vy c' - vy a') = IZR ((i3 - i2) * (i3 - i1) + (j3 - j2) * (j3 - j1)) * pw (k + k)).
      { rewrite E1, E2, E3, F1, F2, F3, pw_add, plus_IZR, !mult_IZR, !minus_IZR. ring. }
      split.
      - unfold encroach. change (fadd (a:=ArithF)) with fpadd. change (fsub (a:=ArithF)) with fpsub. change (fmul (a:=ArithF)) with fpmul. change (aeq (a:=ArithF)) with fpaeq. change (flt (a:=ArithF)) with SFltb. change (@c0 ArithF) with (fpz 0). rewrite (dz_aeq0 _ _ _ D), (dz_lt0 _ _ _ D), <- E. reflexivity.
      - assert (E' : dotp a' c' b' c' = IZR ((i3 - i2) * (i3 - i1) + (j3 - j2) * (j3 - j1)) * pw (k + k)). { rewrite <- E. unfold dotp, X, Y. ring. }
        intros H. apply (grid_zero _ _ (k + k) ltac:(lia) E' H).
    Qed.
    Lemma dotp_half : forall m, half_point a' b' m -> dotp a' c' b' c' = d2 m c' - d2 a' b' / 4.
    Proof. intros m [Hx Hy]. unfold dotp, d2. rewrite Hx, Hy. field. Qed.
    Lemma float_encroach : forall m, half_point a' b' m ->
      (encroach (A:=ArithF) a b c = Inside <-> d2 m c' < d2 a' b' / 4) /\ (encroach (A:=ArithF) a b c = Outside <-> d2 a' b' / 4 < d2 m c') /\ (encroach (A:=ArithF) a b c = Boundary <-> d2 m c' = d2 a' b' / 4).
    Proof.
      intros m Hm. destruct encroach_same as [-> Z]. destruct (encroach_spec a' b' c' m Hm) as (O1 & O2 & O3). pose proof (dotp_half m Hm) as E. pose proof eps_pos.
      rewrite O1, O2, O3. destruct (Rle_dec (- eps) (dotp a' c' b' c')) as [L|L]; [destruct (Rle_dec (dotp a' c' b' c') eps) as [U|U]; [specialize (Z (conj L U))|]|]; repeat split; intros; lra.
    Qed.
  End Three.

  Section Four.
    Variables (a b c d : vertex ArithF) (a' b' c' d' : pnt).
    Hypotheses (Ga : grid_point k a') (Gb : grid_point k b') (Gc : grid_point k c') (Gd : grid_point k d') (Ra : reads a a') (Rb : reads b b') (Rc : reads c c') (Rd : reads d d').

    Lemma float_dot : double (dot (A:=ArithF) a b c d) (dotp a' b' c' d').
    Proof.
      destruct (grid_gp k a a' Hk Ra Ga) as (i1 & j1 & (B1 & C1) & X1 & Y1 & E1 & F1 & _). destruct (grid_gp k b b' Hk Rb Gb) as (i2 & j2 & (B2 & C2) & X2 & Y2 & E2 & F2 & _). destruct (grid_gp k c c' Hk Rc Gc) as (i3 & j3 & (B3 & C3) & X3 & Y3 & E3 & F3 & _). destruct (grid_gp k d d' Hk Rd Gd) as (i4 & j4 & (B4 & C4) & X4 & Y4 & E4 & F4 & _).
      unfold spacing in Hk. pose proof (mul_bound (i2 - i1) (i4 - i3) (2 ^ 25) (2 ^ 25) ltac:(lia) ltac:(lia)) as P1. pose proof (mul_bound (j2 - j1) (j4 - j3) (2 ^ 25) (2 ^ 25) ltac:(lia) ltac:(lia)) as P2.
      assert (D : dz (fpadd (fpmul (fpsub (vx b) (vx a)) (fpsub (vx d) (vx c))) (fpmul (fpsub (vy b) (vy a)) (fpsub (vy d) (vy c)))) ((i2 - i1) * (i4 - i3) + (j2 - j1) * (j4 - j3)) (k + k)).
      { apply dz_add; [apply dz_mul; [apply dz_sub; [assumption|assumption|lia]|apply dz_sub; [assumption|assumption|lia]|lia|lia]..|lia]. }
      pose proof (dz_double _ _ _ D) as Q. replace (dotp a' b' c' d') with (IZR ((i2 - i1) * (i4 - i3) + (j2 - j1) * (j4 - j3)) * pw (k + k)); [exact Q|].
      unfold dotp, X, Y. rewrite E1, E2, E3, E4, F1, F2, F3, F4, pw_add, plus_IZR, !mult_IZR, !minus_IZR. ring.
    Qed.
    Lemma float_parallel : parallel (A:=ArithF) a b c d = true <-> crossp a' b' c' d' = 0.
    Proof.
      rewrite <- parallel_spec.
      destruct (grid_gp k a a' Hk Ra Ga) as (i1 & j1 & (B1 & C1) & X1 & Y1 & E1 & F1 & _). destruct (grid_gp k b b' Hk Rb Gb) as (i2 & j2 & (B2 & C2) & X2 & Y2 & E2 & F2 & _). destruct (grid_gp k c c' Hk Rc Gc) as (i3 & j3 & (B3 & C3) & X3 & Y3 & E3 & F3 & _). destruct (grid_gp k d d' Hk Rd Gd) as (i4 & j4 & (B4 & C4) & X4 & Y4 & E4 & F4 & _).
      unfold spacing in Hk. pose proof (mul_bound (- (j2 - j1)) (i4 - i3) (2 ^ 25) (2 ^ 25) ltac:(lia) ltac:(lia)) as P1. pose proof (mul_bound (- (j4 - j3)) (i2 - i1) (2 ^ 25) (2 ^ 25) ltac:(lia) ltac:(lia)) as P2.
      assert (D : dz (fpsub (fpmul (fpopp (fpsub (vy b) (vy a))) (fpsub (vx d) (vx c))) (fpmul (fpopp (fpsub (vy d) (vy c))) (fpsub (vx b) (vx a)))) (- (j2 - j1) * (i4 - i3) - - (j4 - j3) * (i2 - i1)) (k + k)).
      { apply dz_sub; [apply dz_mul; [apply dz_neg; apply dz_sub; [assumption|assumption|lia]|apply dz_sub; [assumption|assumption|lia]|lia|lia]..|lia]. }
      replace (parallel (A:=ArithF) a b c d) with (parallel (A:=ArithR) a' b' c' d'); [reflexivity|]. unfold parallel, invertible2, det2. f_equal. f_equal.
      symmetry. apply (eq_double _ (fpz 0) _ 0); [|reflexivity]. pose proof (dz_double _ _ _ D) as Q.
      match goal with |- double _ ?r => replace r with (IZR (- (j2 - j1) * (i4 - i3) - - (j4 - j3) * (i2 - i1)) * pw (k + k)); [exact Q|] end.
      cbn [fadd fsub fmul fneg ArithR]. rewrite E1, E2, E3, E4, F1, F2, F3, F4, pw_add, minus_IZR, !mult_IZR, !opp_IZR, !minus_IZR. real. ring.
    Qed.
  End Four.

  Section Two.
    Variables (a b : vertex ArithF) (a' b' : pnt).
    Hypotheses (Ga : grid_point k a') (Gb : grid_point k b') (Ra : reads a a') (Rb : reads b b').

    Lemma float_equal : veqb (A:=ArithF) a b = true <-> coincide a' b'.
    Proof.
      destruct (grid_gp k a a' Hk Ra Ga) as (i1 & j1 & (B1 & C1) & X1 & Y1 & E1 & F1 & G1). destruct (grid_gp k b b' Hk Rb Gb) as (i2 & j2 & (B2 & C2) & X2 & Y2 & E2 & F2 & G2).
      destruct Ga as (_ & _ & Ga'), Gb as (_ & _ & Gb'). destruct Ra as (Dx1 & Dy1 & _), Rb as (Dx2 & Dy2 & _). unfold spacing in Hk.
      assert (Sx : small (i1 - i2) k) by (split; lia). assert (Sy : small (j1 - j2) k) by (split; lia).
      assert (Ex : (vx a' : R) - vx b' = IZR (i1 - i2) * pw k) by (rewrite E1, E2, minus_IZR; ring). assert (Ey : (vy a' : R) - vy b' = IZR (j1 - j2) * pw k) by (rewrite F1, F2, minus_IZR; ring).
      unfold veqb. rewrite G1, G2, Ga', Gb'. cbn [andb Bool.eqb]. change (aeq (a:=ArithF)) with fpaeq. rewrite (aeq_double _ _ _ _ _ _ Dx1 Dx2 Sx Ex), (aeq_double _ _ _ _ _ _ Dy1 Dy2 Sy Ey).
      assert (Q : forall r s z, r - s = IZR z * pw k -> Raeq r s = true <-> r = s).
      { intros r s z E. unfold Raeq, Rleb. destruct (Rle_dec (Rabs (r - s)) eps) as [L|L].
        - split; [intros _|reflexivity]. assert (r - s = 0); [|lra]. apply (grid_zero _ z k); [lia|exact E|]. unfold Rabs in L. destruct (Rcase_abs (r - s)); lra.
        - split; [discriminate|]. intros ->. exfalso. apply L. rewrite Rminus_diag_eq by reflexivity. rewrite Rabs_R0. pose proof eps_pos. lra. }
      rewrite andb_true_iff, (Q _ _ _ Ex), (Q _ _ _ Ey). unfold coincide, X, Y. reflexivity.
    Qed.
    Lemma float_midpoint : exists m, half_point a' b' m /\ reads (midpoint (A:=ArithF) a b) m.
    Proof.
      destruct (grid_gp k a a' Hk Ra Ga) as (i1 & j1 & (B1 & C1) & X1 & Y1 & E1 & F1 & G1). destruct (grid_gp k b b' Hk Rb Gb) as (i2 & j2 & (B2 & C2) & X2 & Y2 & E2 & F2 & G2).
      destruct Ga as (_ & _ & Ga'), Gb as (_ & _ & Gb'). unfold spacing in Hk. assert (Dx : dz (fpdiv (fpadd (vx a) (vx b)) (fpz 2)) (i1 + i2) (k - 1)) by (apply dz_half; [apply dz_add; [assumption|assumption|lia]|lia]).
      assert (Dy : dz (fpdiv (fpadd (vy a) (vy b)) (fpz 2)) (j1 + j2) (k - 1)) by (apply dz_half; [apply dz_add; [assumption|assumption|lia]|lia]).
      exists (V (A:=ArithR) (IZR (i1 + i2) * pw (k - 1)) (IZR (j1 + j2) * pw (k - 1)) false).
      assert (E : pw k = pw (k - 1) * 2). { pose proof (pw_add (k - 1) 1) as Hp. replace (k - 1 + 1)%Z with k in Hp by lia. rewrite Hp, powerRZ_1. reflexivity. }
      split.
      - unfold half_point, at_ratio, X, Y. cbn [vx vy]. rewrite E1, E2, F1, F2, E, !plus_IZR. split; field.
      - unfold midpoint. rewrite G1, G2, Ga', Gb'. cbn [orb]. split; [exact (dz_double _ _ _ Dx)|]. split; [exact (dz_double _ _ _ Dy)|reflexivity].
    Qed.
  End Two.

  (** ** Segments *)

  Lemma ratio_on : forall a b p : pnt, X a <> X b -> Rmin (X a) (X b) <= X p <= Rmax (X a) (X b) -> area2 a b p = 0 -> on_segment a b p.
  Proof.
    intros a b p Hd Hx Ha. exists ((X p - X a) / (X b - X a)). assert (Hn : X b - X a <> 0) by lra. split.
    - assert (Hc : forall n d, (0 < d /\ 0 <= n <= d) \/ (d < 0 /\ d <= n <= 0) -> 0 <= n / d <= 1).
      { intros n d [[H1 H2]|[H1 H2]].
        - split; [apply Rmult_le_pos; [lra|apply Rlt_le, Rinv_0_lt_compat; lra]|]. apply Rmult_le_reg_r with d; [lra|]. unfold Rdiv. rewrite Rmult_assoc, Rinv_l by lra. lra.
        - replace (n / d) with ((- n) / (- d)) by (field; lra). split; [apply Rmult_le_pos; [lra|apply Rlt_le, Rinv_0_lt_compat; lra]|]. apply Rmult_le_reg_r with (- d); [lra|]. unfold Rdiv. rewrite Rmult_assoc, Rinv_l by lra. lra. }
      apply Hc. unfold Rmin, Rmax in Hx. destruct (Rle_dec (X a) (X b)); [left|right]; lra.
    - split; [field; exact Hn|]. unfold area2 in Ha. apply Rmult_eq_reg_r with (X b - X a); [|exact Hn]. field_simplify; [|exact Hn]. lra.
  Qed.
  Lemma upright_ratio : forall a b p : pnt, X a = X b -> X p = X a -> Rmin (Y a) (Y b) <= Y p <= Rmax (Y a) (Y b) -> on_segment a b p.
  Proof.
    intros a b p Hx Hp Hy. destruct (Req_EM_T (Y a) (Y b)) as [E|N].
    - exists 0. split; [lra|]. unfold Rmin, Rmax in Hy. destruct (Rle_dec (Y a) (Y b)); split; lra.
    - assert (Q : on_segment (mkv (A:=ArithR) (Y a) (X a)) (mkv (A:=ArithR) (Y b) (X b)) (mkv (A:=ArithR) (Y p) (X p))).
      { apply ratio_on; unfold area2, X, Y in *; cbn [vx vy mkv] in *; [exact N|exact Hy|]. rewrite Hp, Hx. ring. }
      destruct Q as (t & Ht & Q1 & Q2). exists t. split; [exact Ht|]. split; [exact Q2|exact Q1].
  Qed.
  Lemma box_on : forall a b p : pnt, near_box 0 a b p -> area2 a b p = 0 -> on_segment a b p.
  Proof.
    intros a b p [Hx Hy] Ha. destruct (Req_EM_T (X a) (X b)) as [E|N].
    - apply upright_ratio; [exact E| |lra]. unfold Rmin, Rmax in Hx. destruct (Rle_dec (X a) (X b)); lra.
    - apply ratio_on; [exact N|lra|exact Ha].
  Qed.

  Definition dbox (b : bbox ArithF) (b' : bbox ArithR) : Prop := double (bx0 b) (bx0 b') /\ double (by0 b) (by0 b') /\ double (bx1 b) (bx1 b') /\ double (by1 b) (by1 b').
  Lemma fmin_double : forall x y r s, double x r -> double y s -> double (fmin (A:=ArithF) x y) (fmin (A:=ArithR) r s).
  Proof. intros x y r s Hx Hy. unfold fmin. change (flt (a:=ArithF)) with SFltb. change (flt (a:=ArithR)) with Rltb. rewrite (lt_double _ _ _ _ Hx Hy). destruct (Rltb r s); assumption. Qed.
  Lemma fmax_double : forall x y r s, double x r -> double y s -> double (fmax (A:=ArithF) x y) (fmax (A:=ArithR) r s).
  Proof. intros x y r s Hx Hy. unfold fmax. change (flt (a:=ArithF)) with SFltb. change (flt (a:=ArithR)) with Rltb. rewrite (lt_double _ _ _ _ Hy Hx). destruct (Rltb s r); assumption. Qed.
  Lemma step_double : forall b b' v v', dbox b b' -> reads v v' -> dbox (bbox_step b v) (bbox_step b' v').
  Proof. intros b b' v v' (B1 & B2 & B3 & B4) (V1 & V2 & _). split; [|split; [|split]]; cbn; auto using fmin_double, fmax_double. Qed.
  Lemma fold_double : forall l l', Forall2 reads l l' -> forall b b', dbox b b' -> dbox (fold_left (bbox_step (A:=ArithF)) l b) (fold_left (bbox_step (A:=ArithR)) l' b').
  Proof. intros l l' H. induction H; intros bb bb' Hb; cbn [fold_left]; [exact Hb|]. apply IHForall2. apply step_double; assumption. Qed.
  Lemma contains_double : forall b b' v v', dbox b b' -> reads v v' -> bbox_contains (A:=ArithF) b v = bbox_contains (A:=ArithR) b' v'.
  Proof.
    intros b b' v v' (B1 & B2 & B3 & B4) (V1 & V2 & _). unfold bbox_contains. change (fle (a:=ArithF)) with SFleb. change (fle (a:=ArithR)) with Rleb.
    rewrite (le_double _ _ _ _ V1 B3), (le_double _ _ _ _ B1 V1), (le_double _ _ _ _ V2 B4), (le_double _ _ _ _ B2 V2). reflexivity.
  Qed.
  (** The bounding box of a list of vertices is exact. *)
  Lemma float_bbox : forall l l', Forall2 reads l l' -> match bbox_from_vertices l, bbox_from_vertices l' with Some b, Some b' => dbox b b' | None, None => True | _, _ => False end.
  Proof. intros l l' H. destruct H as [|v v' l l' Hv Hl]; [exact I|]. unfold bbox_from_vertices. apply fold_double; [constructor; assumption|]. destruct Hv as (H1 & H2 & _). repeat split; assumption. Qed.

  Section Segment.
    Variables (a b v : vertex ArithF) (a' b' v' : pnt).
    Hypotheses (Ga : grid_point k a') (Gb : grid_point k b') (Gv : grid_point k v') (Ra : reads a a') (Rb : reads b b') (Rv : reads v v').
    Lemma edge_contains_same : edge_contains (A:=ArithF) (a, b) v = edge_contains (A:=ArithR) (a', b') v'.
    Proof.
      unfold edge_contains. cbn [ev1 ev2 fst snd]. pose proof (float_bbox [a; b] [a'; b'] (Forall2_cons _ _ Ra (Forall2_cons _ _ Rb (Forall2_nil _)))) as Hb.
      destruct (bbox_from_vertices [a; b]) as [bb|], (bbox_from_vertices [a'; b']) as [bb'|]; try contradiction; [|reflexivity].
      rewrite (contains_double _ _ _ _ Hb Rv), (orientation_same a b v a' b' v' Ga Gb Gv Ra Rb Rv). reflexivity.
    Qed.
    Lemma float_edge_contains : edge_contains (A:=ArithF) (a, b) v = true <-> on_segment a' b' v'.
    Proof.
      rewrite edge_contains_same, edge_contains_spec. cbn [fst snd]. split.
      - intros [H1 H2]. apply box_on; [exact H1|]. exact (grid_area_zero a b v a' b' v' Ga Gb Gv Ra Rb Rv H2).
      - intros H. destruct (on_segment_box _ _ _ H) as [H1 H2]. split; [exact H1|]. rewrite H2. pose proof eps_pos. lra.
    Qed.
    Lemma touches_exact : touches_side v' (a', b') <-> on_segment a' b' v'.
    Proof.
      split; [|apply on_segment_touches]. intros (H1 & H2 & H3). destruct (Req_EM_T (X a') (X b')) as [E|N].
      - apply upright_ratio; [exact E| |exact (H3 E)]. unfold Rmin, Rmax in H1. destruct (Rle_dec (X a') (X b')); lra.
      - apply ratio_on; [exact N|exact H1|]. exact (grid_area_zero a b v a' b' v' Ga Gb Gv Ra Rb Rv H2).
    Qed.
  End Segment.

  (** ** Polygons *)

  Notation grid_reads := (grid_reads k).
  Definition pair_reads (s : edge ArithF) (s' : edge ArithR) : Prop := grid_reads (fst s) (fst s') /\ grid_reads (snd s) (snd s').

  Lemma consecutive_reads : forall l l', Forall2 grid_reads l l' -> Forall2 pair_reads (consecutive l) (consecutive l').
  Proof.
    intros l l' H. induction H as [|v w l l' Hv Hl IH]; [constructor|]. destruct Hl as [|v2 w2 l l' Hv2 Hl]; [constructor|].
    change (consecutive (v :: v2 :: l)) with ((v, v2) :: consecutive (v2 :: l)). change (consecutive (w :: w2 :: l')) with ((w, w2) :: consecutive (w2 :: l')).
    constructor; [split; assumption|exact IH].
  Qed.
  Lemma loop_same : forall v v', grid_reads v v' -> forall s s', Forall2 pair_reads s s' -> forall z, contains_loop (A:=ArithF) v s z = contains_loop (A:=ArithR) v' s' z.
  Proof.
    intros v v' [Rv Gv] s s' H. induction H as [|[a b] [a' b'] s s' [[Ra Ga] [Rb Gb]] Hs IH]; intros z; [reflexivity|]. cbn [fst snd] in Ra, Ga, Rb, Gb. cbn [contains_loop].
    rewrite (orientation_same a b v a' b' v' Ga Gb Gv Ra Rb Rv). destruct Ra as (Ax & Ay & _), Rb as (Bx & By & _), Rv as (Vx & Vy & _).
    change (feq (a:=ArithF)) with SFeqb. change (fle (a:=ArithF)) with SFleb. change (flt (a:=ArithF)) with SFltb. change (feq (a:=ArithR)) with Reqb. change (fle (a:=ArithR)) with Rleb. change (flt (a:=ArithR)) with Rltb.
    rewrite (eq_double _ _ _ _ Ax Bx), (eq_double _ _ _ _ Ax Vx), (eq_double _ _ _ _ Bx Vx), (le_double _ _ _ _ Ay Vy), (le_double _ _ _ _ Vy By), (le_double _ _ _ _ By Vy), (le_double _ _ _ _ Vy Ay),
      (lt_double _ _ _ _ Ax Vx), (lt_double _ _ _ _ Bx Vx), (lt_double _ _ _ _ Vx Ax), (lt_double _ _ _ _ Vx Bx).
    destruct (Reqb (vx a') (vx b')).
    - destruct (_ && _); [reflexivity|apply IH].
    - destruct (_ || _); [apply IH|]. destruct (orientation a' b' v'); [apply IH|apply IH|reflexivity].
  Qed.
  Lemma contains_same : forall l l' v v', Forall2 grid_reads l l' -> grid_reads v v' -> poly_contains (A:=ArithF) (Poly l false) v = poly_contains (A:=ArithR) (Poly l' false) v'.
  Proof.
    intros l l' v v' H Hv. unfold poly_contains, poly_pairs. cbn [popened pverts]. destruct H as [|a a' l l' Ha Hl]; [reflexivity|].
    rewrite !vertex_pairs_closed. cbn [bind]. rewrite (loop_same v v' Hv _ (consecutive ((a' :: l') ++ [a']))); [reflexivity|].
    apply consecutive_reads. apply Forall2_app; [constructor; assumption|]. constructor; [exact Ha|constructor].
  Qed.
  Lemma side_in : forall (l : list pnt) s, In s (polygon_sides l) -> In (fst s) l /\ In (snd s) l.
  Proof.
    intros [|a l] s H; [destruct H|]. assert (Q : forall m (s : edge ArithR), In s (path_sides m) -> In (fst s) m /\ In (snd s) m).
    { induction m as [|x [|y m] IH]; intros s0 H0; [destruct H0|destruct H0|]. destruct H0 as [<-|H0]; [cbn; auto|]. destruct (IH _ H0). split; right; assumption. }
    destruct (Q _ _ H) as [H1 H2]. change (In (fst s) ((a :: l) ++ [a])) in H1. change (In (snd s) ((a :: l) ++ [a])) in H2. apply in_app_or in H1, H2. cbn in *. tauto.
  Qed.
  Lemma Forall2_in_r : forall {P Q} (R : P -> Q -> Prop) l l', Forall2 R l l' -> forall y, In y l' -> exists x, In x l /\ R x y.
  Proof. intros P Q R0 l l' H. induction H; intros z Hz; [destruct Hz|]. destruct Hz as [<-|Hz]; [eexists; split; [left; reflexivity|assumption]|]. destruct (IHForall2 z Hz) as (u & H1 & H2). exists u. split; [right; exact H1|exact H2]. Qed.

  Lemma float_contains : forall l l' v v', l <> [] -> Forall2 grid_reads l l' -> grid_reads v v' ->
    exists c, poly_contains (A:=ArithF) (Poly l false) v = Ok (Some c) /\
      (c = Boundary <-> exists s, In s (polygon_sides l') /\ on_segment (fst s) (snd s) v') /\
      (c = Inside <-> strictly_in l' v') /\
      (c = Outside <-> strictly_out l' v').
  Proof.
    intros l l' v v' Hl H Hv. rewrite (contains_same l l' v v' H Hv). assert (Hl' : l' <> []) by (intros ->; inversion H; subst; apply Hl; reflexivity).
    destruct (contains_winding l' v' Hl') as (c & E & C1 & C2 & C3). exists c. split; [exact E|].
    assert (Q : c = Boundary <-> exists s, In s (polygon_sides l') /\ on_segment (fst s) (snd s) v').
    { rewrite C1. split; intros (s & Hs & Ht); exists s; (split; [exact Hs|]); destruct (side_in _ _ Hs) as [S1 S2];
        destruct (Forall2_in_r _ _ _ H _ S1) as (x & _ & Rx & Gx); destruct (Forall2_in_r _ _ _ H _ S2) as (y & _ & Ry & Gy); destruct Hv as [Rv Gv];
        destruct s as [p q]; cbn [fst snd] in *; apply (touches_exact x y v p q v' Gx Gy Gv Rx Ry Rv); exact Ht. }
    split; [exact Q|]. split; split.
    - intros ->. split; [apply C2; reflexivity|]. intros s Hs Ho. assert (Inside = Boundary); [apply Q; eauto|discriminate].
    - intros [Hw Hn]. destruct c; [reflexivity|exfalso; apply Hw; apply C3; reflexivity|]. destruct (proj1 Q eq_refl) as (s & Hs & Ho). destruct (Hn s Hs Ho).
    - intros ->. split; [apply C3; reflexivity|]. intros s Hs Ho. assert (Outside = Boundary); [apply Q; eauto|discriminate].
    - intros [Hw Hn]. destruct c; [exfalso; apply (C2 eq_refl); exact Hw|reflexivity|]. destruct (proj1 Q eq_refl) as (s & Hs & Ho). destruct (Hn s Hs Ho).
  Qed.

  (** ** Which vertices a domain accepts *)

  Lemma admissible_exact : forall t lb lb' hs hs' v v', t_boundary t = Poly lb false -> t_holes t = map (fun h => Poly h false) hs -> lb <> [] -> (forall h, In h hs -> h <> []) ->
    Forall2 grid_reads lb lb' -> Forall2 (Forall2 grid_reads) hs hs' -> grid_reads v v' -> (vertex_admissible (A:=ArithF) t v <-> in_domain lb' hs' v').
  Proof.
    intros t lb lb' hs hs' v v' Eb Eh Nb Nh Rb Rh Rv. unfold vertex_admissible, in_domain. rewrite Eb, Eh.
    assert (Q : forall l l' c, l <> [] -> Forall2 grid_reads l l' -> (poly_contains (A:=ArithF) (Poly l false) v = Ok (Some c) <-> match c with Inside => strictly_in l' v' | Outside => strictly_out l' v' | Boundary => exists s, In s (polygon_sides l') /\ on_segment (fst s) (snd s) v' end)).
    { intros l l' c Nl Rl. destruct (float_contains l l' v v' Nl Rl Rv) as (c0 & E & Q1 & Q2 & Q3). rewrite E. split.
      - intros H. injection H as <-. destruct c0; [apply Q2|apply Q3|apply Q1]; reflexivity.
      - intros H. f_equal. f_equal. destruct c; [apply Q2|apply Q3|apply Q1]; exact H. }
    rewrite (Q lb lb' Inside Nb Rb). cbn iota beta. split; intros [H1 H2]; (split; [exact H1|]).
    - intros h' Hh'. destruct (Forall2_in_r _ _ _ Rh h' Hh') as (h & Hh & Hr). apply (Q h h' Outside (Nh h Hh) Hr). apply H2. apply in_map_iff. exists h. split; [reflexivity|exact Hh].
    - intros h Hh. apply in_map_iff in Hh. destruct Hh as (l & <- & Hl). assert (P : exists l', In l' hs' /\ Forall2 grid_reads l l').
      { clear - Rh Hl. induction Rh; [destruct Hl|]. destruct Hl as [<-|Hl]; [eexists; split; [left; reflexivity|assumption]|]. destruct (IHRh Hl) as (u & U1 & U2). exists u. split; [right; exact U1|exact U2]. }
      destruct P as (l' & Hl' & Hr). apply (Q l l' Outside (Nh l Hl) Hr). apply H2. exact Hl'.
  Qed.
  Lemma float_insert : forall H p t vs vs' lb lb' hs hs', t_boundary t = Poly lb false -> t_holes t = map (fun h => Poly h false) hs -> lb <> [] -> (forall h, In h hs -> h <> []) ->
    Forall2 grid_reads lb lb' -> Forall2 (Forall2 grid_reads) hs hs' -> Forall2 grid_reads vs vs' ->
    exists t' r, insert_vertices (A:=ArithF) H p t vs = Ok (t', r) /\
      (r = RFine <-> forall w, In w vs' -> in_domain lb' hs' w) /\
      (forall bad, r = RErr bad -> t' = t /\ forall v w, grid_reads v w -> In v vs -> (In v bad <-> ~ in_domain lb' hs' w)).
  Proof.
    intros H p t vs vs' lb lb' hs hs' Eb Eh Nb Nh Rb Rh Rv.
    assert (T : exists t' r, insert_vertices (A:=ArithF) H p t vs = Ok (t', r)).
    { assert (C : forall h v, In h (Poly lb false :: map (fun h => Poly h false) hs) -> exists c, poly_contains (A:=ArithF) h v = Ok c).
      { intros h v Hh. assert (N : exists l, h = Poly l false /\ l <> []).
        { destruct Hh as [<-|Hh]; [exists lb; auto|]. apply in_map_iff in Hh. destruct Hh as (l & <- & Hl). exists l. auto. }
        destruct N as ([|x l] & -> & N); [destruct (N eq_refl)|]. unfold poly_contains, poly_pairs. cbn [popened pverts vertex_pairs bind]. destruct (contains_loop _ _ _); eauto. }
      unfold insert_vertices. destruct vs as [|v0 vs0]; [eauto|]. set (l := v0 :: vs0).
      assert (D : forall v, exists b, vertex_rejected (A:=ArithF) t v = Ok b).
      { intros v. unfold vertex_rejected, contains_is. destruct (C (t_boundary t) v) as (c & E); [rewrite Eb; left; reflexivity|]. rewrite E. cbn [bind]. destruct (negb _); [eauto|].
        assert (F : exists bad, filterM (fun h => let! o := let! o := poly_contains (A:=ArithF) h v in Ok match o with Some c' => cont_eqb c' Outside | None => false end in Ok (negb o)) (t_holes t) = Ok bad).
        { assert (C' : forall h, In h (t_holes t) -> exists c, poly_contains (A:=ArithF) h v = Ok c) by (intros h Hh; apply C; right; rewrite <- Eh; exact Hh).
          revert C'. generalize (t_holes t) as L. clear. induction L as [|h L IH]; intros C'; [exists []; reflexivity|]. destruct (C' h (or_introl eq_refl)) as (c & E). destruct IH as (b & Eb0); [intros h' Hh'; apply C'; right; exact Hh'|].
          cbn [filterM]. rewrite E. cbn [bind]. rewrite Eb0. cbn [bind]. eauto. }
        destruct F as (bad & ->). cbn [bind]. eauto. }
      assert (F : exists bad, filterM (vertex_rejected (A:=ArithF) t) l = Ok bad).
      { clear - D. induction l as [|v l IH]; [exists []; reflexivity|]. destruct (D v) as (b & E), IH as (m & Em). cbn [filterM]. rewrite E. cbn [bind]. rewrite Em. cbn [bind]. eauto. }
      destruct F as (bad & ->). cbn [bind]. destruct bad; eauto. }
    destruct T as (t' & r & E). exists t', r. split; [exact E|]. pose proof (insert_vertices_spec H p t vs t' r E) as S.
    assert (Q : forall v w, grid_reads v w -> (vertex_admissible (A:=ArithF) t v <-> in_domain lb' hs' w)) by (intros v w Hvw; apply (admissible_exact t lb lb' hs hs'); assumption).
    assert (L : forall v, In v vs -> exists w, In w vs' /\ grid_reads v w).
    { clear - Rv. induction Rv; intros v Hv; [destruct Hv|]. destruct Hv as [<-|Hv]; [eexists; split; [left; reflexivity|assumption]|]. destruct (IHRv v Hv) as (u & U1 & U2). exists u. split; [right; exact U1|exact U2]. }
    split.
    - split.
      + intros ->. destruct S as [_ S]. intros w Hw. destruct (Forall2_in_r _ _ _ Rv w Hw) as (v & Hv & Hvw). apply (Q v w Hvw). apply S. exact Hv.
      + intros Hall. destruct r as [|bad]; [reflexivity|]. destruct S as (_ & Nn & S). exfalso. destruct bad as [|v bad]; [apply Nn; reflexivity|]. destruct (proj1 (S v) (or_introl eq_refl)) as [Hv Hn].
        destruct (L v Hv) as (w & Hw & Hvw). apply Hn. apply (Q v w Hvw). apply Hall. exact Hw.
    - intros bad ->. destruct S as (-> & _ & S). split; [reflexivity|]. intros v w Hvw Hv. rewrite S, (Q v w Hvw). tauto.
  Qed.
End Grid.
