(** P_Z14.v — the meeting point of two segments of doubles. *)

From Coq Require Import Reals List ZArith Bool Lia Lra Floats.SpecFloat.
From Verif Require Import Base Arith ArithR ArithF Geometry Elements Polyline SpecR SpecF P_RX P_R1 P_R2 P_R6 P_Z1 P_Z2 P_Z3 P_Z5 P_Z6 P_Z7 P_Z8 P_Z9 P_Z13.
Import ListNotations.
Local Open Scope R_scope.

Lemma fine_min : forall k r s, fine_number k r -> fine_number k s -> fine_number k (Rmin r s).
Proof. intros k r s Hr Hs. unfold Rmin. destruct (Rle_dec r s); assumption. Qed.
Lemma fine_max : forall k r s, fine_number k r -> fine_number k s -> fine_number k (Rmax r s).
Proof. intros k r s Hr Hs. unfold Rmax. destruct (Rle_dec r s); assumption. Qed.
Lemma min_double : forall x y r s, double x r -> double y s -> double (fmin (A:=ArithF) x y) (Rmin r s).
Proof. intros x y r s Hx Hy. rewrite <- fmin_R. apply fmin_double; assumption. Qed.
Lemma max_double : forall x y r s, double x r -> double y s -> double (fmax (A:=ArithF) x y) (Rmax r s).
Proof. intros x y r s Hx Hy. rewrite <- fmax_R. apply fmax_double; assumption. Qed.
Lemma min_self : forall r s, Rmin (Rmin r r) s = Rmin r s.
Proof. intros r s. rewrite (Rmin_left r r) by lra. reflexivity. Qed.
Lemma max_self : forall r s, Rmax (Rmax r r) s = Rmax r s.
Proof. intros r s. rewrite (Rmax_left r r) by lra. reflexivity. Qed.

(** The box around two points, and what two such boxes share. *)
Lemma pair_box : forall a b a' b', reads a a' -> reads b b' -> exists bb, bbox_from_vertices (A:=ArithF) [a; b] = Some bb /\
  double (bx0 bb) (Rmin (X a') (X b')) /\ double (by0 bb) (Rmin (Y a') (Y b')) /\ double (bx1 bb) (Rmax (X a') (X b')) /\ double (by1 bb) (Rmax (Y a') (Y b')).
Proof.
  intros a b a' b' (Xa & Ya & _) (Xb & Yb & _). cbn [bbox_from_vertices fold_left]. eexists. split; [reflexivity|]. cbn [bbox_step bx0 by0 bx1 by1]. unfold X, Y.
  rewrite <- (min_self (vx a') (vx b')), <- (min_self (vy a') (vy b')), <- (max_self (vx a') (vx b')), <- (max_self (vy a') (vy b')).
  repeat split; repeat (apply min_double || apply max_double); assumption.
Qed.

Definition low (f : pnt -> R) (a b c d : pnt) : R := Rmax (Rmin (f a) (f b)) (Rmin (f c) (f d)).
Definition high (f : pnt -> R) (a b c d : pnt) : R := Rmin (Rmax (f a) (f b)) (Rmax (f c) (f d)).
Lemma low_le : forall f a b c d r, low f a b c d <= r -> Rmin (f a) (f b) <= r /\ Rmin (f c) (f d) <= r.
Proof. intros f a b c d r Hr. unfold low in Hr. pose proof (Rmax_l (Rmin (f a) (f b)) (Rmin (f c) (f d))). pose proof (Rmax_r (Rmin (f a) (f b)) (Rmin (f c) (f d))). lra. Qed.
Lemma high_ge : forall f a b c d r, r <= high f a b c d -> r <= Rmax (f a) (f b) /\ r <= Rmax (f c) (f d).
Proof. intros f a b c d r Hr. unfold high in Hr. pose proof (Rmin_l (Rmax (f a) (f b)) (Rmax (f c) (f d))). pose proof (Rmin_r (Rmax (f a) (f b)) (Rmax (f c) (f d))). lra. Qed.

Lemma one_meeting : forall a b c d p q : pnt, crossp a b c d <> 0 -> area2 a b p = 0 -> area2 c d p = 0 -> area2 a b q = 0 -> area2 c d q = 0 -> X p = X q /\ Y p = Y q.
Proof.
  intros a b c d p q Hx A1 A2 A3 A4. unfold area2, crossp in *. set (u := X b - X a) in *. set (v := Y b - Y a) in *. set (u' := X d - X c) in *. set (v' := Y d - Y c) in *. set (e := X p - X q). set (f := Y p - Y q).
  assert (U1 : u * f = v * e) by (unfold e, f; lra). assert (U2 : u' * f = v' * e) by (unfold e, f; lra). clear A1 A2 A3 A4.
  assert (V1 : (u * v' - v * u') * e = 0). { replace ((u * v' - v * u') * e) with (u * (v' * e) - u' * (v * e)) by ring. rewrite <- U1, <- U2. ring. }
  assert (V2 : (u * v' - v * u') * f = 0). { replace ((u * v' - v * u') * f) with (v' * (u * f) - v * (u' * f)) by ring. rewrite U1, U2. ring. }
  apply Rmult_integral in V1, V2. unfold e, f in *. lra.
Qed.

(** Exact sums and products, with their sizes. *)
Lemma sub_b : forall x y a b k m n, dz x a k -> dz y b k -> (Z.abs a <= m)%Z -> (Z.abs b <= n)%Z -> (m + n <? 2 ^ 53)%Z = true -> dz (fpsub x y) (a - b) k /\ (Z.abs (a - b) <= m + n)%Z.
Proof. intros x y a b k m n Hx Hy Ha Hb Hs. apply Z.ltb_lt in Hs. assert (Q : (Z.abs (a - b) <= m + n)%Z) by lia. split; [apply dz_sub; [assumption|assumption|exact (Z.le_lt_trans _ _ _ Q Hs)]|exact Q]. Qed.
Lemma mul_b : forall x y a b k l m n, dz x a k -> dz y b l -> (Z.abs a <= m)%Z -> (Z.abs b <= n)%Z -> (m * n <? 2 ^ 53)%Z = true -> (-1074 <= k + l <= 900)%Z -> dz (fpmul x y) (a * b) (k + l) /\ (Z.abs (a * b) <= m * n)%Z.
Proof. intros x y a b k l m n Hx Hy Ha Hb Hs Hkl. apply Z.ltb_lt in Hs. pose proof (mul_bound a b m n Ha Hb) as Q. split; [apply dz_mul; [assumption|assumption|exact (Z.le_lt_trans _ _ _ Q Hs)|exact Hkl]|exact Q]. Qed.
Lemma neg_b : forall x a k m, dz x a k -> (Z.abs a <= m)%Z -> dz (fpopp x) (- a) k /\ (Z.abs (- a) <= m)%Z.
Proof. intros x a k m Hx Ha. split; [apply dz_neg; exact Hx|rewrite Z.abs_opp; exact Ha]. Qed.
Lemma kk_ok : forall k, fine_spacing k -> (-1074 <= k + k <= 900)%Z.
Proof. intros k Hk. unfold fine_spacing in Hk. lia. Qed.

Section Four.
  Variable k : Z.
  Hypothesis Hk : fine_spacing k.
  Variables (a b c d : vertex ArithF) (a' b' c' d' : pnt).
  Hypotheses (Fa : fine_reads k a a') (Fb : fine_reads k b b') (Fc : fine_reads k c c') (Fd : fine_reads k d d').

  Lemma region_double : 
    (intersection_region (A:=ArithF) a b c d = None /\ ~ (low X a' b' c' d' <= high X a' b' c' d' /\ low Y a' b' c' d' <= high Y a' b' c' d')) \/
    (exists bb, intersection_region (A:=ArithF) a b c d = Some bb /\ low X a' b' c' d' <= high X a' b' c' d' /\ low Y a' b' c' d' <= high Y a' b' c' d' /\
       double (bx0 bb) (low X a' b' c' d') /\ double (by0 bb) (low Y a' b' c' d') /\ double (bx1 bb) (high X a' b' c' d') /\ double (by1 bb) (high Y a' b' c' d')).
  Proof.
    destruct Fa as [Ra _], Fb as [Rb _], Fc as [Rc _], Fd as [Rd _]. destruct (pair_box a b a' b' Ra Rb) as (b1 & E1 & P1 & P2 & P3 & P4). destruct (pair_box c d c' d' Rc Rd) as (b2 & E2 & Q1 & Q2 & Q3 & Q4).
    unfold intersection_region. rewrite E1, E2. unfold bbox_intersection. change (fle (a:=ArithF)) with SFleb.
    pose proof (max_double _ _ _ _ P1 Q1) as L1. pose proof (max_double _ _ _ _ P2 Q2) as L2. pose proof (min_double _ _ _ _ P3 Q3) as H1. pose proof (min_double _ _ _ _ P4 Q4) as H2.
    fold (low X a' b' c' d') in L1. fold (low Y a' b' c' d') in L2. fold (high X a' b' c' d') in H1. fold (high Y a' b' c' d') in H2.
    rewrite (le_double _ _ _ _ L1 H1), (le_double _ _ _ _ L2 H2). unfold Rleb. destruct (Rle_dec (low X a' b' c' d') (high X a' b' c' d')) as [A|N]; [|left; split; [reflexivity|tauto]].
    destruct (Rle_dec (low Y a' b' c' d') (high Y a' b' c' d')) as [B|N]; [|left; split; [reflexivity|tauto]]. right. eexists. split; [reflexivity|]. cbn [bx0 by0 bx1 by1]. repeat split; assumption.
  Qed.
  Lemma low_fine : forall f, (f = X \/ f = Y) -> fine_number k (low f a' b' c' d') /\ fine_number k (high f a' b' c' d').
  Proof.
    destruct Fa as [_ (Xa & Ya & _)], Fb as [_ (Xb & Yb & _)], Fc as [_ (Xc & Yc & _)], Fd as [_ (Xd & Yd & _)].
    intros f [-> | ->]; split; unfold low, high, X, Y; repeat (apply fine_min || apply fine_max); assumption.
  Qed.

  (** The point computed, and the point where the lines meet. *)
  Hypothesis Hx : crossp a' b' c' d' <> 0.
  Lemma point_double : exists dd Nx Ny tx ty, dd <> 0%Z /\ (Z.abs dd <= 2 ^ 23)%Z /\
    (forall bb, exists v, intersection_vertex (A:=ArithF) a b c d bb = Some v /\ vghost v = false /\ double (vx v) tx /\ double (vy v) ty) /\
    (big (k - 78) tx /\ Rabs tx <= pw (k + 36) /\ Rabs (tx - IZR Nx / IZR dd * pw k) <= pw k * / Rabs (IZR dd) * pw (-17)) /\
    (big (k - 78) ty /\ Rabs ty <= pw (k + 36) /\ Rabs (ty - IZR Ny / IZR dd * pw k) <= pw k * / Rabs (IZR dd) * pw (-17)) /\
    area2 a' b' (at_ (IZR Nx / IZR dd * pw k) (IZR Ny / IZR dd * pw k)) = 0 /\ area2 c' d' (at_ (IZR Nx / IZR dd * pw k) (IZR Ny / IZR dd * pw k)) = 0.
  Proof.
    destruct Fa as [Ra Pa], Fb as [Rb Pb], Fc as [Rc Pc], Fd as [Rd Pd].
    assert (Hp : parallel (A:=ArithF) a b c d = false).
    { destruct (parallel (A:=ArithF) a b c d) eqn:E; [|reflexivity]. exfalso. apply Hx. apply (float_parallel k (fine_spaced k Hk) a b c d a' b' c' d'); auto using fine_grid. }
    destruct (fine_fp k a a' Hk Ra Pa) as (i1 & j1 & (B1 & C1) & X1 & Y1 & E1 & F1). destruct (fine_fp k b b' Hk Rb Pb) as (i2 & j2 & (B2 & C2) & X2 & Y2 & E2 & F2).
    destruct (fine_fp k c c' Hk Rc Pc) as (i3 & j3 & (B3 & C3) & X3 & Y3 & E3 & F3). destruct (fine_fp k d d' Hk Rd Pd) as (i4 & j4 & (B4 & C4) & X4 & Y4 & E4 & F4).
    pose proof (kk_ok k Hk) as Kk.
    destruct (sub_b _ _ _ _ _ _ _ Y2 Y1 C2 C1 eq_refl) as [A1y Q1y]. destruct (sub_b _ _ _ _ _ _ _ X2 X1 B2 B1 eq_refl) as [A12 Q12].
    destruct (sub_b _ _ _ _ _ _ _ Y4 Y3 C4 C3 eq_refl) as [A2y Q2y]. destruct (sub_b _ _ _ _ _ _ _ X4 X3 B4 B3 eq_refl) as [A22 Q22].
    change (2 ^ 10 + 2 ^ 10)%Z with (2 ^ 11)%Z in *.
    destruct (neg_b _ _ _ _ A1y Q1y) as [A11 Q11]. destruct (neg_b _ _ _ _ A2y Q2y) as [A21 Q21].
    destruct (mul_b _ _ _ _ _ _ _ _ Y1 A12 C1 Q12 eq_refl Kk) as [U1 V1]. destruct (mul_b _ _ _ _ _ _ _ _ X1 A1y B1 Q1y eq_refl Kk) as [U2 V2].
    destruct (mul_b _ _ _ _ _ _ _ _ Y3 A22 C3 Q22 eq_refl Kk) as [U3 V3]. destruct (mul_b _ _ _ _ _ _ _ _ X3 A2y B3 Q2y eq_refl Kk) as [U4 V4].
    destruct (mul_b _ _ _ _ _ _ _ _ A11 A22 Q11 Q22 eq_refl Kk) as [U5 V5]. destruct (mul_b _ _ _ _ _ _ _ _ A21 A12 Q21 Q12 eq_refl Kk) as [U6 V6].
    destruct (sub_b _ _ _ _ _ _ _ U1 U2 V1 V2 eq_refl) as [D1 T1]. destruct (sub_b _ _ _ _ _ _ _ U3 U4 V3 V4 eq_refl) as [D2 T2]. destruct (sub_b _ _ _ _ _ _ _ U5 U6 V5 V6 eq_refl) as [DD Td].
    change (2 ^ 10 * 2 ^ 11 + 2 ^ 10 * 2 ^ 11)%Z with (2 ^ 22)%Z in *. change (2 ^ 11 * 2 ^ 11 + 2 ^ 11 * 2 ^ 11)%Z with (2 ^ 23)%Z in *.
    set (dd := (- (j2 - j1) * (i4 - i3) - - (j4 - j3) * (i2 - i1))%Z) in *. set (b1 := (j1 * (i2 - i1) - i1 * (j2 - j1))%Z) in *. set (b2 := (j3 * (i4 - i3) - i3 * (j4 - j3))%Z) in *.
    assert (Nd : dd <> 0%Z).
    { intros E. apply Hx. unfold crossp, X, Y. rewrite E1, E2, E3, E4, F1, F2, F3, F4. replace ((IZR i2 * pw k - IZR i1 * pw k) * (IZR j4 * pw k - IZR j3 * pw k) - (IZR j2 * pw k - IZR j1 * pw k) * (IZR i4 * pw k - IZR i3 * pw k)) with (IZR dd * (pw k * pw k)); [rewrite E; ring|].
      unfold dd. rewrite minus_IZR, !mult_IZR, !opp_IZR, !minus_IZR. ring. }
    destruct (solve_near k Hk _ dd DD Nd Td _ _ _ _ _ _ _ _ A22 D1 Q22 T1 (proj1 (neg_b _ _ _ _ A12 Q12)) D2 (proj2 (neg_b _ _ _ _ A12 Q12)) T2) as (tx & Dx & Qx).
    destruct (solve_near k Hk _ dd DD Nd Td _ _ _ _ _ _ _ _ (proj1 (neg_b _ _ _ _ A21 Q21)) D1 (proj2 (neg_b _ _ _ _ A21 Q21)) T1 A11 D2 Q11 T2) as (ty & Dy & Qy).
    exists dd, ((i4 - i3) * b1 + - (i2 - i1) * b2)%Z, (- - (j4 - j3) * b1 + - (j2 - j1) * b2)%Z, tx, ty. split; [exact Nd|]. split; [exact Td|]. split.
    - intros bb. unfold intersection_vertex. unfold parallel in Hp. apply negb_false_iff in Hp.
      change (fneg (a:=ArithF)) with fpopp in *. change (fsub (a:=ArithF)) with fpsub in *. change (fmul (a:=ArithF)) with fpmul in *. change (fdiv (a:=ArithF)) with fpdiv in *. change (fadd (a:=ArithF)) with fpadd in *.
      rewrite Hp. eexists. split; [reflexivity|]. split; [reflexivity|]. split; assumption.
    - split; [exact Qx|]. split; [exact Qy|]. assert (Nd' : IZR dd <> 0) by (apply IZR_neq; exact Nd).
      unfold area2, X, Y, at_, mkv. cbn [vx vy]. rewrite E1, E2, E3, E4, F1, F2, F3, F4.
      split.
      + apply Rmult_eq_reg_r with (IZR dd); [|exact Nd']. rewrite Rmult_0_l. transitivity (pw k * pw k * (IZR (i2 - i1) * (IZR (- - (j4 - j3) * b1 + - (j2 - j1) * b2) - IZR j1 * IZR dd) - IZR (j2 - j1) * (IZR ((i4 - i3) * b1 + - (i2 - i1) * b2) - IZR i1 * IZR dd))).
        * rewrite !minus_IZR. field. exact Nd'.
        * apply Rmult_eq_0_compat_l. rewrite <- !mult_IZR, <- !minus_IZR, <- !mult_IZR, <- minus_IZR. apply IZR_eq. unfold dd, b1, b2. ring.
      + apply Rmult_eq_reg_r with (IZR dd); [|exact Nd']. rewrite Rmult_0_l. transitivity (pw k * pw k * (IZR (i4 - i3) * (IZR (- - (j4 - j3) * b1 + - (j2 - j1) * b2) - IZR j3 * IZR dd) - IZR (j4 - j3) * (IZR ((i4 - i3) * b1 + - (i2 - i1) * b2) - IZR i3 * IZR dd))).
        * rewrite !minus_IZR. field. exact Nd'.
        * apply Rmult_eq_0_compat_l. rewrite <- !mult_IZR, <- !minus_IZR, <- !mult_IZR, <- minus_IZR. apply IZR_eq. unfold dd, b1, b2. ring.
  Qed.

  (** Segments that share no point are not said to meet. *)
  Lemma apart_double : ~ (exists p, on_segment a' b' p /\ on_segment c' d' p) -> intersection (A:=ArithF) a b c d = None.
  Proof.
    intros Hno. destruct (intersection (A:=ArithF) a b c d) as [v|] eqn:E; [exfalso|reflexivity]. apply Hno. clear Hno. unfold intersection in E.
    destruct region_double as [[En _]|(bb & Eb & Lx & Ly & D1 & D2 & D3 & D4)]; [rewrite En in E; discriminate|]. rewrite Eb in E.
    destruct point_double as (dd & Nx & Ny & tx & ty & Nd & Td & Hv & (Bx & Tx & Ex) & (By & Ty & Ey) & G1 & G2). destruct (Hv bb) as (w & Ew & _ & Wx & Wy). rewrite Ew in E.
    change (fle (a:=ArithF)) with SFleb in E. change (aeq (a:=ArithF)) with fpaeq in E. match type of E with (if ?q then _ else _) = _ => destruct q eqn:Eq; [|discriminate] end. apply andb_prop in Eq as [Ix Iy].
    destruct (low_fine X (or_introl eq_refl)) as [(z0 & Z0 & L0) (z1 & Z1 & L1)]. destruct (low_fine Y (or_intror eq_refl)) as [(y0 & Y0 & M0) (y1 & Y1 & M1)]. rewrite L0 in *. rewrite L1 in *. rewrite M0 in *. rewrite M1 in *.
    pose proof (between_only k Hk dd Nd Td Nx z0 z1 tx (vx w) (bx0 bb) (bx1 bb) D1 D3 Wx Bx Tx Ex ltac:(lia) ltac:(lia) Lx Ix) as Px.
    pose proof (between_only k Hk dd Nd Td Ny y0 y1 ty (vy w) (by0 bb) (by1 bb) D2 D4 Wy By Ty Ey ltac:(lia) ltac:(lia) Ly Iy) as Py.
    rewrite <- L0, <- L1 in Px. rewrite <- M0, <- M1 in Py. set (p := at_ (IZR Nx / IZR dd * pw k) (IZR Ny / IZR dd * pw k)) in *. exists p. change (IZR Nx / IZR dd * pw k) with (X p) in Px. change (IZR Ny / IZR dd * pw k) with (Y p) in Py.
    destruct Px as [P1 P2], Py as [P3 P4]. apply low_le in P1, P3. apply high_ge in P2, P4. split; apply box_on; try assumption; unfold near_box; lra.
  Qed.
  Lemma ratio_box : forall u v p : pnt, on_segment u v p -> (Rmin (X u) (X v) <= X p <= Rmax (X u) (X v)) /\ (Rmin (Y u) (Y v) <= Y p <= Rmax (Y u) (Y v)).
  Proof.
    intros u v p (t & Ht & Ex & Ey). rewrite Ex, Ey. split; unfold Rmin, Rmax; destruct (Rle_dec _ _) as [L|L]; split; nra.
  Qed.
  Lemma strictly : forall u v r, Rmin u v <= r <= Rmax u v -> r <> u -> r <> v -> Rmin u v < r < Rmax u v.
  Proof. intros u v r. unfold Rmin, Rmax. destruct (Rle_dec u v); lra. Qed.
  (** Where the segments meet, off the rows and columns of their ends. *)
  Lemma meet_double : forall p, on_segment a' b' p -> on_segment c' d' p ->
    (forall w, In w [a'; b'; c'; d'] -> X p <> X w /\ Y p <> Y w) ->
    exists v tx ty, intersection (A:=ArithF) a b c d = Some v /\ vghost v = false /\ double (vx v) tx /\ double (vy v) ty /\ Rabs (tx - X p) <= pw (k - 17) /\ Rabs (ty - Y p) <= pw (k - 17).
  Proof.
    intros p S1 S2 Off. destruct (ratio_box _ _ _ S1) as [B1 B2]. destruct (ratio_box _ _ _ S2) as [B3 B4].
    destruct (Off a' ltac:(cbn; auto)) as [Oa Oa']. destruct (Off b' ltac:(cbn; auto)) as [Ob Ob']. destruct (Off c' ltac:(cbn; auto)) as [Oc Oc']. destruct (Off d' ltac:(cbn; auto)) as [Od Od'].
    apply strictly in B1; [|assumption|assumption]. apply strictly in B2; [|assumption|assumption]. apply strictly in B3; [|assumption|assumption]. apply strictly in B4; [|assumption|assumption].
    assert (Sx : low X a' b' c' d' < X p < high X a' b' c' d') by (unfold low, high; split; [apply Rmax_lub_lt; lra|apply Rmin_glb_lt; lra]).
    assert (Sy : low Y a' b' c' d' < Y p < high Y a' b' c' d') by (unfold low, high; split; [apply Rmax_lub_lt; lra|apply Rmin_glb_lt; lra]).
    destruct region_double as [[_ Nr]|(bb & Eb & Lx & Ly & D1 & D2 & D3 & D4)]; [exfalso; apply Nr; split; lra|].
    destruct point_double as (dd & Nx & Ny & tx & ty & Nd & Td & Hv & (Bx & Tx & Ex) & (By & Ty & Ey) & G1 & G2). destruct (Hv bb) as (w & Ew & Gw & Wx & Wy).
    assert (EP : X p = IZR Nx / IZR dd * pw k /\ Y p = IZR Ny / IZR dd * pw k).
    { set (q := at_ (IZR Nx / IZR dd * pw k) (IZR Ny / IZR dd * pw k)) in *. change (X p = X q /\ Y p = Y q).
      apply (one_meeting a' b' c' d' p q Hx); [destruct S1 as (t & _ & E1 & E2); unfold area2; rewrite E1, E2; ring|destruct S2 as (t & _ & E1 & E2); unfold area2; rewrite E1, E2; ring|exact G1|exact G2]. }
    destruct EP as [EX EY].
    destruct (low_fine X (or_introl eq_refl)) as [(z0 & Z0 & L0) (z1 & Z1 & L1)]. destruct (low_fine Y (or_intror eq_refl)) as [(y0 & Y0 & M0) (y1 & Y1 & M1)].
    exists w, tx, ty. split; [|split; [exact Gw|split; [exact Wx|split; [exact Wy|]]]].
    - unfold intersection. rewrite Eb, Ew. change (fle (a:=ArithF)) with SFleb. change (aeq (a:=ArithF)) with fpaeq.
      rewrite EX, L0, L1 in Sx. rewrite EY, M0, M1 in Sy. rewrite L0 in D1. rewrite M0 in D2. rewrite L1 in D3. rewrite M1 in D4.
      rewrite (between_enough k Hk dd Nd Td Nx z0 z1 tx (vx w) (bx0 bb) (bx1 bb) D1 D3 Wx Ex Sx).
      rewrite (between_enough k Hk dd Nd Td Ny y0 y1 ty (vy w) (by0 bb) (by1 bb) D2 D4 Wy Ey Sy). reflexivity.
    - assert (Q : pw k * / Rabs (IZR dd) * pw (-17) <= pw (k - 17)). { replace (k - 17)%Z with (k + -17)%Z by lia. rewrite pw_add. apply Rmult_le_compat_r; [left; apply pw_pos|]. pose proof (abs_one dd Nd). pose proof (pw_pos k). assert (/ Rabs (IZR dd) <= 1) by (rewrite <- Rinv_1; apply Rinv_le_contravar; lra). apply Rle_trans with (pw k * 1); [apply Rmult_le_compat_l; lra|lra]. }
      rewrite EX, EY. lra.
  Qed.
End Four.

Section Sides.
  Variable k : Z.
  Hypothesis Hk : fine_spacing k.
  (** Two segments that have an end in common, are parallel or share no point are
      not said to cross. *)
  Lemma quiet_double : forall a b c d a' b' c' d', fine_reads k a a' -> fine_reads k b b' -> fine_reads k c c' -> fine_reads k d d' ->
    (a' = c' \/ a' = d' \/ b' = c' \/ b' = d' \/ crossp a' b' c' d' = 0 \/ ~ (exists p, on_segment a' b' p /\ on_segment c' d' p)) -> crosses (A:=ArithF) (a, b) (c, d) = false.
  Proof.
    intros a b c d a' b' c' d' Fa Fb Fc Fd Hq. pose proof (fine_spaced k Hk) as Sk. unfold crosses.
    assert (EQ : forall u v u' v', fine_reads k u u' -> fine_reads k v v' -> u' = v' -> veqb (A:=ArithF) u v = true).
    { intros u v u' v' [Ru Gu] [Rv Gv] E. apply (float_equal k Sk u v u' v'); auto using fine_grid. subst v'. split; reflexivity. }
    destruct Hq as [E|[E|[E|[E|[E|E]]]]].
    - rewrite (EQ a c a' c' Fa Fc E). destruct (intersection a b c d); reflexivity.
    - rewrite (EQ a d a' d' Fa Fd E), andb_false_r. destruct (intersection a b c d); reflexivity.
    - rewrite (EQ b c b' c' Fb Fc E), !andb_false_r. destruct (intersection a b c d); reflexivity.
    - rewrite (EQ b d b' d' Fb Fd E), !andb_false_r. destruct (intersection a b c d); reflexivity.
    - destruct Fa as [Ra Ga], Fb as [Rb Gb], Fc as [Rc Gc], Fd as [Rd Gd]. assert (P : parallel (A:=ArithF) a b c d = true) by (apply (float_parallel k Sk a b c d a' b' c' d'); auto using fine_grid). rewrite P, andb_false_r. destruct (intersection a b c d); reflexivity.
    - destruct (Req_dec (crossp a' b' c' d') 0) as [E0|N0].
      + destruct Fa as [Ra Ga], Fb as [Rb Gb], Fc as [Rc Gc], Fd as [Rd Gd]. assert (P : parallel (A:=ArithF) a b c d = true) by (apply (float_parallel k Sk a b c d a' b' c' d'); auto using fine_grid). rewrite P, andb_false_r. destruct (intersection a b c d); reflexivity.
      + rewrite (apart_double k Hk a b c d a' b' c' d' Fa Fb Fc Fd N0 E). reflexivity.
  Qed.
End Sides.
