(** P_R3.v — segment intersection over the reals. *)

From Coq Require Import Reals List ZArith Lra Psatz Bool.
From Verif Require Import Base Arith Geometry Elements Polyline ArithR SpecR P_R1 P_R2.
Import ListNotations.
Local Open Scope R_scope.

Lemma XV : forall x y g, X (V (A:=ArithR) x y g) = x.
Proof. reflexivity. Qed.
Lemma YV : forall x y g, Y (V (A:=ArithR) x y g) = y.
Proof. reflexivity. Qed.

Definition lo_x (a b c d : pnt) := Rmax (Rmin (X a) (X b)) (Rmin (X c) (X d)).
Definition up_x (a b c d : pnt) := Rmin (Rmax (X a) (X b)) (Rmax (X c) (X d)).
Definition lo_y (a b c d : pnt) := Rmax (Rmin (Y a) (Y b)) (Rmin (Y c) (Y d)).
Definition up_y (a b c d : pnt) := Rmin (Rmax (Y a) (Y b)) (Rmax (Y c) (Y d)).

Lemma region_eq : forall a b c d : pnt,
  intersection_region a b c d =
  if Rleb (lo_x a b c d) (up_x a b c d) && Rleb (lo_y a b c d) (up_y a b c d)
  then Some (BB (A:=ArithR) (lo_x a b c d) (lo_y a b c d) (up_x a b c d) (up_y a b c d)) else None.
Proof.
  intros a b c d. unfold intersection_region.
  destruct (two_box a b) as ([p0 q0 p1 q1] & -> & E1 & E2 & E3 & E4). destruct (two_box c d) as ([r0 s0 r1 s1] & -> & F1 & F2 & F3 & F4).
  cbn [bx0 by0 bx1 by1] in *. subst. unfold bbox_intersection. cbn [bx0 by0 bx1 by1].
  rewrite (fmax_R _ (Rmin (X c) (X d))), (fmin_R _ (Rmax (X c) (X d))), (fmax_R _ (Rmin (Y c) (Y d))), (fmin_R _ (Rmax (Y c) (Y d))).
  reflexivity.
Qed.

(** The common point of two lines that are not parallel. *)
Definition line_b (a b : pnt) : R := Y a * (X b - X a) - X a * (Y b - Y a).
Definition meet (a b c d : pnt) : pnt :=
  let D := - (Y b - Y a) * (X d - X c) - - (Y d - Y c) * (X b - X a) in
  V (A:=ArithR) ((X d - X c) / D * line_b a b + - (X b - X a) / D * line_b c d)
                (- - (Y d - Y c) / D * line_b a b + - (Y b - Y a) / D * line_b c d) false.
Definition centre (b : box) : pnt := V (A:=ArithR) ((bx0 b + bx1 b) / INR 2) ((by0 b + by1 b) / INR 2) false.

Lemma intersection_vertex_eq : forall (a b c d : pnt) (bb : box),
  intersection_vertex a b c d bb =
  if negb (Reqb (- (Y b - Y a) * (X d - X c) - - (Y d - Y c) * (X b - X a)) 0) then Some (meet a b c d)
  else let m := centre bb in
    if Raeq (- (Y b - Y a) * X m + (X b - X a) * Y m - line_b a b) 0
       && Raeq (- (Y d - Y c) * X m + (X d - X c) * Y m - line_b c d) 0
    then Some m else None.
Proof. reflexivity. Qed.

Lemma line_residual : forall a b m, - (Y b - Y a) * X m + (X b - X a) * Y m - line_b a b = area2 a b m.
Proof. intros. unfold line_b, area2. ring. Qed.
Lemma idet_cross : forall a b c d, - (Y b - Y a) * (X d - X c) - - (Y d - Y c) * (X b - X a) = crossp a b c d.
Proof. intros. unfold crossp. ring. Qed.

Lemma meet_coords : forall a b c d, crossp a b c d <> 0 ->
  X (meet a b c d) * crossp a b c d = (X d - X c) * line_b a b - (X b - X a) * line_b c d /\
  Y (meet a b c d) * crossp a b c d = (Y d - Y c) * line_b a b - (Y b - Y a) * line_b c d.
Proof.
  intros a b c d Hc. unfold meet. cbv zeta. rewrite idet_cross, XV, YV. split; field; exact Hc.
Qed.

Lemma meet_on_lines : forall a b c d, crossp a b c d <> 0 -> on_line a b (meet a b c d) /\ on_line c d (meet a b c d).
Proof.
  intros a b c d Hc. destruct (meet_coords a b c d Hc) as [Ex Ey]. unfold on_line.
  rewrite <- !line_residual. set (m := meet a b c d) in *.
  split; apply Rmult_eq_reg_r with (crossp a b c d); try exact Hc.
  - transitivity (- (Y b - Y a) * (X m * crossp a b c d) + (X b - X a) * (Y m * crossp a b c d) - line_b a b * crossp a b c d); [ring|].
    rewrite Ex, Ey. unfold crossp. ring.
  - transitivity (- (Y d - Y c) * (X m * crossp a b c d) + (X d - X c) * (Y m * crossp a b c d) - line_b c d * crossp a b c d); [ring|].
    rewrite Ex, Ey. unfold crossp. ring.
Qed.

Lemma meet_unique : forall a b c d p, crossp a b c d <> 0 -> on_line a b p -> on_line c d p -> coincide p (meet a b c d).
Proof.
  intros a b c d p Hc H1 H2. destruct (meet_coords a b c d Hc) as [Ex Ey]. unfold on_line in *.
  rewrite <- line_residual in H1, H2. unfold coincide.
  split; apply Rmult_eq_reg_r with (crossp a b c d); try exact Hc; [rewrite Ex|rewrite Ey]; unfold crossp; nra.
Qed.

(** ** C05 *)
Definition in_range (x lo up : R) : bool := (Rleb lo x && Rleb x up) || Raeq lo x || Raeq up x.
Lemma in_range_near : forall x lo up, in_range x lo up = true -> lo <= up -> lo - eps <= x <= up + eps.
Proof.
  intros x lo up. unfold in_range. pose proof eps_pos. repeat rcase; intros; try discriminate; lra.
Qed.
Lemma in_range_within : forall x lo up, lo <= x <= up -> in_range x lo up = true.
Proof. intros x lo up Hx. unfold in_range. repeat rcase; try reflexivity; lra. Qed.

Lemma intersection_eq : forall a b c d : pnt,
  intersection a b c d =
  match intersection_region a b c d with
  | None => None
  | Some bb => match intersection_vertex a b c d bb with
    | None => None
    | Some v => if in_range (X v) (bx0 bb) (bx1 bb) && in_range (Y v) (by0 bb) (by1 bb) then Some v else None
    end
  end.
Proof. reflexivity. Qed.

Lemma intersection_some : forall a b c d p : pnt, intersection a b c d = Some p ->
  lo_x a b c d <= up_x a b c d /\ lo_y a b c d <= up_y a b c d /\
  lo_x a b c d - eps <= X p <= up_x a b c d + eps /\ lo_y a b c d - eps <= Y p <= up_y a b c d + eps /\
  vghost p = false /\
  ((crossp a b c d <> 0 /\ on_line a b p /\ on_line c d p) \/
   (crossp a b c d = 0 /\ - eps <= area2 a b p <= eps /\ - eps <= area2 c d p <= eps)).
Proof.
  intros a b c d p. rewrite intersection_eq, region_eq.
  destruct (Rleb_spec (lo_x a b c d) (up_x a b c d)) as [Hx|Hx]; cbn [andb]; [|discriminate].
  destruct (Rleb_spec (lo_y a b c d) (up_y a b c d)) as [Hy|Hy]; [|discriminate].
  rewrite intersection_vertex_eq, idet_cross. cbn [bx0 bx1 by0 by1].
  destruct (Reqb_spec (crossp a b c d) 0) as [Hc|Hc]; cbn [negb]; cbv zeta.
  - rewrite !line_residual. set (m := centre _).
    destruct (Raeq_spec (area2 a b m) 0) as [H1|H1]; cbn [andb]; [|discriminate].
    destruct (Raeq_spec (area2 c d m) 0) as [H2|H2]; [|discriminate].
    destruct (in_range (X m) _ _) eqn:R1; cbn [andb]; [|discriminate]. destruct (in_range (Y m) _ _) eqn:R2; [|discriminate].
    intros E. injection E as <-. apply in_range_near in R1; [|exact Hx]. apply in_range_near in R2; [|exact Hy].
    repeat split; try assumption; try lra; right; repeat split; lra.
  - set (m := meet a b c d) in *. destruct (in_range (X m) _ _) eqn:R1; cbn [andb]; [|discriminate].
    destruct (in_range (Y m) _ _) eqn:R2; [|discriminate]. intros E. injection E as <-.
    apply in_range_near in R1; [|exact Hx]. apply in_range_near in R2; [|exact Hy].
    destruct (meet_on_lines a b c d Hc) as [L1 L2].
    repeat split; try assumption; try lra; left; auto.
Qed.

Lemma intersection_sound : forall a b c d p : pnt, intersection a b c d = Some p ->
  near_box eps a b p /\ near_box eps c d p /\ vghost p = false /\
  (crossp a b c d <> 0 -> on_line a b p /\ on_line c d p) /\
  - eps <= area2 a b p <= eps /\ - eps <= area2 c d p <= eps.
Proof.
  intros a b c d p Hi. destruct (intersection_some a b c d p Hi) as (_ & _ & Hx & Hy & Hg & Hl).
  pose proof eps_pos. unfold lo_x, lo_y, up_x, up_y, near_box in *.
  pose proof (Rmax_l (Rmin (X a) (X b)) (Rmin (X c) (X d))). pose proof (Rmax_r (Rmin (X a) (X b)) (Rmin (X c) (X d))).
  pose proof (Rmax_l (Rmin (Y a) (Y b)) (Rmin (Y c) (Y d))). pose proof (Rmax_r (Rmin (Y a) (Y b)) (Rmin (Y c) (Y d))).
  pose proof (Rmin_l (Rmax (X a) (X b)) (Rmax (X c) (X d))). pose proof (Rmin_r (Rmax (X a) (X b)) (Rmax (X c) (X d))).
  pose proof (Rmin_l (Rmax (Y a) (Y b)) (Rmax (Y c) (Y d))). pose proof (Rmin_r (Rmax (Y a) (Y b)) (Rmax (Y c) (Y d))).
  split; [lra|]. split; [lra|]. split; [exact Hg|].
  destruct Hl as [(Hc & L1 & L2)|(Hc & L1 & L2)].
  - unfold on_line in *. repeat split; intros; try assumption; lra.
  - split; [intros; contradiction|]. auto.
Qed.

(** ** C06 *)
Lemma shared_in_region : forall a b c d p, near_box 0 a b p -> near_box 0 c d p ->
  lo_x a b c d <= X p <= up_x a b c d /\ lo_y a b c d <= Y p <= up_y a b c d.
Proof.
  intros a b c d p [[H1 H2] [H3 H4]] [[H5 H6] [H7 H8]]. unfold lo_x, lo_y, up_x, up_y.
  repeat split; first [apply Rmax_lub | apply Rmin_glb]; lra.
Qed.

(** On a common line the two ends of the overlap add up to the same as the
    parameters do, whatever the direction. *)
Lemma overlap_sum : forall x dx s u : R,
  Rmax (Rmin x (x + dx)) (Rmin (x + s * dx) (x + u * dx)) + Rmin (Rmax x (x + dx)) (Rmax (x + s * dx) (x + u * dx))
  = 2 * x + (Rmax 0 (Rmin s u) + Rmin 1 (Rmax s u)) * dx.
Proof.
  intros x dx s u. destruct (Rle_lt_dec 0 dx) as [Hd|Hd].
  - assert (Hmono : forall p q, p <= q -> x + p * dx <= x + q * dx) by (intros; nra).
    assert (Emin : forall p q, Rmin (x + p * dx) (x + q * dx) = x + Rmin p q * dx).
    { intros p q. unfold Rmin at 2. destruct (Rle_dec p q) as [Hp|Hp]; [apply Rmin_left|apply Rmin_right]; apply Hmono; lra. }
    assert (Emax : forall p q, Rmax (x + p * dx) (x + q * dx) = x + Rmax p q * dx).
    { intros p q. unfold Rmax at 2. destruct (Rle_dec p q) as [Hp|Hp]; [apply Rmax_right|apply Rmax_left]; apply Hmono; lra. }
    replace (Rmin x (x + dx)) with (x + 0 * dx) by (rewrite Rmin_left; lra).
    replace (Rmax x (x + dx)) with (x + 1 * dx) by (rewrite Rmax_right; lra).
    rewrite !Emin, !Emax, !Emin. ring.
  - assert (Hmono : forall p q, p <= q -> x + q * dx <= x + p * dx) by (intros; nra).
    assert (Emin : forall p q, Rmin (x + p * dx) (x + q * dx) = x + Rmax p q * dx).
    { intros p q. unfold Rmax at 1. destruct (Rle_dec p q) as [Hp|Hp]; [apply Rmin_right|apply Rmin_left]; apply Hmono; lra. }
    assert (Emax : forall p q, Rmax (x + p * dx) (x + q * dx) = x + Rmin p q * dx).
    { intros p q. unfold Rmin at 1. destruct (Rle_dec p q) as [Hp|Hp]; [apply Rmax_left|apply Rmax_right]; apply Hmono; lra. }
    replace (Rmin x (x + dx)) with (x + 1 * dx) by (rewrite Rmin_right; lra).
    replace (Rmax x (x + dx)) with (x + 0 * dx) by (rewrite Rmax_left; lra).
    rewrite !Emin, !Emax, !Emin. ring.
Qed.

Lemma degenerate_x : forall x p q : R, Rmin p q <= x <= Rmax p q ->
  Rmax (Rmin x x) (Rmin p q) + Rmin (Rmax x x) (Rmax p q) = 2 * x.
Proof.
  intros x p q [H1 H2]. rewrite (Rmin_left x x), (Rmax_left x x) by lra. rewrite Rmax_left, Rmin_left by assumption. ring.
Qed.

Lemma centre_on_line : forall a b c d p, crossp a b c d = 0 -> on_segment a b p -> on_segment c d p ->
  let m := centre (BB (A:=ArithR) (lo_x a b c d) (lo_y a b c d) (up_x a b c d) (up_y a b c d)) in
  area2 a b m = 0 /\ area2 c d m = 0.
Proof.
  intros a b c d p Hc Hab Hcd m.
  assert (Ex : X m = (lo_x a b c d + up_x a b c d) / 2).
  { unfold m, centre, X at 1. cbn [vx bx0 bx1]. replace (INR 2) with 2 by (cbn; ring). reflexivity. }
  assert (Ey : Y m = (lo_y a b c d + up_y a b c d) / 2).
  { unfold m, centre, Y at 1. cbn [vy by0 by1]. replace (INR 2) with 2 by (cbn; ring). reflexivity. }
  clearbody m.
  pose proof (on_segment_box _ _ _ Hab) as [Bab _]. pose proof (on_segment_box _ _ _ Hcd) as [Bcd _].
  destruct Hab as (t & Ht & Px & Py). destruct Hcd as (r & Hr & Qx & Qy).
  destruct (Req_dec (X b - X a) 0) as [Zx|Nx].
  - destruct (Req_dec (Y b - Y a) 0) as [Zy|Ny].
    + (* ab is a point *)
      assert (Pa : X p = X a /\ Y p = Y a) by (rewrite Px, Py, Zx, Zy; lra). destruct Pa as [Pa1 Pa2].
      unfold near_box in Bcd. rewrite Pa1, Pa2 in Bcd.
      assert (Mx : X m = X a).
      { rewrite Ex. unfold lo_x, up_x. replace (X b) with (X a) by lra. rewrite (degenerate_x (X a) (X c) (X d)) by lra. field. }
      assert (My : Y m = Y a).
      { rewrite Ey. unfold lo_y, up_y. replace (Y b) with (Y a) by lra. rewrite (degenerate_x (Y a) (Y c) (Y d)) by lra. field. }
      split; unfold area2; rewrite Mx, My; [ring|]. rewrite <- Pa1, <- Pa2, Qx, Qy. ring.
    + (* vertical line *)
      assert (Sdef : exists s u, X c = X a + s * (X b - X a) /\ Y c = Y a + s * (Y b - Y a) /\
                     X d = X a + u * (X b - X a) /\ Y d = Y a + u * (Y b - Y a)).
      { unfold crossp in Hc. assert (Xcd : X d - X c = 0) by nra.
        assert (Xc : X c = X a) by (rewrite Zx in Px; rewrite Xcd in Qx; lra).
        exists ((Y c - Y a) / (Y b - Y a)), ((Y d - Y a) / (Y b - Y a)).
        repeat split; try (field; exact Ny); rewrite Zx; lra. }
      destruct Sdef as (s & u & C1 & C2 & D1 & D2).
      assert (Sx : lo_x a b c d + up_x a b c d = 2 * X a + (Rmax 0 (Rmin s u) + Rmin 1 (Rmax s u)) * (X b - X a)).
      { unfold lo_x, up_x. rewrite C1, D1. replace (X b) with (X a + (X b - X a)) at 1 4 by ring. apply overlap_sum. }
      assert (Sy : lo_y a b c d + up_y a b c d = 2 * Y a + (Rmax 0 (Rmin s u) + Rmin 1 (Rmax s u)) * (Y b - Y a)).
      { unfold lo_y, up_y. rewrite C2, D2. replace (Y b) with (Y a + (Y b - Y a)) at 1 4 by ring. apply overlap_sum. }
      set (k := Rmax 0 (Rmin s u) + Rmin 1 (Rmax s u)) in *.
      split; unfold area2; rewrite Ex, Ey, Sx, Sy, ?C1, ?C2, ?D1, ?D2; field.
  - assert (Sdef : exists s u, X c = X a + s * (X b - X a) /\ Y c = Y a + s * (Y b - Y a) /\
                   X d = X a + u * (X b - X a) /\ Y d = Y a + u * (Y b - Y a)).
    { unfold crossp in Hc. set (k := (X d - X c) / (X b - X a)).
      assert (K1 : X d - X c = k * (X b - X a)) by (unfold k; field; exact Nx).
      assert (K2 : Y d - Y c = k * (Y b - Y a)).
      { rewrite K1 in Hc. apply Rmult_eq_reg_l with (X b - X a); [|exact Nx]. lra. }
      rewrite K1 in Qx. rewrite K2 in Qy.
      exists (t - r * k), (t - r * k + k). repeat split; lra. }
    destruct Sdef as (s & u & C1 & C2 & D1 & D2).
    assert (Sx : lo_x a b c d + up_x a b c d = 2 * X a + (Rmax 0 (Rmin s u) + Rmin 1 (Rmax s u)) * (X b - X a)).
    { unfold lo_x, up_x. rewrite C1, D1. replace (X b) with (X a + (X b - X a)) at 1 4 by ring. apply overlap_sum. }
    assert (Sy : lo_y a b c d + up_y a b c d = 2 * Y a + (Rmax 0 (Rmin s u) + Rmin 1 (Rmax s u)) * (Y b - Y a)).
    { unfold lo_y, up_y. rewrite C2, D2. replace (Y b) with (Y a + (Y b - Y a)) at 1 4 by ring. apply overlap_sum. }
    set (k := Rmax 0 (Rmin s u) + Rmin 1 (Rmax s u)) in *.
    split; unfold area2; rewrite Ex, Ey, Sx, Sy, ?C1, ?C2, ?D1, ?D2; field.
Qed.

Lemma Raeq_zero : Raeq 0 0 = true.
Proof. apply Raeq_refl. Qed.

Lemma intersection_complete : forall a b c d p, on_segment a b p -> on_segment c d p ->
  exists q, intersection a b c d = Some q /\ (crossp a b c d <> 0 -> coincide p q).
Proof.
  intros a b c d p Hab Hcd. pose proof (on_segment_box _ _ _ Hab) as [Bab Lab]. pose proof (on_segment_box _ _ _ Hcd) as [Bcd Lcd].
  destruct (shared_in_region _ _ _ _ _ Bab Bcd) as [Rx Ry].
  rewrite intersection_eq, region_eq.
  destruct (Rleb_spec (lo_x a b c d) (up_x a b c d)) as [Hx|Hx]; [|lra].
  destruct (Rleb_spec (lo_y a b c d) (up_y a b c d)) as [Hy|Hy]; [|lra]. cbn [andb].
  rewrite intersection_vertex_eq, idet_cross. cbn [bx0 bx1 by0 by1].
  destruct (Reqb_spec (crossp a b c d) 0) as [Hc|Hc]; cbn [negb]; cbv zeta.
  - destruct (centre_on_line a b c d p Hc Hab Hcd) as [M1 M2]. rewrite !line_residual, M1, M2, Raeq_zero. cbn [andb].
    set (m := centre _).
    assert (Ex : X m = (lo_x a b c d + up_x a b c d) / 2).
    { unfold m, centre, X at 1. cbn [vx bx0 bx1]. replace (INR 2) with 2 by (cbn; ring). reflexivity. }
    assert (Ey : Y m = (lo_y a b c d + up_y a b c d) / 2).
    { unfold m, centre, Y at 1. cbn [vy by0 by1]. replace (INR 2) with 2 by (cbn; ring). reflexivity. }
    rewrite (in_range_within (X m)), (in_range_within (Y m)) by lra. exists m. split; [reflexivity|]. intros; contradiction.
  - destruct (meet_unique a b c d p Hc Lab Lcd) as [E1 E2]. rewrite <- E1, <- E2.
    rewrite (in_range_within (X p)), (in_range_within (Y p)) by lra. cbn [andb].
    exists (meet a b c d). split; [reflexivity|]. intros _. split; assumption.
Qed.

Lemma region_sym : forall a b c d, lo_x a b c d = lo_x c d a b /\ up_x a b c d = up_x c d a b /\
  lo_y a b c d = lo_y c d a b /\ up_y a b c d = up_y c d a b.
Proof.
  intros. unfold lo_x, lo_y, up_x, up_y. rewrite (Rmax_comm (Rmin (X a) (X b))), (Rmin_comm (Rmax (X a) (X b))),
    (Rmax_comm (Rmin (Y a) (Y b))), (Rmin_comm (Rmax (Y a) (Y b))). auto.
Qed.
Lemma region_flip : forall a b c d, lo_x a b c d = lo_x b a c d /\ up_x a b c d = up_x b a c d /\
  lo_y a b c d = lo_y b a c d /\ up_y a b c d = up_y b a c d.
Proof.
  intros. unfold lo_x, lo_y, up_x, up_y. rewrite (Rmin_comm (X a)), (Rmax_comm (X a)), (Rmin_comm (Y a)), (Rmax_comm (Y a)). auto.
Qed.

Lemma pnt_eq : forall p q : pnt, X p = X q -> Y p = Y q -> vghost p = vghost q -> p = q.
Proof. intros [x y g] [x' y' g']. cbn. unfold X, Y. cbn. intros -> -> ->. reflexivity. Qed.

Lemma meet_sym : forall a b c d, crossp a b c d <> 0 -> meet a b c d = meet c d a b.
Proof.
  intros a b c d Hc. assert (Hc' : crossp c d a b <> 0) by (intros E; apply Hc; unfold crossp in *; lra).
  destruct (meet_on_lines a b c d Hc) as [L1 L2]. destruct (meet_unique c d a b _ Hc' L2 L1) as [E1 E2].
  apply pnt_eq; [exact E1|exact E2|reflexivity].
Qed.
Lemma meet_flip : forall a b c d, crossp a b c d <> 0 -> meet a b c d = meet b a c d.
Proof.
  intros a b c d Hc. assert (Hc' : crossp b a c d <> 0) by (intros E; apply Hc; unfold crossp in *; lra).
  destruct (meet_on_lines a b c d Hc) as [L1 L2]. assert (L1' : on_line b a (meet a b c d)) by (unfold on_line in *; rewrite area2_swap; lra).
  destruct (meet_unique b a c d _ Hc' L1' L2) as [E1 E2].
  apply pnt_eq; [exact E1|exact E2|reflexivity].
Qed.

Lemma Raeq_opp : forall x, Raeq (- x) 0 = Raeq x 0.
Proof. intros x. repeat rcase; try reflexivity; exfalso; lra. Qed.

Lemma intersection_sym : forall a b c d : pnt, intersection a b c d = intersection c d a b.
Proof.
  intros a b c d. rewrite !intersection_eq, !region_eq. destruct (region_sym a b c d) as (-> & -> & -> & ->).
  destruct (_ && _); [|reflexivity]. rewrite !intersection_vertex_eq, !idet_cross. cbv zeta. rewrite !line_residual.
  assert (Ec : crossp c d a b = - crossp a b c d) by (unfold crossp; ring). rewrite Ec.
  destruct (Reqb_spec (crossp a b c d) 0) as [Hc|Hc], (Reqb_spec (- crossp a b c d) 0) as [Hc'|Hc']; try (exfalso; lra); cbn [negb].
  - rewrite (andb_comm (Raeq (area2 a b _) 0)). reflexivity.
  - rewrite (meet_sym a b c d Hc). reflexivity.
Qed.

Lemma intersection_flip : forall a b c d : pnt, intersection a b c d = intersection b a c d.
Proof.
  intros a b c d. rewrite !intersection_eq, !region_eq. destruct (region_flip a b c d) as (-> & -> & -> & ->).
  destruct (_ && _); [|reflexivity]. rewrite !intersection_vertex_eq, !idet_cross. cbv zeta. rewrite !line_residual.
  assert (Ec : crossp b a c d = - crossp a b c d) by (unfold crossp; ring). rewrite Ec.
  destruct (Reqb_spec (crossp a b c d) 0) as [Hc|Hc], (Reqb_spec (- crossp a b c d) 0) as [Hc'|Hc']; try (exfalso; lra); cbn [negb].
  - rewrite (area2_swap a b), Raeq_opp. reflexivity.
  - rewrite (meet_flip a b c d Hc). reflexivity.
Qed.
