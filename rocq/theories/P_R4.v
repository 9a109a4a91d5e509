(** P_R4.v — areas, quality, angles and circles over the reals (C11, C12, C13, C57). *)

From Coq Require Import Nsatz Reals List ZArith Lra Lia Psatz Bool Permutation.
From Verif Require Import Base Arith Geometry Elements Polyline Triangulator Interface ArithR SpecR P_Base P_R1.
Import ListNotations.
Local Open Scope R_scope.

(** ** Areas (C12) *)
Lemma area_triangle_spec : forall a b c : pnt, (area_triangle a b c : R) = area2 a b c / 2.
Proof.
  intros a b c. change (area_triangle a b c : R) with
    (((X a * (Y b * 1 - Y c * 1) - Y a * (X b * 1 - X c * 1) + 1 * (X b * Y c - X c * Y b)) / INR 2)).
  replace (INR 2) with 2 by (cbn; ring). unfold area2. field.
Qed.

Lemma tri_area_spec : forall t : triangle ArithR, is_ghost t = false ->
  exists x : R, tri_area t = Some x /\ x = area2 (tv1 t) (tv2 t) (tv3 t) / 2 /\
    (0 < x <-> 0 < area2 (tv1 t) (tv2 t) (tv3 t)).
Proof.
  intros t Ht. unfold tri_area. rewrite Ht. exists (area_triangle (tv1 t) (tv2 t) (tv3 t)).
  split; [reflexivity|]. split; [apply area_triangle_spec|]. rewrite area_triangle_spec. lra.
Qed.

Definition trapezoid (s : edge ArithR) : R := (X (snd s) - X (fst s)) * (Y (snd s) + Y (fst s)) / 2.
Lemma area_segments_total : forall l : list (edge ArithR), (area_segments l : R) = total (map trapezoid l).
Proof.
  intros l.
  assert (G : forall (l : list (edge ArithR)) (k : R),
    fold_left (fun acc s => acc + (X (snd s) - X (fst s)) * (Y (snd s) + Y (fst s)) / INR 2) l k = k + total (map trapezoid l)).
  { clear l. induction l as [|s l IH]; intros k; cbn [fold_left map].
    - unfold total. cbn. ring.
    - rewrite IH. change (total (trapezoid s :: map trapezoid l)) with (trapezoid s + total (map trapezoid l)).
      replace (INR 2) with 2 by (cbn; ring). unfold trapezoid. ring. }
  change (area_segments l : R) with (fold_left (fun acc s => acc + (X (snd s) - X (fst s)) * (Y (snd s) + Y (fst s)) / INR 2) l (INR 0)).
  rewrite (G l (INR 0)). cbn [INR]. ring.
Qed.

Lemma trapezoid_path : forall (l : list pnt) a,
  total (map trapezoid (path_sides (a :: l))) =
  - shoelace (path_sides (a :: l)) + (X (last l a) * Y (last l a) - X a * Y a) / 2.
Proof.
  induction l as [|b l IH]; intros a.
  - unfold shoelace, total. cbn. field.
  - change (path_sides (a :: b :: l)) with ((a, b) :: path_sides (b :: l)). cbn [map]. unfold shoelace in *. cbn [map].
    assert (Ht : forall x l, total (x :: l) = x + total l) by reflexivity. rewrite !Ht, IH.
    assert (El : last (b :: l) a = last l b).
    { clear. revert b. induction l as [|c l IH]; intros b; [reflexivity|]. change (last (b :: c :: l) a) with (last (c :: l) a).
      rewrite IH. change (last (c :: l) b) with (match l with [] => c | _ :: _ => last l b end). destruct l as [|d l]; [reflexivity|].
      clear. revert d. induction l as [|e l IH]; intros d; [reflexivity|]. apply IH. }
    rewrite El. unfold trapezoid. cbn [fst snd]. field.
Qed.

Lemma area_polygon : forall l : list pnt, (area_segments (polygon_sides l) : R) = - shoelace (polygon_sides l).
Proof.
  intros [|a l]; rewrite area_segments_total.
  - unfold shoelace, total. cbn. ring.
  - change (polygon_sides (a :: l)) with (path_sides (a :: (l ++ [a]))). rewrite trapezoid_path, last_last. field.
Qed.

Lemma total_perm : forall l l', Permutation l l' -> total l = total l'.
Proof. intros l l' Hp. induction Hp; unfold total in *; cbn; lra. Qed.
Lemma area_segments_perm : forall l l' : list (edge ArithR), Permutation l l' -> (area_segments l : R) = area_segments l'.
Proof. intros l l' Hp. rewrite !area_segments_total. apply total_perm, Permutation_map, Hp. Qed.
Lemma area_segments_reverse : forall l : list (edge ArithR),
  (area_segments (map (fun s => (snd s, fst s)) l) : R) = - (area_segments l : R).
Proof.
  intros l. rewrite !area_segments_total. induction l as [|s l IH]; unfold total in *; cbn; [ring|].
  rewrite IH. unfold trapezoid. cbn [fst snd]. field.
Qed.
(** A triangle's sides enclose minus its area. *)
Lemma area_sides_triangle : forall a b c : pnt,
  (area_segments [(a, b); (b, c); (c, a)] : R) = - (area_triangle a b c : R).
Proof.
  intros a b c. rewrite area_triangle_spec, area_segments_total. unfold total, trapezoid, area2. cbn. field.
Qed.

(** ** Quality (C11) *)
Lemma distance_dist : forall a b : pnt, (distance a b : R) = dist a b.
Proof. reflexivity. Qed.

Lemma d2_nonneg : forall a b, 0 <= d2 a b.
Proof. intros. unfold d2. apply Rplus_le_le_0_compat; apply Rle_0_sqr. Qed.
Lemma dist_nonneg : forall a b, 0 <= dist a b.
Proof. intros. apply sqrt_pos. Qed.
Lemma dist_sq : forall a b, dist a b * dist a b = d2 a b.
Proof. intros. apply sqrt_sqrt, d2_nonneg. Qed.
Lemma dist_sym : forall a b, dist a b = dist b a.
Proof. intros. unfold dist, d2. f_equal. ring. Qed.

(** The squared form of "radius = product of the sides / 4 area". *)
Lemma circumradius_sq : forall o a b c : pnt, d2 o a = d2 o b -> d2 o a = d2 o c ->
  d2 a b * d2 b c * d2 c a = 4 * (area2 a b c * area2 a b c) * d2 o a.
Proof.
  intros o a b c H1 H2.
  (* relative coordinates *)
  unfold d2, area2 in *.
  set (ax := X a - X o) in *. set (ay := Y a - Y o) in *. set (bx := X b - X o). set (by_ := Y b - Y o).
  set (cx := X c - X o). set (cy := Y c - Y o).
  assert (E1 : ax * ax + ay * ay = bx * bx + by_ * by_) by (unfold ax, ay, bx, by_; lra).
  assert (E2 : ax * ax + ay * ay = cx * cx + cy * cy) by (unfold ax, ay, cx, cy; lra).
  replace (X a - X b) with (ax - bx) by (unfold ax, bx; ring). replace (Y a - Y b) with (ay - by_) by (unfold ay, by_; ring).
  replace (X b - X c) with (bx - cx) by (unfold cx, bx; ring). replace (Y b - Y c) with (by_ - cy) by (unfold cy, by_; ring).
  replace (X c - X a) with (cx - ax) by (unfold ax, cx; ring). replace (Y c - Y a) with (cy - ay) by (unfold ay, cy; ring).
  replace (X b - X a) with (bx - ax) by (unfold ax, bx; ring). replace (Y b - Y a) with (by_ - ay) by (unfold ay, by_; ring).
  replace (X o - X a) with (- ax) by (unfold ax; ring). replace (Y o - Y a) with (- ay) by (unfold ay; ring).
  clearbody ax ay bx by_ cx cy. clear - E1 E2. nsatz.
Qed.

Lemma quality_eq : forall a b c : pnt, vghost a || vghost b || vghost c = false ->
  quality (Tri a b c) = Some (if Rleb (dist a b) (dist b c) && Rleb (dist a b) (dist c a) then dist b c * dist c a / (INR 4 * area_triangle a b c)
    else if Rleb (dist b c) (dist c a) then dist a b * dist c a / (INR 4 * area_triangle a b c)
    else dist a b * dist b c / (INR 4 * area_triangle a b c)).
Proof.
  intros a b c Hg. unfold quality, is_ghost. cbn [tv1 tv2 tv3]. rewrite Hg.
  change (fle (a:=ArithR) (distance a b) (distance b c)) with (Rleb (dist a b) (dist b c)).
  change (fle (a:=ArithR) (distance a b) (distance c a)) with (Rleb (dist a b) (dist c a)).
  change (fle (a:=ArithR) (distance b c) (distance c a)) with (Rleb (dist b c) (dist c a)).
  destruct (_ && _); [reflexivity|]. destruct (Rleb _ _); reflexivity.
Qed.

Lemma sq_sum0 : forall x y : R, 0 = x * x + y * y -> x = 0 /\ y = 0.
Proof. intros x y E. split; [apply (Rplus_sqr_eq_0_l x y)|apply (Rplus_sqr_eq_0 x y)]; unfold Rsqr; lra. Qed.

Lemma area_dist_pos : forall a b c, area2 a b c <> 0 -> 0 < dist a b /\ 0 < dist b c /\ 0 < dist c a.
Proof.
  intros a b c Ha. unfold dist. repeat split; apply sqrt_lt_R0.
  - destruct (Rle_lt_or_eq_dec _ _ (d2_nonneg a b)) as [|E]; [assumption|]. exfalso. apply Ha.
    assert (X a - X b = 0 /\ Y a - Y b = 0) as [E1 E2] by (apply sq_sum0; exact E). unfold area2. replace (X b) with (X a) by lra. replace (Y b) with (Y a) by lra. ring.
  - destruct (Rle_lt_or_eq_dec _ _ (d2_nonneg b c)) as [|E]; [assumption|]. exfalso. apply Ha.
    assert (X b - X c = 0 /\ Y b - Y c = 0) as [E1 E2] by (apply sq_sum0; exact E). unfold area2. replace (X c) with (X b) by lra. replace (Y c) with (Y b) by lra. ring.
  - destruct (Rle_lt_or_eq_dec _ _ (d2_nonneg c a)) as [|E]; [assumption|]. exfalso. apply Ha.
    assert (X c - X a = 0 /\ Y c - Y a = 0) as [E1 E2] by (apply sq_sum0; exact E). unfold area2. replace (X c) with (X a) by lra. replace (Y c) with (Y a) by lra. ring.
Qed.

Lemma quality_product : forall a b c : pnt, vghost a || vghost b || vghost c = false -> area2 a b c <> 0 ->
  exists q : R, quality (Tri a b c) = Some q /\ q = dist a b * dist b c * dist c a / (2 * area2 a b c) / shortest a b c.
Proof.
  intros a b c Hg Ha. eexists. split; [apply quality_eq, Hg|]. rewrite area_triangle_spec.
  destruct (area_dist_pos a b c Ha) as (P1 & P2 & P3).
  replace (INR 4) with 4 by (cbn; ring). unfold shortest.
  destruct (Rleb_spec (dist a b) (dist b c)), (Rleb_spec (dist a b) (dist c a)), (Rleb_spec (dist b c) (dist c a)); cbn [andb].
  all: unfold Rmin; repeat destruct (Rle_dec _ _); try (exfalso; lra).
  all: try (field; repeat split; lra).
Qed.

Lemma shortest_rotate : forall a b c, shortest b c a = shortest a b c.
Proof. intros. unfold shortest, Rmin. repeat destruct (Rle_dec _ _); lra. Qed.
Lemma shortest_pos : forall a b c, area2 a b c <> 0 -> 0 < shortest a b c.
Proof.
  intros a b c Ha. destruct (area_dist_pos a b c Ha) as (P1 & P2 & P3). unfold shortest. repeat apply Rmin_glb_lt; assumption.
Qed.

Lemma quality_rotate : forall a b c : pnt, area2 a b c <> 0 -> quality (Tri b c a) = quality (Tri a b c).
Proof.
  intros a b c Ha. destruct (vghost a || vghost b || vghost c) eqn:Hg.
  - unfold quality, is_ghost. cbn [tv1 tv2 tv3]. rewrite Hg.
    replace (vghost b || vghost c || vghost a) with true by (rewrite <- Hg; destruct (vghost a), (vghost b), (vghost c); reflexivity). reflexivity.
  - destruct (quality_product a b c Hg Ha) as (q & -> & ->).
    assert (Hg' : vghost b || vghost c || vghost a = false) by (rewrite <- Hg; destruct (vghost a), (vghost b), (vghost c); reflexivity).
    assert (Ha' : area2 b c a <> 0) by (rewrite area2_rotate; exact Ha).
    destruct (quality_product b c a Hg' Ha') as (q' & -> & ->). f_equal. rewrite area2_rotate, shortest_rotate.
    pose proof (shortest_pos a b c Ha). field. split; lra.
Qed.

Lemma circumradius : forall o a b c : pnt, d2 o a = d2 o b -> d2 o a = d2 o c -> 0 < area2 a b c ->
  dist a b * dist b c * dist c a / (2 * area2 a b c) = dist o a.
Proof.
  intros o a b c H1 H2 Ha. pose proof (circumradius_sq o a b c H1 H2) as E.
  assert (P : 0 <= dist a b * dist b c * dist c a) by (repeat apply Rmult_le_pos; apply dist_nonneg).
  apply Rsqr_inj.
  - apply Rmult_le_pos; [exact P|]. apply Rlt_le, Rinv_0_lt_compat. lra.
  - apply dist_nonneg.
  - unfold Rsqr. rewrite dist_sq.
    replace (dist a b * dist b c * dist c a / (2 * area2 a b c) * (dist a b * dist b c * dist c a / (2 * area2 a b c)))
      with ((dist a b * dist a b) * (dist b c * dist b c) * (dist c a * dist c a) / (4 * (area2 a b c * area2 a b c))) by (field; lra).
    rewrite !dist_sq, E. field. lra.
Qed.

Lemma quality_spec : forall a b c : pnt, vghost a || vghost b || vghost c = false -> 0 < area2 a b c ->
  forall o : pnt, d2 o a = d2 o b -> d2 o a = d2 o c ->
  exists q : R, quality (Tri a b c) = Some q /\ q = dist o a / shortest a b c /\ / sqrt 3 <= q.
Proof.
  intros a b c Hg Ha o H1 H2. destruct (quality_product a b c Hg) as (q & Hq & Eq); [lra|]. exists q. split; [exact Hq|].
  rewrite (circumradius o a b c H1 H2 Ha) in Eq. split; [exact Eq|]. rewrite Eq.
  pose proof (shortest_pos a b c ltac:(lra)) as Hp.
  (* the squares of the sides sum to at most 9 radius^2 *)
  assert (S : d2 a b + d2 b c + d2 c a <= 9 * d2 o a).
  { assert (S' : d2 a b + d2 b c + d2 c a = 9 * d2 o a - ((X a + X b + X c - 3 * X o) * (X a + X b + X c - 3 * X o) + (Y a + Y b + Y c - 3 * Y o) * (Y a + Y b + Y c - 3 * Y o))).
    { replace (9 * d2 o a) with (3 * d2 o a + 3 * d2 o b + 3 * d2 o c) by lra. unfold d2. ring. }
    rewrite S'. pose proof (Rle_0_sqr (X a + X b + X c - 3 * X o)) as Q1. pose proof (Rle_0_sqr (Y a + Y b + Y c - 3 * Y o)) as Q2. unfold Rsqr in *. lra. }
  assert (L : shortest a b c * shortest a b c <= 3 * d2 o a).
  { assert (L1 : shortest a b c * shortest a b c <= d2 a b) by (rewrite <- dist_sq; unfold shortest; apply Rmult_le_compat; try (apply Rlt_le; exact Hp); apply Rmin_l).
    assert (L2 : shortest a b c <= dist b c) by (unfold shortest; eapply Rle_trans; [apply Rmin_r|apply Rmin_l]).
    assert (L3 : shortest a b c <= dist c a) by (unfold shortest; eapply Rle_trans; [apply Rmin_r|apply Rmin_r]).
    assert (L2' : shortest a b c * shortest a b c <= d2 b c) by (rewrite <- dist_sq; apply Rmult_le_compat; lra).
    assert (L3' : shortest a b c * shortest a b c <= d2 c a) by (rewrite <- dist_sq; apply Rmult_le_compat; lra).
    lra. }
  assert (P3 : 0 < sqrt 3) by (apply sqrt_lt_R0; lra).
  assert (S3 : sqrt 3 * sqrt 3 = 3) by (apply sqrt_sqrt; lra).
  apply (Rmult_le_reg_r (sqrt 3 * shortest a b c)); [nra|].
  replace (/ sqrt 3 * (sqrt 3 * shortest a b c)) with (shortest a b c) by (field; lra).
  replace (dist o a / shortest a b c * (sqrt 3 * shortest a b c)) with (sqrt 3 * dist o a) by (field; lra).
  apply Rsqr_incr_0; [|lra|apply Rmult_le_pos; [lra|apply dist_nonneg]]. unfold Rsqr.
  replace (sqrt 3 * dist o a * (sqrt 3 * dist o a)) with ((sqrt 3 * sqrt 3) * (dist o a * dist o a)) by ring.
  rewrite S3, dist_sq. exact L.
Qed.

Lemma quality_ghost : forall t : triangle ArithR, is_ghost t = true -> quality t = None.
Proof. intros t Ht. unfold quality. rewrite Ht. reflexivity. Qed.

(** ** Angles (C13) *)
Definition cosine (a b c : pnt) : R := dotp b a b c / (dist a b * dist c b).

Lemma angle_eq : forall a b c : pnt,
  angle a b c = Some (if orient_eqb (orientation a b c) CW then 2 * PI - acos (cosine a b c) else acos (cosine a b c)).
Proof.
  intros a b c. unfold angle.
  change (facos (a:=ArithR)) with acos.
  assert (E : cosine a b c = ((X a - X b) * (X c - X b) + (Y a - Y b) * (Y c - Y b)) /
    (sqrt ((X a - X b) * (X a - X b) + (Y a - Y b) * (Y a - Y b)) * sqrt ((X c - X b) * (X c - X b) + (Y c - Y b) * (Y c - Y b)))) by reflexivity.
  rewrite E. replace 2 with (INR 2) by (cbn; ring). destruct (orient_eqb _ _); reflexivity.
Qed.

Lemma cosine_bound : forall a b c : pnt, d2 a b <> 0 -> d2 c b <> 0 -> -1 <= cosine a b c <= 1.
Proof.
  intros a b c Ha Hc. unfold cosine.
  assert (Pa : 0 < dist a b) by (apply sqrt_lt_R0; pose proof (d2_nonneg a b); lra).
  assert (Pc : 0 < dist c b) by (apply sqrt_lt_R0; pose proof (d2_nonneg c b); lra).
  assert (P : 0 < dist a b * dist c b) by nra.
  assert (CS : dotp b a b c * dotp b a b c <= (dist a b * dist c b) * (dist a b * dist c b)).
  { replace ((dist a b * dist c b) * (dist a b * dist c b)) with ((dist a b * dist a b) * (dist c b * dist c b)) by ring.
    rewrite !dist_sq. unfold dotp, d2.
    assert (0 <= ((X a - X b) * (Y c - Y b) - (Y a - Y b) * (X c - X b)) * ((X a - X b) * (Y c - Y b) - (Y a - Y b) * (X c - X b))) by apply Rle_0_sqr. lra. }
  set (k := dist a b * dist c b) in *. set (d := dotp b a b c) in *. clearbody k d.
  assert (B : - k <= d <= k) by nra.
  split; apply (Rmult_le_reg_r k); try exact P; unfold Rdiv; rewrite Rmult_assoc, Rinv_l by lra; lra.
Qed.

Lemma angle_spec : forall a b c : pnt,
  exists th : R, angle a b c = Some th /\ 0 <= th <= 2 * PI /\
    (d2 a b <> 0 -> d2 c b <> 0 -> cos th * (dist a b * dist c b) = dotp b a b c).
Proof.
  intros a b c. eexists. split; [apply angle_eq|]. pose proof PI_RGT_0. pose proof (acos_bound (cosine a b c)) as Hb. split.
  - destruct (orient_eqb _ _); lra.
  - intros Ha Hc. pose proof (cosine_bound a b c Ha Hc) as Hc'.
    assert (Pa : 0 < dist a b) by (apply sqrt_lt_R0; pose proof (d2_nonneg a b); lra).
    assert (Pc : 0 < dist c b) by (apply sqrt_lt_R0; pose proof (d2_nonneg c b); lra).
    assert (E : cos (if orient_eqb (orientation a b c) CW then 2 * PI - acos (cosine a b c) else acos (cosine a b c)) = cosine a b c).
    { destruct (orient_eqb _ _); [|apply cos_acos; exact Hc'].
      replace (2 * PI - acos (cosine a b c)) with (- acos (cosine a b c) + 2 * INR 1 * PI) by (cbn; ring).
      rewrite cos_period, cos_neg. apply cos_acos. exact Hc'. }
    rewrite E. unfold cosine. field. lra.
Qed.
(** Convex or reflex: at most a half turn unless the corner is clockwise. *)
Lemma angle_side : forall a b c : pnt,
  exists th : R, angle a b c = Some th /\ (area2 a b c < - eps -> PI <= th) /\ (- eps <= area2 a b c -> th <= PI).
Proof.
  intros a b c. eexists. split; [apply angle_eq|]. pose proof (acos_bound (cosine a b c)) as Hb.
  destruct (orientation_spec a b c) as (O1 & O2 & O3). pose proof eps_pos. split; intros Ho.
  - replace (orientation a b c) with CW by (symmetry; apply O2; exact Ho). cbn. lra.
  - destruct (orientation a b c) eqn:E; cbn; try lra. assert (area2 a b c < - eps) by (apply O2; reflexivity). lra.
Qed.

(** ** Circles (C57) *)
Lemma circle_point_dist : forall (r ang : R) (c : pnt),
  d2 (circle_point (A:=ArithR) r ang (X c, Y c)) c = r * r.
Proof.
  intros r ang c. unfold d2.
  change (X (circle_point (A:=ArithR) r ang (X c, Y c))) with (X c + r * cos ang).
  change (Y (circle_point (A:=ArithR) r ang (X c, Y c))) with (Y c + r * sin ang).
  pose proof (sin2_cos2 ang) as E. unfold Rsqr in E. nsatz.
Qed.

Lemma circle_chord : forall (r al be : R) (c : R * R),
  d2 (circle_point (A:=ArithR) r al c) (circle_point (A:=ArithR) r be c) = 2 * (r * r) * (1 - cos (be - al)).
Proof.
  intros r al be c. unfold d2.
  change (X (circle_point (A:=ArithR) r al c)) with (fst c + r * cos al). change (Y (circle_point (A:=ArithR) r al c)) with (snd c + r * sin al).
  change (X (circle_point (A:=ArithR) r be c)) with (fst c + r * cos be). change (Y (circle_point (A:=ArithR) r be c)) with (snd c + r * sin be).
  rewrite cos_minus. pose proof (sin2_cos2 al) as E1. pose proof (sin2_cos2 be) as E2. unfold Rsqr in *.
  replace ((fst c + r * cos al - (fst c + r * cos be)) * (fst c + r * cos al - (fst c + r * cos be)) + (snd c + r * sin al - (snd c + r * sin be)) * (snd c + r * sin al - (snd c + r * sin be)))
    with (r * r * ((sin al * sin al + cos al * cos al) + (sin be * sin be + cos be * cos be) - 2 * (cos be * cos al + sin be * sin al))) by ring.
  rewrite E1, E2. ring.
Qed.

Lemma path_sides_seq : forall (f : nat -> pnt) n k s, In s (path_sides (map f (seq k n))) ->
  exists i, s = (f i, f (S i)).
Proof.
  intros f. induction n as [|n IH]; intros k s Hs; [destruct Hs|]. destruct n as [|n]; [destruct Hs|].
  change (path_sides (map f (seq k (S (S n))))) with ((f k, f (S k)) :: path_sides (map f (seq (S k) (S n)))) in Hs.
  destruct Hs as [<-|Hs]; [exists k; reflexivity|]. exact (IH (S k) s Hs).
Qed.

Lemma circle_points_spec : forall (r : R) (c : R * R) n, (1 <= n)%nat ->
  let pts := circle_points (A:=ArithR) r c n in
  length pts = n /\
  (forall v, In v pts -> vghost v = false /\ d2 v (V (A:=ArithR) (fst c) (snd c) false) = r * r) /\
  (forall a b, In (a, b) (polygon_sides pts) -> d2 a b = 2 * (r * r) * (1 - cos (2 * PI / INR n))).
Proof.
  intros r c n Hn pts.
  set (f := fun i : nat => circle_point (A:=ArithR) r (PI * INR 2 / INR n * INR i) c).
  assert (Ep : pts = map f (seq 0 n)) by reflexivity.
  assert (Hnz : INR n <> 0) by (apply not_0_INR; lia).
  split; [rewrite Ep, map_length, seq_length; reflexivity|]. split.
  - intros v Hv. rewrite Ep in Hv. apply in_map_iff in Hv. destruct Hv as (i & <- & _). split; [reflexivity|].
    unfold f. destruct c as [cx cy]. apply (circle_point_dist r _ (V (A:=ArithR) cx cy false)).
  - intros a b Hs.
    assert (Ef : f n = f 0%nat).
    { unfold f, circle_point.
      replace (PI * INR 2 / INR n * INR n) with (0 + 2 * INR 1 * PI) by (cbn; field; exact Hnz).
      replace (PI * INR 2 / INR n * INR 0) with 0 by (cbn; ring).
      change (fcos (a:=ArithR)) with cos. change (fsin (a:=ArithR)) with sin.
      rewrite (cos_period 0 1), (sin_period 0 1). reflexivity. }
    assert (Es : polygon_sides pts = path_sides (map f (seq 0 (S n)))).
    { rewrite seq_S, map_app. cbn [map plus]. rewrite Ef, Ep. destruct n as [|n]; [lia|]. reflexivity. }
    rewrite Es in Hs. apply path_sides_seq in Hs. destruct Hs as (i & E). injection E as -> ->.
    unfold f. rewrite circle_chord.
    assert (Ea : PI * INR 2 / INR n * INR (S i) - PI * INR 2 / INR n * INR i = 2 * PI / INR n).
    { rewrite (S_INR i). replace (INR 2) with 2 by (cbn; ring). field. exact Hnz. }
    rewrite Ea. reflexivity.
Qed.

Lemma round_spec : forall (x : R) (n : nat), INR n - / 2 <= x < INR n + / 2 -> Rround_usize x = n.
Proof.
  intros x n Hx. unfold Rround_usize.
  assert (E : up (x + / 2) = (Z.of_nat n + 1)%Z).
  { symmetry. apply tech_up; rewrite plus_IZR, <- INR_IZR_INZ; lra. }
  rewrite E. replace (Z.of_nat n + 1 - 1)%Z with (Z.of_nat n) by lia. apply Nat2Z.id.
Qed.

Lemma parse_circle_spec : forall (a : action ArithR) (r : R) rest (c : R * R) (n : nat),
  a_scalars a = r :: rest -> a_points a = [c] ->
  (rest = [] /\ n = 100%nat \/ exists x, hd_error rest = Some x /\ INR n - / 2 <= x < INR n + / 2) -> (3 <= n)%nat ->
  exists pts, parse_circle a = Ok (Some (Poly pts false)) /\ length pts = n /\
    (forall v, In v pts -> vghost v = false /\ d2 v (V (A:=ArithR) (fst c) (snd c) false) = r * r) /\
    (forall u v, In (u, v) (polygon_sides pts) -> d2 u v = 2 * (r * r) * (1 - cos (2 * PI / INR n))).
Proof.
  intros a r rest c n Hs Hp Hn Hge. exists (circle_points (A:=ArithR) r c n).
  destruct (circle_points_spec r c n ltac:(lia)) as (H1 & H2 & H3).
  split; [|repeat split; solve [exact H1|apply H2; assumption|exact H3]].
  assert (E : (match rest with v :: _ => fround_usize (a:=ArithR) v | [] => 100%nat end) = n).
  { destruct Hn as [[-> ->]|(x & Hx & Hr)]; [reflexivity|]. destruct rest as [|x' rest]; [discriminate|].
    injection Hx as ->. apply round_spec, Hr. }
  assert (P : parse_circle a = (let! pl := unwrap (new_closed (circle_points (A:=ArithR) r c (match rest with v :: _ => fround_usize (a:=ArithR) v | [] => 100%nat end))) in Ok (Some pl))).
  { unfold parse_circle. rewrite Hs, Hp. reflexivity. }
  rewrite P, E. unfold new_closed. rewrite H1. destruct (Nat.ltb_spec n 3); [lia|]. reflexivity.
Qed.
