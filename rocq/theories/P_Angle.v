(** P_Angle.v — the angles of a triangle and its quality (C135). *)

From Coq Require Import Reals List ZArith Lra Lia Psatz Bool.
From Verif Require Import Base Arith Geometry Elements ArithR Spec SpecR P_R1 P_R2 P_R4 P_RX.
Import ListNotations.
Local Open Scope R_scope.

(** Sine and cosine of the angle at the middle corner. *)
Lemma angle_corner : forall a b c : pnt, 0 < area2 a b c ->
  exists th : R, angle a b c = Some th /\ 0 < th < PI /\ cos th * (dist a b * dist b c) = dotp b a b c /\ sin th * (dist a b * dist b c) = area2 a b c.
Proof.
  intros a b c Ha. destruct (angle_spec a b c) as (th & E & [B0 B1] & C). destruct (angle_side a b c) as (th' & E' & _ & S). rewrite E in E'. injection E' as <-.
  destruct (area_dist_pos a b c ltac:(lra)) as (P1 & P2 & _).
  assert (Esym : dist c b = dist b c) by (unfold dist; f_equal; unfold d2; ring).
  pose proof (dist_sq a b) as Q1. pose proof (dist_sq b c) as Q2.
  assert (N1 : d2 a b <> 0) by (rewrite <- Q1; apply Rgt_not_eq, Rmult_lt_0_compat; assumption).
  assert (N2 : d2 c b <> 0) by (replace (d2 c b) with (d2 b c) by (unfold d2; ring); rewrite <- Q2; apply Rgt_not_eq, Rmult_lt_0_compat; assumption).
  specialize (C N1 N2). rewrite Esym in C. pose proof eps_pos as Hp. specialize (S ltac:(lra)).
  assert (G : sin th * (dist a b * dist b c) = area2 a b c).
  { assert (Sn : 0 <= sin th) by (apply sin_ge_0; lra).
    assert (K : 0 < dist a b * dist b c) by (apply Rmult_lt_0_compat; assumption).
    apply Rsqr_inj; [apply Rmult_le_pos; lra|lra|]. unfold Rsqr.
    pose proof (sin2_cos2 th) as T. unfold Rsqr in T.
    replace (sin th * (dist a b * dist b c) * (sin th * (dist a b * dist b c))) with ((sin th * sin th) * ((dist a b * dist a b) * (dist b c * dist b c))) by ring.
    replace (sin th * sin th) with (1 - cos th * cos th) by lra.
    replace ((1 - cos th * cos th) * ((dist a b * dist a b) * (dist b c * dist b c))) with ((dist a b * dist a b) * (dist b c * dist b c) - (cos th * (dist a b * dist b c)) * (cos th * (dist a b * dist b c))) by ring.
    rewrite C, Q1, Q2. unfold dotp, d2, area2. ring. }
  exists th. split; [exact E|]. split; [|split; [exact C|exact G]].
  assert (K : 0 < dist a b * dist b c) by (apply Rmult_lt_0_compat; assumption).
  split; apply Rnot_le_lt; intros L.
  - assert (th = 0) by lra. subst th. rewrite sin_0 in G. lra.
  - assert (th = PI) by lra. subst th. rewrite sin_PI in G. lra.
Qed.

Lemma corners_rotate : forall a b c : pnt, area2 b c a = area2 a b c /\ area2 c a b = area2 a b c.
Proof. intros. unfold area2. split; ring. Qed.

(** The angles sum to a half turn. *)
Lemma angle_sum : forall a b c : pnt, 0 < area2 a b c ->
  exists al be ga : R, angle c a b = Some al /\ angle a b c = Some be /\ angle b c a = Some ga /\ 0 < al /\ 0 < be /\ 0 < ga /\ al + be + ga = PI.
Proof.
  intros a b c Ha. destruct (corners_rotate a b c) as [R1 R2].
  destruct (angle_corner a b c Ha) as (be & E2 & B2 & C2 & S2).
  destruct (angle_corner b c a ltac:(lra)) as (ga & E3 & B3 & C3 & S3). destruct (angle_corner c a b ltac:(lra)) as (al & E1 & B1 & C1 & S1).
  exists al, be, ga. split; [exact E1|]. split; [exact E2|]. split; [exact E3|]. split; [lra|]. split; [lra|]. split; [lra|].
  destruct (area_dist_pos a b c ltac:(lra)) as (P1 & P2 & P3).
  pose proof (dist_sq a b) as Q1. pose proof (dist_sq b c) as Q2. pose proof (dist_sq c a) as Q3.
  set (u := dist a b) in *. set (v := dist b c) in *. set (w := dist c a) in *.
  assert (K : 0 < u * u * v * w) by (repeat apply Rmult_lt_0_compat; assumption).
  assert (EC : cos (al + be) = - cos ga).
  { rewrite cos_plus. apply (Rmult_eq_reg_r (u * u * v * w)); [|lra].
    replace ((cos al * cos be - sin al * sin be) * (u * u * v * w)) with ((cos al * (w * u)) * (cos be * (u * v)) - (sin al * (w * u)) * (sin be * (u * v))) by ring.
    replace (- cos ga * (u * u * v * w)) with (- (cos ga * (v * w)) * (u * u)) by ring.
    rewrite C1, C2, C3, S1, S2, Q1. unfold dotp, d2, area2. ring. }
  assert (ES : sin (al + be) = sin ga).
  { rewrite sin_plus. apply (Rmult_eq_reg_r (u * u * v * w)); [|lra].
    replace ((sin al * cos be + cos al * sin be) * (u * u * v * w)) with ((sin al * (w * u)) * (cos be * (u * v)) + (cos al * (w * u)) * (sin be * (u * v))) by ring.
    replace (sin ga * (u * u * v * w)) with ((sin ga * (v * w)) * (u * u)) by ring.
    rewrite C1, C2, S1, S2, S3, Q1. unfold dotp, d2, area2. ring. }
  assert (Pg : 0 < sin ga) by (apply sin_gt_0; lra).
  assert (L : al + be < PI).
  { apply Rnot_le_lt. intros L. assert (0 <= - sin (al + be)); [|lra].
    replace (- sin (al + be)) with (sin (al + be - PI)); [apply sin_ge_0; lra|]. rewrite sin_minus, sin_PI, cos_PI. ring. }
  assert (E : al + be = PI - ga); [|lra].
  rewrite <- (acos_cos (al + be)) by lra. rewrite <- (acos_cos (PI - ga)) by lra. f_equal. rewrite EC. rewrite cos_minus, cos_PI, sin_PI. ring.
Qed.

(** Quality and the sine of an angle. *)
Lemma quality_sine : forall (a b c : pnt) (q th : R), vghost a || vghost b || vghost c = false -> 0 < area2 a b c -> quality (Tri a b c) = Some q -> angle a b c = Some th ->
  0 < q /\ / (2 * q) = sin th * shortest a b c / dist c a.
Proof.
  intros a b c q th Hg Ha Hq Ht. destruct (quality_product a b c Hg ltac:(lra)) as (q' & Hq' & Eq). rewrite Hq in Hq'. injection Hq' as <-.
  destruct (angle_corner a b c Ha) as (th' & Et & _ & _ & S). rewrite Ht in Et. injection Et as <-.
  destruct (area_dist_pos a b c ltac:(lra)) as (P1 & P2 & P3). pose proof (shortest_pos a b c ltac:(lra)) as Ps.
  assert (Eq' : @eq R q (dist a b * dist b c * dist c a / (2 * area2 a b c * shortest a b c))) by (rewrite Eq; field; lra).
  split.
  - rewrite Eq'. apply Rdiv_lt_0_compat; repeat apply Rmult_lt_0_compat; lra.
  - rewrite Eq', <- S.
    assert (Ps' : 0 < sin th).
    { apply (Rmult_lt_reg_r (dist a b * dist b c)); [apply Rmult_lt_0_compat; assumption|]. rewrite S. lra. }
    field. lra.
Qed.

Lemma asin_below : forall s th, -1 <= s <= 1 -> 0 < th < PI -> s <= sin th -> asin s <= th.
Proof.
  intros s th Hs Ht L. apply Rnot_lt_le. intros G. pose proof (asin_bound s) as B. assert (Q : sin th < sin (asin s)) by (apply sin_increasing_1; lra).
  rewrite sin_asin in Q by exact Hs. lra.
Qed.
Lemma asin_order : forall r s, -1 <= r -> r <= s -> s <= 1 -> asin r <= asin s.
Proof.
  intros r s H1 H2 H3. apply Rnot_lt_le. intros G. pose proof (asin_bound s) as B. pose proof (asin_bound r) as B'.
  assert (Q : sin (asin s) < sin (asin r)) by (apply sin_increasing_1; lra). rewrite !sin_asin in Q by lra. lra.
Qed.

Lemma quality_corner : forall (a b c : pnt) (q th : R), vghost a || vghost b || vghost c = false -> 0 < area2 a b c -> quality (Tri a b c) = Some q -> angle a b c = Some th ->
  0 < / (2 * q) <= 1 /\ asin (/ (2 * q)) <= th /\ (shortest a b c = dist c a -> th = asin (/ (2 * q))).
Proof.
  intros a b c q th Hg Ha Hq Ht. destruct (quality_sine a b c q th Hg Ha Hq Ht) as [Pq E].
  destruct (angle_corner a b c Ha) as (th' & Et & B & C & S). rewrite Ht in Et. injection Et as <-.
  destruct (area_dist_pos a b c ltac:(lra)) as (P1 & P2 & P3). pose proof (shortest_pos a b c ltac:(lra)) as Ps.
  assert (L3 : shortest a b c <= dist c a) by (unfold shortest; eapply Rle_trans; [apply Rmin_r|apply Rmin_r]).
  assert (Pi : 0 < / (2 * q)) by (apply Rinv_0_lt_compat; lra).
  assert (Sp : 0 < sin th) by (apply sin_gt_0; lra). pose proof (SIN_bound th) as Sb.
  assert (L : / (2 * q) <= sin th).
  { rewrite E. apply (Rmult_le_reg_r (dist c a)); [exact P3|]. unfold Rdiv. rewrite Rmult_assoc, Rinv_l, Rmult_1_r by lra. apply Rmult_le_compat_l; lra. }
  split; [lra|]. split; [apply asin_below; lra|]. intros Es.
  assert (Esin : / (2 * q) = sin th) by (rewrite E, Es; field; lra). rewrite Esin. symmetry. apply asin_sin. pose proof PI_RGT_0. split; [lra|].
  apply Rnot_lt_le. intros G. assert (Cn : cos th <= 0) by (apply cos_le_0; lra).
  assert (Hdot : 0 < dotp b a b c).
  { assert (D : d2 c a = d2 a b + d2 b c - 2 * dotp b a b c) by (unfold d2, dotp; ring).
    assert (L1 : shortest a b c <= dist a b) by (unfold shortest; apply Rmin_l). rewrite Es in L1.
    assert (L1' : d2 c a <= d2 a b) by (rewrite <- !dist_sq; apply Rmult_le_compat; lra).
    assert (0 < d2 b c) by (rewrite <- dist_sq; apply Rmult_lt_0_compat; assumption). lra. }
  rewrite <- C in Hdot. assert (0 < dist a b * dist b c) by (apply Rmult_lt_0_compat; assumption).
  assert (cos th * (dist a b * dist b c) <= 0 * (dist a b * dist b c)) by (apply Rmult_le_compat_r; lra). lra.
Qed.

Lemma quality_angles : forall (a b c : pnt) (q : R), vghost a || vghost b || vghost c = false -> 0 < area2 a b c -> quality (Tri a b c) = Some q ->
  exists al be ga : R, angle c a b = Some al /\ angle a b c = Some be /\ angle b c a = Some ga /\ al + be + ga = PI /\
    (forall th, In th [al; be; ga] -> asin (/ (2 * q)) <= th <= PI - 2 * asin (/ (2 * q))) /\ In (asin (/ (2 * q))) [al; be; ga].
Proof.
  intros a b c q Hg Ha Hq. destruct (angle_sum a b c Ha) as (al & be & ga & E1 & E2 & E3 & _ & _ & _ & Sum).
  destruct (corners_rotate a b c) as [R1 R2]. pose proof (quality_rotate a b c ltac:(lra)) as Qr. pose proof (quality_rotate b c a ltac:(lra)) as Qr2.
  assert (Hg1 : vghost b || vghost c || vghost a = false) by (rewrite <- Hg; destruct (vghost a), (vghost b), (vghost c); reflexivity).
  assert (Hg2 : vghost c || vghost a || vghost b = false) by (rewrite <- Hg; destruct (vghost a), (vghost b), (vghost c); reflexivity).
  destruct (quality_corner a b c q be Hg Ha Hq E2) as (_ & L2 & T2).
  destruct (quality_corner b c a q ga Hg1 ltac:(lra)) as (_ & L3 & T3); [congruence|exact E3|].
  destruct (quality_corner c a b q al Hg2 ltac:(lra)) as (_ & L1 & T1); [congruence|exact E1|].
  exists al, be, ga. split; [exact E1|]. split; [exact E2|]. split; [exact E3|]. split; [exact Sum|]. split.
  - intros th [<-|[<-|[<-|[]]]]; lra.
  - rewrite (shortest_rotate a b c) in T3. rewrite (shortest_rotate b c a), (shortest_rotate a b c) in T1. cbn [In].
    assert (O : shortest a b c = dist a b \/ shortest a b c = dist b c \/ shortest a b c = dist c a) by (unfold shortest, Rmin; repeat destruct (Rle_dec _ _); auto).
    destruct O as [O|[O|O]]; [right; right; left; apply T3, O|left; apply T1, O|right; left; apply T2, O].
Qed.
