(** P_C1.v — plane lemmas for constrained Delaunay insertion. *)

From Coq Require Import Reals List ZArith Lra Lia Psatz Bool.
From Verif Require Import Base Arith Geometry Elements ArithR Spec SpecR SpecD P_R1 P_RX P_D1 P_D2 P_D3 P_D4 P_Fill.
Import ListNotations.
Local Open Scope R_scope.

(** ** Half-open triangles *)
Lemma D_bary : forall a b c q (f : pnt -> R), (forall w, f w = X w) \/ (forall w, f w = Y w) ->
  D b c q * f a + D c a q * f b + D a b q * f c = D a b c * f q.
Proof. intros a b c q f [E|E]; rewrite !E; unfold area2; ring. Qed.
Lemma D_sum : forall a b c q, D b c q + D c a q + D a b q = D a b c.
Proof. intros. unfold area2. ring. Qed.

Lemma tw_not_beyond : forall a b c q, 0 < D a b c -> tw a b c q = 1%Z -> ~ beyond q (a, b).
Proof.
  intros a b c q Hc Ht Hb. assert (Hi : in_triangle a b c q) by (apply tw_pos_in; [exact Hc|lia]).
  destruct Hi as (I1 & I2 & I3). destruct Hb as [Hb|[E L]]; [lra|].
  pose proof (D_bary a b c q X (or_introl (fun w => eq_refl))) as Bx. pose proof (D_bary a b c q Y (or_intror (fun w => eq_refl))) as By.
  pose proof (D_sum a b c q) as Bs. rewrite E in *.
  assert (Hx : D b c q * (X a - X q) + D c a q * (X b - X q) = 0) by nra.
  destruct (Rle_lt_dec (X a) (X q)) as [La|Ra]; destruct (Rle_lt_dec (X b) (X q)) as [Lb|Rb].
  - assert (Z1 := mpn (D b c q) (X a - X q)). assert (Z2 := mpn (D c a q) (X b - X q)).
    assert (E1 : D b c q * (X a - X q) = 0) by lra. assert (E2 : D c a q * (X b - X q) = 0) by lra.
    apply Rmult_integral in E1. apply Rmult_integral in E2. unfold lex_lt in L.
    destruct (Rle_lt_dec (X c) (X q)) as [Lc|Rc']; [unfold tw in Ht; rewrite !rc_LL in Ht by assumption; lia|].
    assert (Hd : D a b c = (X b - X a) * (Y c - Y a) - (Y b - Y a) * (X c - X a)) by (unfold area2; ring).
    destruct E1 as [E1|E1].
    + (* q = b *) unfold tw in Ht. rewrite (rc_LL q a b), (rc_LR q b c), (rc_RL q c a) in Ht by lra.
      destruct (Rlt_dec 0 (D b c q)); [lra|]. destruct (Rlt_dec (D c a q) 0); [lra|]. lia.
    + clear E2. assert (Ya : Y a < Y b) by lra. assert (X b = X a) by lra. rewrite H in Hd.
      assert (Q := spp (Y b - Y a) (X c - X a)). lra.
  - unfold tw in Ht. rewrite (rc_LR q a b) in Ht by assumption. destruct (Rlt_dec 0 (D a b q)); [lra|].
    destruct (Rle_lt_dec (X c) (X q)) as [Lc|Rc'].
    + rewrite (rc_RL q b c), (rc_LL q c a) in Ht by assumption. destruct (Rlt_dec (D b c q) 0); lia.
    + rewrite (rc_RR q b c), (rc_RL q c a) in Ht by assumption. destruct (Rlt_dec (D c a q) 0); lia.
  - unfold lex_lt in L. lra.
  - assert (Z1 := mpp (D b c q) (X a - X q)). assert (Z2 := mpp (D c a q) (X b - X q)).
    assert (E1 : D b c q * (X a - X q) = 0) by lra. assert (E2 : D c a q * (X b - X q) = 0) by lra.
    apply Rmult_integral in E1. apply Rmult_integral in E2. lra.
Qed.

(** A point a little to the right and still less... of [q]. *)
Definition nudge (q : pnt) (e : R) : pnt := at_ (X q + e * e) (Y q - e).
Lemma small_two : forall k l m, 0 < k -> exists e, 0 < e /\ forall x, 0 < x <= e -> 0 < k + x * l + x * x * m.
Proof.
  intros k l m Hk. set (g := Rabs l + Rabs m + 1). assert (Hg : 1 <= g) by (unfold g; pose proof (Rabs_pos l); pose proof (Rabs_pos m); lra).
  exists (Rmin 1 (k / (2 * g))). assert (Hq : 0 < k / (2 * g)) by (apply Rdiv_lt_0_compat; lra). split; [apply Rmin_glb_lt; lra|].
  intros x [Hx Hx']. assert (x <= 1) by (eapply Rle_trans; [exact Hx'|apply Rmin_l]). assert (H2 : x <= k / (2 * g)) by (eapply Rle_trans; [exact Hx'|apply Rmin_r]).
  assert (H3 : x * g <= k / 2). { apply Rle_trans with (k / (2 * g) * g); [apply Rmult_le_compat_r; lra|]. apply Req_le. field. lra. }
  assert (H4 : - (x * Rabs l) <= x * l).
  { pose proof (Rle_abs (- l)) as A1. rewrite Rabs_Ropp in A1. assert (Q := mpp x (Rabs l + l)). lra. }
  assert (H5 : - (x * Rabs m) <= x * x * m).
  { pose proof (Rle_abs (- m)) as A1. rewrite Rabs_Ropp in A1. pose proof (Rabs_pos m) as A2.
    assert (Q1 := mpp (x * (1 - x)) (Rabs m)). assert (Q2 := mpp (x * x) (Rabs m + m)).
    assert (0 <= x * (1 - x)) by (apply mpp; lra). assert (0 <= x * x) by (apply mpp; lra). lra. }
  unfold g in H3. lra.
Qed.
Lemma nudge_D : forall a b q e, D a b (nudge q e) = D a b q + e * (X a - X b) + e * e * (Y a - Y b).
Proof. intros. unfold area2, nudge, X, Y, at_. cbn. ring. Qed.
Lemma nudge_left : forall a b q, ~ coincide a b -> ~ beyond q (a, b) -> exists e, 0 < e /\ forall x, 0 < x <= e -> 0 < D a b (nudge q x).
Proof.
  intros a b q Hn Hb. destruct (Rle_lt_or_eq_dec _ _ (not_beyond_ge _ _ _ Hb)) as [L|E].
  - destruct (small_two (D a b q) (X a - X b) (Y a - Y b) L) as (e & He & Hs). exists e. split; [exact He|]. intros x Hx. rewrite nudge_D. apply Hs, Hx.
  - assert (Hl : lex_lt b a).
    { destruct (lex_total a b Hn) as [L|L]; [|exact L]. exfalso. apply Hb. right. auto. }
    destruct Hl as [L|[Ex L]].
    + destruct (small_two (X a - X b) (Y a - Y b) 0) as (e & He & Hs); [lra|]. exists e. split; [exact He|]. intros x Hx. rewrite nudge_D, <- E.
      specialize (Hs x Hx). assert (Q := spp x (X a - X b + x * (Y a - Y b))). lra.
    + exists 1. split; [lra|]. intros x Hx. rewrite nudge_D, <- E, Ex. assert (Q := spp x x). assert (Q2 := spp (x * x) (Y a - Y b)). lra.
Qed.
Lemma D_apart : forall a b c, 0 < D a b c -> ~ coincide a b.
Proof. intros a b c Hd [Ex Ey]. unfold area2 in Hd. rewrite Ex, Ey in Hd. lra. Qed.
Lemma tw_nudge : forall a b c q, 0 < D a b c -> tw a b c q = 1%Z -> exists e, 0 < e /\ forall x, 0 < x <= e -> inside_triangle a b c (nudge q x).
Proof.
  intros a b c q Hc Ht. assert (R1 := D_rot a b c). assert (R2 := D_rot2 a b c).
  destruct (nudge_left a b q) as (e1 & H1 & K1); [exact (D_apart _ _ _ Hc)|exact (tw_not_beyond _ _ _ _ Hc Ht)|].
  destruct (nudge_left b c q) as (e2 & H2 & K2); [apply (D_apart b c a); lra|apply (tw_not_beyond b c a); [lra|rewrite tw_rot; exact Ht]|].
  destruct (nudge_left c a q) as (e3 & H3 & K3); [apply (D_apart c a b); lra|apply (tw_not_beyond c a b); [lra|rewrite <- (tw_rot c a b); exact Ht]|].
  exists (Rmin e1 (Rmin e2 e3)). split; [repeat apply Rmin_glb_lt; assumption|]. intros x [Hx Hx'].
  assert (x <= e1) by (eapply Rle_trans; [exact Hx'|apply Rmin_l]).
  assert (Hm : x <= Rmin e2 e3) by (eapply Rle_trans; [exact Hx'|apply Rmin_r]).
  assert (x <= e2) by (eapply Rle_trans; [exact Hm|apply Rmin_l]). assert (x <= e3) by (eapply Rle_trans; [exact Hm|apply Rmin_r]).
  split; [apply K1; lra|]. split; [apply K2; lra|apply K3; lra].
Qed.
(** Two counterclockwise triangles that both take [q] overlap. *)
Lemma tw_overlap : forall a b c a' b' c' q, 0 < D a b c -> 0 < D a' b' c' -> tw a b c q = 1%Z -> tw a' b' c' q = 1%Z ->
  exists z, inside_triangle a b c z /\ inside_triangle a' b' c' z.
Proof.
  intros a b c a' b' c' q P P' T T'. destruct (tw_nudge a b c q P T) as (e & He & K). destruct (tw_nudge a' b' c' q P' T') as (e' & He' & K').
  exists (nudge q (Rmin e e')). assert (0 < Rmin e e') by (apply Rmin_glb_lt; assumption).
  split; [apply K|apply K']; (split; [assumption|]); [apply Rmin_l|apply Rmin_r].
Qed.

(** A point of the closed triangle other than a corner is strictly inside the circle. *)
Lemma I_bary : forall a b c v, I a b c v * D a b c =
  D b c v * D c a v * d2 a b + D c a v * D a b v * d2 b c + D a b v * D b c v * d2 c a.
Proof. intros. unfold incircle, Rdet4, Rdet3, area2, d2. ring. Qed.
Lemma two_zero : forall a b c v, 0 < D a b c -> D a b v = 0 -> D b c v = 0 -> coincide v b.
Proof.
  intros a b c v Hp H1 H2. pose proof (D_bary a b c v X (or_introl (fun w => eq_refl))) as Bx. pose proof (D_bary a b c v Y (or_intror (fun w => eq_refl))) as By.
  pose proof (D_sum a b c v) as Bs. rewrite H1, H2 in *. replace (D c a v) with (D a b c) in * by lra. split; apply (Rmult_eq_reg_l (D a b c)); lra.
Qed.
Lemma closed_circle : forall a b c v, 0 < D a b c -> in_triangle a b c v -> ~ coincide v a -> ~ coincide v b -> ~ coincide v c -> 0 < I a b c v.
Proof.
  intros a b c v Hp (H1 & H2 & H3) Na Nb Nc. pose proof (D_rot a b c) as R1. pose proof (D_rot2 a b c) as R2.
  assert (P1 : 0 < d2 a b) by (destruct (d2_nonneg a b) as [|E]; [assumption|]; exfalso; apply (D_apart a b c Hp), d2_zero; auto).
  assert (P2 : 0 < d2 b c) by (destruct (d2_nonneg b c) as [|E]; [assumption|]; exfalso; apply (D_apart b c a); [lra|]; apply d2_zero; auto).
  assert (P3 : 0 < d2 c a) by (destruct (d2_nonneg c a) as [|E]; [assumption|]; exfalso; apply (D_apart c a b); [lra|]; apply d2_zero; auto).
  apply (div_gt _ (D a b c) Hp). rewrite I_bary.
  assert (Q1 := mpp _ _ (mpp _ _ H2 H3) (Rlt_le _ _ P1)). assert (Q2 := mpp _ _ (mpp _ _ H3 H1) (Rlt_le _ _ P2)). assert (Q3 := mpp _ _ (mpp _ _ H1 H2) (Rlt_le _ _ P3)).
  destruct (Rle_lt_or_eq_dec _ _ H1) as [L1|E1]; destruct (Rle_lt_or_eq_dec _ _ H2) as [L2|E2]; destruct (Rle_lt_or_eq_dec _ _ H3) as [L3|E3].
  all: try (assert (Z := spp _ _ (spp _ _ L1 L2) P3); lra). all: try (assert (Z := spp _ _ (spp _ _ L2 L3) P1); lra). all: try (assert (Z := spp _ _ (spp _ _ L3 L1) P2); lra).
  - exfalso. apply Nc, (two_zero b c a); lra.
  - exfalso. apply Na, (two_zero c a b); lra.
  - exfalso. apply Nb, (two_zero a b c); lra.
  - exfalso. apply Nb, (two_zero a b c); lra.
Qed.

(** The segment from a point of a triangle to a point beyond the side [ab] only
    leaves through [ab]. *)
Lemma segment_exit : forall a b c q v, 0 < D a b c -> in_triangle a b c q -> D a b v <= 0 -> 0 < D b c v -> 0 < D c a v ->
  exists k z, 0 <= k <= 1 /\ at_ratio k q v z /\ on_segment a b z.
Proof.
  intros a b c q v Hp (H1 & H2 & H3) Hv Hbc Hca.
  assert (K : exists k, 0 <= k <= 1 /\ (1 - k) * D a b q + k * D a b v = 0).
  { destruct (Rle_lt_or_eq_dec _ _ H1) as [L|E]; [|exists 0; split; lra]. exists (D a b q / (D a b q - D a b v)).
    assert (E : D a b q / (D a b q - D a b v) * (D a b q - D a b v) = D a b q) by (field; lra).
    split; [|lra]. split; [apply (div_ge _ (D a b q - D a b v)); lra|]. apply Rnot_lt_le. intros L1.
    assert (Q := spp (D a b q / (D a b q - D a b v) - 1) (D a b q - D a b v)). lra. }
  destruct K as (k & Hk & Ek). set (z := at_ (X q + k * (X v - X q)) (Y q + k * (Y v - Y q))).
  assert (Hz : at_ratio k q v z) by (split; unfold z, X, Y, at_; cbn; ring). exists k, z. split; [exact Hk|]. split; [exact Hz|].
  pose proof (ratio_D k q v z a b Hz) as E1. pose proof (ratio_D k q v z b c Hz) as E2. pose proof (ratio_D k q v z c a Hz) as E3.
  assert (P2 : 0 <= D b c z) by (rewrite E2; assert (Q1 := mpp (1 - k) (D b c q)); assert (Q2 := mpp k (D b c v)); lra).
  assert (P3 : 0 <= D c a z) by (rewrite E3; assert (Q1 := mpp (1 - k) (D c a q)); assert (Q2 := mpp k (D c a v)); lra).
  pose proof (D_sum a b c z) as Bs. pose proof (D_bary a b c z X (or_introl (fun w => eq_refl))) as Bx. pose proof (D_bary a b c z Y (or_intror (fun w => eq_refl))) as By.
  assert (E0 : D a b z = 0) by lra. rewrite E0 in *.
  assert (Ej : D c a z / D a b c * D a b c = D c a z) by (field; lra).
  exists (D c a z / D a b c). split.
  - split; [apply (div_ge _ (D a b c)); lra|]. apply Rnot_lt_le. intros L. assert (Q := spp (D c a z / D a b c - 1) (D a b c)). lra.
  - split; apply (Rmult_eq_reg_l (D a b c)); try lra.
    + replace (D a b c * (X a + D c a z / D a b c * (X b - X a))) with (D a b c * X a + (D c a z / D a b c * D a b c) * (X b - X a)) by ring. rewrite Ej. rewrite <- Bx, <- Bs. ring.
    + replace (D a b c * (Y a + D c a z / D a b c * (Y b - Y a))) with (D a b c * Y a + (D c a z / D a b c * D a b c) * (Y b - Y a)) by ring. rewrite Ej. rewrite <- By, <- Bs. ring.
Qed.
Lemma segment_in : forall b a d z, 0 < D b a d -> on_segment a b z -> in_triangle b a d z.
Proof.
  intros b a d z Hp (k & Hk & Hr). pose proof (D_rot b a d) as R1. pose proof (D_rot2 b a d) as R2. unfold in_triangle.
  rewrite (ratio_D k a b z b a Hr), (ratio_D k a b z a d Hr), (ratio_D k a b z d b Hr).
  rewrite (D_ab_a a d), (D_ab_b d b), (D_ab_b b a), (D_ab_a b a), (R1 : D a d b = _), (R2 : D d b a = _).
  assert (Q1 := mpp k (D b a d)). assert (Q2 := mpp (1 - k) (D b a d)). lra.
Qed.

(** ** Around a corner *)
(** The affine map that agrees with [h] at [x] (where [h] is 0), [y] and [y'],
    times the area of the triangle. *)
Definition chord (h : pnt -> R) (x y y' z : pnt) : R := h y * D x y' z + h y' * D x z y.
Lemma chord_step : forall h x y y' y'' z,
  chord h x y y' z * D x y'' y' - chord h x y' y'' z * D x y' y = D x z y' * (chord h x y y' y'' - h y'' * D x y' y).
Proof. intros. unfold chord, area2. ring. Qed.
Lemma chord_three : forall h x y y' p v q, chord h x y y' v * D x q p = chord h x y y' q * D x v p + chord h x y y' p * D x q v.
Proof. intros. unfold chord, area2. ring. Qed.
Lemma D_four : forall x a b c d, D x a c * D x b d = D x a d * D x b c + D x a b * D x c d.
Proof. intros. unfold area2. ring. Qed.

(** The power with respect to the circle of [p], [x], [v], times an area. *)
Definition hh (p x v z : pnt) : R := - I p x v z.
Lemma hh_v : forall p x v, hh p x v v = 0. Proof. intros. unfold hh. rewrite I_c. ring. Qed.
Lemma hh_p : forall p x v, hh p x v p = 0. Proof. intros. unfold hh. rewrite I_a. ring. Qed.
Lemma chord_lift : forall p x v y y' z, chord (hh p x v) x y y' z = hh p x v z * D x y' y + D x v p * I y x y' z.
Proof. intros. unfold chord, hh, incircle, Rdet4, Rdet3, area2. ring. Qed.
Lemma I_sym : forall a b c d, I b a d c = I a b c d.
Proof. intros. rewrite !I_pair, (D_swap a b c), (D_swap a b d), (qd_sym a b c), (qd_sym a b d). ring. Qed.
