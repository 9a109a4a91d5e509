(** P_D1.v — plane algebra behind the Delaunay proofs. *)

From Coq Require Import Reals List ZArith Lra Lia Psatz Bool.
From Verif Require Import Base Arith Geometry Elements ArithR Spec SpecR SpecD P_R1.
Import ListNotations.
Local Open Scope R_scope.

Notation D := area2.
Notation I := incircle.
(** Power with respect to the circle of diameter [ab]. *)
Definition qd (a b w : pnt) : R := dotp w a w b.

Lemma D_rot : forall a b c, D b c a = D a b c. Proof. exact area2_rotate. Qed.
Lemma D_rot2 : forall a b c, D c a b = D a b c. Proof. intros. rewrite <- (D_rot a b c), <- (D_rot b c a). reflexivity. Qed.
Lemma D_swap : forall a b c, D b a c = - D a b c. Proof. exact area2_swap. Qed.
Lemma D_swap2 : forall a b c, D a c b = - D a b c. Proof. intros. unfold area2. ring. Qed.
Lemma D_aa : forall a c, D a a c = 0. Proof. intros. unfold area2. ring. Qed.
Lemma D_ab_a : forall a b, D a b a = 0. Proof. intros. unfold area2. ring. Qed.
Lemma D_ab_b : forall a b, D a b b = 0. Proof. intros. unfold area2. ring. Qed.
Lemma qd_a : forall a b, qd a b a = 0. Proof. intros. unfold qd, dotp. ring. Qed.
Lemma qd_b : forall a b, qd a b b = 0. Proof. intros. unfold qd, dotp. ring. Qed.
Lemma qd_sym : forall a b w, qd b a w = qd a b w. Proof. intros. unfold qd, dotp. ring. Qed.

(** In-circle determinants are two by two determinants over a common side. *)
Lemma I_pair : forall a b c w, I a b c w = D a b w * qd a b c - D a b c * qd a b w.
Proof. intros. unfold incircle, Rdet4, Rdet3, area2, qd, dotp. ring. Qed.
Lemma I_apex : forall a b c w,
  I a b c w = - D a b c * d2 w a + D a b w * d2 c a - D a c w * d2 b a.
Proof. intros. unfold incircle, Rdet4, Rdet3, area2, d2. ring. Qed.
Lemma I_rot : forall a b c w, I b c a w = I a b c w. Proof. exact incircle_rotate. Qed.
Lemma I_rot2 : forall a b c w, I c a b w = I a b c w. Proof. intros. rewrite <- (I_rot a b c), <- (I_rot b c a). reflexivity. Qed.
Lemma I_swap : forall a b c w, I b a c w = - I a b c w. Proof. exact incircle_swap. Qed.
Lemma I_c : forall a b c, I a b c c = 0. Proof. intros. rewrite I_pair. ring. Qed.
Lemma I_a : forall a b c, I a b c a = 0. Proof. intros. rewrite I_pair, D_ab_a, qd_a. ring. Qed.
Lemma I_b : forall a b c, I a b c b = 0. Proof. intros. rewrite I_pair, D_ab_b, qd_b. ring. Qed.
Lemma I_plucker : forall a b c d w, I a b d w * D a b c = I a b c w * D a b d - I a b c d * D a b w.
Proof. intros. rewrite !I_pair. ring. Qed.

Lemma in_square_I : forall a b c d, in_square a b c d = - I a b c d.
Proof. intros. rewrite I_pair. unfold in_square, qd. ring. Qed.

Lemma d2_nonneg : forall a b, 0 <= d2 a b.
Proof. intros. unfold d2. pose proof (Rle_0_sqr (X a - X b)). pose proof (Rle_0_sqr (Y a - Y b)). unfold Rsqr in *. lra. Qed.
Lemma d2_zero : forall a b, d2 a b = 0 -> coincide a b.
Proof.
  intros a b Hz. unfold d2 in Hz. pose proof (Rle_0_sqr (X a - X b)) as H1. pose proof (Rle_0_sqr (Y a - Y b)) as H2.
  unfold Rsqr in *. split.
  - assert (Hs : (X a - X b) * (X a - X b) = 0) by lra. apply Rmult_integral in Hs. lra.
  - assert (Hs : (Y a - Y b) * (Y a - Y b) = 0) by lra. apply Rmult_integral in Hs. lra.
Qed.
Lemma plain_coincide : forall a b : pnt, vghost a = false -> vghost b = false -> coincide a b -> a = b.
Proof. intros [x y g] [x' y' g'] E E' [H1 H2]. unfold X, Y in *. cbn in *. subst. reflexivity. Qed.
Lemma d2_pos : forall a b : pnt, vghost a = false -> vghost b = false -> a <> b -> 0 < d2 a b.
Proof.
  intros a b Ga Gb Hn. destruct (d2_nonneg a b) as [Hp|Hz]; [exact Hp|]. exfalso. apply Hn.
  apply plain_coincide; auto. apply d2_zero. symmetry. exact Hz.
Qed.

(** A product of real numbers of known signs. *)
Lemma mpp : forall x y, 0 <= x -> 0 <= y -> 0 <= x * y. Proof. intros; apply Rmult_le_pos; assumption. Qed.
Lemma mpn : forall x y, 0 <= x -> y <= 0 -> x * y <= 0. Proof. intros; nra. Qed.
Lemma mnp : forall x y, x <= 0 -> 0 <= y -> x * y <= 0. Proof. intros; nra. Qed.
Lemma mnn : forall x y, x <= 0 -> y <= 0 -> 0 <= x * y. Proof. intros; nra. Qed.
Lemma spp : forall x y, 0 < x -> 0 < y -> 0 < x * y. Proof. intros; apply Rmult_lt_0_compat; assumption. Qed.
Lemma spn : forall x y, 0 < x -> y < 0 -> x * y < 0. Proof. intros; nra. Qed.
Lemma snp : forall x y, x < 0 -> 0 < y -> x * y < 0. Proof. intros; nra. Qed.
Lemma snn : forall x y, x < 0 -> y < 0 -> 0 < x * y. Proof. intros; nra. Qed.
Lemma div_le : forall x y, 0 < y -> x * y <= 0 -> x <= 0. Proof. intros; nra. Qed.
Lemma div_lt : forall x y, 0 < y -> x * y < 0 -> x < 0. Proof. intros; nra. Qed.
Lemma div_ge : forall x y, 0 < y -> 0 <= x * y -> 0 <= x. Proof. intros; nra. Qed.
Lemma div_gt : forall x y, 0 < y -> 0 < x * y -> 0 < x. Proof. intros; nra. Qed.
Lemma div_n_le : forall x y, y < 0 -> 0 <= x * y -> x <= 0. Proof. intros; nra. Qed.
Lemma div_eq : forall x y, y <> 0 -> x * y = 0 -> x = 0. Proof. intros x y Hy H. apply Rmult_integral in H. tauto. Qed.

(** ** New triangles are empty *)
Lemma new_empty_left : forall a b c v w, 0 < D a b c -> 0 < D a b v -> 0 < I a b c v ->
  I a b c w <= 0 -> 0 <= D a b w -> I a b v w <= 0.
Proof.
  intros a b c v w Hc Hv Hi Hw Hl. apply (div_le _ (D a b c) Hc). rewrite I_plucker.
  pose proof (mnp _ (D a b v) Hw (Rlt_le _ _ Hv)). pose proof (mpp _ _ (Rlt_le _ _ Hi) Hl). lra.
Qed.
Lemma new_empty_right : forall a b d v w, 0 < D b a d -> 0 < D a b v -> I b a d v <= 0 ->
  I b a d w <= 0 -> D a b w <= 0 -> I a b v w <= 0.
Proof.
  intros a b d v w Hd Hv Hi Hw Hl. rewrite D_swap in Hd. rewrite I_swap in Hi, Hw.
  apply (div_n_le _ (D a b d)); [lra|]. rewrite I_plucker.
  assert (0 <= I a b d w * D a b v) by (apply mpp; lra). assert (I a b d v * D a b w <= 0) by (apply mpn; lra). lra.
Qed.
(** Points of the line of a side outside the side are outside the circle. *)
Lemma line_empty : forall a b v w, 0 < D a b v -> D a b w = 0 -> 0 <= qd a b w -> I a b v w <= 0.
Proof. intros a b v w Hv Hw Hq. rewrite I_pair, Hw. pose proof (mpp _ _ (Rlt_le _ _ Hv) Hq). lra. Qed.
(** Points of the open side are inside the circle. *)
Lemma chord_inside : forall a b c v, 0 < D a b c -> strictly_between a b v -> 0 < I a b c v.
Proof. intros a b c v Hc [Hd Hq]. rewrite I_pair, Hd. fold (qd a b v) in Hq. pose proof (spn _ _ Hc Hq). lra. Qed.
Lemma inside_chord : forall a b c v, 0 < D a b c -> D a b v = 0 -> 0 < I a b c v -> strictly_between a b v.
Proof.
  intros a b c v Hc Hd Hi. split; [exact Hd|]. fold (qd a b v). rewrite I_pair, Hd in Hi.
  apply (div_lt _ (D a b c) Hc). lra.
Qed.
Lemma between_sym : forall a b w, strictly_between a b w -> strictly_between b a w.
Proof. intros a b w [H1 H2]. split; [rewrite D_swap; lra|]. fold (qd b a w). rewrite qd_sym. exact H2. Qed.

(** A point inside the circle is beyond at most one side. *)
Lemma I_corner : forall a b c v, I a b c v = - D a b c * d2 v b + D a b v * d2 c b + D b c v * d2 a b.
Proof. intros. unfold incircle, Rdet4, Rdet3, area2, d2. ring. Qed.
Lemma beyond_two : forall a b c v, 0 < D a b c -> D a b v <= 0 -> D b c v <= 0 -> I a b c v <= 0.
Proof.
  intros a b c v Hc H1 H2. rewrite I_corner.
  pose proof (mpp _ _ (Rlt_le _ _ Hc) (d2_nonneg v b)). pose proof (mnp _ _ H1 (d2_nonneg c b)).
  pose proof (mnp _ _ H2 (d2_nonneg a b)). lra.
Qed.

(** ** Crossing a side: power decreases *)
Lemma cross_power : forall a b c d v, I a b c v * D b a d - I b a d v * D a b c = - D a b v * I a b c d.
Proof. intros. rewrite (D_swap a b d), (I_swap a b d v). pose proof (I_plucker a b c d v). lra. Qed.
(** Both triangles are on the same circle when their apexes are. *)
Lemma same_circle : forall a b c d w, I a b c d = 0 -> I a b c w * D b a d = I b a d w * D a b c.
Proof. intros a b c d w H. pose proof (cross_power a b c d w). rewrite H in *. lra. Qed.
Lemma arc_first : forall a b d w, 0 < d2 d a -> 0 < d2 b a -> I a b d w = 0 -> D a b d <= 0 -> D a d w < 0 -> D a b w < 0.
Proof.
  intros a b d w Hd Hb Hi H1 H2. rewrite I_apex in Hi. apply (div_lt _ (d2 d a) Hd).
  pose proof (mnp _ _ H1 (d2_nonneg w a)). pose proof (snp _ _ H2 Hb). lra.
Qed.
Lemma arc_second : forall a b d w, 0 < d2 d b -> 0 < d2 a b -> I a b d w = 0 -> D a b d <= 0 -> D d b w < 0 -> D a b w < 0.
Proof.
  intros a b d w Hd Hb Hi H1 H2. assert (Hi' : I b a d w = 0) by (rewrite I_swap; lra). rewrite I_apex in Hi'.
  rewrite (D_swap a b d), (D_swap a b w), (D_swap d b w) in Hi'. apply (div_lt _ (d2 d b) Hd).
  pose proof (mnp _ _ H1 (d2_nonneg w b)). pose proof (snp _ _ H2 Hb). lra.
Qed.
