(** P_X2.v — points evenly spread on a circle. *)

From Coq Require Import Reals List ZArith Lra Lia Bool Permutation Psatz.
From Verif Require Import Base Arith Geometry Elements Polyline Procedures Refine Triangulator Interface ArithR Spec SpecI SpecR SpecD SpecP SpecC SpecE SpecM SpecT P_RX P_R1 P_R4.
Import ListNotations.
Local Open Scope R_scope.

Lemma NoDup_map_on : forall X Y (f : X -> Y) l, (forall a b, In a l -> In b l -> f a = f b -> a = b) -> NoDup l -> NoDup (map f l).
Proof.
  intros X Y f l Hi Hn. induction Hn as [|a l Ha Hn IH]; cbn [map]; constructor.
  - intros Hx. apply in_map_iff in Hx. destruct Hx as (b & E & Hb). apply Ha. rewrite <- (Hi b a (or_intror Hb) (or_introl eq_refl) E). exact Hb.
  - apply IH. intros x y Hx Hy. apply Hi; right; assumption.
Qed.

Lemma some_eq : forall X (a b : X), Some a = Some b -> a = b.
Proof. intros X a b E. injection E as E. exact E. Qed.

Section Circle.
  Variables (c : R * R) (r : R).
  (** The point at twice the angle [u]. *)
  Definition cpt (u : R) : pnt := put (fst c + r * cos (2 * u), snd c + r * sin (2 * u)).

  Lemma cos_diff : forall a b, cos (2 * b) - cos (2 * a) = - 2 * sin (a + b) * sin (b - a).
  Proof. intros a b. replace (2 * b) with ((a + b) + (b - a)) by ring. replace (2 * a) with ((a + b) - (b - a)) by ring. rewrite (cos_plus (a + b) (b - a)), (cos_minus (a + b) (b - a)). ring. Qed.
  Lemma sin_diff : forall a b, sin (2 * b) - sin (2 * a) = 2 * cos (a + b) * sin (b - a).
  Proof. intros a b. replace (2 * b) with ((a + b) + (b - a)) by ring. replace (2 * a) with ((a + b) - (b - a)) by ring. rewrite (sin_plus (a + b) (b - a)), (sin_minus (a + b) (b - a)). ring. Qed.
  Lemma cpt_dx : forall a b, X (cpt b) - X (cpt a) = - (2 * r * sin (b - a)) * sin (a + b).
  Proof. intros a b. change (X (cpt b)) with (fst c + r * cos (2 * b)). change (X (cpt a)) with (fst c + r * cos (2 * a)). pose proof (cos_diff a b). replace (fst c + r * cos (2 * b) - (fst c + r * cos (2 * a))) with (r * (cos (2 * b) - cos (2 * a))) by ring. rewrite H. ring. Qed.
  Lemma cpt_dy : forall a b, Y (cpt b) - Y (cpt a) = 2 * r * sin (b - a) * cos (a + b).
  Proof. intros a b. change (Y (cpt b)) with (snd c + r * sin (2 * b)). change (Y (cpt a)) with (snd c + r * sin (2 * a)). pose proof (sin_diff a b). replace (snd c + r * sin (2 * b) - (snd c + r * sin (2 * a))) with (r * (sin (2 * b) - sin (2 * a))) by ring. rewrite H. ring. Qed.
  Lemma cpt_area : forall a b d, area2 (cpt a) (cpt b) (cpt d) = 4 * (r * r) * (sin (b - a) * sin (d - b) * sin (d - a)).
  Proof.
    intros a b d. unfold area2. rewrite !cpt_dx, !cpt_dy. replace (d - b) with ((a + d) - (a + b)) by ring. rewrite (sin_minus (a + d)). ring.
  Qed.
  Lemma cpt_dot : forall w a b, dotp (cpt w) (cpt a) (cpt w) (cpt b) = 4 * (r * r) * (sin (a - w) * sin (b - w) * cos (b - a)).
  Proof.
    intros w a b. unfold dotp. rewrite !cpt_dx, !cpt_dy. replace (b - a) with ((w + b) - (w + a)) by ring. rewrite (cos_minus (w + b)). ring.
  Qed.
  Lemma cpt_d2 : forall a b, d2 (cpt a) (cpt b) = 4 * (r * r) * (sin (b - a) * sin (b - a)).
  Proof.
    intros a b. unfold d2. replace (X (cpt a) - X (cpt b)) with (- (X (cpt b) - X (cpt a))) by ring. replace (Y (cpt a) - Y (cpt b)) with (- (Y (cpt b) - Y (cpt a))) by ring. rewrite cpt_dx, cpt_dy.
    pose proof (sin2_cos2 (a + b)) as E. unfold Rsqr in E.
    replace (- (- (2 * r * sin (b - a)) * sin (a + b)) * - (- (2 * r * sin (b - a)) * sin (a + b)) + - (2 * r * sin (b - a) * cos (a + b)) * - (2 * r * sin (b - a) * cos (a + b)))
      with (4 * (r * r) * (sin (b - a) * sin (b - a)) * (sin (a + b) * sin (a + b) + cos (a + b) * cos (a + b))) by ring. rewrite E. ring.
  Qed.
  Lemma cpt_turn : forall u, cpt (u + PI) = cpt u.
  Proof. intros u. unfold cpt. replace (2 * (u + PI)) with (2 * u + 2 * INR 1 * PI) by (cbn; ring). rewrite cos_period, sin_period. reflexivity. Qed.
  Lemma sin_neg_sub : forall a b, sin (a - b) = - sin (b - a).
  Proof. intros a b. replace (a - b) with (- (b - a)) by ring. apply sin_neg. Qed.
  Lemma cpt_square : forall a b d e, in_square (cpt a) (cpt b) (cpt d) (cpt e) = 0.
  Proof.
    intros a b d e. unfold in_square. rewrite !cpt_dot, !cpt_area. rewrite (sin_neg_sub a e), (sin_neg_sub b e), (sin_neg_sub a d), (sin_neg_sub b d). ring.
  Qed.

  (** ** The ring *)
  Variable n : nat.
  Hypothesis Hn : (3 <= n)%nat.
  Hypothesis Hr : 0 < r.
  Notation h i := (PI * INR i / INR n).
  Notation s := (sin (PI / INR n)).
  Definition P (i : nat) : pnt := cpt (h i).

  Lemma n_pos : 0 < INR n. Proof. apply lt_0_INR. lia. Qed.
  Lemma ring_P : circle_ring c r n = map P (seq 0 n).
  Proof.
    unfold circle_ring. apply map_ext. intros i. unfold P, cpt. pose proof n_pos. replace (2 * (PI * INR i / INR n)) with (2 * PI * INR i / INR n) by (field; lra). reflexivity.
  Qed.
  Lemma P_turn : P n = P 0.
  Proof. unfold P. pose proof n_pos. replace (h n) with (h 0 + PI) by (cbn; field; lra). apply cpt_turn. Qed.
  Lemma P_turns : forall i, P (i + n) = P i.
  Proof. intros i. unfold P. pose proof n_pos. replace (h (i + n)) with (h i + PI) by (rewrite plus_INR; field; lra). apply cpt_turn. Qed.
  Lemma unit_angle : 0 < PI / INR n <= PI / 3.
  Proof.
    pose proof n_pos. pose proof PI_RGT_0. split; [apply Rdiv_lt_0_compat; lra|]. assert (3 <= INR n) by (replace 3 with (INR 3) by (cbn; ring); apply le_INR, Hn).
    unfold Rdiv. apply Rmult_le_compat_l; [lra|]. apply Rinv_le_contravar; lra.
  Qed.
  Lemma s_pos : 0 < s <= 1.
  Proof. pose proof unit_angle. pose proof PI_RGT_0. split; [apply sin_gt_0; lra|apply SIN_bound]. Qed.
  Lemma sin_far : forall x, PI / INR n <= x <= PI - PI / INR n -> s <= sin x.
  Proof.
    intros x Hx. pose proof unit_angle. pose proof PI_RGT_0. destruct (Rle_dec x (PI / 2)) as [Hl|Hl].
    - apply sin_incr_1; lra.
    - rewrite <- (sin_PI_x x). apply sin_incr_1; lra.
  Qed.
  Lemma sin_steps : forall i j, (i < j)%nat -> (j < i + n)%nat -> s <= sin (h j - h i).
  Proof.
    intros i j Hij Hj. apply sin_far. pose proof n_pos. pose proof PI_RGT_0. assert (E1 : INR i + 1 <= INR j) by (rewrite <- S_INR; apply le_INR; lia). assert (E2 : INR j + 1 <= INR i + INR n) by (rewrite <- S_INR, <- plus_INR; apply le_INR; lia).
    replace (h j - h i) with (PI / INR n * (INR j - INR i)) by (field; lra). pose proof unit_angle. assert (Q : PI / INR n * INR n = PI) by (field; lra).
    split; [replace (PI / INR n) with (PI / INR n * 1) at 1 by ring; apply Rmult_le_compat_l; lra|].
    replace (PI - PI / INR n) with (PI / INR n * (INR n - 1)) by (rewrite Rmult_minus_distr_l, Q; ring). apply Rmult_le_compat_l; lra.
  Qed.
  Lemma side_area : forall i k, (S i < k)%nat -> (k < i + n)%nat -> 4 * (r * r) * (s * s * s) <= area2 (P i) (P (S i)) (P k).
  Proof.
    intros i k Hk Hk'. unfold P. rewrite cpt_area. pose proof s_pos. pose proof (sin_steps i (S i) ltac:(lia) ltac:(lia)) as B1. pose proof (sin_steps (S i) k ltac:(lia) ltac:(lia)) as B2. pose proof (sin_steps i k ltac:(lia) ltac:(lia)) as B3.
    apply Rmult_le_compat_l; [nra|]. apply Rmult_le_compat; [nra|lra| |exact B3]. apply Rmult_le_compat; lra.
  Qed.
  Lemma sin_other : forall i j, (i < n)%nat -> (j < n)%nat -> i <> j -> s <= Rabs (sin (h j - h i)).
  Proof.
    intros i j Hi Hj Hne. destruct (Nat.lt_ge_cases i j) as [Hl|Hl].
    - pose proof (sin_steps i j Hl ltac:(lia)). rewrite Rabs_right; [assumption|]. pose proof s_pos. lra.
    - pose proof (sin_steps j i ltac:(lia) ltac:(lia)). rewrite sin_neg_sub, Rabs_Ropp, Rabs_right; [assumption|]. pose proof s_pos. lra.
  Qed.

  Lemma ring_In : forall w, In w (circle_ring c r n) <-> exists i, (i < n)%nat /\ w = P i.
  Proof.
    intros w. rewrite ring_P, in_map_iff. split; [intros (i & <- & Hi); apply in_seq in Hi; exists i; split; [lia|reflexivity]|intros (i & Hi & ->); exists i; split; [reflexivity|apply in_seq; lia]].
  Qed.
  Lemma seq_sides : forall (f : nat -> pnt) m k x, In x (path_sides (map f (seq k m))) -> exists i, (k <= i < k + m - 1)%nat /\ x = (f i, f (S i)).
  Proof.
    intros f. induction m as [|m IH]; intros k x Hx; [destruct Hx|]. destruct m as [|m]; [destruct Hx|].
    change (path_sides (map f (seq k (S (S m))))) with ((f k, f (S k)) :: path_sides (map f (seq (S k) (S m)))) in Hx.
    destruct Hx as [<-|Hx]; [exists k; split; [lia|reflexivity]|]. destruct (IH (S k) x Hx) as (i & Hi & E). exists i. split; [lia|exact E].
  Qed.
  Lemma ring_sides : forall a b, In (a, b) (polygon_sides (circle_ring c r n)) -> exists i, (i < n)%nat /\ a = P i /\ b = P (S i).
  Proof.
    intros a b Hs. assert (E : polygon_sides (circle_ring c r n) = path_sides (map P (seq 0 (S n)))).
    { rewrite seq_S, map_app. cbn [map plus]. rewrite P_turn, ring_P. destruct n as [|m]; [lia|]. reflexivity. }
    rewrite E in Hs. apply seq_sides in Hs. destruct Hs as (i & Hi & Eq). injection Eq as -> ->. exists i. split; [lia|]. split; reflexivity.
  Qed.

  Hypothesis HA : 3 * eps < r * (s * s).
  Hypothesis HB : eps < 4 * (r * r) * (s * s * s).

  Lemma ring_distinct : forall i j, (i < n)%nat -> (j < n)%nat -> i <> j -> 2 * r * s <= 2 * r * Rabs (sin (h j - h i)) /\ 0 < 2 * r * s.
  Proof. intros i j Hi Hj Hne. pose proof (sin_other i j Hi Hj Hne). pose proof s_pos. split; nra. Qed.
  Lemma ring_close : forall i j, (i < n)%nat -> (j < n)%nat -> close (P i) (P j) -> i = j.
  Proof.
    intros i j Hi Hj [C1 C2]. destruct (Nat.eq_dec i j) as [E|E]; [exact E|exfalso]. destruct (ring_distinct i j Hi Hj E) as [Q1 Q2]. pose proof eps_pos. pose proof s_pos.
    pose proof (cpt_d2 (h i) (h j)) as D. fold (P i) (P j) in D. unfold d2 in D. set (dx := X (P i) - X (P j)) in *. set (dy := Y (P i) - Y (P j)) in *. set (k := sin (h j - h i)) in *.
    assert (B : 4 * (r * r) * (k * k) <= 2 * (eps * eps)) by (rewrite <- D; nra).
    assert (Ek : k * k = Rabs k * Rabs k) by (rewrite <- Rabs_mult, Rabs_right; [reflexivity|nra]). rewrite Ek in B.
    assert (s * s <= s) by nra. assert (3 * eps < r * s) by nra. set (g := Rabs k) in *. assert (2 * r * g > 6 * eps) by nra. nra.
  Qed.
  Lemma circle_resolved : resolved (circle_ring c r n).
  Proof.
    split.
    - intros a Ha. apply ring_In in Ha. destruct Ha as (i & _ & ->). reflexivity.
    - intros a b Ha Hb Hc. apply ring_In in Ha. apply ring_In in Hb. destruct Ha as (i & Hi & ->), Hb as (j & Hj & ->). f_equal. apply ring_close; assumption.
    - intros a b d Ha Hb Hd Q. apply ring_In in Ha. apply ring_In in Hb. apply ring_In in Hd. destruct Ha as (i & Hi & ->), Hb as (j & Hj & ->), Hd as (k & Hk & ->).
      destruct (Nat.eq_dec i j) as [-> |N1]; [unfold area2; ring|]. destruct (Nat.eq_dec j k) as [-> |N2]; [unfold area2; ring|]. destruct (Nat.eq_dec i k) as [-> |N3]; [unfold area2; ring|]. exfalso.
      assert (B : Rabs (area2 (P i) (P j) (P k)) <= eps) by (apply Rabs_le; lra). unfold P in B. rewrite cpt_area, !Rabs_mult in B. pose proof s_pos.
      pose proof (sin_other i j Hi Hj N1). pose proof (sin_other j k Hj Hk N2). pose proof (sin_other i k Hi Hk N3). rewrite (Rabs_right 4), (Rabs_right r) in B by lra.
      assert (4 * (r * r) * (s * s * s) <= 4 * (r * r) * (Rabs (sin (h j - h i)) * Rabs (sin (h k - h j)) * Rabs (sin (h k - h i)))).
      { apply Rmult_le_compat_l; [nra|]. apply Rmult_le_compat; [nra|lra| |assumption]. apply Rmult_le_compat; lra. }
      lra.
    - intros a b d e Ha Hb Hd He _. apply ring_In in Ha. apply ring_In in Hb. apply ring_In in Hd. apply ring_In in He. destruct Ha as (i & Hi & ->), Hb as (j & Hj & ->), Hd as (k & Hk & ->), He as (m & Hm & ->). apply cpt_square.
  Qed.
  (** The other corners, counted from a side. *)
  Lemma others : forall i w, (i < n)%nat -> In w (circle_ring c r n) -> w = P i \/ w = P (S i) \/ exists k, (S i < k)%nat /\ (k < i + n)%nat /\ w = P k.
  Proof.
    intros i w Hi Hw. apply ring_In in Hw. destruct Hw as (k & Hk & ->). destruct (Nat.eq_dec k i) as [-> |N1]; [auto|]. destruct (Nat.eq_dec k (S i)) as [-> |N2]; [auto|].
    destruct (Nat.lt_ge_cases i k) as [Hl|Hl]; [right; right; exists k; split; [lia|]; split; [lia|reflexivity]|].
    rewrite <- (P_turns k). destruct (Nat.eq_dec (k + n) (S i)) as [-> |N3]; [auto|]. right; right. exists (k + n)%nat. split; [lia|]. split; [lia|reflexivity].
  Qed.
  Lemma circle_convex : convex_polygon (circle_ring c r n).
  Proof.
    split.
    - rewrite ring_P. apply NoDup_map_on; [|apply seq_NoDup]. intros i j Hi Hj E. apply in_seq in Hi. apply in_seq in Hj. apply ring_close; [lia|lia|]. rewrite E. pose proof eps_pos. split; lra.
    - unfold circle_ring. rewrite map_length, seq_length. exact Hn.
    - intros a b w Hs Hw N1 N2. apply ring_sides in Hs. destruct Hs as (i & Hi & -> & ->). destruct (others i w Hi Hw) as [E|[E|(k & K1 & K2 & ->)]]; [congruence|congruence|].
      pose proof (side_area i k K1 K2) as B. unfold spread. unfold P at 1 2 3 4. rewrite cpt_dx, cpt_dy. pose proof s_pos. pose proof eps_pos.
      assert (E1 : sin (h (S i) - h i) = s) by (f_equal; rewrite S_INR; pose proof n_pos; field; lra). rewrite E1.
      set (u := sin (h i + h (S i))) in *. set (v := cos (h i + h (S i))) in *. assert (Hu : -1 <= u <= 1) by apply SIN_bound. assert (Hv : -1 <= v <= 1) by apply COS_bound.
      assert (Au : Rabs (- (2 * r * s) * u) <= 2 * r * s) by (rewrite Rabs_mult, Rabs_Ropp, (Rabs_right (2 * r * s)) by nra; assert (Rabs u <= 1) by (apply Rabs_le; lra); nra).
      assert (Av : Rabs (2 * r * s * v) <= 2 * r * s) by (rewrite Rabs_mult, (Rabs_right (2 * r * s)) by nra; assert (Rabs v <= 1) by (apply Rabs_le; lra); nra).
      assert (3 * eps * (Rabs (- (2 * r * s) * u) + Rabs (2 * r * s * v)) <= 3 * eps * (4 * r * s)) by nra.
      assert (3 * eps * (4 * r * s) < 4 * (r * r) * (s * s * s)) by (assert (0 < r * s) by nra; nra). lra.
  Qed.

  Lemma circle_free : forall a b w, In (a, b) (polygon_sides (circle_ring c r n)) -> In w (circle_ring c r n) -> encroach a b w <> Inside.
  Proof.
    intros a b w Hs Hw. apply ring_sides in Hs. destruct Hs as (i & Hi & -> & ->). pose proof eps_pos. pose proof s_pos. pose proof unit_angle. pose proof PI_RGT_0.
    assert (Q : 0 <= dotp w (P i) w (P (S i))).
    { destruct (others i w Hi Hw) as [E|[E|(k & K1 & K2 & ->)]]; [rewrite E; unfold dotp; right; ring|rewrite E; unfold dotp; right; ring|]. unfold P. rewrite cpt_dot. rewrite (sin_neg_sub (h i)), (sin_neg_sub (h (S i))).
      pose proof (sin_steps (S i) k ltac:(lia) ltac:(lia)) as B2. pose proof (sin_steps i k ltac:(lia) ltac:(lia)) as B3.
      assert (E1 : h (S i) - h i = PI / INR n) by (rewrite S_INR; pose proof n_pos; field; lra). rewrite E1. assert (0 < cos (PI / INR n)) by (apply cos_gt_0; lra).
      apply Rmult_le_pos; [nra|]. apply Rmult_le_pos; [nra|lra]. }
    rewrite encroach_sign. cbv zeta. unfold dotp in Q.
    replace ((X w - X (P (S i))) * (X w - X (P i)) + (Y w - Y (P (S i))) * (Y w - Y (P i))) with ((X (P i) - X w) * (X (P (S i)) - X w) + (Y (P i) - Y w) * (Y (P (S i)) - Y w)) by ring.
    set (q := (X (P i) - X w) * (X (P (S i)) - X w) + (Y (P i) - Y w) * (Y (P (S i)) - Y w)) in *. clearbody q. intros E; revert E; repeat rcase; intros E; try discriminate E; lra.
  Qed.

  Lemma ring_dist : forall i j, dist (P i) (P j) = 2 * r * Rabs (sin (h j - h i)).
  Proof.
    intros i j. unfold dist, P. rewrite cpt_d2. set (k := sin (h j - h i)). assert (E : 4 * (r * r) * (k * k) = (2 * r * Rabs k) * (2 * r * Rabs k)).
    { assert (Ek : k * k = Rabs k * Rabs k) by (rewrite <- Rabs_mult, Rabs_right; [reflexivity|nra]). rewrite Ek. ring. }
    rewrite E. apply sqrt_square. pose proof (Rabs_pos k). nra.
  Qed.
  Lemma ratio_bound : forall x y z, s <= x -> s <= y -> s <= z -> 2 * r * x * (2 * r * y) / (INR 4 * (4 * (r * r) * (z * x * y) / 2)) <= / (2 * s).
  Proof.
    intros x y z Hx Hy Hz. pose proof s_pos. replace (INR 4) with 4 by (cbn; ring). replace (2 * r * x * (2 * r * y) / (4 * (4 * (r * r) * (z * x * y) / 2))) with (/ (2 * z)) by (field; lra).
    apply Rinv_le_contravar; lra.
  Qed.
  Lemma circle_fine : forall a b d (prm : refine_params ArithR), In a (circle_ring c r n) -> In b (circle_ring c r n) -> In d (circle_ring c r n) -> 0 < area2 a b d ->
    / (2 * s) + eps < quality_ratio prm -> (forall m, max_area prm = Some m -> 2 * (r * r) + eps < m) -> ~ misses prm (Tri a b d).
  Proof.
    intros a b d prm Ha Hb Hd Hpos Hq Hm. apply ring_In in Ha. apply ring_In in Hb. apply ring_In in Hd. destruct Ha as (i & Hi & ->), Hb as (j & Hj & ->), Hd as (k & Hk & ->).
    assert (N1 : i <> j) by (intros ->; unfold area2 in Hpos; lra). assert (N2 : j <> k) by (intros ->; unfold area2 in Hpos; lra). assert (N3 : k <> i) by (intros ->; unfold area2 in Hpos; lra).
    pose proof (sin_other i j Hi Hj N1) as B1. pose proof (sin_other j k Hj Hk N2) as B2. pose proof (sin_other k i Hk Hi N3) as B3. pose proof s_pos. pose proof eps_pos.
    set (x := Rabs (sin (h j - h i))) in *. set (y := Rabs (sin (h k - h j))) in *. set (z := Rabs (sin (h i - h k))) in *.
    assert (EA : area_triangle (P i) (P j) (P k) = 4 * (r * r) * (x * y * z) / 2).
    { rewrite area_triangle_spec. f_equal. rewrite <- (Rabs_right (area2 (P i) (P j) (P k))) by lra. unfold P. rewrite cpt_area, !Rabs_mult, (sin_neg_sub (h k) (h i)), Rabs_Ropp, (Rabs_right 4), (Rabs_right r) by lra. reflexivity. }
    assert (x <= 1 /\ y <= 1 /\ z <= 1) as (X1 & Y1 & Z1) by (unfold x, y, z; repeat split; apply Rabs_le; pose proof (SIN_bound (h j - h i)); pose proof (SIN_bound (h k - h j)); pose proof (SIN_bound (h i - h k)); lra).
    intros [(q & Eq & Hbad)|(ar & m & Ear & Em & Hbad)].
    - rewrite quality_eq in Eq by reflexivity. apply some_eq in Eq. assert (Lq : q <= / (2 * s)).
      { rewrite <- Eq, EA, !ring_dist. fold x y z. clear Eq. destruct (Rleb (2 * r * x) (2 * r * y) && Rleb (2 * r * x) (2 * r * z)); [|destruct (Rleb (2 * r * y) (2 * r * z))].
        - replace (x * y * z) with (x * y * z) by ring. apply (ratio_bound y z x); assumption.
        - replace (x * y * z) with (y * x * z) by ring. apply (ratio_bound x z y); assumption.
        - replace (x * y * z) with (z * x * y) by ring. apply (ratio_bound x y z); assumption. }
      change (Raeq q (quality_ratio prm) = true \/ Rleb (quality_ratio prm) q = true) in Hbad. change (T ArithR) with R in *.
      destruct Hbad as [Hb1|Hb1]; revert Hb1; rcase; intros; try discriminate; lra.
    - unfold tri_area in Ear. cbn [is_ghost tv1 tv2 tv3] in Ear. change (is_ghost (Tri (P i) (P j) (P k))) with false in Ear. apply some_eq in Ear. specialize (Hm m Em).
      assert (La : ar <= 2 * (r * r)).
      { rewrite <- Ear. change (area_triangle (P i) (P j) (P k) <= 2 * (r * r)). rewrite EA. assert (x * y * z <= 1) by (assert (0 <= x * y <= 1) by nra; nra). assert (0 < r * r) by nra. nra. }
      change (Raeq ar m = true \/ Rleb m ar = true) in Hbad. change (T ArithR) with R in *. destruct Hbad as [Hb1|Hb1]; revert Hb1; rcase; intros; try discriminate; lra.
  Qed.
End Circle.

(** The sine of [PI / n] is at least [2 / n]. *)
Lemma sin_unit : forall n, (3 <= n)%nat -> 2 / INR n <= sin (PI / INR n).
Proof.
  intros n Hn. pose proof (unit_angle n Hn) as [U1 U2]. pose proof (n_pos n Hn) as Np. pose proof PI_4 as P4. pose proof PI2_3_2 as P3.
  destruct (pre_sin_bound (PI / INR n) 0) as [L _]; [lra|lra|]. cbn [Nat.mul Nat.add sin_approx sum_f_R0] in L. unfold sin_approx, sin_term in L. cbn in L.
  set (x := PI / INR n) in *. assert (Q : x * INR n = PI) by (unfold x; field; lra).
  assert (L' : x - x * x * x / 6 <= sin x) by (eapply Rle_trans; [|exact L]; right; field).
  assert (x <= 4 / 3) by lra. assert (x * x <= 16 / 9) by nra. assert (19 / 27 * x <= sin x) by nra.
  assert (2 / INR n <= 19 / 27 * x); [|lra]. apply (Rmult_le_reg_r (INR n)); [exact Np|]. replace (2 / INR n * INR n) with 2 by (field; lra). replace (19 / 27 * x * INR n) with (19 / 27 * PI) by (rewrite <- Q; ring). lra.
Qed.
(** Conditions on the numbers alone. *)
Lemma radius_enough : forall r n, (3 <= n)%nat -> 0 < r -> 3 * eps * (INR n * INR n) < 4 * r -> eps * (INR n * INR n * INR n) < 32 * (r * r) ->
  3 * eps < r * (sin (PI / INR n) * sin (PI / INR n)) /\ eps < 4 * (r * r) * (sin (PI / INR n) * sin (PI / INR n) * sin (PI / INR n)).
Proof.
  intros r n Hn Hr H1 H2. pose proof (sin_unit n Hn) as Hs. pose proof (n_pos n Hn) as Np. set (N := INR n) in *. set (t := sin (PI / N)) in *. assert (Ht : 0 < 2 / N) by (apply Rdiv_lt_0_compat; lra).
  assert (S2 : 2 / N * (2 / N) <= t * t) by nra. assert (S3 : 2 / N * (2 / N) * (2 / N) <= t * t * t) by (apply Rmult_le_compat; nra). split.
  - apply Rlt_le_trans with (r * (2 / N * (2 / N))); [|apply Rmult_le_compat_l; lra]. apply (Rmult_lt_reg_r (N * N)); [nra|]. replace (r * (2 / N * (2 / N)) * (N * N)) with (4 * r) by (field; lra). exact H1.
  - apply Rlt_le_trans with (4 * (r * r) * (2 / N * (2 / N) * (2 / N))); [|apply Rmult_le_compat_l; nra]. apply (Rmult_lt_reg_r (N * N * N)); [assert (0 < N * N) by nra; nra|].
    replace (4 * (r * r) * (2 / N * (2 / N) * (2 / N)) * (N * N * N)) with (32 * (r * r)) by (field; lra). exact H2.
Qed.
