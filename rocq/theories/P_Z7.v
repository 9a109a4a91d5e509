(** P_Z7.v — one elimination step on doubles: the new entry is close to the exact
    one, is not too small unless it is zero, and is at most about twice as large. *)

From Coq Require Import Reals List ZArith Bool Lia Lra Floats.SpecFloat.
From Verif Require Import Arith ArithF SpecF P_Z1 P_Z2 P_Z3 P_Z5 P_Z6.
Import ListNotations.
Local Open Scope R_scope.

Definition big (n : Z) (v : R) : Prop := v = 0 \/ pw n <= Rabs v.

Lemma pw_succ : forall n, pw (n + 1) = 2 * pw n. Proof. intros n. rewrite pw_add, powerRZ_1. ring. Qed.
Lemma pw_le : forall a b, (a <= b)%Z -> pw a <= pw b.
Proof. intros a b H. destruct (Z.eq_dec a b) as [->|N]; [lra|]. apply Rlt_le, pw_lt. lia. Qed.
Lemma big_le : forall n m v, (n <= m)%Z -> big m v -> big n v.
Proof. intros n m v H [E|E]; [left; exact E|right]. pose proof (pw_le n m H). lra. Qed.
Lemma rangedI : forall n m v, big n v -> Rabs v <= pw m -> (-1000 <= n)%Z -> (m <= 1000)%Z -> ranged v.
Proof. intros n m v [E|E] Hm Hn Hm'; [left; exact E|right]. pose proof (pw_le _ _ Hn). pose proof (pw_le _ _ Hm'). lra. Qed.
Lemma big_mul : forall n m v w, big n v -> big m w -> big (n + m) (v * w).
Proof.
  intros n m v w [E|E] [F|F]; try (left; rewrite ?E, ?F; ring). right. rewrite pw_add, Rabs_mult. apply Rmult_le_compat; try assumption; apply Rlt_le, pw_pos.
Qed.

Lemma rounds_get : forall x v, rounds x v -> exists t, double x t /\ Rabs (t - v) <= Rabs v * uu /\ Rabs v / 2 <= Rabs t <= Rabs v * (1 + uu).
Proof.
  intros x v (t & D & H). exists t. split; [exact D|]. split; [exact H|]. pose proof uu_val. pose proof (Rabs_pos v). pose proof (Rabs_triang (t - v) v) as T1. replace (t - v + v) with t in T1 by ring.
  pose proof (Rabs_triang (v - t) t) as T2. replace (v - t + t) with v in T2 by ring. rewrite (Rabs_minus_sym v t) in T2.
  assert (Rabs v * uu <= Rabs v / 2) by (unfold Rdiv; apply Rmult_le_compat_l; lra). lra.
Qed.
Lemma rounds_big : forall n v t, big n v -> Rabs v / 2 <= Rabs t -> Rabs t <= Rabs v * (1 + uu) -> big (n - 1) t.
Proof.
  intros n v t [E|E] H H'.
  - left. rewrite E, Rabs_R0, Rmult_0_l in H'. pose proof (Rabs_pos t). destruct (Req_dec t 0) as [Z|Z]; [exact Z|]. apply Rabs_pos_lt in Z. lra.
  - right. replace n with (n - 1 + 1)%Z in E by lia. rewrite pw_succ in E. lra.
Qed.

Lemma granular : forall x r n, double x r -> big n r -> exists z, r = IZR z * pw (n - 52).
Proof.
  intros x r n D B. destruct x as [s|s| |s m e]; cbn [double] in D; try contradiction; [exists 0%Z; rewrite D; ring|].
  destruct D as [V E]. cbn [valid_binary] in V. apply bounded_log in V. destruct V as [V _]. pose proof (finite_pos m e) as P.
  destruct B as [B|B]; [exfalso; rewrite E, sign_value in B; destruct s; lra|].
  assert (A : Rabs r = IZR (Zpos m) * pw e) by (rewrite E, sign_value, Rmult_assoc, Rabs_mult, (Rabs_pos_eq (_ * _)) by lra; destruct s; [rewrite Rabs_left by lra|rewrite Rabs_R1]; ring).
  rewrite fx_eq in V. pose proof (log_bounds (Zpos m) eq_refl) as [_ L]. pose proof (Z.log2_nonneg (Zpos m)).
  assert (L53 : (Zpos m < 2 ^ 53)%Z) by (apply Z.lt_le_trans with (1 := L); apply Z.pow_le_mono_r; lia).
  assert (Q : pw n < pw (53 + e)). { apply Rle_lt_trans with (1 := B). rewrite A, pw_add. apply Rmult_lt_compat_r; [apply pw_pos|]. rewrite pw_int by lia. apply IZR_lt. exact L53. }
  apply pw_lt_inv in Q. exists ((if s then Zneg m else Zpos m) * 2 ^ (e - (n - 52)))%Z. rewrite mult_IZR, <- pw_int by lia. rewrite Rmult_assoc, <- pw_add. rewrite E. do 2 f_equal. lia.
Qed.
Lemma sum_gap : forall n r s, (exists z, r = IZR z * pw n) -> (exists z, s = IZR z * pw n) -> big n (r + s).
Proof.
  intros n r s [a ->] [b ->]. rewrite <- Rmult_plus_distr_r, <- plus_IZR. destruct (Z.eq_dec (a + b) 0) as [->|N]; [left; ring|right].
  rewrite Rabs_mult, (Rabs_pos_eq (pw n)) by (apply Rlt_le, pw_pos). rewrite <- (Rmult_1_l (pw n)) at 1. apply Rmult_le_compat_r; [apply Rlt_le, pw_pos|].
  rewrite <- abs_IZR. apply IZR_le. lia.
Qed.

(** A double with the real number it stands for, in a column with scale [2^h]. *)
Definition cell (g : Z) (c : Z * R) (x : sf) (r : R) : Prop :=
  double x r /\ big (fst c - g) r /\ Rabs r <= snd c * pw (fst c).
Definition col_ok (c : Z * R) : Prop := (-22 <= fst c <= 200)%Z /\ 0 <= snd c <= pw 40.
Definition grow (c : Z * R) : Z * R := (fst c, 201 / 100 * snd c).

Section Step.
  Variables (g U h1 : Z) (C1 : R).
  Hypotheses (Hg : (0 <= g <= 200)%Z) (HU : (0 <= U <= 30)%Z) (Hh1 : (-22 <= h1 <= 200)%Z) (HC1 : 0 <= C1 <= pw U).
  Variables (px : sf) (p : R).
  Hypotheses (Hpx : double px p) (Hp0 : p <> 0) (Hp1 : pw (h1 - g) <= Rabs p) (Hp2 : Rabs p <= C1 * pw h1).

  Lemma p_top : Rabs p <= pw (U + h1).
  Proof. rewrite pw_add. apply Rle_trans with (1 := Hp2). apply Rmult_le_compat_r; [apply Rlt_le, pw_pos|lra]. Qed.
  Lemma p_pos : 0 < Rabs p. Proof. apply Rabs_pos_lt. exact Hp0. Qed.
  Lemma pw_inv : forall n, / pw n = pw (- n).
  Proof. intros n. apply Rmult_eq_reg_l with (pw n); [|apply Rgt_not_eq, pw_pos]. rewrite Rinv_r by (apply Rgt_not_eq, pw_pos). rewrite <- pw_add, Z.add_opp_diag_r. reflexivity. Qed.

  Lemma inv_range : pw (- (U + h1)) <= Rabs (1 / p) <= pw (g - h1).
  Proof.
    unfold Rdiv. rewrite Rmult_1_l, Rabs_inv. pose proof p_pos. pose proof p_top. split.
    - rewrite <- pw_inv. apply Rinv_le_contravar; assumption.
    - replace (g - h1)%Z with (- (h1 - g))%Z by lia. rewrite <- pw_inv. apply Rinv_le_contravar; [apply pw_pos|assumption].
  Qed.
  Lemma inv_ok : exists i, double (fpdiv f1 px) i /\ Rabs (i * p - 1) <= uu.
  Proof.
    pose proof inv_range as [R1 R2]. pose proof p_pos as P.
    assert (D1 : double f1 1) by (pose proof (dz_double _ _ _ one_dz) as D; cbn [powerRZ] in D; rewrite Rmult_1_r in D; exact D).
    destruct (rounds_get _ _ (div_rel f1 px 1 p D1 Hpx Hp0 (rangedI _ _ _ (or_intror R1) R2 ltac:(lia) ltac:(lia)))) as (i & Di & Hi & _). exists i. split; [exact Di|].
    replace (i * p - 1) with ((i - 1 / p) * p) by (field; exact Hp0). rewrite Rabs_mult. apply Rle_trans with (Rabs (1 / p) * uu * Rabs p); [apply Rmult_le_compat_r; lra|].
    unfold Rdiv. rewrite Rmult_1_l, Rabs_inv. replace (/ Rabs p * uu * Rabs p) with uu by (field; lra). lra.
  Qed.

  Lemma coef_ok : forall ax a, cell g (h1, C1) ax a -> Rabs a <= Rabs p ->
    exists c, double (fpmul ax (fpdiv f1 px)) c /\ big (- g - U - 2) c /\ Rabs c <= 1 + 3 * uu /\ Rabs (c * p - a) <= 3 * uu * Rabs a.
  Proof.
    intros ax a (Da & Ba & Ca) Hap. cbn [fst snd] in *. destruct inv_ok as (i & Di & Hi). pose proof p_pos as P. pose proof uu_val as Hu. pose proof p_top as PT.
    assert (Hip : 1 - uu <= Rabs (i * p) <= 1 + uu).
    { pose proof (Rabs_triang (i * p - 1) 1) as T1. replace (i * p - 1 + 1) with (i * p) in T1 by ring. pose proof (Rabs_triang (1 - i * p) (i * p)) as T2. replace (1 - i * p + i * p) with 1 in T2 by ring. rewrite (Rabs_minus_sym 1) in T2. rewrite Rabs_R1 in *. lra. }
    rewrite Rabs_mult in Hip.
    assert (Bi : big (- (U + h1) - 1) i).
    { right. apply Rmult_le_reg_r with (Rabs p); [exact P|]. apply Rle_trans with (/ 2); [|lra]. apply Rle_trans with (pw (- (U + h1) - 1) * pw (U + h1)); [apply Rmult_le_compat_l; [apply Rlt_le, pw_pos|exact PT]|].
      rewrite <- pw_add. replace (- (U + h1) - 1 + (U + h1))%Z with (- (1))%Z by lia. rewrite <- pw_inv, powerRZ_1. lra. }
    assert (Bai : big (- g - U - 1) (a * i)) by (replace (- g - U - 1)%Z with (h1 - g + (- (U + h1) - 1))%Z by lia; apply big_mul; assumption).
    pose proof (Rabs_pos a) as Pa. pose proof (Rabs_pos i) as Pi.
    assert (Tai : Rabs (a * i) <= 1 + uu). { rewrite Rabs_mult. apply Rle_trans with (Rabs p * Rabs i); [apply Rmult_le_compat_r; assumption|]. lra. }
    destruct (rounds_get _ _ (mul_rel ax (fpdiv f1 px) a i Da Di (rangedI _ 1 _ Bai ltac:(rewrite powerRZ_1; lra) ltac:(lia) ltac:(lia)))) as (c & Dc & Hc & Hc1 & Hc2).
    exists c. split; [exact Dc|]. split; [|split].
    - replace (- g - U - 2)%Z with (- g - U - 1 - 1)%Z by lia. exact (rounds_big _ _ _ Bai Hc1 Hc2).
    - apply Rle_trans with (1 := Hc2). apply Rle_trans with ((1 + uu) * (1 + uu)); [apply Rmult_le_compat_r; lra|]. rewrite Hu. lra.
    - replace (c * p - a) with ((c - a * i) * p + a * (i * p - 1)) by ring. pose proof (Rabs_triang ((c - a * i) * p) (a * (i * p - 1))) as T.
      rewrite (Rabs_mult a (i * p - 1)), (Rabs_mult (c - a * i)) in T.
      assert (A1 : Rabs (c - a * i) * Rabs p <= Rabs a * (uu * (1 + uu))).
      { apply Rle_trans with (Rabs (a * i) * uu * Rabs p); [apply Rmult_le_compat_r; [lra|exact Hc]|]. rewrite Rabs_mult. replace (Rabs a * Rabs i * uu * Rabs p) with (Rabs a * (uu * (Rabs i * Rabs p))) by ring.
        apply Rmult_le_compat_l; [lra|]. apply Rmult_le_compat_l; lra. }
      assert (A2 : Rabs a * Rabs (i * p - 1) <= Rabs a * uu) by (apply Rmult_le_compat_l; lra).
      assert (A3 : Rabs a * (uu * (1 + uu)) <= Rabs a * (2 * uu)) by (apply Rmult_le_compat_l; [lra|]; rewrite Hu; lra). lra.
  Qed.

  Lemma cell_ok : forall cx c col pvx pv x r, double cx c -> big (- g - U - 2) c -> Rabs c <= 1 + 3 * uu -> col_ok col -> cell g col pvx pv -> cell g col x r ->
    exists r', cell (2 * g + U + 56) (grow col) (fpadd (fpmul (fpopp pvx) cx) x) r' /\ Rabs (r' + c * pv - r) <= 16 / 5 * uu * (snd col * pw (fst col)).
  Proof.
    intros cx c [h C] pvx pv x r Dc Bc Tc [Hh HC] (Dp & Bp & Tp) (Dr & Br & Tr). unfold grow in *. cbn [fst snd] in *. pose proof uu_val as Hu. pose proof (pw_pos h) as Ph. set (S := C * pw h) in *.
    assert (HS0 : 0 <= S) by (unfold S; apply Rmult_le_pos; lra).
    assert (HS : S <= pw (40 + h)) by (unfold S; rewrite pw_add; apply Rmult_le_compat_r; lra).
    assert (HS2 : 4 * S <= pw (42 + h)) by (replace (42 + h)%Z with (40 + h + 1 + 1)%Z by lia; rewrite !pw_succ; lra).
    assert (HSr : pw (42 + h) <= pw 1000) by (apply pw_le; lia).
    pose proof (Rabs_pos c) as Pc. pose proof (Rabs_pos pv) as Ppv.
    assert (Bm : big (h - 2 * g - U - 2) (- pv * c)).
    { replace (h - 2 * g - U - 2)%Z with (h - g + (- g - U - 2))%Z by lia. apply big_mul; [|exact Bc]. destruct Bp as [->|Bp]; [left; ring|right; rewrite Rabs_Ropp; exact Bp]. }
    assert (Tm : Rabs (- pv * c) <= S * (1 + 3 * uu)) by (rewrite Rabs_mult, Rabs_Ropp; apply Rmult_le_compat; assumption).
    assert (Su : S * uu <= S / 1000) by (unfold Rdiv; apply Rmult_le_compat_l; lra).
    destruct (rounds_get _ _ (mul_rel (fpopp pvx) cx (- pv) c (neg_exact _ _ Dp) Dc (rangedI _ (42 + h) _ Bm ltac:(lra) ltac:(lia) ltac:(lia)))) as (m & Dm & Hm & Hm1 & Hm2).
    pose proof (rounds_big _ _ _ Bm Hm1 Hm2) as Bm'.
    assert (Tm' : Rabs m <= S * (1 + 5 * uu)). { apply Rle_trans with (1 := Hm2). apply Rle_trans with (S * (1 + 3 * uu) * (1 + uu)); [apply Rmult_le_compat_r; lra|]. rewrite Rmult_assoc. apply Rmult_le_compat_l; [exact HS0|]. rewrite Hu; lra. }
    assert (Bs : big (h - 2 * g - U - 55) (m + r)).
    { apply sum_gap; [apply (granular _ m (h - 2 * g - U - 3)) in Dm|apply (granular _ r (h - 2 * g - U - 3)) in Dr].
      - replace (h - 2 * g - U - 55)%Z with (h - 2 * g - U - 3 - 52)%Z by lia. exact Dm.
      - apply (big_le _ (h - 2 * g - U - 2 - 1)); [lia|exact Bm'].
      - replace (h - 2 * g - U - 55)%Z with (h - 2 * g - U - 3 - 52)%Z by lia. exact Dr.
      - apply (big_le _ (h - g)); [lia|exact Br]. }
    pose proof (Rabs_triang m r) as Tmr.
    destruct (rounds_get _ _ (add_rel _ x m r Dm Dr (rangedI _ (42 + h) _ Bs ltac:(lra) ltac:(lia) ltac:(lia)))) as (t & Dt & Ht & Ht1 & Ht2).
    exists t. split; [split; [exact Dt|split]|].
    - cbn [fst]. replace (h - (2 * g + U + 56))%Z with (h - 2 * g - U - 55 - 1)%Z by lia. exact (rounds_big _ _ _ Bs Ht1 Ht2).
    - cbn [fst snd]. replace (201 / 100 * C * pw h) with (201 / 100 * S) by (unfold S; ring). apply Rle_trans with (1 := Ht2). apply Rle_trans with (S * (2 + 5 * uu) * (1 + uu)); [apply Rmult_le_compat_r; lra|].
      rewrite Rmult_assoc, (Rmult_comm (201 / 100)). apply Rmult_le_compat_l; [exact HS0|]. rewrite Hu. lra.
    - replace (t + c * pv - r) with ((t - (m + r)) + (m - - pv * c)) by ring. pose proof (Rabs_triang (t - (m + r)) (m - - pv * c)) as T.
      assert (A1 : Rabs (m + r) * uu <= S * ((2 + 5 * uu) * uu)) by (rewrite <- Rmult_assoc; apply Rmult_le_compat_r; lra).
      assert (A2 : Rabs (- pv * c) * uu <= S * ((1 + 3 * uu) * uu)) by (rewrite <- Rmult_assoc; apply Rmult_le_compat_r; lra).
      assert (A3 : S * ((2 + 5 * uu) * uu) + S * ((1 + 3 * uu) * uu) <= 16 / 5 * uu * S). { rewrite <- Rmult_plus_distr_l, (Rmult_comm (16 / 5 * uu)). apply Rmult_le_compat_l; [exact HS0|]. rewrite Hu. lra. }
      lra.
  Qed.
End Step.
