(** P_Z1.v — binary64 operations are exact whenever the exact result is a
    double: addition, subtraction, multiplication, division and comparison of
    [SpecFloat], related to real numbers. *)

From Coq Require Import Reals List ZArith Bool Lia Lra Floats.SpecFloat.
From Verif Require Import Arith ArithF SpecF.
Import ListNotations.
Local Open Scope Z_scope.

Notation fx := (fexp 53 1024).
Lemma fx_eq : forall e, fx e = Z.max (e - 53) (-1074). Proof. reflexivity. Qed.

Lemma digits_log : forall p, Zpos (digits2_pos p) = Z.log2 (Zpos p) + 1.
Proof.
  assert (Hs : forall p, digits2_pos p = Pos.size p) by (induction p; cbn; congruence). intros p. rewrite Hs.
  destruct p; cbn [Z.log2 Pos.size]; rewrite ?Pos2Z.inj_succ; lia.
Qed.

Lemma log_bounds : forall m, 0 < m -> 2 ^ Z.log2 m <= m < 2 ^ (Z.log2 m + 1).
Proof. intros m Hm. pose proof (Z.log2_spec m Hm). rewrite <- Z.add_1_r in H. exact H. Qed.

Lemma log_lt : forall m n, 0 < m -> 0 <= n -> m < 2 ^ n -> Z.log2 m + 1 <= n.
Proof. intros m n Hm Hn H. apply Z.log2_lt_pow2 in H; lia. Qed.

(** ** Shifting *)

Lemma iter_add : forall (X : Type) (f : X -> X) m n x, Nat.iter (m + n) f x = Nat.iter m f (Nat.iter n f x).
Proof. intros X f m n x. induction m as [|m IH]; [reflexivity|]. cbn. unfold Nat.iter in IH. rewrite IH. reflexivity. Qed.

Lemma iter_pos_add : forall (X : Type) (f : X -> X) n x, iter_pos f n x = Nat.iter (Pos.to_nat n) f x.
Proof.
  intros X f. induction n; intros x; cbn [iter_pos].
  - rewrite !IHn, Pos2Nat.inj_xI. replace (S (2 * Pos.to_nat n))%nat with (Pos.to_nat n + Pos.to_nat n + 1)%nat by lia. rewrite !iter_add. reflexivity.
  - rewrite !IHn, Pos2Nat.inj_xO. replace (2 * Pos.to_nat n)%nat with (Pos.to_nat n + Pos.to_nat n)%nat by lia. rewrite iter_add. reflexivity.
  - reflexivity.
Qed.

Lemma shr_exact : forall n m, 0 < m -> Nat.iter n shr_1 (Build_shr_record (m * 2 ^ Z.of_nat n) false false) = Build_shr_record m false false.
Proof.
  induction n as [|n IH]; intros m Hm.
  - cbn [Nat.iter nat_rect]. rewrite Z.mul_1_r. reflexivity.
  - replace (m * 2 ^ Z.of_nat (S n)) with ((m * 2) * 2 ^ Z.of_nat n) by (rewrite Nat2Z.inj_succ, Z.pow_succ_r by lia; ring).
    cbn [Nat.iter nat_rect] in *. unfold Nat.iter in IH. rewrite IH by lia. destruct m as [|m|m]; try lia. cbn. rewrite Pos.mul_comm. reflexivity.
Qed.

Lemma shr_fexp_exact : forall m E k, 0 < m -> E <= k -> fx (Z.log2 m + 1 + k) = k ->
  shr_fexp 53 1024 (m * 2 ^ (k - E)) E loc_Exact = (Build_shr_record m false false, k).
Proof.
  intros m E k Hm HE Hk. unfold shr_fexp. cbn [shr_record_of_loc].
  assert (Hz : Zdigits2 (m * 2 ^ (k - E)) + E = Z.log2 m + 1 + k).
  { assert (Hp : 0 < m * 2 ^ (k - E)) by (apply Z.mul_pos_pos; [lia|apply Z.pow_pos_nonneg; lia]).
    unfold Zdigits2. destruct (m * 2 ^ (k - E)) as [|q|q] eqn:Eq; try lia. rewrite digits_log, <- Eq, Z.log2_mul_pow2 by lia. lia. }
  rewrite Hz, Hk. unfold shr. destruct (k - E) as [|d|d] eqn:Ed; try lia.
  - rewrite Z.mul_1_r. f_equal. lia.
  - rewrite iter_pos_add. rewrite <- (positive_nat_Z d), shr_exact by lia. f_equal. rewrite positive_nat_Z. lia.
Qed.

(** The double [z * 2^e]. *)
Definition cexp (z e : Z) : Z := fx (Z.log2 z + 1 + e).
Definition cman (z e : Z) : Z := z * 2 ^ (e - cexp z e).
Definition cf (s : bool) (z e : Z) : sf := S754_finite s (Z.to_pos (cman z e)) (cexp z e).

Definition fits (z e : Z) : Prop := 0 < z < 2 ^ 53 /\ -1074 <= e <= 900.

Lemma cexp_le : forall z e, fits z e -> cexp z e <= e.
Proof. intros z e [[Hz Hz'] He]. unfold cexp. rewrite fx_eq. pose proof (log_lt z 53 Hz ltac:(lia) Hz'). lia. Qed.
Lemma cman_pos : forall z e, fits z e -> 0 < cman z e.
Proof. intros z e Hf. pose proof (cexp_le z e Hf). destruct Hf as [[Hz _] _]. apply Z.mul_pos_pos; [lia|apply Z.pow_pos_nonneg; lia]. Qed.
Lemma cman_log : forall z e, fits z e -> Z.log2 (cman z e) + cexp z e = Z.log2 z + e.
Proof. intros z e Hf. pose proof (cexp_le z e Hf). destruct Hf as [[Hz _] _]. unfold cman. rewrite Z.log2_mul_pow2 by lia. lia. Qed.
Lemma cexp_fix : forall z e, fits z e -> fx (Z.log2 (cman z e) + 1 + cexp z e) = cexp z e.
Proof. intros z e Hf. replace (Z.log2 (cman z e) + 1 + cexp z e) with (Z.log2 z + 1 + e) by (pose proof (cman_log z e Hf); lia). reflexivity. Qed.
Lemma cexp_top : forall z e, fits z e -> cexp z e <= 971.
Proof. intros z e Hf. pose proof (cexp_le z e Hf). destruct Hf. lia. Qed.

Lemma round_aux_exact : forall s z e E, fits z e -> E <= cexp z e -> binary_round_aux 53 1024 s (z * 2 ^ (e - E)) E loc_Exact = cf s z e.
Proof.
  intros s z e E Hf HE. unfold binary_round_aux. pose proof (cexp_le z e Hf) as Hle. pose proof (cman_pos z e Hf) as Hp. pose proof (cexp_fix z e Hf) as Hx. pose proof (cexp_top z e Hf) as Ht.
  replace (z * 2 ^ (e - E)) with (cman z e * 2 ^ (cexp z e - E)).
  2: { unfold cman. rewrite <- Z.mul_assoc, <- Z.pow_add_r by lia. f_equal. f_equal. lia. }
  rewrite shr_fexp_exact by assumption. cbn [shr_m loc_of_shr_record round_nearest_even].
  pose proof (shr_fexp_exact (cman z e) (cexp z e) (cexp z e) Hp ltac:(lia) Hx) as H2. rewrite Z.sub_diag, Z.mul_1_r in H2. rewrite H2. cbn [shr_m].
  unfold cf. destruct (cman z e) as [|m|m]; try lia. cbn [Z.to_pos]. replace (Zle_bool (cexp z e) (1024 - 53)) with true; [reflexivity|]. symmetry. apply Z.leb_le. lia.
Qed.

(** [M * 2^E = z * 2^e] *)
Definition same_value (M E z e : Z) : Prop := M * 2 ^ (E - Z.min E e) = z * 2 ^ (e - Z.min E e).

Lemma same_value_log : forall M E z e, 0 < M -> 0 < z -> same_value M E z e -> Z.log2 M + E = Z.log2 z + e.
Proof.
  intros M E z e HM Hz H. unfold same_value in H. apply (f_equal Z.log2) in H. rewrite !Z.log2_mul_pow2 in H by lia. lia.
Qed.

Lemma round_exact : forall s M E z e, fits z e -> same_value (Zpos M) E z e -> binary_round 53 1024 s M E = cf s z e.
Proof.
  intros s M E z e Hf HM. unfold binary_round. rewrite digits_log. pose proof Hf as [[Hz _] _].
  pose proof (same_value_log (Zpos M) E z e ltac:(lia) Hz HM) as HL. replace (Z.log2 (Z.pos M) + 1 + E) with (Z.log2 z + 1 + e) by lia. fold (cexp z e).
  pose proof (cexp_le z e Hf) as Hle. unfold shl_align. unfold same_value in HM.
  assert (Hge : E <= cexp z e -> Z.pos M = z * 2 ^ (e - E)).
  { intros HE. rewrite Z.min_l in HM by lia. rewrite Z.sub_diag, Z.mul_1_r in HM. exact HM. }
  destruct (cexp z e - E) as [|d|d] eqn:Ed.
  - rewrite Hge by lia. apply round_aux_exact; [assumption|lia].
  - rewrite Hge by lia. apply round_aux_exact; [assumption|lia].
  - assert (Zpos (shift_pos d M) = z * 2 ^ (e - cexp z e)) as ->; [|apply round_aux_exact; [assumption|lia]].
    rewrite shift_pos_correct. change (Z.pow_pos 2 d) with (2 ^ Z.pos d). destruct (Z_le_gt_dec E e).
    + rewrite Z.min_l, Z.sub_diag, Z.mul_1_r in HM by lia. rewrite HM. rewrite Z.mul_comm, <- Z.mul_assoc, <- Z.pow_add_r by lia. f_equal. f_equal. lia.
    + rewrite Z.min_r, Z.sub_diag, Z.mul_1_r in HM by lia. rewrite <- HM at 1. rewrite Z.mul_comm, <- Z.mul_assoc, <- Z.pow_add_r by lia. f_equal. f_equal. lia.
Qed.

Lemma round_self : forall s z e, fits z e -> binary_round 53 1024 s (Z.to_pos z) e = cf s z e.
Proof.
  intros s z e Hf. apply round_exact; [exact Hf|]. destruct Hf as [[Hz _] _]. rewrite Z2Pos.id by exact Hz. reflexivity.
Qed.

(** ** Values *)
Local Open Scope R_scope.

Notation pw := (powerRZ 2).
Lemma pw_pos : forall e, 0 < pw e. Proof. intros e. apply powerRZ_lt. lra. Qed.
Lemma pw_add : forall a b, pw (a + b) = pw a * pw b. Proof. intros. apply powerRZ_add. lra. Qed.
Lemma pw_int : forall n, (0 <= n)%Z -> pw n = IZR (2 ^ n).
Proof. intros n Hn. rewrite <- (Z2Nat.id n Hn) at 1. rewrite <- pow_powerRZ. rewrite (pow_IZR 2). rewrite Z2Nat.id by exact Hn. reflexivity. Qed.
Lemma pw_split : forall l e, (l <= e)%Z -> pw e = IZR (2 ^ (e - l)) * pw l.
Proof. intros l e H. rewrite <- pw_int by lia. rewrite <- pw_add. f_equal. lia. Qed.

Lemma same_value_R : forall M E z e, IZR M * pw E = IZR z * pw e -> same_value M E z e.
Proof.
  intros M E z e H. unfold same_value. rewrite (pw_split (Z.min E e) E), (pw_split (Z.min E e) e) in H by lia. apply eq_IZR. rewrite !mult_IZR.
  apply (Rmult_eq_reg_r (pw (Z.min E e))); [lra|]. apply Rgt_not_eq, pw_pos.
Qed.
Lemma same_value_of : forall M E z e, same_value M E z e -> IZR M * pw E = IZR z * pw e.
Proof.
  intros M E z e H. unfold same_value in H. rewrite (pw_split (Z.min E e) E), (pw_split (Z.min E e) e) by lia. apply (f_equal IZR) in H. rewrite !mult_IZR in H.
  rewrite <- !Rmult_assoc, H. reflexivity.
Qed.

(** [x] is the double [z * 2^e], [z] of either sign. *)
Definition exactly (x : sf) (z e : Z) : Prop := if Z.eqb z 0 then exists s, x = S754_zero s else x = cf (Z.ltb z 0) (Z.abs z) e.
Definition small (z e : Z) : Prop := (Z.abs z < 2 ^ 53 /\ -1074 <= e <= 900)%Z.
Lemma small_fits : forall z e, small z e -> (z <> 0)%Z -> fits (Z.abs z) e.
Proof. intros z e [H1 H2] Hz. split; [|exact H2]. split; [lia|exact H1]. Qed.

Definition sgn (s : bool) (m : Z) : Z := if s then (- m)%Z else m.

Lemma cf_value : forall s z e, fits z e -> IZR (sgn s (Zpos (Z.to_pos (cman z e)))) * pw (cexp z e) = IZR (sgn s z) * pw e.
Proof.
  intros s z e Hf. pose proof (cman_pos z e Hf). pose proof (cexp_le z e Hf). rewrite Z2Pos.id by assumption. rewrite (pw_split (cexp z e) e) by assumption. unfold cman.
  destruct s; cbn [sgn]; rewrite ?opp_IZR, mult_IZR; ring.
Qed.
Lemma cf_valid : forall s z e, fits z e -> valid_binary 53 1024 (cf s z e) = true.
Proof.
  intros s z e Hf. cbn [valid_binary cf]. unfold bounded, canonical_mantissa. pose proof (cman_pos z e Hf) as Hp. rewrite digits_log, Z2Pos.id, cexp_fix by assumption. pose proof (cexp_top z e Hf).
  apply andb_true_intro. split; [apply Zeq_is_eq_bool; reflexivity|]. apply Z.leb_le. lia.
Qed.

Lemma sgn_abs : forall z, sgn (Z.ltb z 0) (Z.abs z) = z.
Proof. intros z. unfold sgn. destruct (Z.ltb_spec z 0); lia. Qed.

Lemma exactly_double : forall x z e, small z e -> exactly x z e -> double x (IZR z * pw e).
Proof.
  intros x z e Hs H. unfold exactly in H. destruct (Z.eqb_spec z 0) as [->|Hz].
  - destruct H as (s & ->). cbn. ring.
  - subst x. pose proof (small_fits z e Hs Hz) as Hf. split; [apply cf_valid; exact Hf|].
    pose proof (cf_value (z <? 0)%Z _ _ Hf) as Hv. rewrite sgn_abs in Hv. rewrite <- Hv. reflexivity.
Qed.

Lemma bounded_log : forall m e, bounded 53 1024 m e = true -> fx (Z.log2 (Zpos m) + 1 + e) = e /\ (e <= 971)%Z.
Proof.
  intros m e H. unfold bounded, canonical_mantissa in H. apply andb_prop in H. destruct H as [H1 H2]. apply Zeq_is_eq_bool in H1. rewrite digits_log in H1. apply Z.leb_le in H2. split; [exact H1|lia].
Qed.

(** A double with the value [z * 2^e] is that double. *)
Lemma double_exactly : forall x z e, small z e -> double x (IZR z * pw e) -> exactly x z e.
Proof.
  intros x z e Hs H. unfold exactly. destruct x as [s|s| |s m k]; cbn [double] in H; try contradiction.
  - destruct (Z.eqb_spec z 0) as [->|Hz]; [eauto|]. exfalso. apply Rmult_integral in H. destruct H as [H|H]; [apply eq_IZR in H; contradiction|]. pose proof (pw_pos e). lra.
  - destruct H as [Hv He]. cbn [valid_binary] in Hv. apply bounded_log in Hv. destruct Hv as [Hx _].
    assert (Hz : (z <> 0)%Z).
    { intros ->. rewrite Rmult_0_l in He. symmetry in He. apply Rmult_integral in He. destruct He as [He|He]; [apply eq_IZR in He; destruct s; discriminate|]. pose proof (pw_pos k). lra. }
    destruct (Z.eqb_spec z 0) as [|_]; [contradiction|]. pose proof (small_fits z e Hs Hz) as Hf.
    assert (Hsg : s = (z <? 0)%Z /\ IZR (Zpos m) * pw k = IZR (Z.abs z) * pw e).
    { pose proof (pw_pos e). pose proof (pw_pos k). assert (0 < IZR (Zpos m)) by (apply IZR_lt; lia).
      destruct s; [change (Zneg m) with (- Zpos m)%Z in He; rewrite opp_IZR in He|]; destruct (Z.ltb_spec z 0).
      - split; [reflexivity|]. rewrite Z.abs_neq by lia. rewrite opp_IZR. lra.
      - exfalso. assert (0 < IZR z) by (apply IZR_lt; lia). assert (0 < IZR z * pw e) by (apply Rmult_lt_0_compat; lra). assert (0 < IZR (Zpos m) * pw k) by (apply Rmult_lt_0_compat; lra). lra.
      - exfalso. assert (IZR z < 0) by (apply IZR_lt; lia). assert (0 < (- IZR z) * pw e) by (apply Rmult_lt_0_compat; lra). assert (0 < IZR (Zpos m) * pw k) by (apply Rmult_lt_0_compat; lra). lra.
      - split; [reflexivity|]. rewrite Z.abs_eq by lia. lra. }
    destruct Hsg as [-> Hv]. apply same_value_R in Hv. pose proof (proj1 (proj1 Hf)) as Hz1.
    pose proof (same_value_log _ _ _ _ (eq_refl : (0 < Zpos m)%Z) Hz1 Hv) as HL.
    assert (Hk : cexp (Z.abs z) e = k) by (unfold cexp; rewrite <- Hx; f_equal; lia).
    unfold cf. rewrite Hk. f_equal. unfold cman. rewrite Hk.
    pose proof (cexp_le (Z.abs z) e (small_fits z e Hs Hz)) as Hle. rewrite Hk in Hle. unfold same_value in Hv. rewrite Z.min_l, Z.sub_diag, Z.mul_1_r in Hv by lia. rewrite <- Hv. reflexivity.
Qed.

(** ** Operations *)

Lemma normalize_exact : forall M E z e b, small z e -> IZR M * pw E = IZR z * pw e -> exactly (binary_normalize 53 1024 M E b) z e.
Proof.
  intros M E z e b Hs Hv. unfold exactly. destruct (Z.eqb_spec z 0) as [->|Hz].
  - rewrite Rmult_0_l in Hv. apply Rmult_integral in Hv. destruct Hv as [Hv|Hv]; [apply eq_IZR in Hv; subst M; exists b; reflexivity|]. pose proof (pw_pos E). lra.
  - pose proof (small_fits z e Hs Hz) as Hf. pose proof (pw_pos e). pose proof (pw_pos E). unfold binary_normalize. destruct M as [|M|M].
    + exfalso. rewrite Rmult_0_l in Hv. symmetry in Hv. apply Rmult_integral in Hv. destruct Hv as [Hv|Hv]; [apply eq_IZR in Hv; contradiction|lra].
    + assert (0 < IZR z). { assert (0 < IZR (Zpos M)) by (apply IZR_lt; lia). assert (0 < IZR (Zpos M) * pw E) by (apply Rmult_lt_0_compat; lra). apply Rnot_le_lt. intros Hn. assert (0 <= (- IZR z) * pw e) by (apply Rmult_le_pos; lra). lra. }
      apply lt_IZR in H1. destruct (Z.ltb_spec z 0); [lia|]. apply round_exact; [exact Hf|]. apply same_value_R. rewrite Z.abs_eq by lia. exact Hv.
    + assert (IZR z < 0). { assert (IZR (Zneg M) < 0) by (apply IZR_lt; lia). assert (0 < (- IZR (Zneg M)) * pw E) by (apply Rmult_lt_0_compat; lra). apply Rnot_le_lt. intros Hn. assert (0 <= (IZR z) * pw e) by (apply Rmult_le_pos; lra). lra. }
      apply lt_IZR in H1. destruct (Z.ltb_spec z 0); [|lia]. apply round_exact; [exact Hf|]. apply same_value_R. rewrite Z.abs_neq by lia. change (Zpos M) with (- Zneg M)%Z. rewrite !opp_IZR. lra.
Qed.

Lemma shl_align_value : forall m k l, (l <= k)%Z -> IZR (Zpos (fst (shl_align m k l))) * pw l = IZR (Zpos m) * pw k.
Proof.
  intros m k l H. unfold shl_align. destruct (l - k)%Z as [|d|d] eqn:Ed; try lia.
  - replace l with k by lia. reflexivity.
  - cbn [fst]. rewrite shift_pos_correct. change (Z.pow_pos 2 d) with (2 ^ Zpos d)%Z. rewrite mult_IZR, <- pw_int by lia. replace (pw k) with (pw (Zpos d) * pw l) by (rewrite <- pw_add; f_equal; lia). ring.
Qed.

Lemma cond_value : forall s m, IZR (cond_Zopp s (Zpos m)) = IZR (if s then Zneg m else Zpos m).
Proof. intros [|] m; reflexivity. Qed.

Lemma double_exact : forall x r z e, small z e -> r = IZR z * pw e -> exactly x z e -> double x r.
Proof. intros x r z e Hs -> H. apply exactly_double; assumption. Qed.

Lemma align_sum : forall s m k l, (l <= k)%Z -> IZR (cond_Zopp s (Zpos (fst (shl_align m k l)))) * pw l = IZR (if s then Zneg m else Zpos m) * pw k.
Proof.
  intros s m k l H. pose proof (shl_align_value m k l H) as Hv. destruct s; cbn [cond_Zopp]; [|exact Hv]. change (Zneg m) with (- Zpos m)%Z. rewrite !opp_IZR. lra.
Qed.

Theorem add_exact : forall x y r s z e, double x r -> double y s -> small z e -> r + s = IZR z * pw e -> double (fpadd x y) (r + s).
Proof.
  intros x y r s z e Hx Hy Hs Hv. destruct x as [sx|sx| |sx mx ex]; cbn [double] in Hx; try contradiction; destruct y as [sy|sy| |sy my ey]; cbn [double] in Hy; try contradiction; unfold fpadd, SFadd.
  - subst. destruct (Bool.eqb sx sy); cbn; ring.
  - subst r. rewrite Rplus_0_l. exact Hy.
  - subst s. rewrite Rplus_0_r. exact Hx.
  - apply (double_exact _ _ z e Hs Hv). apply normalize_exact; [exact Hs|]. rewrite <- Hv. rewrite plus_IZR, Rmult_plus_distr_r, !align_sum by lia. destruct Hx as [_ ->]. destruct Hy as [_ ->]. reflexivity.
Qed.

Lemma neg_exact : forall x r, double x r -> double (fpopp x) (- r).
Proof.
  intros [s|s| |s m k] r H; cbn in *; try contradiction; [subst; ring|]. destruct H as [H ->]. split; [exact H|]. destruct s; cbn [negb]; [change (Zneg m) with (- Zpos m)%Z|change (Zneg m) with (- Zpos m)%Z]; rewrite opp_IZR; ring.
Qed.

Theorem sub_exact : forall x y r s z e, double x r -> double y s -> small z e -> r - s = IZR z * pw e -> double (fpsub x y) (r - s).
Proof.
  intros x y r s z e Hx Hy Hs Hv. destruct x as [sx|sx| |sx mx ex]; cbn [double] in Hx; try contradiction; destruct y as [sy|sy| |sy my ey]; cbn [double] in Hy; try contradiction; unfold fpsub, SFsub.
  - subst. destruct (Bool.eqb sx (negb sy)); cbn; ring.
  - subst r. rewrite Rminus_0_l. exact (neg_exact (S754_finite sy my ey) s Hy).
  - subst s. rewrite Rminus_0_r. exact Hx.
  - apply (double_exact _ _ z e Hs Hv). apply normalize_exact; [exact Hs|]. rewrite <- Hv. unfold Z.sub. rewrite plus_IZR, opp_IZR, Rmult_plus_distr_r, Ropp_mult_distr_l_reverse, !align_sum by lia. destruct Hx as [_ ->]. destruct Hy as [_ ->]. reflexivity.
Qed.

(** The exponent of a product is not above the one of its rounded value. *)
Lemma aux_exact : forall s M E z e, fits z e -> same_value M E z e -> (E <= cexp z e)%Z -> binary_round_aux 53 1024 s M E loc_Exact = cf s z e.
Proof.
  intros s M E z e Hf HM HE. pose proof (cexp_le z e Hf) as Hle. unfold same_value in HM. rewrite Z.min_l, Z.sub_diag, Z.mul_1_r in HM by lia. rewrite HM. apply round_aux_exact; assumption.
Qed.

Lemma sign_value : forall (s : bool) m, IZR (if s then Zneg m else Zpos m) = (if s then -1 else 1) * IZR (Zpos m).
Proof. intros [|] m; [change (Zneg m) with (- Zpos m)%Z; rewrite opp_IZR|]; ring. Qed.

(** Sign and magnitude of a nonzero value. *)
Lemma split_sign : forall (s : bool) v z e, 0 < v -> small z e -> (if s then -1 else 1) * v = IZR z * pw e -> (z <> 0)%Z /\ s = (z <? 0)%Z /\ v = IZR (Z.abs z) * pw e.
Proof.
  intros s v z e Hv Hs H. pose proof (pw_pos e). destruct (Z.ltb_spec z 0) as [Hz|Hz].
  - assert (IZR z < 0) by (apply IZR_lt; lia). split; [lia|]. assert (0 < (- IZR z) * pw e) by (apply Rmult_lt_0_compat; lra). destruct s; [split; [reflexivity|]|lra]. rewrite Z.abs_neq, opp_IZR by lia. lra.
  - assert (0 <= IZR z) by (apply IZR_le; lia). assert (0 <= IZR z * pw e) by (apply Rmult_le_pos; lra). destruct s; [lra|]. split; [|split; [reflexivity|rewrite Z.abs_eq by lia; lra]]. intros ->. lra.
Qed.

Theorem mul_exact : forall x y r s z e, double x r -> double y s -> small z e -> r * s = IZR z * pw e -> double (fpmul x y) (r * s).
Proof.
  intros x y r s z e Hx Hy Hs Hv. destruct x as [sx|sx| |sx mx ex]; cbn [double] in Hx; try contradiction; destruct y as [sy|sy| |sy my ey]; cbn [double] in Hy; try contradiction; unfold fpmul, SFmul.
  - subst. cbn. ring.
  - subst r. cbn. ring.
  - subst s. cbn. ring.
  - apply (double_exact _ _ z e Hs Hv). destruct Hx as [Hbx Ex]. destruct Hy as [Hby Ey]. cbn [valid_binary] in Hbx, Hby. apply bounded_log in Hbx, Hby.
    assert (Hval : (if xorb sx sy then -1 else 1) * (IZR (Zpos (mx * my)) * pw (ex + ey)) = IZR z * pw e).
    { rewrite <- Hv, Ex, Ey, !sign_value, Pos2Z.inj_mul, mult_IZR, pw_add. destruct sx, sy; cbn [xorb]; ring. }
    apply split_sign in Hval; [|apply Rmult_lt_0_compat; [apply IZR_lt; lia|apply pw_pos]|exact Hs]. destruct Hval as (Hz & Hsg & Hval).
    pose proof (small_fits z e Hs Hz) as Hf. unfold exactly. destruct (Z.eqb_spec z 0); [contradiction|]. rewrite <- Hsg. apply same_value_R in Hval.
    apply aux_exact; [exact Hf|exact Hval|]. pose proof (same_value_log _ _ _ _ (eq_refl : (0 < Zpos (mx * my))%Z) (proj1 (proj1 Hf)) Hval) as HL.
    unfold cexp. replace (Z.log2 (Z.abs z) + 1 + e)%Z with (Z.log2 (Zpos (mx * my)) + 1 + (ex + ey))%Z by lia. rewrite fx_eq in *. destruct Hbx as [Hbx _], Hby as [Hby _].
    pose proof (Z.log2_mul_below (Zpos mx) (Zpos my) ltac:(lia) ltac:(lia)) as Hm. rewrite <- Pos2Z.inj_mul in Hm. pose proof (Z.log2_nonneg (Zpos mx)). pose proof (Z.log2_nonneg (Zpos my)). lia.
Qed.

Theorem div_exact : forall x y r s z e, double x r -> double y s -> s <> 0 -> small z e -> r / s = IZR z * pw e -> double (fpdiv x y) (r / s).
Proof.
  intros x y r s z e Hx Hy Hn Hs Hv. destruct x as [sx|sx| |sx mx ex]; cbn [double] in Hx; try contradiction; destruct y as [sy|sy| |sy my ey]; cbn [double] in Hy; try contradiction; unfold fpdiv, SFdiv.
  - subst r. cbn. unfold Rdiv. ring.
  - apply (double_exact _ _ z e Hs Hv). destruct Hx as [Hbx Ex]. destruct Hy as [Hby Ey]. cbn [valid_binary] in Hbx, Hby. apply bounded_log in Hbx, Hby.
    assert (Hmy : 0 < IZR (Zpos my)) by (apply IZR_lt; lia). assert (Hmx : 0 < IZR (Zpos mx)) by (apply IZR_lt; lia).
    pose proof (pw_pos ex) as Hpx. pose proof (pw_pos ey) as Hpy.
    assert (Hval : (if xorb sx sy then -1 else 1) * ((IZR (Zpos mx) * pw ex) / (IZR (Zpos my) * pw ey)) = IZR z * pw e).
    { rewrite <- Hv, Ex, Ey, !sign_value. destruct sx, sy; cbn [xorb]; field; split; lra. }
    apply split_sign in Hval; [|apply Rdiv_lt_0_compat; apply Rmult_lt_0_compat; assumption|exact Hs]. destruct Hval as (Hz & Hsg & Hval).
    pose proof (small_fits z e Hs Hz) as Hf. unfold exactly. destruct (Z.eqb_spec z 0); [contradiction|]. rewrite <- Hsg. clear Hsg n.
    assert (Hprod : IZR (Zpos mx) * pw ex = IZR (Z.abs z * Zpos my) * pw (e + ey)).
    { rewrite mult_IZR, pw_add. apply (Rmult_eq_reg_r (/ (IZR (Zpos my) * pw ey))). 2: { apply Rinv_neq_0_compat. apply Rgt_not_eq, Rmult_lt_0_compat; assumption. }
      unfold Rdiv in Hval. rewrite Hval. field. split; lra. }
    apply same_value_R in Hprod. destruct (proj1 Hf) as [Hz1 Hz2]. set (za := Z.abs z) in *.
    pose proof (same_value_log _ _ _ _ (eq_refl : (0 < Zpos mx)%Z) (ltac:(lia) : (0 < za * Zpos my)%Z) Hprod) as HL.
    pose proof (Z.log2_mul_below za (Zpos my) Hz1 ltac:(lia)) as Hlow. pose proof (Z.log2_mul_above za (Zpos my) ltac:(lia) ltac:(lia)) as Hhigh.
    pose proof (log_lt za 53 Hz1 ltac:(lia) Hz2) as Hl53.
    unfold SFdiv_core_binary. cbn [Zdigits2]. rewrite !digits_log.
    set (k' := Z.min (fx (Z.log2 (Zpos mx) + 1 + ex - (Z.log2 (Zpos my) + 1 + ey))) (ex - ey)).
    assert (Hk1 : (k' <= ex - ey)%Z) by (unfold k'; lia).
    assert (Hk2 : (k' <= cexp za e)%Z) by (unfold k', cexp; rewrite !fx_eq; lia).
    pose proof (cexp_le za e (small_fits z e Hs Hz)) as Hce.
    assert (Hm' : match (ex - ey - k')%Z with Z0 => Zpos mx | Zpos _ => Z.shiftl (Zpos mx) (ex - ey - k') | Zneg _ => 0%Z end = (za * 2 ^ (e - k') * Zpos my)%Z).
    { assert (Hq : (Zpos mx * 2 ^ (ex - ey - k') = za * 2 ^ (e - k') * Zpos my)%Z).
      { apply same_value_of in Hprod. apply eq_IZR. rewrite !mult_IZR. rewrite <- !pw_int by lia. rewrite mult_IZR in Hprod.
        apply (Rmult_eq_reg_r (pw (ey + k'))); [|apply Rgt_not_eq, pw_pos].
        replace (IZR (Z.pos mx) * pw (ex - ey - k') * pw (ey + k')) with (IZR (Zpos mx) * pw ex) by (rewrite Rmult_assoc, <- pw_add; f_equal; f_equal; lia).
        rewrite Hprod. replace (e + ey)%Z with ((e - k') + (ey + k'))%Z by lia. rewrite pw_add. ring. }
      destruct (ex - ey - k')%Z as [|d|d] eqn:Ed; [rewrite <- Hq; ring| |lia]. rewrite Z.shiftl_mul_pow2 by lia. exact Hq. }
    rewrite Hm'. pose proof (Z_div_mult_full (za * 2 ^ (e - k')) (Zpos my) ltac:(lia)) as Hdv. pose proof (Z_mod_mult (za * 2 ^ (e - k')) (Zpos my)) as Hmd.
    unfold Z.div in Hdv. unfold Z.modulo in Hmd. destruct (Z.div_eucl (za * 2 ^ (e - k') * Zpos my) (Zpos my)) as [q0 r0]. subst q0 r0.
    replace (new_location (Zpos my) 0) with loc_Exact by (unfold new_location, new_location_even, new_location_odd; destruct (Z.even (Zpos my)); reflexivity).
    apply round_aux_exact; [exact (small_fits z e Hs Hz)|exact Hk2].
Qed.
