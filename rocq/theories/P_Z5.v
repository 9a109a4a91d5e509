(** P_Z5.v — rounding: the result of a binary64 operation is within a relative
    error of 2^-53 of the exact result. *)

From Coq Require Import Reals List ZArith Bool Lia Lra Floats.SpecFloat.
From Verif Require Import Arith ArithF SpecF P_Z1 P_Z2.
Import ListNotations.
Local Open Scope R_scope.

(** ** The fraction that the bits of a shift stand for *)

Definition frac (r s : bool) (f : R) : Prop :=
  match r, s with
  | false, false => f = 0
  | false, true => 0 < f < / 2
  | true, false => f = / 2
  | true, true => / 2 < f < 1
  end.
Definition located (mrs : shr_record) (e : Z) (v : R) : Prop :=
  exists f, v = (IZR (shr_m mrs) + f) * pw e /\ frac (shr_r mrs) (shr_s mrs) f.

Lemma frac_range : forall r s f, frac r s f -> 0 <= f < 1. Proof. intros [|] [|] f H; cbn in H; lra. Qed.

Lemma shr1_located : forall mrs e v, (0 <= shr_m mrs)%Z -> located mrs e v -> located (shr_1 mrs) (e + 1) v /\ (0 <= shr_m (shr_1 mrs))%Z.
Proof.
  intros [m r s] e v Hm (f & Hv & Hf). cbn [shr_m shr_r shr_s] in *.
  assert (P : pw (e + 1) = 2 * pw e) by (rewrite pw_add, powerRZ_1; ring).
  destruct m as [|p|p]; [|destruct p as [p|p|]|lia].
  - split; [|cbn; lia]. exists (f / 2). cbn [shr_m shr_r shr_s shr_1]. split; [rewrite Hv, P; field|]. destruct r, s; cbn [frac orb] in *; lra.
  - split; [|cbn; lia]. exists (f / 2 + / 2). cbn [shr_m shr_r shr_s shr_1]. split; [rewrite Hv, P; rewrite (Pos2Z.inj_xI p), plus_IZR, mult_IZR; field|]. destruct r, s; cbn [frac orb] in *; lra.
  - split; [|cbn; lia]. exists (f / 2). cbn [shr_m shr_r shr_s shr_1]. split; [rewrite Hv, P; rewrite (Pos2Z.inj_xO p), mult_IZR; field|]. destruct r, s; cbn [frac orb] in *; lra.
  - split; [|cbn; lia]. exists (f / 2 + / 2). cbn [shr_m shr_r shr_s shr_1]. split; [rewrite Hv, P; field|]. destruct r, s; cbn [frac orb] in *; lra.
Qed.
Lemma shrn_located : forall n mrs e v, (0 <= shr_m mrs)%Z -> located mrs e v -> located (Nat.iter n shr_1 mrs) (e + Z.of_nat n) v /\ (0 <= shr_m (Nat.iter n shr_1 mrs))%Z.
Proof.
  induction n as [|n IH]; intros mrs e v Hm H.
  - cbn [Nat.iter nat_rect Z.of_nat]. rewrite Z.add_0_r. auto.
  - destruct (IH mrs e v Hm H) as [H1 H2]. destruct (shr1_located _ _ _ H2 H1) as [H3 H4]. change (Nat.iter (S n) shr_1 mrs) with (shr_1 (Nat.iter n shr_1 mrs)).
    split; [|exact H4]. replace (e + Z.of_nat (S n))%Z with (e + Z.of_nat n + 1)%Z by lia. exact H3.
Qed.

Lemma loc_record : forall mrs, shr_record_of_loc (shr_m mrs) (loc_of_shr_record mrs) = mrs.
Proof. intros [m [|] [|]]; reflexivity. Qed.
Lemma record_m : forall m l, shr_m (shr_record_of_loc m l) = m. Proof. intros m [|[| |]]; reflexivity. Qed.

(** Rounding to nearest is off by at most half a unit. *)
Lemma nearest_half : forall mrs e v, located mrs e v -> Rabs (IZR (round_nearest_even (shr_m mrs) (loc_of_shr_record mrs)) * pw e - v) <= pw e / 2.
Proof.
  intros [m r s] e v (f & -> & Hf). cbn [shr_m shr_r shr_s] in *. pose proof (pw_pos e) as P.
  assert (Q : forall d, - / 2 <= d - f <= / 2 -> Rabs ((IZR m + d) * pw e - (IZR m + f) * pw e) <= pw e / 2).
  { intros d Hd. replace ((IZR m + d) * pw e - (IZR m + f) * pw e) with ((d - f) * pw e) by ring. rewrite Rabs_mult, (Rabs_pos_eq (pw e)) by lra.
    unfold Rdiv. rewrite (Rmult_comm (pw e)). apply Rmult_le_compat_r; [lra|]. unfold Rabs. destruct (Rcase_abs (d - f)); lra. }
  assert (Q0 : - / 2 <= 0 - f <= / 2 -> Rabs (IZR m * pw e - (IZR m + f) * pw e) <= pw e / 2) by (intros H; specialize (Q 0 H); rewrite Rplus_0_r in Q; exact Q).
  assert (Q1 : - / 2 <= 1 - f <= / 2 -> Rabs (IZR (m + 1) * pw e - (IZR m + f) * pw e) <= pw e / 2) by (intros H; specialize (Q 1 H); rewrite plus_IZR; exact Q).
  destruct r, s; cbn [loc_of_shr_record round_nearest_even frac] in *; [apply Q1; lra| |apply Q0; lra|apply Q0; lra].
  destruct (Z.even m); [apply Q0; lra|apply Q1; lra].
Qed.
Lemma nearest_range : forall m l, (m <= round_nearest_even m l <= m + 1)%Z.
Proof. intros m [|[| |]]; cbn [round_nearest_even]; try lia. destruct (Z.even m); lia. Qed.

Lemma log_value : forall m e l v, (0 < m)%Z -> located (shr_record_of_loc m l) e v -> pw (Z.log2 m + e) <= v < pw (Z.log2 m + 1 + e).
Proof.
  intros m e l v Hm (f & -> & Hf). rewrite record_m. apply frac_range in Hf. pose proof (log_bounds m Hm) as [L1 L2]. pose proof (Z.log2_nonneg m). pose proof (pw_pos e).
  rewrite !pw_add with (b := e). rewrite !pw_int by lia. apply IZR_le in L1. assert (L3 : IZR m + 1 <= IZR (2 ^ (Z.log2 m + 1))) by (rewrite <- plus_IZR; apply IZR_le; lia).
  split; [apply Rmult_le_compat_r; lra|apply Rmult_lt_compat_r; [lra|]]. rewrite pw_int by lia. lra.
Qed.
Lemma pw_lt_inv : forall a b, pw a < pw b -> (a < b)%Z.
Proof.
  intros a b H. destruct (Z_lt_le_dec a b) as [L|L]; [exact L|]. exfalso. apply Rlt_not_le in H. apply H. destruct (Z.eq_dec a b) as [->|N]; [lra|].
  rewrite (pw_split b a) by lia. rewrite <- (Rmult_1_l (pw b)) at 1. apply Rmult_le_compat_r; [apply Rlt_le, pw_pos|]. apply IZR_le. assert (0 < 2 ^ (a - b))%Z by (apply Z.pow_pos_nonneg; lia). lia.
Qed.
Lemma pw_lt : forall a b, (a < b)%Z -> pw a < pw b.
Proof.
  intros a b H. rewrite (pw_split a b) by lia. rewrite <- (Rmult_1_l (pw a)) at 1. apply Rmult_lt_compat_r; [apply pw_pos|]. apply IZR_lt.
  replace (b - a)%Z with (Z.succ (b - a - 1)) by lia. rewrite Z.pow_succ_r by lia. assert (0 < 2 ^ (b - a - 1))%Z by (apply Z.pow_pos_nonneg; lia). lia.
Qed.
Lemma pw_le_inv : forall a b, pw a <= pw b -> (a <= b)%Z.
Proof. intros a b H. destruct (Z_le_gt_dec a b) as [L|L]; [exact L|]. exfalso. pose proof (pw_lt b a ltac:(lia)). lra. Qed.

(** ** The final step of every operation *)

Definition uu : R := pw (-53).
Definition signed (s : bool) (v : R) : R := (if s then -1 else 1) * v.

Lemma aux_round : forall s m e l v, (2 ^ 52 <= m)%Z -> located (shr_record_of_loc m l) e v -> pw (-1000) <= v <= pw 1000 ->
  exists r, double (binary_round_aux 53 1024 s m e l) (signed s r) /\ Rabs (r - v) <= v * uu.
Proof.
  intros s m e l v Hm Hl [Hv1 Hv2]. assert (Hm0 : (0 < m)%Z) by lia. destruct (log_value m e l v Hm0 Hl) as [V1 V2].
  assert (L52 : (52 <= Z.log2 m)%Z) by (apply Z.log2_le_pow2; lia).
  assert (E1 : (-1000 < Z.log2 m + 1 + e)%Z) by (apply pw_lt_inv; lra). assert (E2 : (Z.log2 m + e <= 1000)%Z) by (apply pw_le_inv; lra).
  set (e' := (Z.log2 m + e - 52)%Z). unfold binary_round_aux, shr_fexp.
  assert (Dg : Zdigits2 m = (Z.log2 m + 1)%Z) by (destruct m as [|p|p]; try lia; cbn [Zdigits2]; apply digits_log).
  rewrite Dg. rewrite fx_eq. replace (Z.max (Z.log2 m + 1 + e - 53) (-1074) - e)%Z with (Z.log2 m - 52)%Z by lia.
  assert (S : exists mrs, shr (shr_record_of_loc m l) e (Z.log2 m - 52) = (mrs, e') /\ located mrs e' v /\ (0 <= shr_m mrs)%Z).
  { unfold shr, e'. destruct (Z.log2 m - 52)%Z as [|d|d] eqn:Ed; [| |lia].
    - exists (shr_record_of_loc m l). replace (Z.log2 m + e - 52)%Z with e by lia. rewrite record_m. repeat split; [exact Hl|lia].
    - rewrite iter_pos_add. assert (Hn : (0 <= shr_m (shr_record_of_loc m l))%Z) by (rewrite record_m; lia). destruct (shrn_located (Pos.to_nat d) _ _ _ Hn Hl) as [S1 S2].
      rewrite positive_nat_Z in S1. replace (Z.log2 m + e - 52)%Z with (e + Zpos d)%Z by lia. eexists. split; [reflexivity|]. split; [exact S1|exact S2]. }
  destruct S as (mrs & -> & Lm & Hm1).
  (* the shifted mantissa has 53 bits *)
  assert (B : (2 ^ 52 <= shr_m mrs < 2 ^ 53)%Z).
  { destruct Lm as (f & Ev & Hf). apply frac_range in Hf. pose proof (pw_pos e') as P. unfold e' in *. clearbody e'.
    replace (Z.log2 m + e)%Z with (52 + (Z.log2 m + e - 52))%Z in V1 by lia. replace (Z.log2 m + 1 + e)%Z with (53 + (Z.log2 m + e - 52))%Z in V2 by lia. rewrite pw_add in V1, V2. rewrite pw_int in V1, V2 by lia. rewrite Ev in V1, V2.
    apply Rmult_le_reg_r in V1; [|exact P]. apply Rmult_lt_reg_r in V2; [|exact P]. split.
    - assert (H : (2 ^ 52 < shr_m mrs + 1)%Z) by (apply lt_IZR; rewrite plus_IZR; lra). lia.
    - apply lt_IZR. lra. }
  pose proof (nearest_half mrs e' v Lm) as NH. pose proof (nearest_range (shr_m mrs) (loc_of_shr_record mrs)) as NR.
  set (m1 := round_nearest_even (shr_m mrs) (loc_of_shr_record mrs)) in *. clearbody m1.
  assert (G : Rabs (IZR m1 * pw e' - v) <= v * uu).
  { apply Rle_trans with (1 := NH). unfold uu. assert (pw e' / 2 = pw (Z.log2 m + e) * pw (-53)) as ->; [|apply Rmult_le_compat_r; [apply Rlt_le, pw_pos|exact V1]].
    rewrite <- pw_add. unfold e'. replace (Z.log2 m + e - 52)%Z with (Z.log2 m + e + -53 + 1)%Z by lia. rewrite pw_add with (b := 1%Z), powerRZ_1. field. }
  exists (IZR m1 * pw e'). split; [|exact G].
  assert (Dm : Zdigits2 m1 = (Z.log2 m1 + 1)%Z) by (destruct m1 as [|p|p]; try lia; cbn [Zdigits2]; apply digits_log).
  rewrite Dm. cbn [shr_record_of_loc]. destruct (Z.eq_dec m1 (2 ^ 53)) as [M|M].
  - rewrite M. rewrite Z.log2_pow2 by lia. replace (fx (53 + 1 + e') - e')%Z with 1%Z by (rewrite fx_eq; unfold e'; lia). cbn [shr iter_pos]. change (2 ^ 53)%Z with (Zpos (Pos.shiftl 1 53)) at 1.
    cbn [Pos.shiftl Pos.iter shr_1 shr_m]. replace (Zle_bool (e' + 1) (1024 - 53)) with true by (symmetry; apply Z.leb_le; unfold e'; lia).
    split.
    + cbn [valid_binary]. unfold bounded, canonical_mantissa. rewrite digits_log. apply andb_true_intro. split; [|apply Z.leb_le; unfold e'; lia]. apply Zeq_is_eq_bool. rewrite fx_eq. change (Z.log2 4503599627370496) with 52%Z. unfold e'; lia.
    + unfold signed. rewrite sign_value. rewrite Rmult_assoc. f_equal. change (2 ^ 53)%Z with (4503599627370496 * 2)%Z. rewrite mult_IZR, (pw_add e' 1), powerRZ_1. ring.
  - assert (L1 : Z.log2 m1 = 52%Z) by (apply Z.log2_unique; [lia|]; split; [lia|]; change (2 ^ Z.succ 52)%Z with (2 ^ 53)%Z; lia).
    rewrite L1. replace (fx (52 + 1 + e') - e')%Z with 0%Z by (rewrite fx_eq; unfold e'; lia). cbn [shr shr_m]. destruct m1 as [|p|p]; try lia.
    replace (Zle_bool e' (1024 - 53)) with true by (symmetry; apply Z.leb_le; unfold e'; lia). split.
    + cbn [valid_binary]. unfold bounded, canonical_mantissa. rewrite digits_log, L1. apply andb_true_intro. split; [|apply Z.leb_le; unfold e'; lia]. apply Zeq_is_eq_bool. rewrite fx_eq. unfold e'; lia.
    + unfold signed. rewrite sign_value. ring.
Qed.

(** ** Operations *)

Definition ranged (v : R) : Prop := v = 0 \/ pw (-1000) <= Rabs v <= pw 1000.
Definition rounds (x : sf) (v : R) : Prop := exists t, double x t /\ Rabs (t - v) <= Rabs v * uu.

Lemma rounds_zero : forall x, double x 0 -> rounds x 0.
Proof. intros x H. exists 0. split; [exact H|]. rewrite Rminus_0_r, !Rabs_R0. lra. Qed.
Lemma rounds_signed : forall x s v, 0 < v -> (exists r, double x (signed s r) /\ Rabs (r - v) <= v * uu) -> rounds x (signed s v).
Proof.
  intros x s v Hv (r & D & B). exists (signed s r). split; [exact D|]. unfold signed. rewrite <- Rmult_minus_distr_l, !Rabs_mult, (Rabs_pos_eq v) by lra.
  assert (Rabs (if s then -1 else 1) = 1) as -> by (destruct s; [rewrite Rabs_left|rewrite Rabs_pos_eq]; lra). lra.
Qed.
Lemma abs_signed : forall s v, Rabs (signed s v) = Rabs v.
Proof. intros s v. unfold signed. rewrite Rabs_mult. destruct s; [rewrite Rabs_left|rewrite Rabs_pos_eq]; lra. Qed.

Lemma exact_located : forall m e, located (shr_record_of_loc m loc_Exact) e (IZR m * pw e).
Proof. intros m e. exists 0. cbn. split; [ring|reflexivity]. Qed.

Lemma normalize_rel : forall M E b v, v = IZR M * pw E -> ranged v -> rounds (binary_normalize 53 1024 M E b) v.
Proof.
  intros M E b v -> Hr. assert (Q : forall s p, pw (-1000) <= IZR (Zpos p) * pw E <= pw 1000 -> exists r, double (binary_round 53 1024 s p E) (signed s r) /\ Rabs (r - IZR (Zpos p) * pw E) <= IZR (Zpos p) * pw E * uu).
  { intros s p [H1 H2]. unfold binary_round. rewrite digits_log. pose proof (log_value (Zpos p) E loc_Exact _ eq_refl (exact_located _ _)) as [V1 V2].
    assert (E1 : (-1000 < Z.log2 (Zpos p) + 1 + E)%Z) by (apply pw_lt_inv; lra). pose proof (Z.log2_nonneg (Zpos p)) as Ln. pose proof (log_bounds (Zpos p) eq_refl) as [B1 _].
    rewrite fx_eq. replace (Z.max (Z.log2 (Zpos p) + 1 + E - 53) (-1074)) with (Z.log2 (Zpos p) + E - 52)%Z by lia. unfold shl_align.
    assert (G : (52 <= Z.log2 (Zpos p))%Z -> exists r, double (binary_round_aux 53 1024 s (Zpos p) E loc_Exact) (signed s r) /\ Rabs (r - IZR (Zpos p) * pw E) <= IZR (Zpos p) * pw E * uu).
    { intros HL. apply aux_round; [|apply exact_located|split; assumption]. apply Z.le_trans with (2 := B1). apply Z.pow_le_mono_r; lia. }
    destruct (Z.log2 (Zpos p) + E - 52 - E)%Z as [|d|d] eqn:Ed; [apply G; lia|apply G; lia|].
    assert (Sv : IZR (Zpos (shift_pos d p)) * pw (Z.log2 (Zpos p) + E - 52) = IZR (Zpos p) * pw E).
    { rewrite shift_pos_correct. change (Z.pow_pos 2 d) with (2 ^ Zpos d)%Z. rewrite mult_IZR, <- pw_int by lia. replace (pw E) with (pw (Zpos d) * pw (Z.log2 (Zpos p) + E - 52)) by (rewrite <- pw_add; f_equal; lia). ring. }
    rewrite <- Sv in *. apply aux_round; [|apply exact_located|split; assumption].
    rewrite shift_pos_correct. change (Z.pow_pos 2 d) with (2 ^ Zpos d)%Z. apply Z.le_trans with (2 ^ Zpos d * 2 ^ Z.log2 (Zpos p))%Z; [rewrite <- Z.pow_add_r by lia; apply Z.pow_le_mono_r; lia|]. apply Z.mul_le_mono_nonneg_l; [apply Z.pow_nonneg; lia|exact B1]. }
  destruct M as [|p|p]; cbn [binary_normalize].
  - rewrite Rmult_0_l. apply rounds_zero. reflexivity.
  - pose proof (finite_pos p E) as P. replace (IZR (Zpos p) * pw E) with (signed false (IZR (Zpos p) * pw E)) by (unfold signed; ring). apply rounds_signed; [exact P|]. apply Q. destruct Hr as [Hr|Hr]; [lra|]. rewrite Rabs_pos_eq in Hr by lra. exact Hr.
  - pose proof (finite_pos p E) as P. assert (En : IZR (Zneg p) * pw E = signed true (IZR (Zpos p) * pw E)) by (unfold signed; change (Zneg p) with (- Zpos p)%Z; rewrite opp_IZR; ring). rewrite En in *.
    apply rounds_signed; [exact P|]. apply Q. destruct Hr as [Hr|Hr]; [unfold signed in Hr; lra|]. rewrite abs_signed, Rabs_pos_eq in Hr by lra. exact Hr.
Qed.

Theorem add_rel : forall x y r s, double x r -> double y s -> ranged (r + s) -> rounds (fpadd x y) (r + s).
Proof.
  intros x y r s Hx Hy Hr. destruct x as [sx|sx| |sx mx ex]; cbn [double] in Hx; try contradiction; destruct y as [sy|sy| |sy my ey]; cbn [double] in Hy; try contradiction; unfold fpadd, SFadd.
  - subst. rewrite Rplus_0_r. apply rounds_zero. destruct (Bool.eqb sx sy); reflexivity.
  - subst r. rewrite Rplus_0_l. exists s. split; [exact Hy|]. rewrite Rminus_diag_eq by reflexivity. rewrite Rabs_R0. apply Rmult_le_pos; [apply Rabs_pos|apply Rlt_le, pw_pos].
  - subst s. rewrite Rplus_0_r. exists r. split; [exact Hx|]. rewrite Rminus_diag_eq by reflexivity. rewrite Rabs_R0. apply Rmult_le_pos; [apply Rabs_pos|apply Rlt_le, pw_pos].
  - apply normalize_rel; [|exact Hr]. rewrite plus_IZR, Rmult_plus_distr_r, !align_sum by lia. destruct Hx as [_ ->]. destruct Hy as [_ ->]. reflexivity.
Qed.

Theorem mul_rel : forall x y r s, double x r -> double y s -> ranged (r * s) -> rounds (fpmul x y) (r * s).
Proof.
  intros x y r s Hx Hy Hr. destruct x as [sx|sx| |sx mx ex]; cbn [double] in Hx; try contradiction; destruct y as [sy|sy| |sy my ey]; cbn [double] in Hy; try contradiction; unfold fpmul, SFmul.
  - subst. rewrite Rmult_0_r. apply rounds_zero. reflexivity.
  - subst r. rewrite Rmult_0_l. apply rounds_zero. reflexivity.
  - subst s. rewrite Rmult_0_r. apply rounds_zero. reflexivity.
  - destruct Hx as [Hbx Ex]. destruct Hy as [Hby Ey]. cbn [valid_binary] in Hbx, Hby. apply bounded_log in Hbx, Hby. pose proof (finite_pos (mx * my) (ex + ey)) as P.
    assert (Hval : r * s = signed (xorb sx sy) (IZR (Zpos (mx * my)) * pw (ex + ey))).
    { rewrite Ex, Ey, !sign_value, Pos2Z.inj_mul, mult_IZR, pw_add. unfold signed. destruct sx, sy; cbn [xorb]; ring. }
    rewrite Hval in *. apply rounds_signed; [exact P|]. destruct Hr as [Hr|Hr]; [unfold signed in Hr; destruct (xorb sx sy); lra|]. rewrite abs_signed, Rabs_pos_eq in Hr by lra.
    apply aux_round; [|apply exact_located|exact Hr]. pose proof (log_value (Zpos (mx * my)) (ex + ey) loc_Exact _ eq_refl (exact_located _ _)) as [V1 V2].
    assert (E1 : (-1000 < Z.log2 (Zpos (mx * my)) + 1 + (ex + ey))%Z) by (apply pw_lt_inv; lra). rewrite fx_eq in *. destruct Hbx as [Hbx _], Hby as [Hby _].
    pose proof (Z.log2_mul_below (Zpos mx) (Zpos my) ltac:(lia) ltac:(lia)) as Hm. rewrite <- Pos2Z.inj_mul in Hm. pose proof (Z.log2_nonneg (Zpos mx)). pose proof (Z.log2_nonneg (Zpos my)).
    pose proof (log_bounds (Zpos (mx * my)) eq_refl) as [B1 _]. apply Z.le_trans with (2 := B1). apply Z.pow_le_mono_r; lia.
Qed.

Lemma new_location_frac : forall n r, (0 < n)%Z -> (0 <= r < n)%Z -> forall m e, located (shr_record_of_loc m (new_location n r)) e ((IZR m + IZR r / IZR n) * pw e).
Proof.
  intros n r Hn Hr m e. exists (IZR r / IZR n). rewrite record_m. split; [reflexivity|]. assert (N : 0 < IZR n) by (apply IZR_lt; exact Hn).
  assert (C : forall a b, (a * n < b * r)%Z -> IZR a < IZR b * (IZR r / IZR n)).
  { intros a b H. apply IZR_lt in H. rewrite !mult_IZR in H. apply Rmult_lt_reg_r with (IZR n); [exact N|]. replace (IZR b * (IZR r / IZR n) * IZR n) with (IZR b * IZR r) by (field; lra). exact H. }
  assert (C' : forall a b, (b * r < a * n)%Z -> IZR b * (IZR r / IZR n) < IZR a).
  { intros a b H. apply IZR_lt in H. rewrite !mult_IZR in H. apply Rmult_lt_reg_r with (IZR n); [exact N|]. replace (IZR b * (IZR r / IZR n) * IZR n) with (IZR b * IZR r) by (field; lra). exact H. }
  assert (Z0 : r = 0%Z -> IZR r / IZR n = 0) by (intros ->; unfold Rdiv; ring).
  assert (Zp : (r <> 0)%Z -> 0 < IZR r / IZR n) by (intros H; specialize (C 0%Z 1%Z ltac:(lia)); lra).
  assert (Z1 : IZR r / IZR n < 1) by (specialize (C' 1%Z 1%Z ltac:(lia)); lra).
  unfold new_location. destruct (Z.even n) eqn:Ev.
  - unfold new_location_even. destruct (Zeq_bool r 0) eqn:E0; [apply Zeq_bool_eq in E0; cbn; auto|]. apply Zeq_bool_neq in E0. destruct (Z.compare_spec (2 * r) n) as [Hc|Hc|Hc]; cbn.
    + subst n. rewrite mult_IZR. field. apply not_0_IZR. exact E0.
    + specialize (C' 1%Z 2%Z ltac:(lia)). specialize (Zp E0). lra.
    + specialize (C 1%Z 2%Z ltac:(lia)). lra.
  - assert (Od : (n mod 2 = 1)%Z) by (rewrite Zmod_odd, <- Z.negb_even, Ev; reflexivity).
    unfold new_location_odd. destruct (Zeq_bool r 0) eqn:E0; [apply Zeq_bool_eq in E0; cbn; auto|]. apply Zeq_bool_neq in E0. destruct (Z.compare_spec (2 * r + 1) n) as [Hc|Hc|Hc]; cbn.
    + specialize (C' 1%Z 2%Z ltac:(lia)). specialize (Zp E0). lra.
    + specialize (C' 1%Z 2%Z ltac:(lia)). specialize (Zp E0). lra.
    + assert (n <> 2 * r)%Z by (intros ->; rewrite Z.mul_comm, Z_mod_mult in Od; discriminate). specialize (C 1%Z 2%Z ltac:(lia)). lra.
Qed.

Theorem div_rel : forall x y r s, double x r -> double y s -> s <> 0 -> ranged (r / s) -> rounds (fpdiv x y) (r / s).
Proof.
  intros x y r s Hx Hy Hn Hr. destruct x as [sx|sx| |sx mx ex]; cbn [double] in Hx; try contradiction; destruct y as [sy|sy| |sy my ey]; cbn [double] in Hy; try contradiction; unfold fpdiv, SFdiv.
  - subst r. unfold Rdiv. rewrite Rmult_0_l. apply rounds_zero. reflexivity.
  - destruct Hx as [Hbx Ex]. destruct Hy as [Hby Ey]. cbn [valid_binary] in Hbx, Hby. apply bounded_log in Hbx, Hby.
    assert (Hmy : 0 < IZR (Zpos my)) by (apply IZR_lt; lia). assert (Hmx : 0 < IZR (Zpos mx)) by (apply IZR_lt; lia).
    pose proof (pw_pos ex) as Hpx. pose proof (pw_pos ey) as Hpy. set (v := (IZR (Zpos mx) * pw ex) / (IZR (Zpos my) * pw ey)).
    assert (P : 0 < v) by (apply Rdiv_lt_0_compat; apply Rmult_lt_0_compat; assumption).
    assert (Hval : r / s = signed (xorb sx sy) v). { rewrite Ex, Ey, !sign_value. unfold signed, v. destruct sx, sy; cbn [xorb]; field; split; lra. }
    rewrite Hval in *. assert (Rv : pw (-1000) <= v <= pw 1000) by (destruct Hr as [Hr|Hr]; [unfold signed in Hr; destruct (xorb sx sy); lra|rewrite abs_signed, Rabs_pos_eq in Hr by lra; exact Hr]).
    unfold SFdiv_core_binary. cbn [Zdigits2]. rewrite !digits_log.
    set (k' := Z.min (fx (Z.log2 (Zpos mx) + 1 + ex - (Z.log2 (Zpos my) + 1 + ey))) (ex - ey)).
    assert (Hk1 : (k' <= ex - ey)%Z) by (unfold k'; lia).
    assert (Hm' : match (ex - ey - k')%Z with Z0 => Zpos mx | Zpos _ => Z.shiftl (Zpos mx) (ex - ey - k') | Zneg _ => 0%Z end = (Zpos mx * 2 ^ (ex - ey - k'))%Z).
    { destruct (ex - ey - k')%Z as [|d|d] eqn:Ed; [ring| |lia]. rewrite Z.shiftl_mul_pow2 by lia. reflexivity. }
    rewrite Hm'. pose proof (Z_div_mod_eq_full (Zpos mx * 2 ^ (ex - ey - k')) (Zpos my)) as Dq. pose proof (Z.mod_pos_bound (Zpos mx * 2 ^ (ex - ey - k')) (Zpos my) ltac:(lia)) as Dr.
    unfold Z.div, Z.modulo in Dq, Dr. destruct (Z.div_eucl (Zpos mx * 2 ^ (ex - ey - k')) (Zpos my)) as [q0 r0].
    assert (Lv : v = (IZR q0 + IZR r0 / IZR (Zpos my)) * pw k').
    { unfold v. apply (f_equal IZR) in Dq. rewrite plus_IZR, !mult_IZR, <- pw_int in Dq by lia. replace (pw ex) with (pw (ex - ey - k') * (pw ey * pw k')) by (rewrite <- !pw_add; f_equal; lia).
      rewrite <- Rmult_assoc, Dq. field. split; lra. }
    apply rounds_signed; [exact P|]. apply aux_round; [|rewrite Lv; apply new_location_frac; [lia|exact Dr]|exact Rv].
    (* the quotient has at least 53 bits *)
    pose proof (log_bounds (Zpos mx) eq_refl) as [Bx1 Bx2]. pose proof (log_bounds (Zpos my) eq_refl) as [By1 By2]. pose proof (Z.log2_nonneg (Zpos mx)) as Nx. pose proof (Z.log2_nonneg (Zpos my)) as Ny.
    assert (Vup : v < pw (Z.log2 (Zpos mx) + 1 + ex - (Z.log2 (Zpos my) + ey))).
    { unfold v. apply Rmult_lt_reg_r with (IZR (Zpos my) * pw ey); [apply Rmult_lt_0_compat; assumption|]. unfold Rdiv. rewrite Rmult_assoc, Rinv_l by (apply Rgt_not_eq, Rmult_lt_0_compat; assumption). rewrite Rmult_1_r.
      apply Rlt_le_trans with (pw (Z.log2 (Zpos mx) + 1) * pw ex); [apply Rmult_lt_compat_r; [exact Hpx|rewrite pw_int by lia; apply IZR_lt; exact Bx2]|].
      apply Rle_trans with (pw (Z.log2 (Z.pos mx) + 1 + ex - (Z.log2 (Z.pos my) + ey)) * (pw (Z.log2 (Zpos my)) * pw ey)).
      - rewrite <- !pw_add. apply Req_le. f_equal. lia.
      - apply Rmult_le_compat_l; [apply Rlt_le, pw_pos|]. apply Rmult_le_compat_r; [lra|]. rewrite pw_int by lia. apply IZR_le. exact By1. }
    assert (E1 : (-1000 < Z.log2 (Zpos mx) + 1 + ex - (Z.log2 (Zpos my) + ey))%Z) by (apply pw_lt_inv; lra).
    assert (Hk : (k' <= Z.log2 (Zpos mx) + ex - Z.log2 (Zpos my) - ey - 53)%Z) by (unfold k'; rewrite fx_eq; lia).
    assert (Q : (2 ^ 52 * Zpos my <= Zpos mx * 2 ^ (ex - ey - k'))%Z).
    { apply Z.le_trans with (2 ^ 52 * 2 ^ (Z.log2 (Zpos my) + 1))%Z; [apply Z.mul_le_mono_nonneg_l; lia|].
      rewrite <- Z.pow_add_r by lia. apply Z.le_trans with (2 ^ Z.log2 (Zpos mx) * 2 ^ (ex - ey - k'))%Z; [rewrite <- Z.pow_add_r by lia; apply Z.pow_le_mono_r; lia|]. apply Z.mul_le_mono_nonneg_r; [apply Z.pow_nonneg; lia|exact Bx1]. }
    rewrite Dq in Q. destruct (Z_le_gt_dec (2 ^ 52) q0) as [G|G]; [exact G|exfalso]. assert (Zpos my * q0 <= Zpos my * (2 ^ 52 - 1))%Z by (apply Z.mul_le_mono_nonneg_l; lia). lia.
Qed.
