(** P_Z13.v — where two lines meet, computed in doubles. *)

From Coq Require Import Reals List ZArith Bool Lia Lra Floats.SpecFloat.
From Verif Require Import Base Arith ArithR ArithF Geometry Elements SpecR SpecF P_RX P_R1 P_R2 P_Z1 P_Z2 P_Z3 P_Z5 P_Z6 P_Z7 P_Z8 P_Z9.
Import ListNotations.
Local Open Scope R_scope.

Lemma abs_one : forall z, z <> 0%Z -> 1 <= Rabs (IZR z).
Proof. intros z Hz. rewrite <- abs_IZR. apply IZR_le. lia. Qed.
Lemma abs_top : forall z n v, (Z.abs z <= 2 ^ n)%Z -> (0 <= n)%Z -> v = pw n -> Rabs (IZR z) <= v.
Proof. intros z n v Hz Hn ->. rewrite <- abs_IZR, pw_int by exact Hn. apply IZR_le. exact Hz. Qed.

Section Solve.
  Variable k : Z.
  Hypothesis Hk : fine_spacing k.
  Variables (dx : sf) (d : Z).
  Hypotheses (Dd : dz dx d (k + k)) (Nd : d <> 0%Z) (Td : (Z.abs d <= 2 ^ 23)%Z).

  Lemma term_near : forall ax a bx b, dz ax a k -> dz bx b (k + k) -> (Z.abs a <= 2 ^ 11)%Z -> (Z.abs b <= 2 ^ 22)%Z ->
    exists t, double (fpmul (fpdiv ax dx) bx) t /\ big (k - 25) t /\
      Rabs (t - IZR (a * b) / IZR d * pw k) <= Rabs (IZR (a * b) / IZR d * pw k) * (5 / 2 * uu).
  Proof.
    intros ax a bx b Da Db Ta Tb. unfold fine_spacing in Hk. pose proof (abs_one d Nd) as D1. pose proof (abs_top d 23 _ Td ltac:(lia) eq_refl) as D2.
    pose proof (pw_pos k) as Pk. pose proof (pw_pos (k + k)) as Pkk. assert (Nd' : IZR d <> 0) by (apply IZR_neq; exact Nd).
    set (v := IZR a * pw k / (IZR d * pw (k + k))).
    assert (Ev : v = IZR a / IZR d * pw (- k)). { unfold v. rewrite <- pw_inv, pw_add. field. split; lra. }
    assert (Av : Rabs v = Rabs (IZR a) / Rabs (IZR d) * pw (- k)). { rewrite Ev, Rabs_mult, (Rabs_pos_eq (pw (- k))) by (left; apply pw_pos). unfold Rdiv. rewrite Rabs_mult, Rabs_inv. reflexivity. }
    assert (Bv : big (- 23 - k) v).
    { destruct (Z.eq_dec a 0) as [->|Na]; [left; rewrite Ev; unfold Rdiv; ring|right]. rewrite Av. replace (-23 - k)%Z with (- (23) + - k)%Z by lia. rewrite pw_add. apply Rmult_le_compat_r; [left; apply pw_pos|].
      rewrite <- pw_inv. pose proof (abs_one a Na). apply Rle_trans with (1 * / Rabs (IZR d)); [rewrite Rmult_1_l; apply Rinv_le_contravar; lra|]. unfold Rdiv. apply Rmult_le_compat_r; [left; apply Rinv_0_lt_compat; lra|lra]. }
    assert (Tv : Rabs v <= pw (11 - k)).
    { rewrite Av. replace (11 - k)%Z with (11 + - k)%Z by lia. rewrite pw_add. apply Rmult_le_compat_r; [left; apply pw_pos|].
      apply Rle_trans with (Rabs (IZR a) * 1); [|rewrite Rmult_1_r; exact (abs_top a 11 _ Ta ltac:(lia) eq_refl)]. unfold Rdiv. apply Rmult_le_compat_l; [apply Rabs_pos|]. rewrite <- Rinv_1. apply Rinv_le_contravar; lra. }
    assert (Nz : IZR d * pw (k + k) <> 0) by (apply Rmult_integral_contrapositive; split; lra).
    pose proof (div_rel ax dx _ _ (dz_double _ _ _ Da) (dz_double _ _ _ Dd) Nz (rangedI _ _ _ Bv Tv ltac:(lia) ltac:(lia))) as R0. fold v in R0.
    destruct (rounds_get _ _ R0) as (t0 & Dt0 & E0 & L0 & U0). pose proof (rounds_big _ _ _ Bv L0 U0) as B0.
    pose proof (dz_double _ _ _ Db) as Db'. destruct (dz_cell bx b (k + k) (2 ^ 22) Db Tb) as (_ & Bb & Tb'). cbn [fst snd] in *. rewrite Z.sub_0_r in Bb.
    pose proof (big_mul _ _ _ _ B0 Bb) as Bm. pose proof uu_val as Hu.
    assert (Tb2 : Rabs (IZR b * pw (k + k)) <= pw (22 + (k + k))) by (rewrite (pw_add 22), (pw_int 22) by lia; exact Tb').
    assert (Tm : Rabs (t0 * (IZR b * pw (k + k))) <= pw (12 - k + (22 + (k + k)))).
    { rewrite Rabs_mult, (pw_add (12 - k)). apply Rmult_le_compat; [apply Rabs_pos|apply Rabs_pos| |exact Tb2]. replace (12 - k)%Z with (11 - k + 1)%Z by lia. rewrite pw_succ. pose proof (pw_pos (11 - k)). pose proof (Rabs_pos v). nra. }
    pose proof (mul_rel _ _ _ _ Dt0 Db' (rangedI _ _ _ Bm Tm ltac:(lia) ltac:(lia))) as R1.
    destruct (rounds_get _ _ R1) as (t & Dt & E1 & L1 & U1). pose proof (rounds_big _ _ _ Bm L1 U1) as B1.
    exists t. split; [exact Dt|]. split; [apply (big_le (k - 25) (-23 - k - 1 + (k + k) - 1)); [lia|exact B1]|].
    set (B := IZR b * pw (k + k)) in *. assert (EB : IZR (a * b) / IZR d * pw k = v * B). { unfold B. rewrite Ev, <- pw_inv, pw_add, mult_IZR. field. split; lra. }
    rewrite EB, Rabs_mult. rewrite Rabs_mult in E1. replace (t - v * B) with ((t - t0 * B) + (t0 - v) * B) by ring. apply Rle_trans with (1 := Rabs_triang _ _). rewrite Rabs_mult.
    pose proof (Rabs_pos B) as PB. pose proof (Rabs_pos v) as Pv. pose proof (Rabs_pos t0) as Pt.
    assert (Q1 : Rabs (t0 - v) * Rabs B <= Rabs v * uu * Rabs B) by (apply Rmult_le_compat_r; assumption).
    assert (Q2 : Rabs t0 * Rabs B <= Rabs v * (1 + uu) * Rabs B) by (apply Rmult_le_compat_r; assumption).
    assert (Q3 : 0 <= Rabs v * Rabs B) by (apply Rmult_le_pos; assumption). set (W := Rabs v * Rabs B) in *.
    apply Rle_trans with (W * (1 + uu) * uu + W * uu); [|rewrite Hu; lra]. apply Rplus_le_compat; [|unfold W; lra].
    apply Rle_trans with (1 := E1). apply Rmult_le_compat_r; [rewrite Hu; lra|]. unfold W. lra.
  Qed.

  Lemma solve_near : forall ax a bx b cx c ex e, dz ax a k -> dz bx b (k + k) -> (Z.abs a <= 2 ^ 11)%Z -> (Z.abs b <= 2 ^ 22)%Z ->
    dz cx c k -> dz ex e (k + k) -> (Z.abs c <= 2 ^ 11)%Z -> (Z.abs e <= 2 ^ 22)%Z ->
    exists t, double (fpadd (fpmul (fpdiv ax dx) bx) (fpmul (fpdiv cx dx) ex)) t /\ big (k - 78) t /\ Rabs t <= pw (k + 36) /\
      Rabs (t - IZR (a * b + c * e) / IZR d * pw k) <= pw k * / Rabs (IZR d) * pw (-17).
  Proof.
    intros ax a bx b cx c ex e Da Db Ta Tb Dc De Tc Te. destruct (term_near ax a bx b Da Db Ta Tb) as (t1 & D1 & B1 & E1). destruct (term_near cx c ex e Dc De Tc Te) as (t2 & D2 & B2 & E2).
    unfold fine_spacing in Hk. pose proof (pw_pos k) as Pk. pose proof (abs_one d Nd) as Hd. assert (Nd' : IZR d <> 0) by (apply IZR_neq; exact Nd). pose proof uu_val as Hu.
    assert (I : 0 < / Rabs (IZR d) <= 1) by (split; [apply Rinv_0_lt_compat; lra|rewrite <- Rinv_1; apply Rinv_le_contravar; lra]).
    set (g := pw k * / Rabs (IZR d)). assert (Hg : 0 < g <= pw k) by (unfold g; nra).
    assert (T33 : forall x y, (Z.abs x <= 2 ^ 11)%Z -> (Z.abs y <= 2 ^ 22)%Z -> Rabs (IZR (x * y) / IZR d * pw k) <= 8589934592 * g).
    { intros x y Hx Hy. unfold Rdiv. rewrite !Rabs_mult, Rabs_inv, (Rabs_pos_eq (pw k)) by lra. unfold g. replace (Rabs (IZR (x * y)) * / Rabs (IZR d) * pw k) with (Rabs (IZR (x * y)) * (pw k * / Rabs (IZR d))) by ring.
      apply Rmult_le_compat_r; [nra|]. rewrite <- abs_IZR. apply IZR_le. rewrite Z.abs_mul. change 8589934592%Z with (2 ^ 11 * 2 ^ 22)%Z. apply Z.mul_le_mono_nonneg; lia. }
    pose proof (T33 a b Ta Tb) as M1. pose proof (T33 c e Tc Te) as M2. set (u1 := IZR (a * b) / IZR d * pw k) in *. set (u2 := IZR (c * e) / IZR d * pw k) in *.
    assert (F1 : Rabs (t1 - u1) <= 21474836480 * g * uu). { apply Rle_trans with (1 := E1). rewrite Hu. lra. }
    assert (F2 : Rabs (t2 - u2) <= 21474836480 * g * uu). { apply Rle_trans with (1 := E2). rewrite Hu. lra. }
    assert (G1 : Rabs t1 <= 8589934593 * g). { replace t1 with ((t1 - u1) + u1) by ring. apply Rle_trans with (1 := Rabs_triang _ _). rewrite Hu in F1. lra. }
    assert (G2 : Rabs t2 <= 8589934593 * g). { replace t2 with ((t2 - u2) + u2) by ring. apply Rle_trans with (1 := Rabs_triang _ _). rewrite Hu in F2. lra. }
    assert (G : Rabs (t1 + t2) <= 17179869186 * g) by (apply Rle_trans with (1 := Rabs_triang _ _); lra).
    pose proof (sum_gap _ _ _ (granular _ _ _ D1 B1) (granular _ _ _ D2 B2)) as Bs.
    assert (Ts : Rabs (t1 + t2) <= pw (k + 35)). { apply Rle_trans with (1 := G). rewrite pw_add, (pw_int 35) by lia. change (2 ^ 35)%Z with 34359738368%Z. lra. }
    pose proof (add_rel _ _ _ _ D1 D2 (rangedI _ _ _ Bs Ts ltac:(lia) ltac:(lia))) as R. destruct (rounds_get _ _ R) as (t & Dt & E & L & U). pose proof (rounds_big _ _ _ Bs L U) as Bt.
    exists t. split; [exact Dt|]. split; [apply (big_le (k - 78) (k - 25 - 52 - 1)); [lia|exact Bt]|]. split.
    { apply Rle_trans with (1 := U). replace (k + 36)%Z with (k + 35 + 1)%Z by lia. rewrite pw_succ. pose proof (pw_pos (k + 35)). rewrite Hu. lra. }
    assert (P17 : pw (-17) = / 131072). { pose proof (pw_inv 17) as Q. rewrite (pw_val 17 131072) in Q by (lia || reflexivity). symmetry. exact Q. }
    replace (IZR (a * b + c * e) / IZR d * pw k) with (u1 + u2) by (unfold u1, u2; rewrite plus_IZR; field; exact Nd'). fold g. rewrite P17.
    replace (t - (u1 + u2)) with ((t - (t1 + t2)) + ((t1 - u1) + (t2 - u2))) by ring. apply Rle_trans with (1 := Rabs_triang _ _). pose proof (Rabs_triang (t1 - u1) (t2 - u2)). rewrite Hu in *. lra.
  Qed.

  (** Whole numbers and fractions over [d] are equal or [1/d] apart. *)
  Lemma fraction_gap : forall z N, IZR N / IZR d * pw k <> IZR z * pw k -> pw k * / Rabs (IZR d) <= Rabs (IZR N / IZR d * pw k - IZR z * pw k).
  Proof.
    intros z N Hne. pose proof (pw_pos k) as Pk. assert (Nd' : IZR d <> 0) by (apply IZR_neq; exact Nd).
    replace (IZR N / IZR d * pw k - IZR z * pw k) with (IZR (N - z * d) * / IZR d * pw k) by (rewrite minus_IZR, mult_IZR; field; exact Nd').
    rewrite !Rabs_mult, Rabs_inv, (Rabs_pos_eq (pw k)) by lra. assert (Nz : (N - z * d <> 0)%Z). { intros E. apply Hne. replace N with (z * d)%Z by lia. rewrite mult_IZR. field. exact Nd'. }
    pose proof (abs_one _ Nz). pose proof (Rinv_0_lt_compat _ (Rlt_le_trans _ _ _ Rlt_0_1 (abs_one d Nd))). assert (0 < pw k * / Rabs (IZR d)) by nra. nra.
  Qed.
  Lemma gap_eps : 1000 * eps <= pw k * / Rabs (IZR d).
  Proof.
    unfold fine_spacing in Hk. pose proof (abs_one d Nd) as D1. pose proof (abs_top d 23 _ Td ltac:(lia) eq_refl) as D2. apply Rle_trans with (pw (-11) * pw (-23)).
    - rewrite <- pw_add. change (-11 + -23)%Z with (-34)%Z. pose proof (pw_inv 34) as Q. rewrite (pw_val 34 17179869184) in Q by (lia || reflexivity). change (- (34))%Z with (-34)%Z in Q. rewrite <- Q. unfold eps. change (2 ^ 99)%Z with 633825300114114700748351602688%Z. lra.
    - apply Rmult_le_compat; [left; apply pw_pos|left; apply pw_pos|apply pw_le; lia|]. change (-23)%Z with (- (23))%Z. rewrite <- pw_inv. apply Rinv_le_contravar; lra.
  Qed.

  Section Between.
    Variables (N z0 z1 : Z) (t : R) (x b0 b1 : sf).
    Hypotheses (H0 : double b0 (IZR z0 * pw k)) (H1 : double b1 (IZR z1 * pw k)) (Hx : double x t) (Bt : big (k - 78) t) (Tt : Rabs t <= pw (k + 36)).
    Hypothesis Et : Rabs (t - IZR N / IZR d * pw k) <= pw k * / Rabs (IZR d) * pw (-17).

    Lemma aeq_close : forall b z, (Z.abs z <= 2 ^ 10)%Z -> double b (IZR z * pw k) -> fpaeq b x = true -> Rabs (IZR z * pw k - t) <= 2 * eps.
    Proof.
      clear Et H0 H1 Nd Td Dd d. intros b z Hz Db He. unfold fine_spacing in Hk. pose proof uu_val as Hu. assert (Pe : 0 < eps) by (unfold eps; change (2 ^ 99)%Z with 633825300114114700748351602688%Z; lra).
      unfold fpaeq in He. apply orb_prop in He as [He|He]; [apply orb_prop in He as [He|He]|].
      - rewrite (eq_double _ _ _ _ Db Hx) in He. unfold Reqb in He. destruct (Req_EM_T (IZR z * pw k) t) as [E|]; [|discriminate]. rewrite E, Rminus_diag_eq, Rabs_R0 by reflexivity. lra.
      - assert (Bz : exists y, IZR z * pw k = IZR y * pw (k - 78 - 52)). { exists (z * 2 ^ 130)%Z. rewrite mult_IZR, <- (pw_int 130) by lia. replace k with (130 + (k - 78 - 52))%Z at 1 by lia. rewrite pw_add. ring. }
        destruct (granular _ _ _ Hx Bt) as (y & Ey). assert (Bm : exists y, - t = IZR y * pw (k - 78 - 52)). { exists (- y)%Z. rewrite opp_IZR, Ey at 1. ring. }
        pose proof (sum_gap _ _ _ Bz Bm) as Bs. assert (Ts : Rabs (IZR z * pw k + - t) <= pw (k + 37)).
        { apply Rle_trans with (1 := Rabs_triang _ _). rewrite Rabs_Ropp, Rabs_mult, (Rabs_pos_eq (pw k)) by (left; apply pw_pos). pose proof (abs_top z 10 _ Hz ltac:(lia) eq_refl) as Q. replace (k + 37)%Z with (k + 36 + 1)%Z by lia. rewrite pw_succ.
          assert (Rabs (IZR z) * pw k <= pw (k + 36)); [|lra]. replace (k + 36)%Z with (36 + k)%Z by lia. rewrite pw_add. apply Rmult_le_compat_r; [left; apply pw_pos|]. apply Rle_trans with (1 := Q). apply pw_le. lia. }
        pose proof (add_rel b (fpopp x) _ _ Db (neg_exact _ _ Hx) (rangedI _ _ _ Bs Ts ltac:(lia) ltac:(lia))) as R. destruct (rounds_get _ _ R) as (s & Ds & _ & L & _).
        assert (Es : fpadd b (fpopp x) = fpsub b x). { clear. unfold fpadd, fpsub, SFadd, SFsub, fpopp, SFopp. destruct b as [sb|sb| |sb mb eb], x as [sx|sx| |sx mx ex]; cbn; try reflexivity; try (destruct sb, sx; reflexivity). }
        rewrite Es in Ds. pose proof (le_double _ _ _ _ (abs_double _ _ Ds) eps_double) as Q. rewrite Q in He. unfold Rleb in He. destruct (Rle_dec (Rabs s) eps) as [Hs|]; [|discriminate]. unfold Rminus. lra.
      - destruct (sf_dec b x) as [E|]; [|discriminate]. subst b. rewrite (double_fun _ _ _ Db Hx), Rminus_diag_eq, Rabs_R0 by reflexivity. lra.
    Qed.

    Hypotheses (Z0 : (Z.abs z0 <= 2 ^ 10)%Z) (Z1 : (Z.abs z1 <= 2 ^ 10)%Z).
    Let P := IZR N / IZR d * pw k.
    Lemma between_only : IZR z0 * pw k <= IZR z1 * pw k -> ((SFleb b0 x && SFleb x b1) || fpaeq b0 x || fpaeq b1 x) = true -> IZR z0 * pw k <= P <= IZR z1 * pw k.
    Proof.
      intros H01 Hi. pose proof gap_eps as Ge. fold P in Et. assert (P17 : pw (-17) = / 131072). { pose proof (pw_inv 17) as Q. rewrite (pw_val 17 131072) in Q by (lia || reflexivity). symmetry. exact Q. }
      pose proof (fraction_gap z0 N) as G0. pose proof (fraction_gap z1 N) as G1. fold P in G0, G1. set (g := pw k * / Rabs (IZR d)) in *. rewrite P17 in Et. assert (Pe : 0 < eps) by (unfold eps; change (2 ^ 99)%Z with 633825300114114700748351602688%Z; lra).
      assert (C : forall q, Rabs (q - t) <= 2 * eps -> Rabs (P - q) < g). { intros q Hq. replace (P - q) with (- (t - P) + - (q - t)) by ring. apply Rle_lt_trans with (1 := Rabs_triang _ _). rewrite !Rabs_Ropp. lra. }
      apply orb_prop in Hi as [Hi|Hi]; [apply orb_prop in Hi as [Hi|Hi]|].
      - apply andb_prop in Hi as [Ha Hb]. rewrite (le_double _ _ _ _ H0 Hx) in Ha. rewrite (le_double _ _ _ _ Hx H1) in Hb. unfold Rleb in *. destruct (Rle_dec (IZR z0 * pw k) t) as [Ha'|]; [|discriminate]. destruct (Rle_dec t (IZR z1 * pw k)) as [Hb'|]; [|discriminate].
        pose proof (Rle_abs (t - P)) as A1. pose proof (Rle_abs (- (t - P))) as A2. rewrite Rabs_Ropp in A2. split.
        + destruct (Rle_lt_dec (IZR z0 * pw k) P) as [|L]; [assumption|exfalso]. specialize (G0 ltac:(lra)). rewrite Rabs_left in G0 by lra. lra.
        + destruct (Rle_lt_dec P (IZR z1 * pw k)) as [|L]; [assumption|exfalso]. specialize (G1 ltac:(lra)). rewrite Rabs_pos_eq in G1 by lra. lra.
      - pose proof (C _ (aeq_close b0 z0 Z0 H0 Hi)) as Q. destruct (Req_dec P (IZR z0 * pw k)) as [E|Ne]; [lra|]. specialize (G0 Ne). lra.
      - pose proof (C _ (aeq_close b1 z1 Z1 H1 Hi)) as Q. destruct (Req_dec P (IZR z1 * pw k)) as [E|Ne]; [lra|]. specialize (G1 Ne). lra.
    Qed.
    Lemma between_enough : IZR z0 * pw k < P < IZR z1 * pw k -> ((SFleb b0 x && SFleb x b1) || fpaeq b0 x || fpaeq b1 x) = true.
    Proof.
      intros Hp. fold P in Et. assert (P17 : pw (-17) = / 131072). { pose proof (pw_inv 17) as Q. rewrite (pw_val 17 131072) in Q by (lia || reflexivity). symmetry. exact Q. }
      pose proof (fraction_gap z0 N) as G0. pose proof (fraction_gap z1 N) as G1. fold P in G0, G1. pose proof gap_eps as Ge. set (g := pw k * / Rabs (IZR d)) in *. rewrite P17 in Et. assert (Pe : 0 < eps) by (unfold eps; change (2 ^ 99)%Z with 633825300114114700748351602688%Z; lra).
      specialize (G0 ltac:(lra)). specialize (G1 ltac:(lra)). rewrite Rabs_pos_eq in G0 by lra. rewrite Rabs_left in G1 by lra.
      pose proof (Rle_abs (t - P)) as A1. pose proof (Rle_abs (- (t - P))) as A2. rewrite Rabs_Ropp in A2.
      rewrite (le_double _ _ _ _ H0 Hx), (le_double _ _ _ _ Hx H1). unfold Rleb. destruct (Rle_dec (IZR z0 * pw k) t); [|lra]. destruct (Rle_dec t (IZR z1 * pw k)); [reflexivity|lra].
    Qed.
  End Between.
End Solve.
