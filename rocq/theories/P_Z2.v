(** P_Z2.v — comparisons of doubles, and the predicates of the crate on points
    of a grid: binary64 computes what the reals do. *)

From Coq Require Import Reals List ZArith Bool Lia Lra Floats.SpecFloat.
From Verif Require Import Base Arith ArithR ArithF Geometry Elements Polyline SpecR SpecF P_Z1.
Import ListNotations.
Local Open Scope R_scope.

(** ** Comparison *)

Lemma finite_pos : forall m e, 0 < IZR (Zpos m) * pw e.
Proof. intros. apply Rmult_lt_0_compat; [apply IZR_lt; lia|apply pw_pos]. Qed.

Lemma exp_lt : forall m e n f, bounded 53 1024 m e = true -> bounded 53 1024 n f = true -> (e < f)%Z -> IZR (Zpos m) * pw e < IZR (Zpos n) * pw f.
Proof.
  intros m e n f Hm Hn H. apply bounded_log in Hm, Hn. destruct Hm as [Hm _], Hn as [Hn _]. rewrite fx_eq in *.
  pose proof (log_bounds (Zpos m) eq_refl) as [_ Hb]. pose proof (log_bounds (Zpos n) eq_refl) as [Hc _].
  assert (Hl : (Z.log2 (Zpos m) + 1 + e <= Z.log2 (Zpos n) + f)%Z) by lia.
  pose proof (Z.log2_nonneg (Zpos m)). pose proof (Z.log2_nonneg (Zpos n)).
  apply Rlt_le_trans with (pw (Z.log2 (Zpos m) + 1) * pw e).
  - apply Rmult_lt_compat_r; [apply pw_pos|]. rewrite pw_int by lia. apply IZR_lt. exact Hb.
  - apply Rle_trans with (pw (Z.log2 (Zpos n)) * pw f); [|apply Rmult_le_compat_r; [apply Rlt_le, pw_pos|rewrite pw_int by lia; apply IZR_le; exact Hc]].
    rewrite <- !pw_add. destruct (Z.eq_dec (Z.log2 (Zpos m) + 1 + e) (Z.log2 (Zpos n) + f)) as [->|Hd]; [lra|].
    rewrite (pw_split (Z.log2 (Zpos m) + 1 + e) (Z.log2 (Zpos n) + f)) by lia. rewrite <- (Rmult_1_l (pw (_ + 1 + e))) at 1. apply Rmult_le_compat_r; [apply Rlt_le, pw_pos|].
    apply IZR_le. assert (0 < 2 ^ (Z.log2 (Z.pos n) + f - (Z.log2 (Z.pos m) + 1 + e)))%Z by (apply Z.pow_pos_nonneg; lia). lia.
Qed.

Definition compares (c : comparison) (r s : R) : Prop := match c with Lt => r < s | Eq => r = s | Gt => r > s end.

Lemma pos_compare : forall m e n f, bounded 53 1024 m e = true -> bounded 53 1024 n f = true ->
  compares (match Z.compare e f with Lt => Lt | Gt => Gt | Eq => Pos.compare m n end) (IZR (Zpos m) * pw e) (IZR (Zpos n) * pw f).
Proof.
  intros m e n f Hm Hn. destruct (Z.compare_spec e f) as [->|H|H].
  - pose proof (pw_pos f). destruct (Pos.compare_spec m n) as [->|H1|H1]; cbn [compares]; [reflexivity| |]; [|unfold Rgt]; (apply Rmult_lt_compat_r; [assumption|apply IZR_lt; lia]).
  - apply exp_lt; assumption.
  - unfold compares, Rgt. apply exp_lt; assumption.
Qed.

Lemma compare_double : forall x y r s, double x r -> double y s -> exists c, SFcompare x y = Some c /\ compares c r s.
Proof.
  intros x y r s Hx Hy. destruct x as [sx|sx| |sx mx ex]; cbn [double] in Hx; try contradiction; destruct y as [sy|sy| |sy my ey]; cbn [double] in Hy; try contradiction; unfold SFcompare.
  - exists Eq. subst. split; reflexivity.
  - destruct Hy as [_ ->]. subst r. pose proof (finite_pos my ey). rewrite sign_value. eexists. split; [reflexivity|]. destruct sy; cbn [compares]; lra.
  - destruct Hx as [_ ->]. subst s. pose proof (finite_pos mx ex). rewrite sign_value. eexists. split; [reflexivity|]. destruct sx; cbn [compares]; lra.
  - destruct Hx as [Hbx ->], Hy as [Hby ->]. cbn [valid_binary] in Hbx, Hby. pose proof (pos_compare mx ex my ey Hbx Hby) as Hc. pose proof (finite_pos mx ex). pose proof (finite_pos my ey). rewrite !sign_value.
    change (Pcompare mx my Eq) with (Pos.compare mx my). destruct sx, sy; eexists; (split; [reflexivity|]); cbn [compares]; try lra.
    + destruct (Z.compare ex ey); [destruct (Pos.compare mx my)| |]; cbn [compares CompOpp] in *; lra.
    + destruct (Z.compare ex ey); [destruct (Pos.compare mx my)| |]; cbn [compares] in *; lra.
Qed.

Lemma lt_double : forall x y r s, double x r -> double y s -> SFltb x y = Rltb r s.
Proof. intros x y r s Hx Hy. unfold SFltb, Rltb. destruct (compare_double x y r s Hx Hy) as (c & -> & H). destruct (Rlt_dec r s); destruct c; cbn [compares] in H; try reflexivity; lra. Qed.
Lemma le_double : forall x y r s, double x r -> double y s -> SFleb x y = Rleb r s.
Proof. intros x y r s Hx Hy. unfold SFleb, Rleb. destruct (compare_double x y r s Hx Hy) as (c & -> & H). destruct (Rle_dec r s); destruct c; cbn [compares] in H; try reflexivity; lra. Qed.
Lemma eq_double : forall x y r s, double x r -> double y s -> SFeqb x y = Reqb r s.
Proof. intros x y r s Hx Hy. unfold SFeqb, Reqb. destruct (compare_double x y r s Hx Hy) as (c & -> & H). destruct (Req_EM_T r s); destruct c; cbn [compares] in H; try reflexivity; lra. Qed.

Lemma abs_double : forall x r, double x r -> double (fpabs x) (Rabs r).
Proof.
  intros [s|s| |s m k] r H; cbn in H; try contradiction; cbn.
  - subst. apply Rabs_R0.
  - destruct H as [H ->]. split; [exact H|]. rewrite sign_value. pose proof (finite_pos m k). destruct s; [rewrite Rabs_left|rewrite Rabs_pos_eq]; lra.
Qed.

Lemma eps_double : double feps eps.
Proof.
  split; [vm_compute; reflexivity|]. unfold eps, feps. change (2 ^ 99)%Z with (2 ^ (99))%Z. rewrite <- (pw_int 99) by lia. replace (-99)%Z with (- (99))%Z by lia. rewrite powerRZ_neg'. reflexivity.
Qed.

Lemma double_fun : forall x r s, double x r -> double x s -> r = s.
Proof. intros [b|b| |b m k] r s; cbn; try tauto; [congruence|]. intros [_ ->] [_ ->]. reflexivity. Qed.

Lemma aeq_double : forall x y r s z e, double x r -> double y s -> small z e -> r - s = IZR z * pw e -> fpaeq x y = Raeq r s.
Proof.
  intros x y r s z e Hx Hy Hs Hv. unfold fpaeq, Raeq. rewrite (eq_double x y r s Hx Hy).
  rewrite (le_double _ feps _ _ (abs_double _ _ (sub_exact x y r s z e Hx Hy Hs Hv)) eps_double).
  destruct (sf_dec x y) as [->|_].
  - rewrite orb_true_r. pose proof (double_fun y r s Hx Hy). subst s. symmetry. apply Raeq_refl.
  - rewrite orb_false_r. unfold Reqb. destruct (Req_EM_T r s) as [->|]; [|reflexivity]. symmetry. apply Raeq_refl.
Qed.

(** ** Numbers [z * 2^k] *)

Record dz (x : sf) (z k : Z) : Prop := { dz_small : small z k; dz_double : double x (IZR z * pw k) }.

Lemma dz_add : forall x y a b k, dz x a k -> dz y b k -> (Z.abs (a + b) < 2 ^ 53)%Z -> dz (fpadd x y) (a + b) k.
Proof.
  intros x y a b k [Sa Da] [Sb Db] H. assert (S : small (a + b) k) by (destruct Sa; split; assumption). split; [exact S|].
  assert (E : IZR a * pw k + IZR b * pw k = IZR (a + b) * pw k) by (rewrite plus_IZR; ring). rewrite <- E. exact (add_exact _ _ _ _ _ _ Da Db S E).
Qed.
Lemma dz_sub : forall x y a b k, dz x a k -> dz y b k -> (Z.abs (a - b) < 2 ^ 53)%Z -> dz (fpsub x y) (a - b) k.
Proof.
  intros x y a b k [Sa Da] [Sb Db] H. assert (S : small (a - b) k) by (destruct Sa; split; assumption). split; [exact S|].
  assert (E : IZR a * pw k - IZR b * pw k = IZR (a - b) * pw k) by (rewrite minus_IZR; ring). rewrite <- E. exact (sub_exact _ _ _ _ _ _ Da Db S E).
Qed.
Lemma dz_mul : forall x y a b k l, dz x a k -> dz y b l -> (Z.abs (a * b) < 2 ^ 53)%Z -> (-1074 <= k + l <= 900)%Z -> dz (fpmul x y) (a * b) (k + l).
Proof.
  intros x y a b k l [Sa Da] [Sb Db] H Hk. assert (S : small (a * b) (k + l)) by (split; assumption). split; [exact S|].
  assert (E : IZR a * pw k * (IZR b * pw l) = IZR (a * b) * pw (k + l)) by (rewrite mult_IZR, pw_add; ring). rewrite <- E. exact (mul_exact _ _ _ _ _ _ Da Db S E).
Qed.
Lemma dz_neg : forall x a k, dz x a k -> dz (fpopp x) (- a) k.
Proof.
  intros x a k [[S1 S2] D]. split; [split; [rewrite Z.abs_opp; exact S1|exact S2]|]. rewrite opp_IZR, Ropp_mult_distr_l_reverse. apply neg_exact. exact D.
Qed.
Lemma dz_nat : forall n k, (Z.of_nat n < 2 ^ 53)%Z -> k = 0%Z -> dz (fpz (Z.of_nat n)) (Z.of_nat n) k.
Proof.
  intros n k Hn ->. assert (S : small (Z.of_nat n) 0) by (split; lia). split; [exact S|]. apply exactly_double; [exact S|]. apply normalize_exact; [exact S|reflexivity].
Qed.
(** Halving. *)
Lemma dz_half : forall x a k, dz x a k -> (-1073 <= k)%Z -> dz (fpdiv x (fpz 2)) a (k - 1).
Proof.
  intros x a k [[S1 S2] D] Hk. assert (S : small a (k - 1)) by (split; [exact S1|lia]). split; [exact S|].
  pose proof (dz_double _ _ _ (dz_nat 2 0 eq_refl eq_refl)) as D2. change (Z.of_nat 2) with 2%Z in D2. change (powerRZ 2 0) with 1 in D2. rewrite Rmult_1_r in D2.
  assert (E : IZR a * pw k / 2 = IZR a * pw (k - 1)).
  { assert (E1 : pw k = pw (k - 1) * 2). { pose proof (pw_add (k - 1) 1) as Ha. replace (k - 1 + 1)%Z with k in Ha by lia. rewrite Ha. rewrite powerRZ_1. reflexivity. } rewrite E1. field. }
  rewrite <- E. apply (div_exact _ _ _ _ a (k - 1)); [exact D|exact D2|lra|exact S|exact E].
Qed.

(** ** Points on a grid *)

(** The coordinates of [v], as multiples of [2^k]. *)
Definition gp (k : Z) (v : vertex ArithF) (w : vertex ArithR) (i j : Z) : Prop :=
  (Z.abs i <= 2 ^ 24 /\ Z.abs j <= 2 ^ 24)%Z /\ dz (vx v) i k /\ dz (vy v) j k /\ (vx w : R) = IZR i * pw k /\ (vy w : R) = IZR j * pw k /\ vghost v = vghost w.

Lemma grid_dz : forall k x r z, spacing k -> double x r -> (- 2 ^ 24 <= z <= 2 ^ 24)%Z -> r = IZR z * pw k -> dz x z k.
Proof. intros k x r z Hk D Hz ->. split; [unfold spacing in Hk; split; lia|exact D]. Qed.
Lemma grid_gp : forall k v w, spacing k -> reads v w -> grid_point k w -> exists i j, gp k v w i j.
Proof.
  intros k v w Hk (Dx & Dy & Hg) ((i & Hi & Ei) & (j & Hj & Ej) & _). exists i, j. split; [lia|].
  split; [exact (grid_dz _ _ _ _ Hk Dx Hi Ei)|]. split; [exact (grid_dz _ _ _ _ Hk Dy Hj Ej)|]. auto.
Qed.

Lemma mul_bound : forall a b m n, (Z.abs a <= m -> Z.abs b <= n -> Z.abs (a * b) <= m * n)%Z.
Proof. intros a b m n Ha Hb. rewrite Z.abs_mul. apply Z.mul_le_mono_nonneg; lia. Qed.

Lemma dz_eqexp : forall x z k k', k = k' -> dz x z k -> dz x z k'. Proof. intros x z k k' ->. auto. Qed.

Lemma one_dz : dz (fpz 1) 1 0. Proof. exact (dz_nat 1 0 eq_refl eq_refl). Qed.
Lemma zero_dz : forall k, (-1074 <= k <= 900)%Z -> dz (fpz 0) 0 k.
Proof. intros k Hk. split; [split; [reflexivity|exact Hk]|]. rewrite Rmult_0_l. reflexivity. Qed.

(** A value on the grid compared with zero. *)
Lemma dz_aeq0 : forall x z k, dz x z k -> fpaeq x (fpz 0) = Raeq (IZR z * pw k) 0.
Proof.
  intros x z k [S D]. apply (aeq_double _ _ _ _ z k D); [reflexivity|exact S|ring].
Qed.
Lemma dz_lt0 : forall x z k, dz x z k -> SFltb (fpz 0) x = Rltb 0 (IZR z * pw k).
Proof. intros x z k [S D]. apply lt_double; [reflexivity|exact D]. Qed.

Section Grid.
  Variable k : Z.
  Hypothesis Hk : spacing k.

  Lemma det_dz : forall a b c a' b' c' ia ja ib jb ic jc, gp k a a' ia ja -> gp k b b' ib jb -> gp k c c' ic jc ->
    exists z, dz (det3 (A:=ArithF) (vx a) (vy a) c1 (vx b) (vy b) c1 (vx c) (vy c) c1) z (k + k) /\
      det3 (A:=ArithR) (vx a') (vy a') c1 (vx b') (vy b') c1 (vx c') (vy c') c1 = IZR z * pw (k + k) /\
      z = (ia * (jb - jc) - ja * (ib - ic) + (ib * jc - ic * jb))%Z.
  Proof.
    intros a b c a' b' c' ia ja ib jb ic jc ([Bia Bja] & Dia & Dja & Eia & Eja & _) ([Bib Bjb] & Dib & Djb & Eib & Ejb & _) ([Bic Bjc] & Dic & Djc & Eic & Ejc & _).
    unfold spacing in Hk. pose proof (mul_bound ib jc _ _ Bib Bjc) as P1. pose proof (mul_bound ic jb _ _ Bic Bjb) as P2.
    pose proof (mul_bound ia (jb - jc) (2 ^ 24) (2 ^ 25) Bia ltac:(lia)) as P3. pose proof (mul_bound ja (ib - ic) (2 ^ 24) (2 ^ 25) Bja ltac:(lia)) as P4.
    assert (M1 : dz (fpsub (fpmul (vy b) (fpz 1)) (fpmul (vy c) (fpz 1))) (jb * 1 - jc * 1) (k + 0)) by (apply dz_sub; [apply dz_mul; [assumption|apply one_dz|lia|lia]..|lia]).
    assert (M2 : dz (fpsub (fpmul (vx b) (fpz 1)) (fpmul (vx c) (fpz 1))) (ib * 1 - ic * 1) (k + 0)) by (apply dz_sub; [apply dz_mul; [assumption|apply one_dz|lia|lia]..|lia]).
    assert (M3 : dz (fpsub (fpmul (vx b) (vy c)) (fpmul (vx c) (vy b))) (ib * jc - ic * jb) (k + k)) by (apply dz_sub; [apply dz_mul; [assumption|assumption|lia|lia]..|lia]).
    assert (Q1 : dz (fpmul (vx a) (fpsub (fpmul (vy b) (fpz 1)) (fpmul (vy c) (fpz 1)))) (ia * (jb * 1 - jc * 1)) (k + (k + 0))) by (apply dz_mul; [assumption|exact M1|rewrite !Z.mul_1_r; lia|lia]).
    assert (Q2 : dz (fpmul (vy a) (fpsub (fpmul (vx b) (fpz 1)) (fpmul (vx c) (fpz 1)))) (ja * (ib * 1 - ic * 1)) (k + (k + 0))) by (apply dz_mul; [assumption|exact M2|rewrite !Z.mul_1_r; lia|lia]).
    assert (Q3 : dz (fpmul (fpz 1) (fpsub (fpmul (vx b) (vy c)) (fpmul (vx c) (vy b)))) (1 * (ib * jc - ic * jb)) (0 + (k + k))) by (apply dz_mul; [apply one_dz|exact M3|lia|lia]).
    rewrite !Z.mul_1_r in Q1, Q2. rewrite Z.mul_1_l in Q3. apply (dz_eqexp _ _ _ (k + k)) in Q1, Q2, Q3; try lia.
    eexists. split; [|split].
    - apply dz_add; [apply dz_sub; [exact Q1|exact Q2|lia]|exact Q3|lia].
    - unfold det3. cbn [fadd fsub fmul ArithR]. rewrite Eia, Eja, Eib, Ejb, Eic, Ejc. unfold c1. cbn [fofnat ArithR INR]. rewrite pw_add, !plus_IZR, !minus_IZR, !mult_IZR, !minus_IZR. match goal with |- @eq _ ?u ?v => change (@eq R u v) end. ring.
    - reflexivity.
  Qed.

  Lemma orient_exact : forall a b c a' b' c' ia ja ib jb ic jc, gp k a a' ia ja -> gp k b b' ib jb -> gp k c c' ic jc ->
    orientation (A:=ArithF) a b c = orientation (A:=ArithR) a' b' c'.
  Proof.
    intros a b c a' b' c' ia ja ib jb ic jc Ha Hb Hc. destruct (det_dz _ _ _ _ _ _ _ _ _ _ _ _ Ha Hb Hc) as (z & D & E & _). unfold orientation. rewrite E.
    change (aeq (a:=ArithF)) with fpaeq. change (flt (a:=ArithF)) with SFltb. change (@c0 ArithF) with (fpz 0). rewrite (dz_aeq0 _ _ _ D), (dz_lt0 _ _ _ D). reflexivity.
  Qed.
End Grid.
