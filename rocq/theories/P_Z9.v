(** P_Z9.v — the in-circle test on doubles. *)

From Coq Require Import Reals List ZArith Bool Lia Lra Floats.SpecFloat.
From Verif Require Import Base Arith ArithR ArithF Geometry SpecR SpecF P_RX P_R1 P_Z1 P_Z2 P_Z3 P_Z5 P_Z6 P_Z7 P_Z8.
Import ListNotations.
Local Open Scope R_scope.

Lemma lu_ok1 : forall g U h C lo hi, 0 <= C <= pw U -> (-1000 <= lo + h - g - 1)%Z -> (hi + h + U + 1 <= 1000)%Z -> lu_ok 1 [(h, C)] g (21 / 10 * uu) lo hi.
Proof.
  intros g U h C lo hi HC Hlo Hhi rows ms acc a neg Hl HM Da Ba Ta. destruct rows as [|r [|r' rest]]; try discriminate. inversion HM as [|? m ? mr Hr HMr]; subst. inversion HMr; subst.
  destruct (cells_inv _ _ _ _ _ Hr) as (x & xs & v & vs & <- & <- & (Dx & Bx & Tx) & Hn). inversion Hn; subst. clear Hr HM HMr Hn. cbn [fst snd] in *.
  pose proof uu_val as Hu. pose proof (Rabs_pos a) as Pa. pose proof (Rabs_pos v) as Pv.
  assert (Bav : big (lo + h - g) (a * v)) by (replace (lo + h - g)%Z with (lo + (h - g))%Z by lia; apply big_mul; assumption).
  assert (Tv : Rabs v <= pw (U + h)) by (rewrite pw_add; apply Rle_trans with (1 := Tx); apply Rmult_le_compat_r; [apply Rlt_le, pw_pos|lra]).
  assert (Tav : Rabs (a * v) <= pw (hi + h + U)) by (replace (hi + h + U)%Z with (hi + (U + h))%Z by lia; rewrite pw_add, Rabs_mult; apply Rmult_le_compat; assumption).
  destruct (rounds_get _ _ (mul_rel acc x a v Da Dx (rangedI _ _ _ Bav Tav ltac:(lia) ltac:(lia)))) as (a' & Da' & Ea & Ea1 & Ea2).
  pose proof (rounds_big _ _ _ Bav Ea1 Ea2) as Ba'. assert (Ta' : Rabs a' <= pw (hi + h + U + 1)). { rewrite pw_succ. apply Rle_trans with (1 := Ea2). rewrite Rmult_comm. apply Rmult_le_compat; try lra. apply Rabs_pos. }
  destruct (lu_ok0 g (lo + h - g - 1) (hi + h + U + 1) Hlo Hhi [] [] (fpmul acc x) a' neg eq_refl (Forall2_nil _) Da' Ba' Ta') as (t & Dt & Ht).
  assert (E : lu_det 1 [[x]] acc neg = lu_det 0 [] (fpmul acc x) neg) by (cbn; destruct (is_zero x); [reflexivity|]; destruct neg; reflexivity).
  exists t. rewrite E. split; [exact Dt|]. cbn [bnds map prod fold_right] in *. replace (sgb neg * a * ldet 1 [[v]]) with (sgb neg * (a * v)) by (cbn; ring). cbn [ldet] in Ht.
  replace (t - sgb neg * (a * v)) with ((t - sgb neg * a' * 1) + sgb neg * (a' - a * v)) by ring. pose proof (Rabs_triang (t - sgb neg * a' * 1) (sgb neg * (a' - a * v))) as T. rewrite (Rabs_mult (sgb neg)), abs_sgb, Rmult_1_l in T.
  unfold bnd. cbn [fst snd]. set (B := C * pw h) in *. rewrite Rabs_mult in Ea, Ea2.
  assert (A1 : Rabs a' * (uu * 1) <= Rabs a * Rabs v * ((1 + uu) * uu)) by (replace (Rabs a * Rabs v * ((1 + uu) * uu)) with (Rabs a * Rabs v * (1 + uu) * (uu * 1)) by ring; apply Rmult_le_compat_r; lra).
  assert (A2 : Rabs a * Rabs v * ((1 + uu) * uu + uu) <= Rabs a * B * (21 / 10 * uu)). { apply Rmult_le_compat; [apply Rmult_le_pos; assumption|rewrite Hu; lra|apply Rmult_le_compat_l; assumption|rewrite Hu; lra]. }
  lra.
Qed.

Definition cols4 (k : Z) : list (Z * R) := [(k, 1024); (k, 1024); ((2 * k)%Z, 2097152); (0%Z, 1)].

Lemma pw_val : forall n v, (0 <= n)%Z -> (2 ^ n = v)%Z -> pw n = IZR v. Proof. intros n v Hn <-. apply pw_int. exact Hn. Qed.

Lemma lu_ok4 : forall k, fine_spacing k -> lu_ok 4 (cols4 k) 0 (1600 * uu) 0 0.
Proof.
  intros k Hk. unfold fine_spacing in Hk. pose proof uu_val as Hu. pose proof (pw_val 40 1099511627776 ltac:(lia) eq_refl) as P40.
  pose proof (pw_val 10 1024 ltac:(lia) eq_refl) as P10. pose proof (pw_val 12 4096 ltac:(lia) eq_refl) as P12. pose proof (pw_val 24 16777216 ltac:(lia) eq_refl) as P24. pose proof (pw_val 4 16 ltac:(lia) eq_refl) as P4.
  assert (CO : forall h C, (-22 <= h <= 200)%Z -> 0 <= C <= 1099511627776 -> col_ok (h, C)) by (intros h C Hh HC; split; [exact Hh|cbn [snd]; lra]).
  unfold cols4. apply (stage 3 0 10 k 1024 _ (150 * uu)); try lia; try reflexivity; try lra.
  - repeat constructor; cbn [fst snd]; try lia; lra.
  - unfold grow; cbn [map fst snd]. apply (stage 2 _ 12 k _ _ (20 * uu)); try lia; try reflexivity; try lra.
    + repeat constructor; cbn [fst snd]; try lia; lra.
    + unfold grow; cbn [map fst snd]. apply (stage 1 _ 24 (2 * k) _ _ (21 / 10 * uu)); try lia; try reflexivity; try lra.
      * repeat constructor; cbn [fst snd]; try lia; lra.
      * unfold grow; cbn [map fst snd]. apply (lu_ok1 _ 4); [lra|lia|lia].
      * unfold dd. rewrite Hu. cbn [pow fact Nat.mul Nat.add INR]. lra.
    + unfold dd. rewrite Hu. cbn [pow fact Nat.mul Nat.add INR]. lra.
  - unfold dd. rewrite Hu. cbn [pow fact Nat.mul Nat.add INR]. lra.
Qed.

(** ** Rows of the in-circle matrix *)

Definition fp (k : Z) (v : vertex ArithF) (w : pnt) (i j : Z) : Prop :=
  (Z.abs i <= 2 ^ 10 /\ Z.abs j <= 2 ^ 10)%Z /\ dz (vx v) i k /\ dz (vy v) j k /\ (vx w : R) = IZR i * pw k /\ (vy w : R) = IZR j * pw k.

Lemma fine_grid : forall k w, fine_point k w -> grid_point k w.
Proof. intros k w ((i & Hi & Ei) & (j & Hj & Ej) & Hg). split; [exists i; split; [lia|exact Ei]|]. split; [exists j; split; [lia|exact Ej]|exact Hg]. Qed.
Lemma fine_spaced : forall k, fine_spacing k -> spacing k. Proof. unfold fine_spacing, spacing. lia. Qed.
Lemma fine_fp : forall k v w, fine_spacing k -> reads v w -> fine_point k w -> exists i j, fp k v w i j.
Proof.
  intros k v w Hk (Dx & Dy & Hg) ((i & Hi & Ei) & (j & Hj & Ej) & _). apply fine_spaced in Hk. exists i, j. split; [lia|].
  assert (Hi' : (- 2 ^ 24 <= i <= 2 ^ 24)%Z) by lia. assert (Hj' : (- 2 ^ 24 <= j <= 2 ^ 24)%Z) by lia.
  split; [exact (grid_dz _ _ _ _ Hk Dx Hi' Ei)|]. split; [exact (grid_dz _ _ _ _ Hk Dy Hj' Ej)|]. auto.
Qed.

Lemma dz_cell : forall x z h C, dz x z h -> (Z.abs z <= C)%Z -> cell 0 (h, IZR C) x (IZR z * pw h).
Proof.
  intros x z h C [_ D] Hz. split; [exact D|]. cbn [fst snd]. pose proof (pw_pos h) as P. split.
  - destruct (Z.eq_dec z 0) as [->|N]; [left; ring|right]. rewrite Z.sub_0_r, Rabs_mult, (Rabs_pos_eq (pw h)) by lra. rewrite <- (Rmult_1_l (pw h)) at 1. apply Rmult_le_compat_r; [lra|]. rewrite <- abs_IZR. apply IZR_le. lia.
  - rewrite Rabs_mult, (Rabs_pos_eq (pw h)) by lra. apply Rmult_le_compat_r; [lra|]. rewrite <- abs_IZR. apply IZR_le. exact Hz.
Qed.

Lemma row_cells : forall k v w i j, fine_spacing k -> fp k v w i j ->
  cells 0 (cols4 k) [vx v; vy v; fpadd (fpmul (vx v) (vx v)) (fpmul (vy v) (vy v)); f1] [vx w; vy w; (vx w : R) * vx w + (vy w : R) * vy w; 1].
Proof.
  intros k v w i j Hk ((Hi & Hj) & Dx & Dy & Ex & Ey). unfold fine_spacing in Hk. assert (Mi := mul_bound i i (2 ^ 10) (2 ^ 10) Hi Hi). assert (Mj := mul_bound j j (2 ^ 10) (2 ^ 10) Hj Hj).
  assert (D : dz (fpadd (fpmul (vx v) (vx v)) (fpmul (vy v) (vy v))) (i * i + j * j) (2 * k)).
  { apply (dz_eqexp _ _ (k + k)); [lia|]. apply dz_add; [apply dz_mul; try assumption; lia|apply dz_mul; try assumption; lia|lia]. }
  assert (E : (vx w : R) * vx w + (vy w : R) * vy w = IZR (i * i + j * j) * pw (2 * k)).
  { change (T ArithR) with R in *. rewrite Ex, Ey. replace (2 * k)%Z with (k + k)%Z by lia. rewrite pw_add, plus_IZR, !mult_IZR. ring. }
  unfold cols4. constructor; [rewrite Ex; apply dz_cell; [exact Dx|lia]|]. constructor; [rewrite Ey; apply dz_cell; [exact Dy|lia]|]. constructor; [|constructor; [|constructor]].
  - rewrite E. apply dz_cell; [exact D|lia].
  - pose proof (dz_cell _ _ _ 1 one_dz ltac:(lia)) as C. cbn [powerRZ] in C. rewrite Rmult_1_r in C. exact C.
Qed.

Lemma fpaeq_zero : forall x t, double x t -> fpaeq x f0 = Raeq t 0.
Proof.
  intros x t D. unfold fpaeq. assert (D0 : double f0 0) by (cbn; reflexivity). rewrite (eq_double _ _ _ _ D D0).
  assert (S : double (fpsub x f0) t). { destruct x as [s|s| |s m e]; cbn [double] in D; try contradiction; [destruct s; cbn; exact D|exact D]. }
  rewrite (le_double _ _ _ _ (abs_double _ _ S) eps_double). unfold Raeq. rewrite Rminus_0_r. unfold Reqb, Rleb. pose proof eps_pos.
  destruct (sf_dec x f0) as [->|N]; destruct (Req_EM_T t 0) as [Z|Z]; destruct (Rle_dec (Rabs t) eps) as [L|L]; cbn; try reflexivity; exfalso.
  - apply L. rewrite Z, Rabs_R0. lra.
  - apply Z. cbn in D. exact D.
  - apply L. rewrite Z, Rabs_R0. lra.
Qed.

Lemma incircle_grid : forall k (a b c d : pnt), fine_point k a -> fine_point k b -> fine_point k c -> fine_point k d -> exists z, incircle a b c d = IZR z * pw (4 * k).
Proof.
  intros k a b c d ((a1 & _ & A1) & (a2 & _ & A2) & _) ((b1 & _ & B1) & (b2 & _ & B2) & _) ((p1 & _ & C1) & (p2 & _ & C2) & _) ((q1 & _ & D1) & (q2 & _ & D2) & _).
  exists ((a1 - q1) * ((b2 - q2) * ((p1 - q1) * (p1 - q1) + (p2 - q2) * (p2 - q2)) - (p2 - q2) * ((b1 - q1) * (b1 - q1) + (b2 - q2) * (b2 - q2)))
    - (a2 - q2) * ((b1 - q1) * ((p1 - q1) * (p1 - q1) + (p2 - q2) * (p2 - q2)) - (p1 - q1) * ((b1 - q1) * (b1 - q1) + (b2 - q2) * (b2 - q2)))
    + ((a1 - q1) * (a1 - q1) + (a2 - q2) * (a2 - q2)) * ((b1 - q1) * (p2 - q2) - (p1 - q1) * (b2 - q2)))%Z.
  replace (4 * k)%Z with (k + k + k + k)%Z by lia. rewrite !pw_add. rewrite !plus_IZR, !minus_IZR, !mult_IZR, !minus_IZR, !mult_IZR, !plus_IZR, !mult_IZR, !minus_IZR.
  unfold incircle, Rdet4, Rdet3, X, Y. change (T ArithR) with R in *. rewrite A1, A2, B1, B2, C1, C2, D1, D2. ring.
Qed.

Theorem float_incircle : forall k, fine_spacing k -> forall (a b c d : vertex ArithF) (a' b' c' d' : pnt),
  fine_point k a' -> fine_point k b' -> fine_point k c' -> fine_point k d' -> reads a a' -> reads b b' -> reads c c' -> reads d d' -> incircle a' b' c' d' <> 0 ->
  continence a b c d = if Rltb 0 (incircle a' b' c' d') then Inside else Outside.
Proof.
  intros k Hk a b c d a' b' c' d' Fa Fb Fc Fd Ra Rb Rc Rd HI.
  destruct (incircle_grid k a' b' c' d' Fa Fb Fc Fd) as (z & Ez).
  destruct (fine_fp k a a' Hk Ra Fa) as (ia & ja & Ga). destruct (fine_fp k b b' Hk Rb Fb) as (ib & jb & Gb). destruct (fine_fp k c c' Hk Rc Fc) as (ic & jc & Gc). destruct (fine_fp k d d' Hk Rd Fd) as (id & jd & Gd).
  assert (HM := Forall2_cons _ _ (row_cells k a a' ia ja Hk Ga) (Forall2_cons _ _ (row_cells k b b' ib jb Hk Gb) (Forall2_cons _ _ (row_cells k c c' ic jc Hk Gc) (Forall2_cons _ _ (row_cells k d d' id jd Hk Gd) (Forall2_nil _))))).
  assert (B1 : big 0 1) by (right; rewrite Rabs_R1; cbn; lra). assert (T1 : Rabs 1 <= pw 0) by (rewrite Rabs_R1; cbn; lra).
  match type of HM with Forall2 _ ?rows ?ms => destruct (lu_ok4 k Hk rows ms f1 1 false eq_refl HM one_double B1 T1) as (t & Dt & Ht) end.
  match type of Ht with context [ldet 4 ?m] => assert (EI : ldet 4 m = incircle a' b' c' d') by (unfold incircle, Rdet4, Rdet3, X, Y; cbn; ring) end. rewrite EI in Ht. rewrite Rabs_R1 in Ht. cbn [sgb] in Ht.
  assert (Hb : Rabs (t - incircle a' b' c' d') < pw (4 * k) / 2).
  { replace (t - incircle a' b' c' d') with (t - 1 * 1 * incircle a' b' c' d') by ring. apply Rle_lt_trans with (1 := Ht). pose proof (pw_pos (4 * k)). cbn [cols4 bnds map prod fold_right]. unfold bnd. cbn [fst snd].
    replace (1 * (1600 * uu * (1024 * pw k * (1024 * pw k * (2097152 * pw (2 * k) * (1 * pw 0 * 1)))))) with (1600 * uu * 2199023255552 * pw (4 * k)) by (replace (4 * k)%Z with (k + k + 2 * k)%Z by lia; rewrite !pw_add; cbn [powerRZ]; ring).
    rewrite uu_val. lra. }
  assert (Hz : (z <> 0)%Z) by (intros ->; apply HI; rewrite Ez; ring).
  assert (He : 2 * eps < pw (4 * k)).
  { unfold fine_spacing in Hk. apply Rlt_le_trans with (pw (-44)); [|apply pw_le; lia]. pose proof (pw_inv 44) as P44. rewrite (pw_val 44 17592186044416) in P44 by (lia || reflexivity). change (- (44))%Z with (-44)%Z in P44. rewrite <- P44. unfold eps. change (2 ^ 99)%Z with 633825300114114700748351602688%Z. lra. }
  unfold continence. change (det4 (a:=ArithF)) with fpdet4. change (fadd (a:=ArithF)) with fpadd. unfold sq. change (fmul (a:=ArithF)) with fpmul. change (@c1 ArithF) with f1. change (@c0 ArithF) with f0. unfold fpdet4.
  change (aeq (a:=ArithF)) with fpaeq. change (flt (a:=ArithF)) with SFltb.
  match type of Dt with double ?d _ => set (D := d) in * end. match goal with |- context [fpaeq ?d f0] => change d with D end. rewrite (fpaeq_zero D t Dt). assert (D0 : double f0 0) by (cbn; reflexivity). rewrite (lt_double _ _ _ _ D0 Dt).
  unfold Raeq. rewrite Rminus_0_r. pose proof (pw_pos (4 * k)) as Pk. rewrite Ez in *.
  destruct (Z_lt_le_dec 0 z) as [Lz|Lz].
  - assert (Z1 : 1 * pw (4 * k) <= IZR z * pw (4 * k)) by (apply Rmult_le_compat_r; [lra|apply IZR_le; lia]). apply Rabs_def2 in Hb. unfold Rleb, Rltb. rewrite (Rabs_pos_eq t) by lra.
    destruct (Rle_dec t eps); [lra|]. destruct (Rlt_dec 0 t); [|lra]. destruct (Rlt_dec 0 (IZR z * pw (4 * k))); [reflexivity|lra].
  - assert (Z1 : IZR z * pw (4 * k) <= -1 * pw (4 * k)) by (apply Rmult_le_compat_r; [lra|apply IZR_le; lia]). apply Rabs_def2 in Hb. unfold Rleb, Rltb. rewrite (Rabs_left t) by lra.
    destruct (Rle_dec (- t) eps); [lra|]. destruct (Rlt_dec 0 t); [lra|]. destruct (Rlt_dec 0 (IZR z * pw (4 * k))); [lra|reflexivity].
Qed.
