(** P_K1.v — the product of the winding numbers of two polygons, read off the
    pieces of their sides. *)

From Coq Require Import Reals List ZArith Lra Lia Psatz Bool Permutation.
From Verif Require Import Base Arith Geometry Elements Polyline Procedures ArithR Spec SpecR SpecD SpecP
  P_Base P_R1 P_R5 P_D1 P_D2 P_D3 P_D4 P_RX P_Fill P_Fill2 P_Slide P_Region2 P_R2.
Import ListNotations.
Local Open Scope R_scope.

(** ** Double sums *)
Lemma zsum_scale : forall T (f : T -> Z) c l, zsum (fun x => (c * f x)%Z) l = (c * zsum f l)%Z.
Proof. intros T f c l. induction l as [|x l IH]; [cbn; lia|]. rewrite !zsum_cons, IH. lia. Qed.
Lemma zsum_swap : forall T U (f : T -> U -> Z) l m, zsum (fun x => zsum (f x) m) l = zsum (fun y => zsum (fun x => f x y) l) m.
Proof.
  intros T U f l m. induction l as [|x l IH]; [cbn; symmetry; apply zsum_zero; reflexivity|].
  rewrite zsum_cons, IH, <- zsum_add. apply zsum_ext. intros y _. reflexivity.
Qed.
Lemma zsum_prod : forall T U (f : T -> Z) (g : U -> Z) l m, (zsum f l * zsum g m)%Z = zsum (fun x => zsum (fun y => (f x * g y)%Z) m) l.
Proof.
  intros T U f g l m. rewrite Z.mul_comm, <- zsum_scale. apply zsum_ext. intros x _. rewrite zsum_scale. lia.
Qed.

(** ** Where an edge stands over an abscissa *)
Definition run (e : edge ArithR) (x : R) : Z :=
  if Rlt_dec (X (fst e)) x then (if Rlt_dec x (X (snd e)) then 1 else 0)%Z
  else (if Rlt_dec (X (snd e)) x then (if Rlt_dec x (X (fst e)) then -1 else 0) else 0)%Z.
Definition stand (e : edge ArithR) (x : R) : R := if Rlt_dec (X (fst e)) (X (snd e)) then height (fst e) (snd e) x else height (snd e) (fst e) x.
Definition lower (x y : R) : Z := if Rlt_dec x y then 1%Z else 0%Z.
Definition plain_at (x : R) (e : edge ArithR) : Prop := x <> X (fst e) /\ x <> X (snd e).

Lemma rc_stand : forall q e, plain_at (X q) e -> rc q e = (run e (X q) * lower (stand e (X q)) (Y q))%Z.
Proof.
  assert (R : forall q a b, X a < X b -> X q <> X a -> X q <> X b -> rc q (a, b) = (run (a, b) (X q) * lower (stand (a, b) (X q)) (Y q))%Z).
  { intros q a b L Na Nb. pose proof (height_above a b q L) as Hh. unfold rc, ray_crossing, run, stand, lower. cbn [fst snd].
    destruct (Rlt_dec (X a) (X b)) as [_|?]; [|lra].
    repeat match goal with |- context [Rle_dec ?x ?y] => destruct (Rle_dec x y) | |- context [Rlt_dec ?x ?y] => destruct (Rlt_dec x y) end;
      try reflexivity; exfalso; try lra; tauto. }
  intros q [a b] [Na Nb]. cbn [fst snd] in *. destruct (Rlt_le_dec (X a) (X b)) as [L|L]; [apply R; assumption|].
  destruct (Rle_lt_or_eq_dec _ _ L) as [L'|E].
  - rewrite rc_flip, (R q b a L' Nb Na).
    assert (Er : run (a, b) (X q) = (- run (b, a) (X q))%Z) by (unfold run; cbn [fst snd]; repeat match goal with |- context [Rlt_dec ?x ?y] => destruct (Rlt_dec x y) end; try reflexivity; lra).
    assert (Es : stand (a, b) (X q) = stand (b, a) (X q)) by (unfold stand; cbn [fst snd]; repeat match goal with |- context [Rlt_dec ?x ?y] => destruct (Rlt_dec x y) end; try reflexivity; lra).
    rewrite Er, Es. lia.
  - unfold rc, ray_crossing, run. cbn [fst snd].
    repeat match goal with |- context [Rle_dec ?x ?y] => destruct (Rle_dec x y) | |- context [Rlt_dec ?x ?y] => destruct (Rlt_dec x y) end; try reflexivity; lra.
Qed.

(** The point of the edge over [x]. *)
Definition foot (e : edge ArithR) (x : R) : pnt := at_ x (stand e x).
Definition inner (a b p : pnt) : Prop := exists t, 0 < t < 1 /\ at_ratio t a b p.
Lemma inner_on : forall a b p, inner a b p -> on_segment a b p.
Proof. intros a b p (t & Ht & Hr). exists t. split; [lra|exact Hr]. Qed.
Lemma inner_flip : forall a b p, inner a b p -> inner b a p.
Proof. intros a b p (t & Ht & [E1 E2]). exists (1 - t). split; [lra|]. split; [rewrite E1|rewrite E2]; ring. Qed.
Lemma inner_way : forall a b p p' z, inner a b p -> inner a b p' -> on_segment p p' z -> inner a b z.
Proof.
  intros a b p p' z (t & Ht & [E1 E2]) (t' & Ht' & [E1' E2']) (u & Hu & [F1 F2]). exists (t + u * (t' - t)). split.
  - assert (Q1 := mpp u t' ltac:(lra) ltac:(lra)). assert (Q2 := mpp (1 - u) t ltac:(lra) ltac:(lra)).
    assert (Q3 := mpp u (1 - t') ltac:(lra) ltac:(lra)). assert (Q4 := mpp (1 - u) (1 - t) ltac:(lra) ltac:(lra)).
    split.
    + destruct (Req_dec u 0) as [->|N]; [lra|]. assert (Q := spp u t' ltac:(lra) ltac:(lra)). lra.
    + destruct (Req_dec u 0) as [->|N]; [lra|]. assert (Q := spp u (1 - t') ltac:(lra) ltac:(lra)). lra.
  - split; [rewrite F1, E1, E1'|rewrite F2, E2, E2']; ring.
Qed.
Lemma foot_inner : forall e x, run e x <> 0%Z -> inner (fst e) (snd e) (foot e x).
Proof.
  assert (R : forall a b x, X a < x -> x < X b -> inner a b (at_ x (height a b x))).
  { intros a b x L1 L2. exists ((x - X a) / (X b - X a)). assert (P : 0 < X b - X a) by lra. split; [split|].
    - apply Rdiv_lt_0_compat; lra.
    - apply (Rmult_lt_reg_r (X b - X a)); [lra|]. unfold Rdiv. rewrite Rmult_assoc, Rinv_l by lra. lra.
    - split; [rewrite X_at|rewrite Y_at; unfold height, slope]; field; lra. }
  intros [a b] x Hr. unfold foot, stand, run in *. cbn [fst snd] in *.
  destruct (Rlt_dec (X a) x) as [L1|L1].
  - destruct (Rlt_dec x (X b)) as [L2|L2]; [|congruence]. destruct (Rlt_dec (X a) (X b)) as [L|L]; [|lra]. apply R; assumption.
  - destruct (Rlt_dec (X b) x) as [L2|L2]; [|congruence]. destruct (Rlt_dec x (X a)) as [L3|L3]; [|congruence].
    destruct (Rlt_dec (X a) (X b)) as [L|L]; [lra|]. apply inner_flip, R; assumption.
Qed.
Lemma foot_X : forall e x, X (foot e x) = x.
Proof. intros e x. apply X_at. Qed.
Lemma foot_Y : forall e x, Y (foot e x) = stand e x.
Proof. intros e x. apply Y_at. Qed.

(** ** The product rule over an abscissa *)
Lemma lower_split : forall x y z, x <> y -> (lower x z * lower y z = lower x z * lower y x + lower y z * lower x y)%Z.
Proof.
  intros x y z N. unfold lower. repeat match goal with |- context [Rlt_dec ?x ?y] => destruct (Rlt_dec x y) end; try reflexivity; lra.
Qed.
Lemma product_stand : forall E1 E2 q, (forall e, In e (E1 ++ E2) -> plain_at (X q) e) ->
  (forall e f, In e E1 -> In f E2 -> run e (X q) <> 0%Z -> run f (X q) <> 0%Z -> stand e (X q) <> stand f (X q)) ->
  (winding q E1 * winding q E2 = zsum (fun e => rc q e * winding (foot e (X q)) E2) E1 + zsum (fun f => rc q f * winding (foot f (X q)) E1) E2)%Z.
Proof.
  intros E1 E2 q Hp Hne. rewrite !winding_zsum, zsum_prod.
  assert (A1 : zsum (fun e => (rc q e * winding (foot e (X q)) E2)%Z) E1 =
    zsum (fun e => zsum (fun f => (run e (X q) * run f (X q) * (lower (stand e (X q)) (Y q) * lower (stand f (X q)) (stand e (X q))))%Z) E2) E1).
  { apply zsum_ext. intros e He. rewrite winding_zsum, <- zsum_scale. apply zsum_ext. intros f Hf.
    rewrite (rc_stand q e) by (apply Hp, in_or_app; auto). rewrite (rc_stand (foot e (X q)) f) by (rewrite foot_X; apply Hp, in_or_app; auto). rewrite foot_X, foot_Y. lia. }
  assert (A2 : zsum (fun f => (rc q f * winding (foot f (X q)) E1)%Z) E2 =
    zsum (fun e => zsum (fun f => (run e (X q) * run f (X q) * (lower (stand f (X q)) (Y q) * lower (stand e (X q)) (stand f (X q))))%Z) E2) E1).
  { rewrite (zsum_swap _ _ (fun e f => (run e (X q) * run f (X q) * (lower (stand f (X q)) (Y q) * lower (stand e (X q)) (stand f (X q))))%Z) E1 E2).
    apply zsum_ext. intros f Hf. rewrite winding_zsum, <- zsum_scale. apply zsum_ext. intros e He.
    rewrite (rc_stand q f) by (apply Hp, in_or_app; auto). rewrite (rc_stand (foot f (X q)) e) by (rewrite foot_X; apply Hp, in_or_app; auto). rewrite foot_X, foot_Y. lia. }
  rewrite A1, A2, <- zsum_add. apply zsum_ext. intros e He. rewrite <- zsum_add. apply zsum_ext. intros f Hf.
  rewrite (rc_stand q e), (rc_stand q f) by (apply Hp, in_or_app; auto).
  destruct (Z.eq_dec (run e (X q)) 0) as [Z1|N1]; [rewrite Z1; lia|]. destruct (Z.eq_dec (run f (X q)) 0) as [Z2|N2]; [rewrite Z2; lia|].
  transitivity (run e (X q) * run f (X q) * (lower (stand e (X q)) (Y q) * lower (stand f (X q)) (Y q)))%Z; [ring|].
  rewrite (lower_split _ _ (Y q) (Hne e f He Hf N1 N2)). ring.
Qed.

(** ** Small moves *)
Lemma least_positive : forall (l : list R), (forall x, In x l -> 0 < x) -> exists d, 0 < d /\ forall x, In x l -> d < x.
Proof.
  induction l as [|x l IH]; intros Hl; [exists 1; split; [lra|intros x []]|].
  destruct IH as (d & Hd & Hm); [intros y Hy; apply Hl; right; exact Hy|]. pose proof (Hl x (or_introl eq_refl)) as Hx.
  exists (Rmin d (x / 2)). split; [apply Rmin_glb_lt; lra|]. intros y [<-|Hy].
  - apply (Rle_lt_trans _ (x / 2)); [apply Rmin_r|lra].
  - apply (Rle_lt_trans _ d); [apply Rmin_l|apply Hm, Hy].
Qed.
Lemma common_small : forall T (P : T -> R -> Prop) l, (forall x, In x l -> exists d, 0 < d /\ forall s, 0 < s -> s <= d -> P x s) ->
  exists d, 0 < d /\ forall s x, In x l -> 0 < s -> s <= d -> P x s.
Proof.
  intros T P l. induction l as [|x l IH]; intros Hl; [exists 1; split; [lra|intros s x []]|].
  destruct IH as (d & Hd & Hm); [intros y Hy; apply Hl; right; exact Hy|]. destruct (Hl x (or_introl eq_refl)) as (d' & Hd' & Hx).
  exists (Rmin d d'). split; [apply Rmin_glb_lt; lra|]. intros s y [<-|Hy] L1 L2.
  - apply Hx; [exact L1|]. apply (Rle_trans _ _ _ L2), Rmin_r.
  - apply Hm; [exact Hy|exact L1|]. apply (Rle_trans _ _ _ L2), Rmin_l.
Qed.
(** A short level way through a point off an edge misses the edge. *)
Definition left_of (q : pnt) (s : R) : pnt := at_ (X q - s) (Y q).
Definition right_of (q : pnt) (s : R) : pnt := at_ (X q + s) (Y q).
Lemma level_way : forall q s z, 0 < s -> on_segment (left_of q s) (right_of q s) z -> Y z = Y q /\ X q - s <= X z <= X q + s.
Proof.
  intros q s z Hs (t & Ht & [E1 E2]). unfold left_of, right_of in *. rewrite !X_at in E1. rewrite !Y_at in E2. split; [lra|]. rewrite E1.
  assert (Q := mpp t s ltac:(lra) ltac:(lra)). assert (Q' := mpp (1 - t) s ltac:(lra) ltac:(lra)). split; lra.
Qed.
Lemma level_miss : forall q a b, ~ on_segment a b q -> exists d, 0 < d /\ forall s, 0 < s -> s <= d -> ~ meet (left_of q s) (right_of q s) a b.
Proof.
  intros q a b Hq. destruct (Req_dec (D a b q) 0) as [E|N].
  - (* on the line *)
    destruct (Req_dec (Y a) (Y b)) as [Ey|Ny].
    + (* level edge *)
      destruct (Req_dec (X a) (X b)) as [Ex|Nx].
      * (* a point *)
        destruct (Req_dec (Y a) (Y q)) as [Eq|Nq].
        -- assert (X a <> X q) by (intros Eq'; apply Hq; exists 0; split; [lra|split; lra]).
           exists (Rabs (X a - X q) / 2). assert (P : 0 < Rabs (X a - X q)) by (apply Rabs_pos_lt; lra). split; [lra|].
           intros s S1 S2 (z & Hz & (t & Ht & [F1 F2])). destruct (level_way q s z S1 Hz) as [G1 G2]. rewrite <- Ex in F1. revert P S2. unfold Rabs. destruct (Rcase_abs _); intros; nra.
        -- exists 1. split; [lra|]. intros s S1 _ (z & Hz & (t & Ht & [F1 F2])). destruct (level_way q s z S1 Hz) as [G1 G2]. apply Nq. rewrite <- G1, F2, <- Ey. ring.
      * assert (Eq : Y q = Y a) by (unfold area2 in E; rewrite <- Ey in E; assert (E' : (X b - X a) * (Y q - Y a) = 0) by lra; apply Rmult_integral in E'; destruct E'; lra).
        assert (Hout : X q < Rmin (X a) (X b) \/ Rmax (X a) (X b) < X q).
        { destruct (Rlt_le_dec (X q) (Rmin (X a) (X b))) as [L|L]; [left; exact L|right]. apply Rnot_le_lt. intros L'. apply Hq.
          exists ((X q - X a) / (X b - X a)). split; [|split; [field; lra|rewrite Eq, <- Ey; ring]].
          revert L L'. unfold Rmin, Rmax. destruct (Rle_dec (X a) (X b)) as [Lab|Lab]; intros L L'.
          - split; [apply Rmult_le_pos; [lra|left; apply Rinv_0_lt_compat; lra]|]. apply (Rmult_le_reg_r (X b - X a)); [lra|]. unfold Rdiv. rewrite Rmult_assoc, Rinv_l by lra. lra.
          - replace ((X q - X a) / (X b - X a)) with ((X a - X q) / (X a - X b)) by (field; lra).
            split; [apply Rmult_le_pos; [lra|left; apply Rinv_0_lt_compat; lra]|]. apply (Rmult_le_reg_r (X a - X b)); [lra|]. unfold Rdiv. rewrite Rmult_assoc, Rinv_l by lra. lra. }
        exists (Rmax (Rmin (X a) (X b) - X q) (X q - Rmax (X a) (X b)) / 2).
        assert (P : 0 < Rmax (Rmin (X a) (X b) - X q) (X q - Rmax (X a) (X b))) by (destruct Hout; [apply (Rlt_le_trans _ (Rmin (X a) (X b) - X q)); [lra|apply Rmax_l]|apply (Rlt_le_trans _ (X q - Rmax (X a) (X b))); [lra|apply Rmax_r]]).
        split; [lra|]. intros s S1 S2 (z & Hz & Hz'). destruct (level_way q s z S1 Hz) as [G1 G2]. destruct (proj1 (on_segment_box a b z Hz')) as [[B1 B2] _].
        revert S2 P Hout B1 B2. unfold Rmax, Rmin. repeat destruct (Rle_dec _ _); intros; lra.
    + (* slanted: the level line meets the line at q only *)
      exists 1. split; [lra|]. intros s S1 _ (z & Hz & Hz'). destruct (level_way q s z S1 Hz) as [G1 G2].
      assert (Ez : D a b z = 0) by apply (on_segment_box a b z Hz').
      assert (Exz : X z = X q).
      { unfold area2 in E, Ez. rewrite G1 in Ez. assert (E' : (Y b - Y a) * (X z - X q) = 0) by lra. apply Rmult_integral in E'. destruct E'; lra. }
      apply Hq. destruct Hz' as (t & Ht & [F1 F2]). exists t. split; [exact Ht|]. split; lra.
  - assert (P : 0 < Rabs (D a b q)) by (apply Rabs_pos_lt; exact N). set (m := 1 + Rabs (Y b - Y a)). assert (Pm : 0 < m) by (unfold m; pose proof (Rabs_pos (Y b - Y a)); lra).
    exists (Rabs (D a b q) / (2 * m)). split; [apply Rdiv_lt_0_compat; lra|]. intros s S1 S2 (z & Hz & Hz'). destruct (level_way q s z S1 Hz) as [G1 G2].
    assert (Ez : D a b z = 0) by apply (on_segment_box a b z Hz').
    assert (Eq : D a b q = (Y b - Y a) * (X z - X q)) by (unfold area2 in *; rewrite G1 in Ez; lra).
    assert (B : Rabs (D a b q) <= Rabs (Y b - Y a) * s).
    { rewrite Eq, Rabs_mult. apply Rmult_le_compat_l; [apply Rabs_pos|]. apply Rabs_le. lra. }
    assert (B2 : s * (2 * m) <= Rabs (D a b q)).
    { apply (Rmult_le_compat_r (2 * m)) in S2; [|lra]. unfold Rdiv in S2. rewrite Rmult_assoc, Rinv_l in S2 by lra. lra. }
    unfold m in B2. nra.
Qed.
