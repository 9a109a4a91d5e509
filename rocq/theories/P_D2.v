(** P_D2.v — winding of counterclockwise triangles with half-open sides. *)

From Coq Require Import Reals List ZArith Lra Lia Psatz Bool.
From Verif Require Import Base Arith Geometry Elements ArithR Spec SpecR SpecD P_R1 P_R5 P_D1.
Import ListNotations.
Local Open Scope R_scope.

(** [q] is on the right of the directed edge; ties are broken as if [q] was
    moved a little to the right, and still less down. *)
Definition beyond (q : pnt) (e : edge ArithR) : Prop :=
  let (a, b) := e in D a b q < 0 \/ (D a b q = 0 /\ lex_lt a b).

Lemma lex_total : forall a b : pnt, ~ coincide a b -> lex_lt a b \/ lex_lt b a.
Proof.
  intros a b Hn. unfold lex_lt, coincide in *. destruct (Rtotal_order (X a) (X b)) as [|[E|]]; [auto| |auto].
  destruct (Rtotal_order (Y a) (Y b)) as [|[E'|]]; [auto|tauto|auto].
Qed.
Lemma lex_asym : forall a b : pnt, lex_lt a b -> lex_lt b a -> False.
Proof. unfold lex_lt. intros; lra. Qed.
Lemma beyond_one : forall q a b, ~ coincide a b -> beyond q (a, b) \/ beyond q (b, a).
Proof.
  intros q a b Hn. unfold beyond. rewrite (D_swap a b q). destruct (Rtotal_order (D a b q) 0) as [|[E|]]; [auto| |right; left; lra].
  destruct (lex_total a b Hn); [auto|right; right; split; [lra|assumption]].
Qed.
Lemma beyond_not_both : forall q a b, beyond q (a, b) -> beyond q (b, a) -> False.
Proof.
  intros q a b. unfold beyond. rewrite (D_swap a b q). intros [H1|[H1 L1]] [H2|[H2 L2]]; try lra. exact (lex_asym a b L1 L2).
Qed.

Definition rc := ray_crossing.
Definition tw (a b c q : pnt) : Z := (rc q (a, b) + (rc q (b, c) + rc q (c, a)))%Z.
Lemma tw_rot : forall a b c q, tw b c a q = tw a b c q.
Proof. intros. unfold tw. lia. Qed.

Lemma rc_LL : forall q a b, X a <= X q -> X b <= X q -> rc q (a, b) = 0%Z.
Proof.
  intros q a b Ha Hb. unfold rc, ray_crossing. destruct (Rle_dec (X a) (X q)); [|lra]. destruct (Rlt_dec (X q) (X b)); [lra|reflexivity].
Qed.
Lemma rc_RR : forall q a b, X q < X a -> X q < X b -> rc q (a, b) = 0%Z.
Proof.
  intros q a b Ha Hb. unfold rc, ray_crossing. destruct (Rle_dec (X a) (X q)); [lra|]. destruct (Rle_dec (X b) (X q)); [lra|reflexivity].
Qed.
Lemma rc_LR : forall q a b, X a <= X q -> X q < X b -> rc q (a, b) = if Rlt_dec 0 (D a b q) then 1%Z else 0%Z.
Proof.
  intros q a b Ha Hb. unfold rc, ray_crossing. destruct (Rle_dec (X a) (X q)); [|lra]. destruct (Rlt_dec (X q) (X b)); [reflexivity|lra].
Qed.
Lemma rc_RL : forall q a b, X q < X a -> X b <= X q -> rc q (a, b) = if Rlt_dec (D a b q) 0 then (-1)%Z else 0%Z.
Proof.
  intros q a b Ha Hb. unfold rc, ray_crossing. destruct (Rle_dec (X a) (X q)); [lra|]. destruct (Rle_dec (X b) (X q)); [reflexivity|lra].
Qed.
Lemma rc_flip : forall q a b, rc q (b, a) = (- rc q (a, b))%Z.
Proof.
  intros q a b. unfold rc, ray_crossing. rewrite (D_swap a b q).
  repeat match goal with |- context [Rle_dec ?x ?y] => destruct (Rle_dec x y) | |- context [Rlt_dec ?x ?y] => destruct (Rlt_dec x y) end; try lia; lra.
Qed.
Lemma rc_loop : forall q a, rc q (a, a) = 0%Z.
Proof. intros q a. pose proof (rc_flip q a a). lia. Qed.

(** One corner on the right. *)
Lemma tw_one_right : forall a b c q, 0 < D a b c -> X a <= X q -> X b <= X q -> X q < X c ->
  (0 <= tw a b c q)%Z /\ (~ beyond q (b, c) -> ~ beyond q (c, a) -> tw a b c q = 1%Z).
Proof.
  intros a b c q Hc Ha Hb Hcq. unfold tw. rewrite rc_LL, rc_LR, rc_RL by assumption.
  pose proof (area_sum a b c q) as Hs. pose proof (area_x a b c q) as Hx. split.
  - destruct (Rlt_dec 0 (D b c q)) as [|N]; destruct (Rlt_dec (D c a q) 0) as [P|]; try lia. exfalso.
    assert (Hv : 0 < D a b q) by lra. assert (P1 := mnn (D b c q) (X a - X q)). assert (P2 := mnn (D c a q) (X b - X q)).
    assert (P3 := spp (D a b q) (X c - X q)). lra.
  - intros N1 N2. unfold beyond in *. destruct (Rlt_dec 0 (D b c q)) as [P|N].
    + destruct (Rlt_dec (D c a q) 0) as [P'|]; [exfalso; apply N2; left; exact P'|reflexivity].
    + exfalso. apply N1. destruct (Rtotal_order (D b c q) 0) as [|[E|]]; [left; assumption| |lra]. right. split; [exact E|].
      unfold lex_lt. left. lra.
Qed.
(** One corner on the left. *)
Lemma tw_one_left : forall a b c q, 0 < D a b c -> X q < X a -> X q < X b -> X c <= X q ->
  (0 <= tw a b c q)%Z /\ (~ beyond q (b, c) -> ~ beyond q (c, a) -> tw a b c q = 1%Z).
Proof.
  intros a b c q Hc Ha Hb Hcq. unfold tw. rewrite rc_RR, rc_RL, rc_LR by assumption.
  pose proof (area_sum a b c q) as Hs. pose proof (area_x a b c q) as Hx. split.
  - destruct (Rlt_dec (D b c q) 0) as [P|]; destruct (Rlt_dec 0 (D c a q)) as [|N]; try lia. exfalso.
    assert (Hv : 0 < D a b q) by lra. assert (P1 := snp (D b c q) (X a - X q)). assert (P2 := mnp (D c a q) (X b - X q)).
    assert (P3 := mpn (D a b q) (X c - X q)). lra.
  - intros N1 N2. unfold beyond in *. destruct (Rlt_dec (D b c q) 0) as [P|N]; [exfalso; apply N1; left; exact P|].
    destruct (Rlt_dec 0 (D c a q)) as [P'|N']; [reflexivity|]. exfalso. apply N2.
    destruct (Rtotal_order (D c a q) 0) as [|[E|]]; [left; assumption| |lra]. right. split; [exact E|]. unfold lex_lt. left. lra.
Qed.
Lemma zero_prod : forall x y, 0 <= x -> y <= 0 -> x * y = 0 -> x = 0 \/ y = 0.
Proof. intros x y _ _ Hp. apply Rmult_integral in Hp. exact Hp. Qed.

Lemma tw_all_left : forall a b c q, 0 < D a b c -> X a <= X q -> X b <= X q -> X c <= X q ->
  ~ beyond q (a, b) -> ~ beyond q (b, c) -> ~ beyond q (c, a) -> False.
Proof.
  intros a b c q Hc Ha Hb Hcq N1 N2 N3. unfold beyond in *.
  assert (P1 : 0 <= D a b q) by (apply Rnot_lt_le; tauto). assert (P2 : 0 <= D b c q) by (apply Rnot_lt_le; tauto).
  assert (P3 : 0 <= D c a q) by (apply Rnot_lt_le; tauto).
  pose proof (area_sum a b c q) as Hs. pose proof (area_x a b c q) as Hx.
  assert (Z1 := mpn (D b c q) (X a - X q)). assert (Z2 := mpn (D c a q) (X b - X q)). assert (Z3 := mpn (D a b q) (X c - X q)).
  assert (E1 : D b c q = 0 \/ X a - X q = 0) by (apply zero_prod; lra).
  assert (E2 : D c a q = 0 \/ X b - X q = 0) by (apply zero_prod; lra).
  assert (E3 : D a b q = 0 \/ X c - X q = 0) by (apply zero_prod; lra). clear Z1 Z2 Z3 Hx.
  assert (K : forall a b c : pnt, 0 < D a b c -> X a <= X q -> X b <= X q -> X c <= X q -> X a = X q -> D a b q = 0 -> D c a q = 0 ->
     ~ (D a b q < 0 \/ D a b q = 0 /\ lex_lt a b) -> ~ (D c a q < 0 \/ D c a q = 0 /\ lex_lt c a) -> False).
  { clear. intros a b c Hc Ha Hb Hcq E E1 E2 N1 N3. unfold lex_lt in *.
    assert (X c = X a) by (apply Rle_antisym; [lra|]; apply Rnot_lt_le; intros L; apply N3; right; split; [exact E2|left; exact L]).
    assert (Y a <= Y c) by (apply Rnot_lt_le; intros L; apply N3; right; split; [exact E2|right; split; lra]).
    unfold area2 in Hc. assert (Q := mnp (X b - X a) (Y c - Y a)). replace (X c - X a) with 0 in Hc by lra. lra. }
  assert (K2 : forall a b c : pnt, 0 < D a b c -> X a <= X q -> X b <= X q -> X c <= X q -> X a = X q -> X b = X q -> D a b q = 0 ->
     ~ (D a b q < 0 \/ D a b q = 0 /\ lex_lt a b) -> False).
  { clear. intros a b c Hc Ha Hb Hcq E E' E1 N1. unfold lex_lt in *.
    assert (Y b <= Y a) by (apply Rnot_lt_le; intros L; apply N1; right; split; [exact E1|right; split; lra]).
    unfold area2 in Hc. replace (X b - X a) with 0 in Hc by lra. assert (Q := mnn (Y b - Y a) (X c - X a)). lra. }
  pose proof (D_rot a b c) as R1. pose proof (D_rot2 a b c) as R2.
  destruct (Req_dec (D a b q) 0) as [Z1|Z1]; destruct (Req_dec (D b c q) 0) as [Z2|Z2]; destruct (Req_dec (D c a q) 0) as [Z3|Z3].
  - lra.
  - apply (K b c a); auto; lra.
  - apply (K a b c); auto; lra.
  - apply (K2 a b c); auto; lra.
  - apply (K c a b); auto; lra.
  - apply (K2 b c a); auto; lra.
  - apply (K2 c a b); auto; lra.
  - assert (X a = X q /\ X b = X q /\ X c = X q) as (F1 & F2 & F3) by (repeat split; lra). unfold area2 in Hc.
    rewrite F1, F2, F3 in Hc. lra.
Qed.
Lemma tw_all_right : forall a b c q, 0 < D a b c -> X q < X a -> X q < X b -> X q < X c ->
  ~ beyond q (a, b) -> ~ beyond q (b, c) -> ~ beyond q (c, a) -> False.
Proof.
  intros a b c q Hc Ha Hb Hcq N1 N2 N3. unfold beyond in *.
  assert (P1 : 0 <= D a b q) by (apply Rnot_lt_le; tauto). assert (P2 : 0 <= D b c q) by (apply Rnot_lt_le; tauto).
  assert (P3 : 0 <= D c a q) by (apply Rnot_lt_le; tauto).
  pose proof (area_sum a b c q) as Hs. pose proof (area_x a b c q) as Hx.
  assert (Z1 := mpp (D b c q) (X a - X q)). assert (Z2 := mpp (D c a q) (X b - X q)). assert (Z3 := mpp (D a b q) (X c - X q)).
  assert (0 < D a b q \/ 0 < D b c q \/ 0 < D c a q) as [L|[L|L]] by lra.
  - assert (Q := spp (D a b q) (X c - X q)). lra.
  - assert (Q := spp (D b c q) (X a - X q)). lra.
  - assert (Q := spp (D c a q) (X b - X q)). lra.
Qed.

Lemma tw_ccw : forall a b c q, 0 < D a b c ->
  (0 <= tw a b c q)%Z /\ (~ beyond q (a, b) -> ~ beyond q (b, c) -> ~ beyond q (c, a) -> tw a b c q = 1%Z).
Proof.
  intros a b c q Hc. pose proof (D_rot a b c) as R1. pose proof (D_rot2 a b c) as R2.
  destruct (Rle_lt_dec (X a) (X q)) as [La|Ra]; destruct (Rle_lt_dec (X b) (X q)) as [Lb|Rb]; destruct (Rle_lt_dec (X c) (X q)) as [Lc|Rc'].
  - split; [unfold tw; rewrite !rc_LL by assumption; lia|]. intros. exfalso. apply (tw_all_left a b c q); assumption.
  - destruct (tw_one_right a b c q) as [H1 H2]; auto.
  - rewrite <- (tw_rot a b c q), <- (tw_rot b c a q). destruct (tw_one_right c a b q) as [H1 H2]; auto; lra.
  - rewrite <- (tw_rot a b c q). destruct (tw_one_left b c a q) as [H1 H2]; auto; lra.
  - rewrite <- (tw_rot a b c q). destruct (tw_one_right b c a q) as [H1 H2]; auto; lra.
  - rewrite <- (tw_rot a b c q), <- (tw_rot b c a q). destruct (tw_one_left c a b q) as [H1 H2]; auto; lra.
  - destruct (tw_one_left a b c q) as [H1 H2]; auto.
  - split; [unfold tw; rewrite !rc_RR by assumption; lia|]. intros. exfalso. apply (tw_all_right a b c q); assumption.
Qed.
