(** P_G4.v — points placed in a polygon and told apart by the tolerances are
    bounded in number. *)

From Coq Require Import Reals List ZArith Lra Lia Psatz Bool Permutation.
From Verif Require Import Base Arith Geometry Elements Polyline Procedures Refine Triangulator ArithR Spec SpecM SpecR SpecD SpecP SpecC SpecE
  P_Base P_R1 P_R2 P_R3 P_R5 P_R6 P_RX P_D1 P_D4 P_D5 P_D6 P_D7 P_Fill P_Fill2 P_Region P_C1 P_C2 P_C3 P_C7 P_E4.
Import ListNotations.
Local Open Scope R_scope.

(** ** The box *)
Lemma corners_bound : forall l : list pnt, exists B, 0 <= B /\ forall c, In c l -> - B <= X c <= B /\ - B <= Y c <= B.
Proof.
  intros l. induction l as [|a l (B & HB & Hl)]; [exists 0; split; [lra|]; intros c []|].
  exists (B + Rabs (X a) + Rabs (Y a)). pose proof (Rabs_pos (X a)). pose proof (Rabs_pos (Y a)). split; [lra|].
  intros c [<-|Hc]; [|specialize (Hl c Hc); lra]. pose proof (Rle_abs (X a)). pose proof (Rle_abs (- X a)) as Q1. pose proof (Rle_abs (Y a)). pose proof (Rle_abs (- Y a)) as Q2. rewrite Rabs_Ropp in *. lra.
Qed.
Lemma placed_bound : forall l B w, convex_polygon l -> (forall c, In c l -> - B <= X c <= B /\ - B <= Y c <= B) -> placed l w -> - B <= X w <= B /\ - B <= Y w <= B.
Proof.
  intros l B w HC HB Hw.
  assert (Dec : (exists a b, In (a, b) (polygon_sides l) /\ on_side a b w) \/ forall a b, In (a, b) (polygon_sides l) -> 0 < D a b w).
  { assert (G : forall es, (forall a b, In (a, b) es -> In (a, b) (polygon_sides l)) -> (exists a b, In (a, b) es /\ on_side a b w) \/ forall a b, In (a, b) es -> 0 < D a b w).
    { induction es as [|[a b] es IH]; intros Hi; [right; intros a b []|]. destruct (placed_pos l a b w (Hi a b (or_introl eq_refl)) Hw) as [[_ O]|P]; [left; exists a, b; split; [left; reflexivity|exact O]|].
      destruct IH as [(a' & b' & Ha & O)|Q]; [intros a' b' Ha; apply Hi; right; exact Ha|left; exists a', b'; split; [right; exact Ha|exact O]|right]. intros a' b' [E|Ha]; [injection E as <- <-; exact P|apply Q, Ha]. }
    apply (G (polygon_sides l)). auto. }
  destruct Dec as [(a & b & Hab & O)|Q].
  - destruct (polygon_ends l _ Hab) as [Ha Hb]. cbn [fst snd] in *. destruct (HB a Ha) as [Ax Ay]. destruct (HB b Hb) as [Bx By]. destruct (on_side_ratio a b w O) as (k & Hk & Ex & Ey).
    assert (M : forall u v, - B <= u <= B -> - B <= v <= B -> - B <= u + k * (v - u) <= B).
    { intros u v Hu Hv. assert (Q1 := mpp (1 - k) (B - u)). assert (Q2 := mpp k (B - v)). assert (Q3 := mpp (1 - k) (B + u)). assert (Q4 := mpp k (B + v)). lra. }
    rewrite Ex, Ey. split; apply M; assumption.
  - pose proof (cx_some l HC) as Hl.
    destruct (half_plane l w 1 0 Hl Q ltac:(lra)) as (c1 & H1 & L1). destruct (half_plane l w (-1) 0 Hl Q ltac:(lra)) as (c2 & H2 & L2).
    destruct (half_plane l w 0 1 Hl Q ltac:(lra)) as (c3 & H3 & L3). destruct (half_plane l w 0 (-1) Hl Q ltac:(lra)) as (c4 & H4 & L4).
    destruct (HB c1 H1) as [Q1 _]. destruct (HB c2 H2) as [Q2 _]. destruct (HB c3 H3) as [_ Q3]. destruct (HB c4 H4) as [_ Q4]. lra.
Qed.

(** ** The cells *)
Definition cell (a : pnt) : Z * Z := (Int_part (X a / eps), Int_part (Y a / eps)).
Lemma cell_coord : forall u v, Int_part (u / eps) = Int_part (v / eps) -> - eps <= u - v <= eps.
Proof.
  intros u v E. pose proof eps_pos as He. destruct (base_Int_part (u / eps)) as [A1 A2]. destruct (base_Int_part (v / eps)) as [B1 B2]. rewrite E in *.
  assert (L1 : -1 <= u / eps - v / eps) by lra. assert (L2 : u / eps - v / eps <= 1) by lra.
  assert (Q : u - v = eps * (u / eps - v / eps)) by (field; lra). rewrite Q.
  assert (M1 := Rmult_le_compat_l eps _ _ ltac:(lra) L1). assert (M2 := Rmult_le_compat_l eps _ _ ltac:(lra) L2). lra.
Qed.
Lemma cell_close : forall a b, cell a = cell b -> close a b.
Proof. intros a b E. injection E as E1 E2. split; apply cell_coord; assumption. Qed.
Lemma cell_range : forall B u, 0 <= B -> - B <= u <= B -> (- Rdefinitions.up (B / eps)%R - 1 <= Int_part (u / eps)%R <= Rdefinitions.up (B / eps)%R + 1)%Z.
Proof.
  intros B u HB Hu. pose proof eps_pos as He. destruct (base_Int_part (u / eps)) as [A1 A2]. destruct (archimed (B / eps)) as [U1 U2].
  assert (Q : forall s t, s <= t -> s / eps <= t / eps) by (intros s t L; apply Rmult_le_compat_r; [apply Rlt_le, Rinv_0_lt_compat, He|exact L]).
  pose proof (Q u B ltac:(lra)) as Q1. pose proof (Q (- B) u ltac:(lra)) as Q2. assert (E : - B / eps = - (B / eps)) by (unfold Rdiv; ring). rewrite E in Q2.
  split; apply le_IZR; rewrite ?minus_IZR, ?opp_IZR, ?plus_IZR; lra.
Qed.
Definition zrange (M : Z) : list Z := map (fun n => (Z.of_nat n - M)%Z) (seq 0 (Z.to_nat (2 * M + 1))).
Lemma zrange_In : forall M z, (- M <= z <= M)%Z -> In z (zrange M).
Proof. intros M z Hz. unfold zrange. apply in_map_iff. exists (Z.to_nat (z + M)). split; [lia|]. apply in_seq. lia. Qed.

Lemma told_apart : forall L, NoDup L -> (forall a b, In a L -> In b L -> close a b -> a = b) -> NoDup (map cell L).
Proof.
  induction L as [|a L IH]; intros Hn Hc; [constructor|]. apply NoDup_cons_iff in Hn. destruct Hn as [Hna Hn]. cbn [map]. constructor.
  - intros Hi. apply in_map_iff in Hi. destruct Hi as (b & E & Hb). apply Hna. rewrite (Hc a b (or_introl eq_refl) (or_intror Hb)); [exact Hb|]. apply cell_close. symmetry. exact E.
  - apply IH; [exact Hn|]. intros x y Hx Hy. apply Hc; right; assumption.
Qed.
Lemma packing : forall l, convex_polygon l -> exists N, forall S, (forall w, In w S -> placed l w) -> resolved S -> (length (nodup vdec S) <= N)%nat.
Proof.
  intros l HC. destruct (corners_bound l) as (B & HB & Hl). set (M := (Rdefinitions.up (B / eps)%R + 1)%Z). exists (length (list_prod (zrange M) (zrange M))). intros S HP HR.
  rewrite <- (map_length cell). apply NoDup_incl_length.
  - apply told_apart; [apply NoDup_nodup|]. intros a b Ha Hb. apply nodup_In in Ha. apply nodup_In in Hb. apply (rs_apart _ HR); assumption.
  - intros z Hz. apply in_map_iff in Hz. destruct Hz as (a & <- & Ha). apply nodup_In in Ha. destruct (placed_bound l B a HC Hl (HP a Ha)) as [Hx Hy].
    apply in_prod; apply zrange_In; [pose proof (cell_range B (X a) HB Hx)|pose proof (cell_range B (Y a) HB Hy)]; unfold M; lia.
Qed.
(** A point more. *)
Lemma more_points : forall (S S' : list pnt) x, (forall w, In w S -> In w S') -> In x S' -> ~ In x S -> (length (nodup vdec S) < length (nodup vdec S'))%nat.
Proof.
  intros S S' x Hi Hx Hn. change (length (nodup vdec S)) with (pred (length (x :: nodup vdec S))). apply Nat.lt_le_trans with (length (x :: nodup vdec S)); [cbn; lia|].
  apply NoDup_incl_length; [constructor; [rewrite nodup_In; exact Hn|apply NoDup_nodup]|]. intros w [<-|Hw]; apply nodup_In; [exact Hx|]. apply Hi. apply nodup_In in Hw. exact Hw.
Qed.
Lemma same_points : forall (S S' : list pnt), (forall w, In w S -> In w S') -> (length (nodup vdec S) <= length (nodup vdec S'))%nat.
Proof. intros S S' Hi. apply NoDup_incl_length; [apply NoDup_nodup|]. intros w Hw. apply nodup_In. apply Hi. apply nodup_In in Hw. exact Hw. Qed.
