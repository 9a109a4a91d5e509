(** P_Z6.v — determinants of lists of rows: how much they change when every
    entry changes a little, when two rows are exchanged, and by elimination. *)

From Coq Require Import Reals List ZArith Bool Lia Lra.
From Verif Require Import ArithF P_Z1 P_Z5.
Import ListNotations.
Local Open Scope R_scope.

(** ** Quantities that are close *)

Definition near (B d x' x : R) : Prop := Rabs x <= B /\ Rabs (x' - x) <= d * B.

Lemma near_pos : forall B d x' x, near B d x' x -> 0 <= B. Proof. intros B d x' x [H _]. pose proof (Rabs_pos x). lra. Qed.
Lemma near_zero : forall d, near 0 d 0 0. Proof. intros d. split; rewrite ?Rminus_0_r, Rabs_R0; lra. Qed.
Lemma near_one : near 1 ((1 + 0) ^ 0 - 1) 1 1. Proof. split; [rewrite Rabs_R1; lra|]. rewrite Rminus_diag_eq, Rabs_R0 by reflexivity. cbn. lra. Qed.
Lemma near_mul : forall X Y d e x' x y' y, 0 <= d -> near X d x' x -> near Y e y' y -> near (X * Y) ((1 + d) * (1 + e) - 1) (x' * y') (x * y).
Proof.
  intros X Y d e x' x y' y Hd [Hx Hx'] [Hy Hy']. pose proof (Rabs_pos x). pose proof (Rabs_pos y). split; [rewrite Rabs_mult; apply Rmult_le_compat; assumption|].
  replace (x' * y' - x * y) with ((x' - x) * (y' - y) + (x' - x) * y + x * (y' - y)) by ring.
  assert (A : Rabs ((x' - x) * (y' - y)) <= (d * X) * (e * Y)) by (rewrite Rabs_mult; apply Rmult_le_compat; try apply Rabs_pos; assumption).
  assert (B : Rabs ((x' - x) * y) <= (d * X) * Y) by (rewrite Rabs_mult; apply Rmult_le_compat; try apply Rabs_pos; assumption).
  assert (C : Rabs (x * (y' - y)) <= X * (e * Y)) by (rewrite Rabs_mult; apply Rmult_le_compat; try apply Rabs_pos; assumption).
  pose proof (Rabs_triang ((x' - x) * (y' - y) + (x' - x) * y) (x * (y' - y))). pose proof (Rabs_triang ((x' - x) * (y' - y)) ((x' - x) * y)). lra.
Qed.
Lemma near_add : forall X Y d x' x y' y, near X d x' x -> near Y d y' y -> near (X + Y) d (x' + y') (x + y).
Proof.
  intros X Y d x' x y' y [Hx Hx'] [Hy Hy']. pose proof (Rabs_triang x y). replace (x' + y' - (x + y)) with ((x' - x) + (y' - y)) in * by ring. split; [lra|].
  replace (x' + y' - (x + y)) with ((x' - x) + (y' - y)) by ring. pose proof (Rabs_triang (x' - x) (y' - y)). lra.
Qed.
Lemma near_sign : forall X d s x' x, Rabs s = 1 -> near X d x' x -> near X d (s * x') (s * x).
Proof. intros X d s x' x Hs [H1 H2]. split; [rewrite Rabs_mult, Hs; lra|]. rewrite <- Rmult_minus_distr_l, Rabs_mult, Hs. lra. Qed.

(** ** Determinants *)

Fixpoint expand (d : list (list R) -> R) (s : R) (pre post : list (list R)) : R :=
  match post with
  | [] => 0
  | r :: post' => s * (hd 0 r * d (map (@tl R) (pre ++ post'))) + expand d (- s) (pre ++ [r]) post'
  end.
Fixpoint ldet (n : nat) (ms : list (list R)) : R :=
  match n with O => 1 | S n' => expand (ldet n') 1 [] ms end.

Definition rows_near (Bs : list R) (d : R) : list (list R) -> list (list R) -> Prop :=
  Forall2 (fun r' r => Forall2 (fun B p => near B d (fst p) (snd p)) Bs (combine r' r) /\ length r' = length r).
Definition prod (Bs : list R) : R := fold_right Rmult 1 Bs.

Lemma abs_opp_1 : forall s, Rabs s = 1 -> Rabs (- s) = 1. Proof. intros. rewrite Rabs_Ropp. assumption. Qed.

Lemma rows_tl : forall B Bs d M' M, rows_near (B :: Bs) d M' M -> rows_near Bs d (map (@tl R) M') (map (@tl R) M).
Proof.
  intros B Bs d M' M H. induction H as [|r' r M' M [H L] _ IH]; [constructor|]. cbn [map]. constructor; [|exact IH].
  destruct r' as [|x' r'], r as [|x r]; cbn in H, L |- *; try discriminate; inversion H; subst; split; [assumption|lia].
Qed.
Lemma row_hd : forall B Bs d r' r, Forall2 (fun B p => near B d (fst p) (snd p)) (B :: Bs) (combine r' r) -> near B d (hd 0 r') (hd 0 r).
Proof. intros B Bs d r' r H. destruct r' as [|x' r'], r as [|x r]; cbn in H; inversion H; subst; assumption. Qed.

Lemma expand_near : forall (dt : list (list R) -> R) B Bs d D e n,
  0 <= d -> (forall Q' Q, rows_near Bs d Q' Q -> length Q = n -> near D e (dt Q') (dt Q)) ->
  forall post' post pre' pre s, Rabs s = 1 -> rows_near (B :: Bs) d pre' pre -> rows_near (B :: Bs) d post' post -> length (pre ++ post) = S n ->
  near (INR (length post) * (B * D)) ((1 + d) * (1 + e) - 1) (expand dt s pre' post') (expand dt s pre post).
Proof.
  intros dt B Bs d D e n Hd Hdt. induction post' as [|r' post' IH]; intros post pre' pre s Hs Hpre Hpost HL; inversion Hpost as [|? r ? post0 [Hr Lr] Hp E]; subst.
  - cbn [length expand INR]. rewrite Rmult_0_l. apply near_zero.
  - cbn [expand]. replace (INR (length (r :: post0)) * (B * D)) with (B * D + INR (length post0) * (B * D)) by (cbn [length]; rewrite S_INR; ring).
    apply near_add.
    + apply near_sign; [exact Hs|]. apply near_mul; [exact Hd|apply (row_hd B Bs); exact Hr|]. apply Hdt; [apply (rows_tl B); apply Forall2_app; assumption|].
      rewrite map_length, app_length. rewrite app_length in HL. cbn [length] in HL. lia.
    + apply IH; [apply abs_opp_1; exact Hs| |exact Hp|rewrite <- app_assoc; exact HL]. apply Forall2_app; [exact Hpre|]. constructor; [split; assumption|constructor].
Qed.

Theorem ldet_near : forall n Bs d M' M, 0 <= d -> length Bs = n -> rows_near Bs d M' M -> length M = n ->
  near (INR (fact n) * prod Bs) ((1 + d) ^ n - 1) (ldet n M') (ldet n M).
Proof.
  induction n as [|n IH]; intros Bs d M' M Hd HB HM HL.
  - destruct Bs; [|discriminate]. cbn. split; [rewrite Rabs_R1; lra|]. rewrite Rminus_diag_eq, Rabs_R0 by reflexivity. lra.
  - destruct Bs as [|B Bs]; [discriminate|]. cbn [ldet]. injection HB as HB.
    assert (Q := expand_near (ldet n) B Bs d (INR (fact n) * prod Bs) ((1 + d) ^ n - 1) n Hd (fun Q' Q HQ HLQ => IH Bs d Q' Q Hd HB HQ HLQ) M' M [] [] 1 Rabs_R1 (Forall2_nil _) HM HL).
    replace (INR (fact (S n)) * prod (B :: Bs)) with (INR (length M) * (B * (INR (fact n) * prod Bs))) by (rewrite HL; change (fact (S n)) with (S n * fact n)%nat; rewrite mult_INR; cbn [prod fold_right]; unfold prod; ring).
    replace ((1 + d) ^ S n - 1) with ((1 + d) * (1 + ((1 + d) ^ n - 1)) - 1) by (cbn [pow]; ring). exact Q.
Qed.

(** ** Exchanging rows and eliminating, for up to four rows *)

Definition rswap (j : nat) (rows : list (list R)) : list (list R) :=
  match j with
  | O => rows
  | S j' => match rows with [] => [] | r0 :: rest => nth j' rest [] :: firstn j' rest ++ r0 :: skipn (S j') rest end
  end.
Definition swap_sign (j : nat) : R := if Nat.eqb j 0 then 1 else -1.
Definition square (n : nat) (ms : list (list R)) : Prop := length ms = n /\ Forall (fun r => length r = n) ms.

Ltac rows_out := repeat match goal with
  | H : square _ _ |- _ => destruct H as [? ?]
  | H : length ?l = O |- _ => destruct l; [clear H|discriminate H]
  | H : length ?l = S _ |- _ => destruct l; [discriminate H|injection H as H]
  | H : Forall _ (_ :: _) |- _ => inversion H; clear H; subst
  | H : Forall _ [] |- _ => clear H
  end.

Lemma ldet_swap : forall n j ms, (n <= 4)%nat -> square n ms -> (j < n)%nat -> ldet n ms = swap_sign j * ldet n (rswap j ms).
Proof.
  intros n j ms Hn Hs Hj. destruct n as [|[|[|[|[|n]]]]]; try lia; rows_out; destruct j as [|[|[|[|j]]]]; try lia; cbn; ring.
Qed.

(** Rows of the form [c * (p :: P) + (0 :: X)]. *)
Definition comb (p : R) (P : list R) (c : R) (X : list R) : list R := c * p :: map (fun q => fst q + c * snd q) (combine X P).

Lemma ldet_elim : forall n p P cs Xs, (n <= 3)%nat -> length P = n -> length cs = n -> square n Xs ->
  ldet (S n) ((p :: P) :: map (fun q => comb p P (fst q) (snd q)) (combine cs Xs)) = p * ldet n Xs.
Proof.
  intros n p P cs Xs Hn HP Hc Hs. destruct n as [|[|[|[|n]]]]; try lia; rows_out; cbn; ring.
Qed.

(** ** The unit roundoff *)

Lemma uu_val : uu = / 9007199254740992.
Proof.
  unfold uu. assert (H : pw (-53) * 9007199254740992 = 1) by (replace 9007199254740992 with (pw 53) by (rewrite pw_int by lia; reflexivity); rewrite <- pw_add; reflexivity).
  apply Rmult_eq_reg_r with 9007199254740992; [|lra]. rewrite H, Rinv_l; lra.
Qed.
