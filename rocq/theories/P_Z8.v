(** P_Z8.v — the LU determinant on doubles: how far it is from the determinant. *)

From Coq Require Import Reals List ZArith Bool Lia Lra Floats.SpecFloat.
From Verif Require Import Arith ArithR ArithF SpecF P_Z1 P_Z2 P_Z3 P_Z5 P_Z6 P_Z7.
Import ListNotations.
Local Open Scope R_scope.

Inductive cells (g : Z) : list (Z * R) -> list sf -> list R -> Prop :=
| cells_nil : cells g [] [] []
| cells_cons : forall c cs x xs r rs, cell g c x r -> cells g cs xs rs -> cells g (c :: cs) (x :: xs) (r :: rs).

Definition bnd (c : Z * R) : R := snd c * pw (fst c).
Definition bnds (cs : list (Z * R)) : list R := map bnd cs.
Definition dd : R := 16 / 5 * uu.

Lemma cells_length : forall g cs xs rs, cells g cs xs rs -> length xs = length cs /\ length rs = length cs.
Proof. intros g cs xs rs H. induction H as [|c cs x xs r rs _ _ [IH1 IH2]]; cbn; lia. Qed.
Lemma cells_inv : forall g c cs xs rs, cells g (c :: cs) xs rs -> exists x xs' r rs', x :: xs' = xs /\ r :: rs' = rs /\ cell g c x r /\ cells g cs xs' rs'.
Proof. intros g c cs xs rs H. inversion H; subst. do 4 eexists. split; [reflexivity|]. split; [reflexivity|]. split; eassumption. Qed.
Lemma cells_grow : forall g g' cs xs rs, (g <= g')%Z -> Forall col_ok cs -> cells g cs xs rs -> cells g' (map grow cs) xs rs.
Proof.
  intros g g' cs xs rs Hg Hc H. induction H as [|c cs x xs r rs (D & B & T) _ IH]; [constructor|]. inversion Hc as [|? ? [_ Hc1] Hc2]; subst. cbn [map]. constructor; [|apply IH; exact Hc2].
  split; [exact D|split]; cbn [grow fst snd].
  - apply (big_le _ (fst c - g)); [lia|exact B].
  - apply Rle_trans with (1 := T). apply Rmult_le_compat_r; [apply Rlt_le, pw_pos|lra].
Qed.
Lemma cells_self : forall g cs xs rs d, 0 <= d -> cells g cs xs rs -> Forall2 (fun B p => near B d (fst p) (snd p)) (bnds cs) (combine rs rs) /\ length rs = length rs.
Proof.
  intros g cs xs rs d Hd H. split; [|reflexivity]. induction H as [|c cs x xs r rs (D & B & T) _ IH]; cbn; [constructor|]. constructor; [|exact IH]. cbn [fst snd]. split; [exact T|].
  rewrite Rminus_diag_eq, Rabs_R0 by reflexivity. apply Rmult_le_pos; [exact Hd|]. pose proof (Rabs_pos r). unfold bnd. lra.
Qed.
Lemma rows_self : forall g cs rows ms d, 0 <= d -> Forall2 (cells g cs) rows ms -> rows_near (bnds cs) d ms ms.
Proof. intros g cs rows ms d Hd H. induction H as [|x r rows ms H1 _ IH]; constructor; [apply (cells_self g cs x); assumption|exact IH]. Qed.

Lemma dd_pos : 0 <= dd. Proof. unfold dd. rewrite uu_val. lra. Qed.

Section Elim.
  Variables (g U h1 : Z) (C1 : R).
  Hypotheses (Hg : (0 <= g <= 200)%Z) (HU : (0 <= U <= 30)%Z) (Hh1 : (-22 <= h1 <= 200)%Z) (HC1 : 0 <= C1 <= pw U).
  Variables (px : sf) (p : R) (cols : list (Z * R)) (prow : list sf) (P : list R).
  Hypotheses (Hpx : cell g (h1, C1) px p) (Hp0 : p <> 0) (Hcols : Forall col_ok cols) (HP : cells g cols prow P).

  Lemma elim_tail : forall cx c, double cx c -> big (- g - U - 2) c -> Rabs c <= 1 + 3 * uu -> forall cs pr Q, cells g cs pr Q -> forall xs rs, Forall col_ok cs -> cells g cs xs rs ->
    exists X, cells (2 * g + U + 56) (map grow cs) (map (fun '(x, pv) => fpadd (fpmul (fpopp pv) cx) x) (combine xs pr)) X /\
      Forall2 (fun B p => near B dd (fst p) (snd p)) (bnds cs) (combine (map (fun q => fst q + c * snd q) (combine X Q)) rs).
  Proof.
    intros cx c Dc Bc Tc cs pr Q HQ. induction HQ as [|col cs pvx pr pv Q Hpv HQ IH]; intros xs rs Hc Hx; inversion Hx as [|? ? x xs' r rs' Hxr Hxs]; subst.
    - exists []. split; constructor.
    - inversion Hc as [|? ? Hc1 Hc2]; subst. destruct (IH xs' rs' Hc2 Hxs) as (X & HX & HN).
      destruct (cell_ok g U Hg HU cx c col pvx pv x r Dc Bc Tc Hc1 Hpv Hxr) as (r' & Hr' & Er').
      exists (r' :: X). split; [cbn [combine map]; constructor; assumption|]. cbn [combine map bnds]. constructor; [|exact HN]. cbn [fst snd]. split; [exact (proj2 (proj2 Hxr))|exact Er'].
  Qed.

  Lemma elim_row : forall row m, cells g ((h1, C1) :: cols) row m -> Rabs (hd 0 m) <= Rabs p ->
    exists c X, cells (2 * g + U + 56) (map grow cols) (map (fun '(x, pv) => fpadd (fpmul (fpopp pv) (fpmul (nth 0 row f0) (fpdiv f1 px))) x) (combine (tl row) prow)) X /\
      (Forall2 (fun B p => near B dd (fst p) (snd p)) (bnds ((h1, C1) :: cols)) (combine (comb p P c X) m) /\ length (comb p P c X) = length m).
  Proof.
    intros row m H Hle. inversion H as [|? ? ax xs a rs Ha Hx]; subst. cbn [hd nth tl] in *. destruct Hpx as (Dp & Bp & Tp). cbn [fst snd] in *. destruct Bp as [Bp|Bp]; [contradiction|].
    destruct (coef_ok g U h1 C1 Hg HU Hh1 HC1 px p Dp Hp0 Bp Tp ax a Ha Hle) as (c & Dc & Bc & Tc & Ec).
    destruct (elim_tail _ c Dc Bc Tc cols prow P HP xs rs Hcols Hx) as (X & HX & HN). exists c, X. split; [exact HX|]. unfold comb. cbn [combine bnds map]. split.
    - constructor; [|exact HN]. cbn [fst snd]. destruct Ha as (_ & _ & Ta). cbn [fst snd] in Ta. split; [exact Ta|]. unfold bnd, dd. cbn [fst snd]. pose proof (Rabs_pos a). pose proof uu_val.
      apply Rle_trans with (1 := Ec). apply Rmult_le_compat; lra.
    - cbn [length]. rewrite map_length, combine_length. apply cells_length in HX, HP, Hx. rewrite !map_length in HX. lia.
  Qed.

  Lemma elim_rows : forall rest mrest, Forall2 (cells g ((h1, C1) :: cols)) rest mrest -> Forall (fun m => Rabs (hd 0 m) <= Rabs p) mrest ->
    exists cs Xs, length cs = length mrest /\ length Xs = length mrest /\
      Forall2 (cells (2 * g + U + 56) (map grow cols)) (map (fun r => map (fun '(x, pv) => fpadd (fpmul (fpopp pv) (fpmul (nth 0 r f0) (fpdiv f1 px))) x) (combine (tl r) prow)) rest) Xs /\
      rows_near (bnds ((h1, C1) :: cols)) dd (map (fun q => comb p P (fst q) (snd q)) (combine cs Xs)) mrest.
  Proof.
    intros rest mrest H. induction H as [|row m rest mrest H1 _ IH]; intros HF.
    - exists [], []. repeat split; constructor.
    - inversion HF as [|? ? F1 F2]; subst. destruct (IH F2) as (cs & Xs & L1 & L2 & HM & HN). destruct (elim_row row m H1 F1) as (c & X & HX & HR). exists (c :: cs), (X :: Xs). cbn [length combine map].
      split; [lia|]. split; [lia|]. split; constructor; assumption.
  Qed.
End Elim.

(** ** The pivot *)

Definition leads : list (list sf) -> list (list R) -> Prop := Forall2 (fun x r => double (nth 0 x f0) (hd 0 r)).

Lemma icamax_spec : forall rows ms, leads rows ms -> forall i best bv B, double bv B ->
  (icamax 0 rows i best bv = best /\ Forall (fun r => Rabs (hd 0 r) <= B) ms) \/
  (exists k, icamax 0 rows i best bv = (i + k)%nat /\ (k < length ms)%nat /\ B <= Rabs (hd 0 (nth k ms [])) /\ Forall (fun r => Rabs (hd 0 r) <= Rabs (hd 0 (nth k ms []))) ms).
Proof.
  intros rows ms H. induction H as [|x r rows ms Hx _ IH]; intros i best bv B HB; cbn [icamax].
  - left. auto.
  - pose proof (abs_double _ _ Hx) as Ha. rewrite (lt_double _ _ _ _ HB Ha). unfold Rltb. destruct (Rlt_dec B (Rabs (hd 0 r))) as [L|L].
    + destruct (IH (S i) i _ _ Ha) as [[E F]|(k & E & Hk & L' & F)].
      * right. exists 0%nat. rewrite E. cbn [nth length]. split; [lia|]. split; [lia|]. split; [lra|]. constructor; [lra|exact F].
      * right. exists (S k). rewrite E. cbn [nth length]. split; [lia|]. split; [lia|]. split; [lra|]. constructor; assumption.
    + destruct (IH (S i) best bv B HB) as [[E F]|(k & E & Hk & L' & F)].
      * left. split; [exact E|]. constructor; [lra|exact F].
      * right. exists (S k). rewrite E. cbn [nth length]. split; [lia|]. split; [lia|]. split; [lra|]. constructor; [lra|exact F].
Qed.
Lemma pivot_spec : forall r rest m mrest, leads (r :: rest) (m :: mrest) -> forall j, j = icamax 0 rest 1 0 (fpabs (nth 0 r f0)) ->
  (j < length (m :: mrest))%nat /\ Forall (fun q => Rabs (hd 0 q) <= Rabs (hd 0 (nth j (m :: mrest) []))) (m :: mrest).
Proof.
  intros r rest m mrest H j ->. inversion H as [|? ? ? ? H1 H2]; subst. destruct (icamax_spec rest mrest H2 1%nat 0%nat _ _ (abs_double _ _ H1)) as [[-> F]|(k & -> & Hk & L & F)]; cbn [length].
  - split; [lia|]. cbn [nth]. constructor; [lra|exact F].
  - split; [lia|]. cbn [Nat.add nth]. constructor; assumption.
Qed.

Lemma Forall2_nth : forall (X Y : Type) (P : X -> Y -> Prop) xs ys, Forall2 P xs ys -> forall j dx dy, (j < length ys)%nat -> P (nth j xs dx) (nth j ys dy).
Proof. intros X Y P xs ys H. induction H as [|x y xs ys H1 _ IH]; intros j dx dy Hj; cbn [length] in Hj; [lia|]. destruct j; cbn [nth]; [exact H1|apply IH; lia]. Qed.
Lemma Forall2_len : forall (X Y : Type) (P : X -> Y -> Prop) xs ys, Forall2 P xs ys -> length xs = length ys.
Proof. intros X Y P xs ys H. induction H; cbn; lia. Qed.
Lemma Forall2_weaken : forall (X Y : Type) (P Q : X -> Y -> Prop) xs ys, (forall x y, P x y -> Q x y) -> Forall2 P xs ys -> Forall2 Q xs ys.
Proof. intros X Y P Q xs ys HPQ H. induction H; constructor; auto. Qed.
Lemma Forall2_tail : forall (X Y : Type) (P : X -> Y -> Prop) x y xs ys, Forall2 P (x :: xs) (y :: ys) -> Forall2 P xs ys.
Proof. intros. inversion H; assumption. Qed.
Lemma Forall2_firstn : forall (X Y : Type) (P : X -> Y -> Prop) n xs ys, Forall2 P xs ys -> Forall2 P (firstn n xs) (firstn n ys).
Proof. induction n as [|n IH]; intros xs ys H; [constructor|]. destruct H; cbn [firstn]; constructor; auto. Qed.
Lemma Forall2_skipn : forall (X Y : Type) (P : X -> Y -> Prop) n xs ys, Forall2 P xs ys -> Forall2 P (skipn n xs) (skipn n ys).
Proof. induction n as [|n IH]; intros xs ys H; [exact H|]. destruct H; cbn [skipn]; [constructor|auto]. Qed.
Lemma swap_rows : forall (P : list sf -> list R -> Prop) rows ms j, Forall2 P rows ms -> (j < length ms)%nat -> Forall2 P (swap0 j rows) (rswap j ms).
Proof.
  intros P rows ms j H Hj. destruct j as [|j]; [exact H|]. destruct H as [|x r rows ms H1 H2]; cbn [length swap0 rswap] in *; [constructor|]. constructor; [apply Forall2_nth; [exact H2|lia]|].
  apply Forall2_app; [apply Forall2_firstn; exact H2|]. constructor; [exact H1|]. apply Forall2_skipn. exact H2.
Qed.
Lemma swap_head : forall (X : Type) j (rows : list (list X)), (j < length rows)%nat ->
  exists rest, (match j with O => rows | S j' => match rows with [] => [] | r0 :: rest => nth j' rest [] :: firstn j' rest ++ r0 :: skipn (S j') rest end end) = nth j rows [] :: rest /\ length rows = S (length rest) /\ incl rest rows.
Proof.
  intros X j rows Hj. destruct rows as [|r rows]; [cbn in Hj; lia|]. destruct j as [|j].
  - exists rows. split; [reflexivity|]. split; [reflexivity|]. intros q Hq. right. exact Hq.
  - exists (firstn j rows ++ r :: skipn (S j) rows). split; [reflexivity|]. cbn [length] in *. split.
    + rewrite app_length. cbn [length]. rewrite firstn_length, skipn_length. lia.
    + intros q Hq. apply in_app_or in Hq. destruct Hq as [Hq|[<-|Hq]]; [right|left; reflexivity|right].
      * rewrite <- (firstn_skipn j rows). apply in_or_app. left. exact Hq.
      * rewrite <- (firstn_skipn (S j) rows). apply in_or_app. right. exact Hq.
Qed.

Lemma expand_zero : forall d post pre s, Forall (fun q => hd 0 q = 0) post -> expand d s pre post = 0.
Proof. intros d post. induction post as [|r post IH]; intros pre s H; [reflexivity|]. inversion H as [|? ? H1 H2]; subst. cbn [expand]. rewrite H1, (IH _ _ H2). ring. Qed.

(** ** The stages *)

Definition sgb (b : bool) : R := if b then -1 else 1.
Lemma abs_sgb : forall b, Rabs (sgb b) = 1. Proof. intros [|]; cbn; [rewrite Rabs_left|rewrite Rabs_pos_eq]; lra. Qed.

Definition lu_ok (n : nat) (cols : list (Z * R)) (g : Z) (eps : R) (lo hi : Z) : Prop :=
  forall rows ms acc a neg, length rows = n -> Forall2 (cells g cols) rows ms -> double acc a -> big lo a -> Rabs a <= pw hi ->
  exists t, double (lu_det n rows acc neg) t /\ Rabs (t - sgb neg * a * ldet n ms) <= Rabs a * (eps * prod (bnds cols)).

Lemma one_double : double f1 1.
Proof. pose proof (dz_double _ _ _ one_dz) as D. cbn [powerRZ] in D. rewrite Rmult_1_r in D. exact D. Qed.

Lemma lu_ok0 : forall g lo hi, (-1000 <= lo)%Z -> (hi <= 1000)%Z -> lu_ok 0 [] g uu lo hi.
Proof.
  intros g lo hi Hlo Hhi rows ms acc a neg _ _ D B T. cbn [lu_det ldet prod bnds map fold_right].
  assert (Q : forall s y, Rabs s = 1 -> double y s -> exists t, double (fpmul acc y) t /\ Rabs (t - s * a * 1) <= Rabs a * (uu * 1)).
  { intros s y Hs Dy. assert (Er : Rabs (a * s) = Rabs a) by (rewrite Rabs_mult, Hs; ring). assert (Hr : ranged (a * s)).
    { apply (rangedI lo hi); try assumption; [|rewrite Er; exact T]. destruct B as [->|B]; [left; ring|right; rewrite Er; exact B]. }
    destruct (rounds_get _ _ (mul_rel acc y a s D Dy Hr)) as (t & Dt & Ht & _). exists t. split; [exact Dt|]. rewrite Er in Ht. replace (s * a * 1) with (a * s) by ring. lra. }
  destruct neg; cbn [sgb].
  - apply Q; [rewrite Rabs_left; lra|]. pose proof (neg_exact _ _ one_double) as N. exact N.
  - apply Q; [apply Rabs_R1|apply one_double].
Qed.

Lemma bnds_grow : forall cs, prod (bnds (map grow cs)) = (201 / 100) ^ length cs * prod (bnds cs).
Proof. induction cs as [|c cs IH]; [cbn; ring|]. cbn [map bnds prod fold_right length pow] in *. unfold prod, bnds in IH. rewrite IH. unfold bnd, grow. cbn [fst snd]. unfold prod. ring. Qed.
Lemma prod_pos : forall cs, Forall col_ok cs -> 0 <= prod (bnds cs).
Proof. intros cs H. induction H as [|c cs [_ [H1 _]] _ IH]; [cbn; lra|]. cbn [bnds map prod fold_right]. apply Rmult_le_pos; [apply Rmult_le_pos; [exact H1|apply Rlt_le, pw_pos]|exact IH]. Qed.

Lemma matrix_leads : forall g c cs rows ms, Forall2 (cells g (c :: cs)) rows ms -> leads rows ms.
Proof. intros g c cs rows ms H. induction H as [|x r rows ms H1 _ IH]; constructor; [|exact IH]. inversion H1 as [|? ? ? ? ? ? (D & _) _]; subst. exact D. Qed.
Lemma matrix_tl : forall g c cs rows ms, Forall2 (cells g (c :: cs)) rows ms -> Forall2 (cells g cs) (map (fun r => tl r) rows) (map (@tl R) ms).
Proof. intros g c cs rows ms H. induction H as [|x r rows ms H1 _ IH]; constructor; [|exact IH]. inversion H1; subst. assumption. Qed.
Lemma matrix_square : forall g cs n rows ms, Forall2 (cells g cs) rows ms -> length cs = n -> length ms = n -> square n ms.
Proof.
  intros g cs n rows ms H Hc Hm. split; [exact Hm|]. clear Hm. induction H as [|x r rows ms H1 _ IH]; constructor; [|exact IH]. apply cells_length in H1. lia.
Qed.

Section Stage.
  Variables (n : nat) (g U h1 : Z) (C1 : R) (cols : list (Z * R)) (eps' eps : R) (lo hi : Z).
  Hypotheses (Hn : (n <= 3)%nat) (Hlen : length cols = n) (Hg : (0 <= g <= 200)%Z) (HU : (0 <= U <= 30)%Z) (Hh1 : (-22 <= h1 <= 200)%Z) (HC1 : 0 <= C1 <= pw U) (Hcols : Forall col_ok cols).
  Hypothesis (IH : lu_ok n (map grow cols) (2 * g + U + 56) eps' (lo + h1 - g - 1) (hi + h1 + U + 1)).
  Hypotheses (Hlo : (-1000 <= lo + h1 - g)%Z) (Hhi : (hi + h1 + U <= 1000)%Z) (He' : 0 <= eps').
  Hypothesis (He : (1 + uu) * eps' * (201 / 100) ^ n + uu * INR (fact n) * (201 / 100) ^ n + ((1 + dd) ^ S n - 1) * INR (fact (S n)) <= eps).

  Lemma dd_pow : 0 <= (1 + dd) ^ S n - 1.
  Proof. pose proof dd_pos. assert (1 <= (1 + dd) ^ S n); [|lra]. apply pow_R1_Rle. lra. Qed.
  Lemma growth_pos : 0 <= (201 / 100) ^ n. Proof. apply pow_le. lra. Qed.

  Lemma stage : lu_ok (S n) ((h1, C1) :: cols) g eps lo hi.
  Proof.
    intros rows ms acc a neg Hlr HM Da Ba Ta. destruct rows as [|r rest]; [discriminate|]. destruct ms as [|m mrest]; [inversion HM|]. injection Hlr as Hlr. cbn [lu_det]. unfold row in *.
    pose proof (matrix_leads _ _ _ _ _ HM) as HL. set (j := icamax 0 rest 1 0 (fpabs (nth 0 r f0))). destruct (pivot_spec r rest m mrest HL j eq_refl) as [Hj HF].
    set (rows := r :: rest) in *. set (ms := m :: mrest) in *. assert (Hlm : length ms = S n) by (apply Forall2_len in HM; unfold rows in HM; cbn [length] in HM; lia).
    assert (Hlr' : length rows = S n) by (unfold rows; cbn [length]; lia).
    pose proof (prod_pos cols Hcols) as PQ. pose proof uu_val as Hu. pose proof (Rabs_pos a) as Pa.
    pose proof (Forall2_nth _ _ _ _ _ HM j [] [] Hj) as Hpr. destruct (cells_inv _ _ _ _ _ Hpr) as (px & prow & p & P & Ex & Er & Hpx & HP). rewrite <- Er in HF. rewrite <- Ex. cbn [hd nth] in HF |- *.
    assert (PB : 0 <= C1 * pw h1) by (apply Rmult_le_pos; [lra|apply Rlt_le, pw_pos]).
    assert (PE : 0 <= eps * prod (bnds ((h1, C1) :: cols))).
    { cbn [bnds map prod fold_right]. apply Rmult_le_pos; [|apply Rmult_le_pos; [exact PB|exact PQ]]. pose proof dd_pow. pose proof growth_pos.
      pose proof (pos_INR (fact n)). pose proof (pos_INR (fact (S n))).
      assert (0 <= (1 + uu) * eps' * (201 / 100) ^ n) by (repeat apply Rmult_le_pos; lra). assert (0 <= uu * INR (fact n) * (201 / 100) ^ n) by (repeat apply Rmult_le_pos; lra).
      assert (0 <= ((1 + dd) ^ S n - 1) * INR (fact (S n))) by (apply Rmult_le_pos; lra). lra. }
    destruct Hpx as (Dp & Bp & Tp). cbn [fst snd] in Bp, Tp. unfold is_zero.
    assert (D0 : double f0 0) by (cbn; reflexivity). rewrite (eq_double _ _ _ _ Dp D0). unfold Reqb. destruct (Req_EM_T p 0) as [Zp|Np].
    - (* the whole column is zero *)
      assert (HZ : Forall (fun q => hd 0 q = 0) ms). { apply (Forall_impl _ (fun q (H : Rabs (hd 0 q) <= Rabs p) => match Req_dec (hd 0 q) 0 with or_introl e => e | or_intror N => False_ind _ (Rlt_not_le _ _ (Rabs_pos_lt _ N) (Rle_trans _ _ _ H (Req_le _ _ (eq_trans (f_equal Rabs Zp) Rabs_R0)))) end)). exact HF. }
      assert (Dac : double (fpmul acc px) 0). { assert (Z0 : a * p = IZR 0 * pw 0) by (rewrite Zp; cbn; ring). assert (Sm : small 0 0) by (unfold small; lia). pose proof (mul_exact acc px a p 0 0 Da Dp Sm Z0) as D. rewrite Zp, Rmult_0_r in D. exact D. }
      pose proof (Forall2_tail _ _ _ _ _ _ _ HM) as HMr. pose proof (matrix_tl _ _ _ _ _ HMr) as HMt.
      assert (HMg : Forall2 (cells (2 * g + U + 56) (map grow cols)) (map (fun r => tl r) rest) (map (@tl R) mrest)).
      { apply (Forall2_weaken _ _ (cells g cols)); [|exact HMt]. intros. apply (cells_grow g); [lia|exact Hcols|assumption]. }
      destruct (IH _ _ _ 0 neg (eq_trans (map_length _ _) Hlr) HMg Dac (or_introl eq_refl) ltac:(rewrite Rabs_R0; apply Rlt_le, pw_pos)) as (t & Dt & Ht).
      exists t. split; [exact Dt|]. cbn [ldet]. rewrite (expand_zero _ ms _ _ HZ). rewrite Rabs_R0, Rmult_0_r, !Rmult_0_l, Rminus_0_r in Ht. rewrite Rmult_0_r, Rminus_0_r.
      apply Rle_trans with (1 := Ht). apply Rmult_le_pos; assumption.
    - (* elimination *)
      destruct Bp as [Bp|Bp]; [contradiction|].
      destruct (swap_head sf j rows ltac:(lia)) as (rest' & Es & Lr & _). change (swap0 j rows = nth j rows [] :: rest') in Es.
      destruct (swap_head R j ms Hj) as (mrest' & Em & Lm & Im). change (rswap j ms = nth j ms [] :: mrest') in Em.
      pose proof (swap_rows _ _ _ j HM Hj) as HS. rewrite Es, Em in HS. rewrite Es. rewrite <- Ex in HS |- *. rewrite <- Er in HS. pose proof (Forall2_tail _ _ _ _ _ _ _ HS) as HSr. cbn [tl].
      assert (HF' : Forall (fun q => Rabs (hd 0 q) <= Rabs p) mrest') by (rewrite Forall_forall in *; intros q Hq; apply HF; apply Im; exact Hq).
      destruct (elim_rows g U h1 C1 Hg HU Hh1 HC1 px p cols prow P (conj Dp (conj (or_intror Bp) Tp)) Np Hcols HP rest' mrest' HSr HF') as (cs & Xs & Lc & LX & HX & HN).
      assert (Bap : big (lo + h1 - g) (a * p)) by (replace (lo + h1 - g)%Z with (lo + (h1 - g))%Z by lia; apply big_mul; [exact Ba|right; exact Bp]).
      assert (Tp' : Rabs p <= pw (U + h1)) by (rewrite pw_add; apply Rle_trans with (1 := Tp); apply Rmult_le_compat_r; [apply Rlt_le, pw_pos|lra]).
      assert (Tap : Rabs (a * p) <= pw (hi + h1 + U)) by (replace (hi + h1 + U)%Z with (hi + (U + h1))%Z by lia; rewrite pw_add, Rabs_mult; apply Rmult_le_compat; try apply Rabs_pos; assumption).
      destruct (rounds_get _ _ (mul_rel acc px a p Da Dp (rangedI _ _ _ Bap Tap Hlo Hhi))) as (a' & Da' & Ea & Ea1 & Ea2).
      pose proof (rounds_big _ _ _ Bap Ea1 Ea2) as Ba'. assert (Ta' : Rabs a' <= pw (hi + h1 + U + 1)). { rewrite pw_succ. apply Rle_trans with (1 := Ea2). rewrite Rmult_comm. apply Rmult_le_compat; try lra. apply Rabs_pos. }
      match goal with |- context [lu_det n ?nx ?ac ?ng] => destruct (IH nx Xs ac a' ng) as (t & Dt & Ht) end; [rewrite map_length; lia|exact HX|exact Da'|exact Ba'|exact Ta'|].
      exists t. split; [exact Dt|].
      pose proof (ldet_swap (S n) j ms ltac:(lia) (matrix_square g _ (S n) _ _ HM ltac:(cbn [length]; lia) Hlm) ltac:(lia)) as SW. rewrite Em, <- Er in SW.
      assert (LP : length P = n) by (apply cells_length in HP; lia).
      pose proof (ldet_elim n p P cs Xs Hn LP ltac:(lia) (matrix_square _ _ n _ _ HX ltac:(rewrite map_length; lia) ltac:(lia))) as EL.
      assert (HPn : rows_near (bnds ((h1, C1) :: cols)) dd ((p :: P) :: map (fun q => comb p P (fst q) (snd q)) (combine cs Xs)) ((p :: P) :: mrest')).
      { constructor; [|exact HN]. apply (cells_self g _ (px :: prow)); [apply dd_pos|]. constructor; [exact (conj Dp (conj (or_intror Bp) Tp))|exact HP]. }
      pose proof (ldet_near (S n) (bnds ((h1, C1) :: cols)) dd _ _ dd_pos ltac:(unfold bnds; rewrite map_length; cbn [length]; lia) HPn ltac:(cbn [length]; lia)) as [_ NR]. rewrite EL in NR.
      pose proof (ldet_near n (bnds (map grow cols)) 0 _ _ (Rle_refl 0) ltac:(unfold bnds; rewrite !map_length; lia) (rows_self _ _ _ _ 0 (Rle_refl 0) HX) ltac:(lia)) as [NX _].
      set (D' := ldet n Xs) in *. set (D1 := ldet (S n) ((p :: P) :: mrest')) in *. rewrite bnds_grow, Hlen in NX, Ht. set (Q := prod (bnds cols)) in *.
      change (prod (bnds ((h1, C1) :: cols))) with (C1 * pw h1 * Q) in *. set (B1 := C1 * pw h1) in *. change (snd (h1, C1) * pw (fst (h1, C1))) with B1 in *.
      set (G := (201 / 100) ^ n) in *. set (F := INR (fact n)) in *. set (F1 := INR (fact (S n))) in *. set (K := (1 + dd) ^ S n - 1) in *.
      assert (Sg : sgb (xorb neg (negb (Nat.eqb j 0))) = sgb neg * swap_sign j) by (unfold swap_sign; destruct neg, (Nat.eqb j 0); cbn; ring).
      rewrite Sg in Ht. set (s := sgb neg * swap_sign j) in *. assert (As : Rabs s = 1) by (unfold s; rewrite Rabs_mult, abs_sgb; unfold swap_sign; destruct (Nat.eqb j 0); [rewrite Rabs_R1|rewrite Rabs_left by lra]; ring).
      replace (sgb neg * a * ldet (S n) ms) with (s * a * D1) by (rewrite SW; unfold s; ring).
      replace (t - s * a * D1) with ((t - s * a' * D') + s * ((a' - a * p) * D') + s * (a * (p * D' - D1))) by ring.
      pose proof (Rabs_triang ((t - s * a' * D') + s * ((a' - a * p) * D')) (s * (a * (p * D' - D1)))) as T1. pose proof (Rabs_triang (t - s * a' * D') (s * ((a' - a * p) * D'))) as T2.
      rewrite (Rabs_mult s), As, Rmult_1_l, (Rabs_mult (a' - a * p)) in T2. rewrite (Rabs_mult s), As, Rmult_1_l, (Rabs_mult a) in T1. rewrite Rabs_mult in Ea, Ea2.
      pose proof (Rabs_pos p) as Pp. assert (HG : 0 <= G) by apply growth_pos. assert (HFp : 0 <= F) by apply pos_INR. change (Rabs p <= B1) in Tp.
      assert (HGQ : 0 <= G * Q) by (apply Rmult_le_pos; assumption).
      assert (X1 : Rabs a' * (eps' * (G * Q)) <= Rabs a * ((1 + uu) * eps' * G * (B1 * Q))).
      { apply Rle_trans with (Rabs a * Rabs p * (1 + uu) * (eps' * (G * Q))); [apply Rmult_le_compat_r; [apply Rmult_le_pos; assumption|exact Ea2]|].
        replace (Rabs a * Rabs p * (1 + uu) * (eps' * (G * Q))) with (Rabs p * (Rabs a * ((1 + uu) * eps' * (G * Q)))) by ring. replace (Rabs a * ((1 + uu) * eps' * G * (B1 * Q))) with (B1 * (Rabs a * ((1 + uu) * eps' * (G * Q)))) by ring.
        apply Rmult_le_compat_r; [|exact Tp]. apply Rmult_le_pos; [exact Pa|]. apply Rmult_le_pos; [apply Rmult_le_pos; lra|exact HGQ]. }
      assert (X2 : Rabs (a' - a * p) * Rabs D' <= Rabs a * (uu * F * G * (B1 * Q))).
      { apply Rle_trans with ((Rabs a * Rabs p * uu) * (F * (G * Q))); [apply Rmult_le_compat; try apply Rabs_pos; assumption|].
        replace (Rabs a * Rabs p * uu * (F * (G * Q))) with (Rabs p * (Rabs a * (uu * (F * (G * Q))))) by ring. replace (Rabs a * (uu * F * G * (B1 * Q))) with (B1 * (Rabs a * (uu * (F * (G * Q))))) by ring.
        apply Rmult_le_compat_r; [|exact Tp]. apply Rmult_le_pos; [exact Pa|]. apply Rmult_le_pos; [lra|]. apply Rmult_le_pos; assumption. }
      assert (X3 : Rabs a * Rabs (p * D' - D1) <= Rabs a * (K * F1 * (B1 * Q))) by (apply Rmult_le_compat_l; [exact Pa|]; rewrite (Rmult_assoc K); exact NR).
      assert (X4 : Rabs a * (((1 + uu) * eps' * G + uu * F * G + K * F1) * (B1 * Q)) <= Rabs a * (eps * (B1 * Q))).
      { apply Rmult_le_compat_l; [exact Pa|]. apply Rmult_le_compat_r; [apply Rmult_le_pos; assumption|exact He]. }
      lra.
  Qed.
End Stage.
