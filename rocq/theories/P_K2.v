(** P_K2.v — two polygons cut into pieces that do not cross: the product of the
    winding numbers is the winding number of the pieces that lie in the other
    polygon, and these pieces are balanced at every point. *)

From Coq Require Import Reals List ZArith Lra Lia Psatz Bool Permutation.
From Verif Require Import Base Arith Geometry Elements Polyline Procedures ArithR Spec SpecR SpecD SpecP
  P_Base P_R1 P_R2 P_R5 P_D1 P_D2 P_D3 P_D4 P_RX P_Fill P_Fill2 P_Slide P_Region2 P_K1.
Import ListNotations.
Local Open Scope R_scope.

Definition mid (e : edge ArithR) : pnt := at_ ((X (fst e) + X (snd e)) / 2) ((Y (fst e) + Y (snd e)) / 2).
Lemma mid_inner : forall e, inner (fst e) (snd e) (mid e).
Proof. intros [a b]. exists (/ 2). split; [lra|]. unfold mid. split; [rewrite X_at|rewrite Y_at]; cbn [fst snd]; field. Qed.

Lemma zsum_sub : forall T (f g : T -> Z) l, zsum (fun x => (f x - g x)%Z) l = (zsum f l - zsum g l)%Z.
Proof. intros T f g l. induction l as [|x l IH]; [reflexivity|]. rewrite !zsum_cons, IH. lia. Qed.

Lemma zsum_nonzero : forall T (f : T -> Z) l, zsum f l <> 0%Z -> exists x, In x l /\ f x <> 0%Z.
Proof.
  intros T f l. induction l as [|x l IH]; intros N; [cbn in N; lia|]. destruct (Z.eq_dec (f x) 0) as [Z0|N']; [|exists x; split; [left; reflexivity|exact N']].
  rewrite zsum_cons, Z0 in N. destruct IH as (y & Hy & Ny); [lia|]. exists y. split; [right; exact Hy|exact Ny].
Qed.

(** The ends of some edges. *)
Definition ends (E : list (edge ArithR)) : list pnt := flat_map (fun e => [fst e; snd e]) E.
Lemma ends_In : forall E e, In e E -> In (fst e) (ends E) /\ In (snd e) (ends E).
Proof. intros E e He. split; apply in_flat_map; exists e; (split; [exact He|cbn; auto]). Qed.

(** Close to [q], no abscissa of an end but that of [q] itself. *)
Lemma columns_apart : forall (x : R) (vs : list pnt), exists d, 0 < d /\ forall s v, In v vs -> 0 < s -> s <= d -> X v <> x -> X v < x - s \/ x + s < X v.
Proof.
  intros x vs. apply (common_small _ (fun v s => X v <> x -> X v < x - s \/ x + s < X v)). intros v _. destruct (Req_dec (X v) x) as [E|N].
  - exists 1. split; [lra|]. intros. contradiction.
  - assert (P : 0 < Rabs (X v - x)) by (apply Rabs_pos_lt; lra). exists (Rabs (X v - x) / 2). split; [lra|]. intros s S1 S2 _. revert P S2. unfold Rabs. destruct (Rcase_abs _); intros; [left|right]; lra.
Qed.
(** A level just under, or over, that avoids finitely many others. *)
Lemma level_under : forall (B : list R) y, exists y', y' < y /\ forall z, In z B -> z < y -> z < y'.
Proof.
  induction B as [|z B IH]; intros y; [exists (y - 1); split; [lra|intros z []]|]. destruct (IH y) as (y' & L & Hb).
  destruct (Rlt_le_dec z y) as [Lz|Lz]; [|exists y'; split; [exact L|intros u [<-|Hu] Lu; [lra|apply Hb; assumption]]].
  exists (Rmax y' ((z + y) / 2)). split; [apply Rmax_lub_lt; lra|]. intros u [<-|Hu] Lu.
  - apply (Rlt_le_trans _ ((z + y) / 2)); [lra|apply Rmax_r].
  - apply (Rlt_le_trans _ y'); [apply Hb; assumption|apply Rmax_l].
Qed.
Lemma level_over : forall (B : list R) y, exists y', y < y' /\ forall z, In z B -> y < z -> y' < z.
Proof.
  intros B y. destruct (level_under (map Ropp B) (- y)) as (y' & L & Hb). exists (- y'). split; [lra|]. intros z Hz Lz.
  assert (- z < y') by (apply Hb; [apply in_map, Hz|lra]). lra.
Qed.

Section Two.
  Variables (l1 l2 : list pnt) (E1 E2 : list (edge ArithR)).
  Notation K1 := (polygon_sides l1).
  Notation K2 := (polygon_sides l2).
  Hypothesis HW1 : forall q, winding q E1 = winding q K1.
  Hypothesis HW2 : forall q, winding q E2 = winding q K2.
  Hypothesis HT1 : forall g : pnt -> Z, zsum (fun e => (g (snd e) - g (fst e))%Z) E1 = 0%Z.
  Hypothesis HT2 : forall g : pnt -> Z, zsum (fun e => (g (snd e) - g (fst e))%Z) E2 = 0%Z.
  Hypothesis Hcov1 : forall x y z, In (x, y) K1 -> on_segment x y z -> exists e, In e E1 /\ on_segment (fst e) (snd e) z.
  Hypothesis Hcov2 : forall x y z, In (x, y) K2 -> on_segment x y z -> exists e, In e E2 /\ on_segment (fst e) (snd e) z.
  Hypothesis Hsep1 : forall e f p, In e E1 -> In f E2 -> inner (fst e) (snd e) p -> ~ on_segment (fst f) (snd f) p.
  Hypothesis Hsep2 : forall e f p, In e E1 -> In f E2 -> inner (fst f) (snd f) p -> ~ on_segment (fst e) (snd e) p.
  Notation w1 := (fun q => winding q K1).
  Notation w2 := (fun q => winding q K2).

  Lemma along1 : forall e p p', In e E1 -> inner (fst e) (snd e) p -> inner (fst e) (snd e) p' -> w2 p = w2 p'.
  Proof.
    intros e p p' He Hp Hp'. apply winding_const. intros x y Hxy (z & Hz & Hz'). destruct (Hcov2 x y z Hxy Hz') as (f & Hf & Hfz).
    apply (Hsep1 e f z He Hf); [|exact Hfz]. apply (inner_way _ _ p p'); assumption.
  Qed.
  Lemma along2 : forall f p p', In f E2 -> inner (fst f) (snd f) p -> inner (fst f) (snd f) p' -> w1 p = w1 p'.
  Proof.
    intros f p p' Hf Hp Hp'. apply winding_const. intros x y Hxy (z & Hz & Hz'). destruct (Hcov1 x y z Hxy Hz') as (e & He & Hez).
    apply (Hsep2 e f z He Hf); [|exact Hez]. apply (inner_way _ _ p p'); assumption.
  Qed.
  Definition inside_sum (q : pnt) : Z := (zsum (fun e => rc q e * w2 (mid e)) E1 + zsum (fun f => rc q f * w1 (mid f)) E2)%Z.

  Lemma product_plain : forall q, (forall e, In e (E1 ++ E2) -> plain_at (X q) e) -> (w1 q * w2 q)%Z = inside_sum q.
  Proof.
    intros q Hp. cbv beta. rewrite <- HW1, <- HW2, product_stand; [|exact Hp|].
    - unfold inside_sum. f_equal; apply zsum_ext.
      + intros e He. rewrite (rc_stand q e) by (apply Hp, in_or_app; auto). destruct (Z.eq_dec (run e (X q)) 0) as [->|N]; [lia|].
        rewrite HW2. rewrite (along1 e (foot e (X q)) (mid e) He (foot_inner e _ N) (mid_inner e)). reflexivity.
      + intros e He. rewrite (rc_stand q e) by (apply Hp, in_or_app; auto). destruct (Z.eq_dec (run e (X q)) 0) as [->|N]; [lia|].
        rewrite HW1. rewrite (along2 e (foot e (X q)) (mid e) He (foot_inner e _ N) (mid_inner e)). reflexivity.
    - intros e f He Hf Ne Nf E. apply (Hsep1 e f (foot e (X q)) He Hf (foot_inner e _ Ne)).
      unfold foot. rewrite E. apply inner_on, foot_inner, Nf.
  Qed.

  (** ** Off the pieces *)
  Lemma slides : forall q s e, 0 < s -> ~ meet (left_of q s) (right_of q s) (fst e) (snd e) ->
    (rc (left_of q s) e - rc (right_of q s) e = under (left_of q s) (right_of q s) (snd e) - under (left_of q s) (right_of q s) (fst e))%Z.
  Proof. intros q s [a b] Hs Hm. apply slide; [unfold left_of, right_of; rewrite !X_at; lra|exact Hm]. Qed.
  Lemma miss_all : forall q E, (forall e, In e E -> ~ on_segment (fst e) (snd e) q) ->
    exists d, 0 < d /\ forall s e, In e E -> 0 < s -> s <= d -> ~ meet (left_of q s) (right_of q s) (fst e) (snd e).
  Proof. intros q E Hoff. apply (common_small _ (fun e s => ~ meet (left_of q s) (right_of q s) (fst e) (snd e))). intros e He. apply level_miss, Hoff, He. Qed.
  (** Just to the right. *)
  Lemma right_rc : forall q s e, 0 < s -> ~ meet q (right_of q s) (fst e) (snd e) -> (forall v, In v (ends [e]) -> X v <> X q -> X v < X q - s \/ X q + s < X v) ->
    rc (right_of q s) e = rc q e.
  Proof.
    intros q s [a b] Hs Hm Hc. cbn [fst snd] in Hm. assert (Lr : X q <= X (right_of q s)) by (unfold right_of; rewrite X_at; lra).
    pose proof (slide q (right_of q s) a b Lr Hm) as E.
    assert (U : forall v, In v (ends [(a, b)]) -> under q (right_of q s) v = 0%Z).
    { intros v Hv. unfold under. destruct (Rlt_dec (X q) (X v)) as [L|L]; [|reflexivity]. destruct (Rle_dec (X v) (X (right_of q s))) as [L'|L']; [|reflexivity].
      unfold right_of in L'. rewrite X_at in L'. specialize (Hc v Hv). lra. }
    rewrite !U in E by (cbn; auto). lia.
  Qed.
  Lemma right_part : forall q s a b, 0 < s -> ~ meet (left_of q s) (right_of q s) a b -> ~ meet q (right_of q s) a b.
  Proof.
    intros q s a b Hs Hm (z & (t & Ht & [F1 F2]) & Hz'). apply Hm. exists z. split; [|exact Hz']. exists ((1 + t) / 2). split; [lra|]. unfold left_of, right_of in *. rewrite !X_at in *. rewrite !Y_at in *. split; [rewrite F1, !X_at|rewrite F2, !Y_at]; field.
  Qed.
  Lemma all_ends : forall e E v, In e E -> In v (ends [e]) -> In v (ends E).
  Proof. intros e E v He Hv. destruct (ends_In E e He) as [A B]. cbn in Hv. destruct Hv as [<-|[<-|[]]]; assumption. Qed.

  Theorem product_rule : forall q, (forall e, In e (E1 ++ E2) -> ~ on_segment (fst e) (snd e) q) -> (w1 q * w2 q)%Z = inside_sum q.
  Proof.
    intros q Hoff. destruct (miss_all q (E1 ++ E2) Hoff) as (d & Hd & Hmiss). destruct (columns_apart (X q) (ends (E1 ++ E2))) as (d' & Hd' & Hcol).
    set (s := Rmin d d'). assert (Hs : 0 < s) by (apply Rmin_glb_lt; assumption).
    assert (Er : forall e, In e (E1 ++ E2) -> rc (right_of q s) e = rc q e).
    { intros e He. apply right_rc; [exact Hs| |].
      - apply right_part; [exact Hs|]. apply Hmiss; [exact He|exact Hs|apply Rmin_l].
      - intros v Hv. apply Hcol; [apply (all_ends e); assumption|exact Hs|apply Rmin_r]. }
    assert (Ew : forall E, incl E (E1 ++ E2) -> winding (right_of q s) E = winding q E).
    { intros E Hi. rewrite !winding_zsum. apply zsum_ext. intros e He. apply Er, Hi, He. }
    cbv beta. rewrite <- HW1, <- HW2, <- (Ew E1), <- (Ew E2), HW1, HW2 by (intros e He; apply in_or_app; auto).
    rewrite product_plain.
    - unfold inside_sum. f_equal; apply zsum_ext; intros e He; rewrite Er; auto; apply in_or_app; auto.
    - intros e He. assert (G : forall v, In v (ends (E1 ++ E2)) -> X (right_of q s) <> X v).
      { intros v Hv E. unfold right_of in E. rewrite X_at in E. destruct (Req_dec (X v) (X q)) as [E'|N']; [lra|]. destruct (Hcol s v Hv Hs (Rmin_r _ _) N'); lra. }
      destruct (ends_In _ e He) as [A B]. split; apply G; assumption.
  Qed.

  (** ** Balance *)
  Section Balance.
    Variable v : pnt.
    Notation all := (E1 ++ E2).
    Definition lt_at (y : R) (u : pnt) : Z := if Req_EM_T (X u) (X v) then (if Rlt_dec (Y u) y then 1 else 0)%Z else 0%Z.
    Definition level_sum (y : R) : Z :=
      (zsum (fun e => w2 (mid e) * (lt_at y (snd e) - lt_at y (fst e))) E1 + zsum (fun f => w1 (mid f) * (lt_at y (snd f) - lt_at y (fst f))) E2)%Z.
    Definition good (y : R) : Prop := (forall u, In u (ends all) -> X u = X v -> Y u <> y) /\
      forall e, In e all -> on_segment (fst e) (snd e) (at_ (X v) y) -> X (fst e) = X (snd e).

    Lemma good_inner : forall y e, good y -> In e all -> on_segment (fst e) (snd e) (at_ (X v) y) -> inner (fst e) (snd e) (at_ (X v) y).
    Proof.
      intros y e [G1 G2] He (t & Ht & [F1 F2]). destruct (ends_In _ e He) as [Ia Ib].
      assert (N0 : t <> 0). { intros ->. rewrite X_at in F1. rewrite Y_at in F2. apply (G1 _ Ia); lra. }
      assert (N1 : t <> 1). { intros ->. rewrite X_at in F1. rewrite Y_at in F2. apply (G1 _ Ib); lra. }
      exists t. split; [lra|]. split; assumption.
    Qed.

    Lemma good_zero : forall y, good y -> level_sum y = 0%Z.
    Proof.
      intros y Hg. set (p := at_ (X v) y). assert (Xp : X p = X v) by apply X_at. assert (Yp : Y p = y) by apply Y_at.
      assert (dec : forall e, In e all -> on_segment (fst e) (snd e) p \/ ~ on_segment (fst e) (snd e) p).
      { intros [a b] He. cbn [fst snd]. destruct (Req_dec (D a b p) 0) as [E|N].
        - destruct (Req_dec (X a) (X b)) as [Ex|Nx].
          + destruct (Req_dec (X a) (X v)) as [Ev|Nv].
            * destruct (Req_dec (Y a) (Y b)) as [Ey|Ny].
              -- right. intros (t & Ht & [_ F2]). rewrite <- Ey in F2. apply (proj1 Hg a (proj1 (ends_In _ (a, b) He)) Ev). rewrite <- Yp, F2. ring.
              -- set (t := (y - Y a) / (Y b - Y a)). destruct (Rle_lt_dec 0 t) as [L0|L0]; [destruct (Rle_lt_dec t 1) as [L1|L1]|].
                 ++ left. exists t. split; [lra|]. split; [rewrite Xp, <- Ex, Ev; ring|]. rewrite Yp. unfold t. field. lra.
                 ++ right. intros (u & Hu & [_ F2]). rewrite Yp in F2. assert (u = t) by (unfold t; rewrite F2; field; lra). lra.
                 ++ right. intros (u & Hu & [_ F2]). rewrite Yp in F2. assert (u = t) by (unfold t; rewrite F2; field; lra). lra.
            * right. intros (u & Hu & [F1 _]). rewrite Xp, <- Ex in F1. lra.
          + right. intros Ho. apply Nx. apply (proj2 Hg (a, b) He Ho).
        - right. intros Ho. apply N. apply (on_segment_box a b p Ho). }
      set (lam := fun e => if Req_EM_T (X (fst e)) (X (snd e)) then (lt_at y (snd e) - lt_at y (fst e))%Z else 0%Z).
      destruct (columns_apart (X v) (ends all)) as (d' & Hd' & Hcol).
      assert (Hm : exists d, 0 < d /\ forall s e, In e all -> 0 < s -> s <= d -> ~ on_segment (fst e) (snd e) p -> ~ meet (left_of p s) (right_of p s) (fst e) (snd e)).
      { apply (common_small _ (fun e s => ~ on_segment (fst e) (snd e) p -> ~ meet (left_of p s) (right_of p s) (fst e) (snd e))). intros e He. destruct (dec e He) as [Ho|Ho].
        - exists 1. split; [lra|]. intros. contradiction.
        - destruct (level_miss p _ _ Ho) as (d & Hd & Q). exists d. split; [exact Hd|]. intros s S1 S2 _. apply Q; assumption. }
      destruct Hm as (d & Hd & Hmiss). set (s := Rmin d d'). assert (Hs : 0 < s) by (apply Rmin_glb_lt; assumption).
      set (ql := left_of p s). set (qr := right_of p s).
      assert (Xl : X ql = X v - s) by (unfold ql, left_of; rewrite X_at, Xp; reflexivity). assert (Xr : X qr = X v + s) by (unfold qr, right_of; rewrite X_at, Xp; reflexivity).
      assert (Hcol' : forall u, In u (ends all) -> X u <> X v -> X u < X v - s \/ X v + s < X u) by (intros u Hu; apply Hcol; [exact Hu|exact Hs|apply Rmin_r]).
      assert (plain : forall x, x = X v - s \/ x = X v + s -> forall e, In e all -> plain_at x e).
      { intros x Hx e He. assert (G : forall u, In u (ends all) -> x <> X u).
        { intros u Hu E. destruct (Req_dec (X u) (X v)) as [E'|N']; [lra|]. destruct (Hcol' u Hu N'); lra. }
        destruct (ends_In _ e He) as [A B]. split; apply G; assumption. }
      assert (Hund : forall u, In u (ends all) -> under ql qr u = lt_at y u).
      { intros u Hu. unfold under, lt_at. assert (ED : D ql qr u = 2 * s * (Y u - y)) by (unfold area2, ql, qr, left_of, right_of; rewrite !X_at, !Y_at, Xp, Yp; ring).
        destruct (Req_EM_T (X u) (X v)) as [E|N].
        - destruct (Rlt_dec (X ql) (X u)) as [_|N]; [|lra]. destruct (Rle_dec (X u) (X qr)) as [_|N]; [|lra]. rewrite ED.
          destruct (Rlt_dec (Y u) y) as [L|L]; destruct (Rlt_dec (2 * s * (Y u - y)) 0) as [L'|L']; try reflexivity; exfalso.
          + apply L'. apply spn; lra.
          + assert (Q := mpp (2 * s) (Y u - y)). lra.
        - destruct (Rlt_dec (X ql) (X u)); [|reflexivity]. destruct (Rle_dec (X u) (X qr)); [|reflexivity]. destruct (Hcol' u Hu N); lra. }
      assert (Hrc : forall e, In e all -> (rc ql e - rc qr e = (lt_at y (snd e) - lt_at y (fst e)) - (if Req_EM_T (X (fst e)) (X (snd e)) then lt_at y (snd e) - lt_at y (fst e) else 0))%Z /\
                        (~ on_segment (fst e) (snd e) p -> lam e = 0%Z \/ lam e = lam e)).
      { intros e He. split; [|auto]. destruct (ends_In _ e He) as [Ia Ib].
        destruct (Req_EM_T (X (fst e)) (X (snd e))) as [Ev|Nv].
        - rewrite !rc_stand by (apply plain; [rewrite ?Xl, ?Xr; auto|exact He]).
          assert (Zr : forall x, run e x = 0%Z) by (intros x; unfold run; repeat match goal with |- context [Rlt_dec ?a ?b] => destruct (Rlt_dec a b) end; try reflexivity; lra). rewrite !Zr. lia.
        - assert (Ho : ~ on_segment (fst e) (snd e) p) by (intros Ho; apply Nv, (proj2 Hg e He), Ho).
          pose proof (slides p s e Hs (Hmiss s e He Hs (Rmin_l _ _) Ho)) as Hsl. fold ql qr in Hsl. rewrite !Hund in Hsl by assumption. lia. }
      assert (Hlam : forall e, In e all -> lam e <> 0%Z -> inner (fst e) (snd e) p).
      { intros e He Hl. unfold lam in Hl. destruct (Req_EM_T (X (fst e)) (X (snd e))) as [Ev|Nv]; [|congruence].
        destruct (dec e He) as [Ho|Ho]; [apply (good_inner y); assumption|exfalso]. apply Hl. clear Hl. unfold lt_at. rewrite Ev.
        destruct (Req_EM_T (X (snd e)) (X v)) as [E|N]; [|reflexivity]. destruct (ends_In _ e He) as [Ia Ib].
        pose proof (proj1 Hg _ Ia ltac:(lra)) as Na. pose proof (proj1 Hg _ Ib E) as Nb.
        destruct (Rlt_dec (Y (snd e)) y) as [L|L]; destruct (Rlt_dec (Y (fst e)) y) as [L'|L']; try reflexivity; exfalso; apply Ho.
        - exists ((y - Y (fst e)) / (Y (snd e) - Y (fst e))). split; [|split; [rewrite Xp, Ev, E; ring|rewrite Yp; field; lra]].
          replace ((y - Y (fst e)) / (Y (snd e) - Y (fst e))) with ((Y (fst e) - y) / (Y (fst e) - Y (snd e))) by (field; lra).
          split; [apply Rmult_le_pos; [lra|left; apply Rinv_0_lt_compat; lra]|]. apply (Rmult_le_reg_r (Y (fst e) - Y (snd e))); [lra|]. unfold Rdiv. rewrite Rmult_assoc, Rinv_l by lra. lra.
        - exists ((y - Y (fst e)) / (Y (snd e) - Y (fst e))). split; [|split; [rewrite Xp, Ev, E; ring|rewrite Yp; field; lra]].
          split; [apply Rmult_le_pos; [lra|left; apply Rinv_0_lt_compat; lra]|]. apply (Rmult_le_reg_r (Y (snd e) - Y (fst e))); [lra|]. unfold Rdiv. rewrite Rmult_assoc, Rinv_l by lra. lra. }
      assert (Hrc' : forall e, In e all -> (rc ql e = rc qr e + (lt_at y (snd e) - lt_at y (fst e)) - lam e)%Z).
      { intros e He. destruct (Hrc e He) as [E _]. unfold lam. destruct (Req_EM_T (X (fst e)) (X (snd e))); lia. }
      set (L1 := zsum lam E1). set (L2 := zsum lam E2).
      assert (Wl1 : w1 ql = (w1 qr - L1)%Z).
      { cbv beta. rewrite <- !HW1, !winding_zsum. transitivity (zsum (fun e => (rc qr e + ((lt_at y (snd e) - lt_at y (fst e)) - lam e))%Z) E1).
        - apply zsum_ext. intros e He. rewrite Hrc' by (apply in_or_app; auto). lia.
        - rewrite (zsum_add _ (rc qr)), (zsum_sub _ (fun e => (lt_at y (snd e) - lt_at y (fst e))%Z) lam), (HT1 (lt_at y)). unfold L1. lia. }
      assert (Wl2 : w2 ql = (w2 qr - L2)%Z).
      { cbv beta. rewrite <- !HW2, !winding_zsum. transitivity (zsum (fun e => (rc qr e + ((lt_at y (snd e) - lt_at y (fst e)) - lam e))%Z) E2).
        - apply zsum_ext. intros e He. rewrite Hrc' by (apply in_or_app; auto). lia.
        - rewrite (zsum_add _ (rc qr)), (zsum_sub _ (fun e => (lt_at y (snd e) - lt_at y (fst e))%Z) lam), (HT2 (lt_at y)). unfold L2. lia. }
      pose proof (product_plain ql (plain _ (or_introl Xl))) as Pl. pose proof (product_plain qr (plain _ (or_intror Xr))) as Pr.
      assert (Dif : (inside_sum ql - inside_sum qr = level_sum y - (zsum (fun e => w2 (mid e) * lam e) E1 + zsum (fun f => w1 (mid f) * lam f) E2))%Z).
      { unfold inside_sum, level_sum.
        assert (A1 : zsum (fun e => (rc ql e * w2 (mid e))%Z) E1 = (zsum (fun e => rc qr e * w2 (mid e)) E1 + zsum (fun e => w2 (mid e) * (lt_at y (snd e) - lt_at y (fst e))) E1 - zsum (fun e => w2 (mid e) * lam e) E1)%Z).
        { rewrite <- zsum_add, <- zsum_sub. apply zsum_ext. intros e He. rewrite (Hrc' e) by (apply in_or_app; auto). ring. }
        assert (A2 : zsum (fun e => (rc ql e * w1 (mid e))%Z) E2 = (zsum (fun e => rc qr e * w1 (mid e)) E2 + zsum (fun e => w1 (mid e) * (lt_at y (snd e) - lt_at y (fst e))) E2 - zsum (fun e => w1 (mid e) * lam e) E2)%Z).
        { rewrite <- zsum_add, <- zsum_sub. apply zsum_ext. intros e He. rewrite (Hrc' e) by (apply in_or_app; auto). ring. }
        cbv beta in *. lia. }
      assert (Miss : forall E, incl E all -> (forall e, In e E -> ~ on_segment (fst e) (snd e) p) -> forall e, In e E -> ~ meet p qr (fst e) (snd e)).
      { intros E Hi Ho e He. apply right_part; [exact Hs|]. apply Hmiss; [apply Hi, He|exact Hs|apply Rmin_l|apply Ho, He]. }
      assert (C1 : zsum (fun e => (w2 (mid e) * lam e)%Z) E1 = (w2 qr * L1)%Z).
      { unfold L1. rewrite <- zsum_scale. apply zsum_ext. intros e He. destruct (Z.eq_dec (lam e) 0) as [->|N]; [lia|]. f_equal.
        pose proof (Hlam e (in_or_app _ _ _ (or_introl He)) N) as Hp. rewrite <- (along1 e p (mid e) He Hp (mid_inner e)). apply winding_const. intros x y' Hxy (z & Hz & Hz').
        destruct (Hcov2 x y' z Hxy Hz') as (f & Hf & Hfz). apply (Miss E2 ltac:(intros f' Hf'; apply in_or_app; auto)) with (e := f); [|exact Hf|exists z; auto].
        intros f' Hf'. apply (Hsep1 e f' p He Hf' Hp). }
      assert (C2 : zsum (fun e => (w1 (mid e) * lam e)%Z) E2 = (w1 qr * L2)%Z).
      { unfold L2. rewrite <- zsum_scale. apply zsum_ext. intros f Hf. destruct (Z.eq_dec (lam f) 0) as [->|N]; [lia|]. f_equal.
        pose proof (Hlam f (in_or_app _ _ _ (or_intror Hf)) N) as Hp. rewrite <- (along2 f p (mid f) Hf Hp (mid_inner f)). apply winding_const. intros x y' Hxy (z & Hz & Hz').
        destruct (Hcov1 x y' z Hxy Hz') as (e & He & Hez). apply (Miss E1 ltac:(intros f' Hf'; apply in_or_app; auto)) with (e := e); [|exact He|exists z; auto].
        intros e' He'. apply (Hsep2 e' f p He' Hf Hp). }
      assert (C3 : (L1 * L2)%Z = 0%Z).
      { destruct (Z.eq_dec L1 0) as [E0|N1]; [rewrite E0; ring|]. destruct (Z.eq_dec L2 0) as [E0|N2]; [rewrite E0; ring|]. exfalso.
        destruct (zsum_nonzero _ _ _ N1) as (e & He & Ne), (zsum_nonzero _ _ _ N2) as (f & Hf & Nf).
        apply (Hsep1 e f p He Hf); [apply Hlam; [apply in_or_app; auto|exact Ne]|].
        apply inner_on, Hlam; [apply in_or_app; auto|exact Nf]. }
      cbv beta in *. nia.
    Qed.

    (** Is [u] at the place of [v]? *)
    Definition same_place (u : pnt) : Z := if Req_EM_T (X u) (X v) then (if Req_EM_T (Y u) (Y v) then 1 else 0)%Z else 0%Z.
    Definition levels : list R := Y v :: map Y (ends all) ++ map (fun e => stand e (X v)) all.
    Lemma good_off : forall y, ~ In y levels -> good y.
    Proof.
      intros y Hy. split.
      - intros u Hu _ E. apply Hy. right. apply in_or_app. left. rewrite <- E. apply in_map, Hu.
      - intros [a b] He Ho. cbn [fst snd] in *. destruct (Req_dec (X a) (X b)) as [E|N]; [exact E|exfalso]. apply Hy. right. apply in_or_app. right.
        apply in_map_iff. exists (a, b). split; [|exact He]. destruct Ho as (t & _ & [F1 F2]). rewrite X_at in F1. rewrite Y_at in F2.
        unfold stand, height, slope. cbn [fst snd]. rewrite F1, F2. destruct (Rlt_dec (X a) (X b)). { field; lra. } { field; lra. }
    Qed.
    Theorem balanced_inside :
      (zsum (fun e => w2 (mid e) * (same_place (snd e) - same_place (fst e))) E1 + zsum (fun f => w1 (mid f) * (same_place (snd f) - same_place (fst f))) E2 = 0)%Z.
    Proof.
      destruct (level_under levels (Y v)) as (y1 & L1 & B1). destruct (level_over levels (Y v)) as (y2 & L2 & B2).
      assert (G1 : good y1) by (apply good_off; intros Hi; pose proof (B1 y1 Hi L1); lra). assert (G2 : good y2) by (apply good_off; intros Hi; pose proof (B2 y2 Hi L2); lra).
      pose proof (good_zero y1 G1) as Z1. pose proof (good_zero y2 G2) as Z2.
      assert (Hs : forall u, In u (ends all) -> same_place u = (lt_at y2 u - lt_at y1 u)%Z).
      { intros u Hu. unfold same_place, lt_at. destruct (Req_EM_T (X u) (X v)) as [Ex|Nx]; [|reflexivity].
        assert (Hl : In (Y u) levels) by (right; apply in_or_app; left; apply in_map, Hu).
        destruct (Req_EM_T (Y u) (Y v)) as [Ey|Ny].
        - destruct (Rlt_dec (Y u) y2); [|lra]. destruct (Rlt_dec (Y u) y1); [lra|]. reflexivity.
        - destruct (Rlt_le_dec (Y u) (Y v)) as [L|L].
          + pose proof (B1 _ Hl L). destruct (Rlt_dec (Y u) y2); [|lra]. destruct (Rlt_dec (Y u) y1); [|lra]. reflexivity.
          + pose proof (B2 (Y u) Hl ltac:(lra)). destruct (Rlt_dec (Y u) y2); [lra|]. destruct (Rlt_dec (Y u) y1); [lra|]. reflexivity. }
      assert (A1 : zsum (fun e => (w2 (mid e) * (same_place (snd e) - same_place (fst e)))%Z) E1 =
        (zsum (fun e => w2 (mid e) * (lt_at y2 (snd e) - lt_at y2 (fst e))) E1 - zsum (fun e => w2 (mid e) * (lt_at y1 (snd e) - lt_at y1 (fst e))) E1)%Z).
      { rewrite <- zsum_sub. apply zsum_ext. intros e He. destruct (ends_In all e (in_or_app _ _ _ (or_introl He))) as [Ia Ib]. rewrite (Hs _ Ia), (Hs _ Ib). ring. }
      assert (A2 : zsum (fun e => (w1 (mid e) * (same_place (snd e) - same_place (fst e)))%Z) E2 =
        (zsum (fun e => w1 (mid e) * (lt_at y2 (snd e) - lt_at y2 (fst e))) E2 - zsum (fun e => w1 (mid e) * (lt_at y1 (snd e) - lt_at y1 (fst e))) E2)%Z).
      { rewrite <- zsum_sub. apply zsum_ext. intros e He. destruct (ends_In all e (in_or_app _ _ _ (or_intror He))) as [Ia Ib]. rewrite (Hs _ Ia), (Hs _ Ib). ring. }
      unfold level_sum in Z1, Z2. cbv beta in *. lia.
    Qed.
  End Balance.
End Two.
