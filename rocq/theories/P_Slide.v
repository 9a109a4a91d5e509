(** P_Slide.v — the winding number of a polygon is constant along a segment that
    misses its sides, and changes by one across a side. *)

From Coq Require Import Reals List ZArith Lra Lia Psatz Bool Permutation.
From Verif Require Import Base Arith Geometry Elements Polyline Procedures ArithR Spec SpecR SpecD SpecP
  P_Base P_R1 P_R5 P_D1 P_D2 P_D3 P_D4 P_RX P_Fill P_Fill2.
Import ListNotations.
Local Open Scope R_scope.

(** ** Two segments over a common interval *)
Definition slope (a b : pnt) : R := (Y b - Y a) / (X b - X a).
Definition height (a b : pnt) (s : R) : R := Y a + (s - X a) * slope a b.
Lemma height_D : forall a b p, X a < X b -> D a b p = (X b - X a) * (Y p - height a b (X p)).
Proof. intros a b p L. unfold height, slope, area2. field. lra. Qed.
Lemma height_above : forall a b p, X a < X b -> (0 < D a b p <-> height a b (X p) < Y p).
Proof.
  intros a b p L. rewrite (height_D a b p L). split; intros H.
  - apply Rnot_le_lt. intros L'. assert (Q := mpn (X b - X a) (Y p - height a b (X p))). lra.
  - apply spp; lra.
Qed.
Lemma height_below : forall a b p, X a < X b -> (D a b p < 0 <-> Y p < height a b (X p)).
Proof.
  intros a b p L. rewrite (height_D a b p L). split; intros H.
  - apply Rnot_le_lt. intros L'. assert (Q := mpp (X b - X a) (Y p - height a b (X p))). lra.
  - apply spn; lra.
Qed.
Lemma height_a : forall a b, height a b (X a) = Y a.
Proof. intros a b. unfold height. ring. Qed.
Lemma height_b : forall a b, X a < X b -> height a b (X b) = Y b.
Proof. intros a b L. unfold height, slope. field. lra. Qed.
Lemma on_graph : forall a b s z, X a < X b -> X a <= s <= X b -> X z = s -> Y z = height a b s -> on_segment a b z.
Proof.
  intros a b s z L Hs Hx Hy. exists ((s - X a) / (X b - X a)). split.
  - split; [apply Rmult_le_pos; [lra|left; apply Rinv_0_lt_compat; lra]|]. apply (Rmult_le_reg_r (X b - X a)); [lra|].
    unfold Rdiv. rewrite Rmult_assoc, Rinv_l by lra. lra.
  - split; [rewrite Hx; field; lra|]. rewrite Hy. unfold height, slope. field. lra.
Qed.
Definition meet (a b c d : pnt) : Prop := exists z, on_segment a b z /\ on_segment c d z.
Lemma meet_graphs : forall a b c d s e, X a < X b -> X c < X d -> X a <= s -> X c <= s -> s <= e -> e <= X b -> e <= X d ->
  height a b s <= height c d s -> height c d e <= height a b e -> meet a b c d.
Proof.
  intros a b c d s e Lab Lcd H1 H2 H3 H4 H5 Hs He.
  set (f := fun u => height a b u - height c d u).
  assert (Aff : forall u, f u = f s + (u - s) * (slope a b - slope c d)) by (intros u; unfold f, height; ring).
  assert (Fs : f s <= 0) by (unfold f; lra). assert (Fe : 0 <= f e) by (unfold f; lra).
  assert (Hu : exists u, s <= u <= e /\ f u = 0).
  { destruct (Req_dec (f s) 0) as [Z|Z]; [exists s; split; [lra|exact Z]|]. set (g := slope a b - slope c d) in *.
    pose proof (Aff e) as Ae. assert (Pg : 0 < g).
    { apply Rnot_le_lt. intros L. assert (Q := mpn (e - s) g). lra. }
    exists (s - f s / g). split.
    - split.
      + assert (0 <= (- f s) / g) by (apply Rmult_le_pos; [lra|left; apply Rinv_0_lt_compat, Pg]). unfold Rdiv in *. lra.
      + apply (Rmult_le_reg_r g); [exact Pg|]. replace ((s - f s / g) * g) with (s * g - f s) by (field; lra). lra.
    - rewrite Aff. field. lra. }
  destruct Hu as (u & Hu & Ez). exists (at_ u (height a b u)). split.
  - apply (on_graph a b u); [exact Lab|lra|apply X_at|apply Y_at].
  - apply (on_graph c d u); [exact Lcd|lra|apply X_at|]. rewrite Y_at. unfold f in Ez. lra.
Qed.
Lemma meet_sym : forall a b c d, meet a b c d -> meet c d a b.
Proof. intros a b c d (z & H1 & H2). exists z. auto. Qed.
Lemma on_segment_flip : forall a b z, on_segment a b z -> on_segment b a z.
Proof. intros a b z (t & Ht & Hx & Hy). exists (1 - t). split; [lra|]. split; [rewrite Hx|rewrite Hy]; ring. Qed.
Lemma meet_flip : forall a b c d, meet b a c d -> meet a b c d.
Proof. intros a b c d (z & H1 & H2). exists z. split; [apply on_segment_flip, H1|exact H2]. Qed.
(** A vertical segment [cd] against a graph. *)
Lemma meet_vertical : forall a b c d, X a < X b -> X c = X d -> X a <= X c <= X b -> Y c <= height a b (X c) -> height a b (X c) <= Y d -> meet a b c d.
Proof.
  intros a b c d L Ev Hx H1 H2. exists (at_ (X c) (height a b (X c))). split; [apply (on_graph a b (X c)); [exact L|exact Hx|apply X_at|apply Y_at]|].
  set (h := height a b (X c)) in *. destruct (Req_dec (Y c) (Y d)) as [E|E].
  - exists 0. split; [lra|]. split; [rewrite X_at; ring|rewrite Y_at; lra].
  - exists ((h - Y c) / (Y d - Y c)). split.
    + split; [apply Rmult_le_pos; [lra|left; apply Rinv_0_lt_compat; lra]|]. apply (Rmult_le_reg_r (Y d - Y c)); [lra|].
      unfold Rdiv. rewrite Rmult_assoc, Rinv_l by lra. lra.
    + split; [rewrite X_at, <- Ev; ring|]. rewrite Y_at. field. lra.
Qed.

(** ** Sliding *)
(** [x] is straight below the segment [qq'], which goes to the right. *)
Definition under (q q' x : pnt) : Z :=
  if Rlt_dec (X q) (X x) then (if Rle_dec (X x) (X q') then (if Rlt_dec (D q q' x) 0 then 1 else 0) else 0)%Z else 0%Z.

Lemma slide_right : forall q q' x y, X q <= X q' -> X x <= X y -> ~ meet q q' x y ->
  (rc q (x, y) - rc q' (x, y) = under q q' y - under q q' x)%Z.
Proof.
  intros q q' x y Lq Lx Hno.
  destruct (Rle_lt_dec (X x) (X q)) as [x1|x1].
  - (* [x] is on the left *)
    assert (Ux : under q q' x = 0%Z) by (unfold under; destruct (Rlt_dec (X q) (X x)); [lra|reflexivity]). rewrite Ux.
    destruct (Rle_lt_dec (X y) (X q)) as [y1|y1].
    + rewrite !rc_LL by lra. unfold under. destruct (Rlt_dec (X q) (X y)); [lra|reflexivity].
    + rewrite (rc_LR q) by lra. destruct (Rle_lt_dec (X y) (X q')) as [y2|y2].
      * rewrite (rc_LL q') by lra. unfold under. destruct (Rlt_dec (X q) (X y)); [|lra]. destruct (Rle_dec (X y) (X q')); [|lra].
        assert (L1 : X q < X q') by lra. assert (L2 : X x < X y) by lra.
        destruct (Rlt_dec 0 (D x y q)) as [d1|d1], (Rlt_dec (D q q' y) 0) as [d2|d2]; try reflexivity; exfalso; apply Hno.
        -- apply (height_above x y q L2) in d1. apply meet_sym, (meet_graphs x y q q' (X q) (X y)); try lra; [rewrite height_a; lra|].
           rewrite (height_b x y L2). apply Rnot_lt_le. intros L. apply d2, (height_below q q' y L1), L.
        -- apply (height_below q q' y L1) in d2. apply (meet_graphs q q' x y (X q) (X y)); try lra; [|rewrite (height_b x y L2); lra].
           rewrite height_a. apply Rnot_lt_le. intros L. apply d1, (height_above x y q L2), L.
      * assert (Uy : under q q' y = 0%Z) by (unfold under; destruct (Rlt_dec (X q) (X y)); [destruct (Rle_dec (X y) (X q')); [lra|reflexivity]|reflexivity]). rewrite Uy.
        rewrite (rc_LR q') by lra. assert (L2 : X x < X y) by lra.
        destruct (Rlt_dec 0 (D x y q)) as [d1|d1], (Rlt_dec 0 (D x y q')) as [d2|d2]; try reflexivity; exfalso; apply Hno.
        -- apply (height_above x y q L2) in d1. assert (d2' : Y q' <= height x y (X q')) by (apply Rnot_lt_le; intros L; apply d2, (height_above x y q' L2), L).
           destruct (Rle_lt_or_eq_dec _ _ Lq) as [L1|E1].
           ++ apply meet_sym, (meet_graphs x y q q' (X q) (X q')); try lra; [rewrite height_a; lra|rewrite (height_b q q' L1); exact d2'].
           ++ apply meet_sym, meet_sym, meet_flip, meet_sym, (meet_vertical x y q' q); try lra. rewrite <- E1. lra.
        -- apply (height_above x y q' L2) in d2. assert (d1' : Y q <= height x y (X q)) by (apply Rnot_lt_le; intros L; apply d1, (height_above x y q L2), L).
           destruct (Rle_lt_or_eq_dec _ _ Lq) as [L1|E1].
           ++ apply (meet_graphs q q' x y (X q) (X q')); try lra; [rewrite height_a; exact d1'|rewrite (height_b q q' L1); lra].
           ++ apply meet_sym, (meet_vertical x y q q'); try lra. rewrite E1. lra.
  - rewrite (rc_RR q) by lra. destruct (Rle_lt_dec (X x) (X q')) as [x2|x2].
    + (* [x] is in the strip *)
      assert (L1 : X q < X q') by lra. destruct (Rle_lt_dec (X y) (X q')) as [y2|y2].
      * rewrite (rc_LL q') by lra. unfold under. destruct (Rlt_dec (X q) (X y)); [|lra]. destruct (Rle_dec (X y) (X q')); [|lra].
        destruct (Rlt_dec (X q) (X x)); [|lra]. destruct (Rle_dec (X x) (X q')); [|lra].
        destruct (Rlt_dec (D q q' y) 0) as [d1|d1], (Rlt_dec (D q q' x) 0) as [d2|d2]; try reflexivity; exfalso; apply Hno.
        -- apply (height_below q q' y L1) in d1. assert (d2' : height q q' (X x) <= Y x) by (apply Rnot_lt_le; intros L; apply d2, (height_below q q' x L1), L).
           destruct (Rle_lt_or_eq_dec _ _ Lx) as [L2|E2].
           ++ apply (meet_graphs q q' x y (X x) (X y)); try lra; [rewrite height_a; exact d2'|rewrite (height_b x y L2); lra].
           ++ apply meet_sym, meet_flip, meet_sym, (meet_vertical q q' y x); try lra. rewrite <- E2. exact d2'.
        -- apply (height_below q q' x L1) in d2. assert (d1' : height q q' (X y) <= Y y) by (apply Rnot_lt_le; intros L; apply d1, (height_below q q' y L1), L).
           destruct (Rle_lt_or_eq_dec _ _ Lx) as [L2|E2].
           ++ apply meet_sym, (meet_graphs x y q q' (X x) (X y)); try lra; [rewrite height_a; lra|rewrite (height_b x y L2); exact d1'].
           ++ apply (meet_vertical q q' x y); try lra. rewrite E2. exact d1'.
      * rewrite (rc_LR q') by lra. assert (L2 : X x < X y) by lra. unfold under. destruct (Rlt_dec (X q) (X y)); [|lra]. destruct (Rle_dec (X y) (X q')); [lra|].
        destruct (Rlt_dec (X q) (X x)); [|lra]. destruct (Rle_dec (X x) (X q')); [|lra].
        destruct (Rlt_dec 0 (D x y q')) as [d1|d1], (Rlt_dec (D q q' x) 0) as [d2|d2]; try reflexivity; exfalso; apply Hno.
        -- apply (height_above x y q' L2) in d1. apply (meet_graphs q q' x y (X x) (X q')); try lra; [|rewrite (height_b q q' L1); lra].
           rewrite height_a. apply Rnot_lt_le. intros L. apply d2, (height_below q q' x L1), L.
        -- apply (height_below q q' x L1) in d2. apply meet_sym, (meet_graphs x y q q' (X x) (X q')); try lra; [rewrite height_a; lra|].
           rewrite (height_b q q' L1). apply Rnot_lt_le. intros L. apply d1, (height_above x y q' L2), L.
    + rewrite (rc_RR q') by lra. unfold under. destruct (Rlt_dec (X q) (X y)); [|lra]. destruct (Rle_dec (X y) (X q')); [lra|].
      destruct (Rlt_dec (X q) (X x)); [|reflexivity]. destruct (Rle_dec (X x) (X q')); [lra|reflexivity].
Qed.
Lemma slide : forall q q' x y, X q <= X q' -> ~ meet q q' x y -> (rc q (x, y) - rc q' (x, y) = under q q' y - under q q' x)%Z.
Proof.
  intros q q' x y Lq Hno. destruct (Rle_lt_dec (X x) (X y)) as [L|L]; [apply slide_right; assumption|].
  pose proof (slide_right q q' y x Lq ltac:(lra)) as Hs. rewrite !(rc_flip _ x y) in Hs.
  assert (Hn : ~ meet q q' y x) by (intros Hm; apply Hno, meet_sym, meet_flip, meet_sym, Hm). specialize (Hs Hn). lia.
Qed.

(** Across the middle of an edge. *)
Lemma cross_right : forall q q' a b, X q <= X q' -> X q + X q' = X a + X b -> Y q + Y q' = Y a + Y b -> 0 < D a b q ->
  (rc q (a, b) - rc q' (a, b) = under q q' b - under q q' a + 1)%Z.
Proof.
  intros q q' a b Lq Ex Ey Hp.
  assert (E1 : D a b q' = - D a b q) by (replace (X q') with (X a + X b - X q) by lra; unfold area2; replace (X q') with (X a + X b - X q) by lra; replace (Y q') with (Y a + Y b - Y q) by lra; ring).
  assert (E2 : D q q' a = - D a b q) by (unfold area2; replace (X q') with (X a + X b - X q) by lra; replace (Y q') with (Y a + Y b - Y q) by lra; ring).
  assert (E3 : D q q' b = D a b q) by (unfold area2; replace (X q') with (X a + X b - X q) by lra; replace (Y q') with (Y a + Y b - Y q) by lra; ring).
  assert (Nv : X a = X b -> X q <> X a) by (intros E E'; unfold area2 in Hp; rewrite E', <- E in Hp; lra).
  unfold rc, ray_crossing, under. rewrite E1, E2, E3.
  repeat match goal with |- context [Rle_dec ?x ?y] => destruct (Rle_dec x y) | |- context [Rlt_dec ?x ?y] => destruct (Rlt_dec x y) end; try reflexivity; exfalso; try lra;
    assert (X a = X b) by lra; assert (X q = X a) by lra; tauto.
Qed.

(** ** The whole polygon *)
Lemma last_step : forall (X : Type) (l : list X) (a b : X), last (b :: l) a = last l b.
Proof. intros X l. induction l as [|c l IH]; intros a b; [reflexivity|]. change (last (b :: c :: l) a) with (last (c :: l) a). rewrite (IH a c), (IH b c). reflexivity. Qed.
Lemma telescope : forall (g : pnt -> Z) l a, zsum (fun e => (g (snd e) - g (fst e))%Z) (path_sides (a :: l)) = (g (last l a) - g a)%Z.
Proof.
  intros g l. induction l as [|b l IH]; intros a; [cbn; lia|]. change (path_sides (a :: b :: l)) with ((a, b) :: path_sides (b :: l)).
  rewrite zsum_cons, IH. cbn [fst snd]. rewrite last_step. lia.
Qed.
Lemma telescope_polygon : forall (g : pnt -> Z) l, zsum (fun e => (g (snd e) - g (fst e))%Z) (polygon_sides l) = 0%Z.
Proof.
  intros g [|a l]; [reflexivity|]. change (polygon_sides (a :: l)) with (path_sides (a :: (l ++ [a]))). rewrite telescope, last_last. lia.
Qed.
Lemma winding_zsum : forall q es, winding q es = zsum (rc q) es.
Proof. reflexivity. Qed.

(** The sides that the move crosses count. *)
Definition crossed (a b : pnt) (e : edge ArithR) : Z := if edec e (a, b) then 1%Z else if edec e (b, a) then (-1)%Z else 0%Z.
Lemma jump_right : forall l q q' a b, X q <= X q' -> a <> b -> X q + X q' = X a + X b -> Y q + Y q' = Y a + Y b -> 0 < D a b q ->
  (forall x y, In (x, y) (polygon_sides l) -> (x, y) <> (a, b) -> (x, y) <> (b, a) -> ~ meet q q' x y) ->
  (winding q (polygon_sides l) - winding q' (polygon_sides l) = zsum (crossed a b) (polygon_sides l))%Z.
Proof.
  intros l q q' a b Lq Nab Ex Ey Hp Hno. rewrite !winding_zsum.
  assert (E : zsum (fun e => (rc q e - rc q' e)%Z) (polygon_sides l) = zsum (fun e => ((under q q' (snd e) - under q q' (fst e)) + crossed a b e)%Z) (polygon_sides l)).
  { apply zsum_ext. intros [x y] Hi. unfold crossed. cbn [fst snd].
    destruct (edec (x, y) (a, b)) as [E|N1]; [injection E as -> ->; apply cross_right; assumption|].
    destruct (edec (x, y) (b, a)) as [E|N2].
    - injection E as -> ->. pose proof (cross_right q q' a b Lq Ex Ey Hp). rewrite !(rc_flip _ a b). lia.
    - rewrite (slide q q' x y Lq); [lia|]. apply Hno; assumption. }
  rewrite (zsum_add _ (fun e => (under q q' (snd e) - under q q' (fst e))%Z) (crossed a b)) in E.
  rewrite (telescope_polygon (under q q')) in E.
  assert (E' : zsum (fun e => (rc q e - rc q' e)%Z) (polygon_sides l) = (zsum (rc q) (polygon_sides l) - zsum (rc q') (polygon_sides l))%Z).
  { rewrite (zsum_add _ (rc q) (fun e => (- rc q' e)%Z)), zsum_opp. lia. }
  etransitivity; [symmetry; exact E'|]. etransitivity; [exact E|apply Z.add_0_l].
Qed.
Lemma jump : forall l q q' a b, a <> b -> X q + X q' = X a + X b -> Y q + Y q' = Y a + Y b -> 0 < D a b q ->
  (forall x y, In (x, y) (polygon_sides l) -> (x, y) <> (a, b) -> (x, y) <> (b, a) -> ~ meet q q' x y) ->
  (winding q (polygon_sides l) - winding q' (polygon_sides l) = zsum (crossed a b) (polygon_sides l))%Z.
Proof.
  intros l q q' a b Nab Ex Ey Hp Hno. destruct (Rle_lt_dec (X q) (X q')) as [L|L]; [apply jump_right; assumption|].
  assert (Hp' : 0 < D b a q').
  { assert (E1 : D b a q' = D a b q) by (unfold area2; replace (X q') with (X a + X b - X q) by lra; replace (Y q') with (Y a + Y b - Y q) by lra; ring). lra. }
  pose proof (jump_right l q' q b a ltac:(lra) ltac:(congruence) ltac:(lra) ltac:(lra) Hp') as Hj.
  assert (Hno' : forall x y, In (x, y) (polygon_sides l) -> (x, y) <> (b, a) -> (x, y) <> (a, b) -> ~ meet q' q x y).
  { intros x y Hi N1 N2 Hm. apply (Hno x y Hi N2 N1). apply meet_flip, Hm. }
  specialize (Hj Hno'). assert (E : zsum (crossed b a) (polygon_sides l) = (- zsum (crossed a b) (polygon_sides l))%Z).
  { rewrite <- zsum_opp. apply zsum_ext. intros e _. unfold crossed. destruct (edec e (b, a)) as [E1|N1], (edec e (a, b)) as [E2|N2]; try lia. exfalso. congruence. }
  lia.
Qed.
Lemma winding_const : forall l q q', (forall x y, In (x, y) (polygon_sides l) -> ~ meet q q' x y) -> winding q (polygon_sides l) = winding q' (polygon_sides l).
Proof.
  assert (R : forall l q q', X q <= X q' -> (forall x y, In (x, y) (polygon_sides l) -> ~ meet q q' x y) -> winding q (polygon_sides l) = winding q' (polygon_sides l)).
  { intros l q q' Lq Hno. rewrite !winding_zsum.
    assert (E : zsum (fun e => (rc q e - rc q' e)%Z) (polygon_sides l) = zsum (fun e => (under q q' (snd e) - under q q' (fst e))%Z) (polygon_sides l)).
    { apply zsum_ext. intros [x y] Hi. cbn [fst snd]. apply slide; [exact Lq|apply Hno, Hi]. }
    rewrite (telescope_polygon (under q q')) in E. rewrite (zsum_add _ (rc q) (fun e => (- rc q' e)%Z)), zsum_opp in E. lia. }
  intros l q q' Hno. destruct (Rle_lt_dec (X q) (X q')) as [L|L]; [apply R; assumption|]. symmetry. apply R; [lra|].
  intros x y Hi Hm. apply (Hno x y Hi), meet_flip, Hm.
Qed.
