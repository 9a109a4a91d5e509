(** P_Polygon.v — filling a polygon, in terms of the input: a side with a free
    circle is a side of the triangulation. *)

From Coq Require Import Reals List ZArith Lra Lia Psatz Bool Permutation.
From Verif Require Import Base Arith Geometry Elements Polyline Procedures Triangulator ArithR Spec SpecR SpecD SpecP
  P_Base P_R1 P_R5 P_D1 P_D2 P_D3 P_D4 P_D5 P_D6 P_D7 P_D8 P_RX P_Fill P_Fill2 P_Slide P_Region P_Region2 P_Region3 P_Contains.
Import ListNotations.
Local Open Scope R_scope.

Lemma d2_at_mid : forall o a b, d2 o a = d2 o b -> d2 o (at_ ((X a + X b) / 2) ((Y a + Y b) / 2)) = d2 o a - d2 a b / 4.
Proof.
  intros o a b E. unfold d2 in *. rewrite X_at, Y_at.
  replace ((X o - (X a + X b) / 2) * (X o - (X a + X b) / 2) + (Y o - (Y a + Y b) / 2) * (Y o - (Y a + Y b) / 2)) with
    (((X o - X a) * (X o - X a) + (Y o - Y a) * (Y o - Y a)) / 2 + ((X o - X b) * (X o - X b) + (Y o - Y b) * (Y o - Y b)) / 2 - ((X a - X b) * (X a - X b) + (Y a - Y b) * (Y a - Y b)) / 4) by field.
  lra.
Qed.

Lemma free_medge : forall S (tr : mesh) l a b, delaunay S tr -> resolved S -> (exists t, In t (tris tr) /\ solid_over S t) ->
  (forall w, In w S -> In w l) -> In a S -> In b S -> a <> b -> free_side l a b -> medge S tr a b.
Proof.
  intros S tr l a b HD HR Hs Hin Ha Hb Nab (o & Eo & Hfree). pose proof (rs_plain _ HR) as pl.
  set (m := at_ ((X a + X b) / 2) ((Y a + Y b) / 2)). assert (Pab : 0 < d2 a b) by (apply d2_pos; auto).
  assert (Pm : d2 o m = d2 o a - d2 a b / 4) by (apply d2_at_mid, Eo).
  assert (Dm : forall x y, D x y m = (D x y a + D x y b) / 2) by (intros x y; unfold m, area2; rewrite X_at, Y_at; field).
  destruct (covered S tr m HD HR Hs) as [(x & y & z & Ht & Gz & H1 & H2 & H3)|(x & y & Ht & H1)].
  2:{ exfalso. pose proof (dl_hull _ _ HD x y Ht) as Hh. pose proof (proj1 (Hh a Ha)). pose proof (proj1 (Hh b Hb)). rewrite Dm in H1. lra. }
  destruct (solid_view S tr x y z HD HR Ht Gz) as (Hx & Hy & Hz & Hp).
  (* the power of the free circle and of the circumcircle differ by an affine function *)
  destruct (I_affine x y z) as (al & be & ga & EI).
  set (P := fun q : pnt => d2 o q - d2 o a). set (d := D x y z) in *.
  set (f := fun q : pnt => d * P q + I x y z q).
  assert (Ef : exists al' be' ga', forall q, f q = al' * X q + be' * Y q + ga').
  { exists (al - 2 * d * X o), (be - 2 * d * Y o), (ga + d * (X o * X o + Y o * Y o - d2 o a)). intros q. unfold f, P. rewrite EI. fold d. unfold d2 at 1. ring. }
  destruct Ef as (al' & be' & ga' & Ef).
  assert (Inone : forall w, In w S -> I x y z w <= 0) by (intros w Hw; apply (solid_empty S tr HD HR _ x y z w Ht (or_introl eq_refl)); assumption).
  assert (Pge : forall w, In w S -> 0 <= P w /\ (w <> a -> w <> b -> 0 < P w)).
  { intros w Hw. unfold P. destruct (vdec w a) as [-> |Na]; [split; [lra|congruence]|]. destruct (vdec w b) as [-> |Nb]; [split; [lra|congruence]|].
    pose proof (Hfree w (Hin w Hw) Na Nb). split; [lra|intros _ _; lra]. }
  assert (Fm : f m <= 0).
  { assert (E : f m = (f a + f b) / 2) by (rewrite !Ef; unfold m; rewrite X_at, Y_at; field).
    assert (Pa : P a = 0) by (unfold P; ring). assert (Pb : P b = 0) by (unfold P; lra).
    pose proof (Inone a Ha). pose proof (Inone b Hb). unfold f at 2 3 in E. rewrite Pa, Pb in E. lra. }
  assert (Fc : forall w, In w S -> I x y z w = 0 -> 0 <= f w /\ (w <> a -> w <> b -> 0 < f w)).
  { intros w Hw Ew. destruct (Pge w Hw) as [G1 G2]. unfold f. rewrite Ew. split; [pose proof (mpp d (P w) ltac:(lra) G1); lra|].
    intros N1 N2. pose proof (spp d (P w) Hp (G2 N1 N2)). lra. }
  pose proof (affine_bary al' be' ga' x y z m) as B. rewrite <- !Ef in B. fold d in B.
  destruct (Fc x Hx (I_a x y z)) as [Fx Fx']. destruct (Fc y Hy (I_b x y z)) as [Fy Fy']. destruct (Fc z Hz (I_c x y z)) as [Fz Fz'].
  pose proof (mpp _ _ H2 Fx) as T1. pose proof (mpp _ _ H3 Fy) as T2. pose proof (mpp _ _ H1 Fz) as T3.
  pose proof (mpn d (f m) ltac:(lra) Fm) as T0.
  assert (Zx : x <> a -> x <> b -> D y z m = 0).
  { intros N1 N2. destruct (Rle_lt_or_eq_dec _ _ H2) as [L|E]; [|lra]. exfalso. pose proof (spp _ _ L (Fx' N1 N2)). lra. }
  assert (Zy : y <> a -> y <> b -> D z x m = 0).
  { intros N1 N2. destruct (Rle_lt_or_eq_dec _ _ H3) as [L|E]; [|lra]. exfalso. pose proof (spp _ _ L (Fy' N1 N2)). lra. }
  assert (Zz : z <> a -> z <> b -> D x y m = 0).
  { intros N1 N2. destruct (Rle_lt_or_eq_dec _ _ H1) as [L|E]; [|lra]. exfalso. pose proof (spp _ _ L (Fz' N1 N2)). lra. }
  (* the middle of the side is not a corner *)
  assert (Nm : forall w, In w S -> ~ coincide w m).
  { intros w Hw [E1 E2]. assert (E : P w = - (d2 a b / 4)) by (unfold P; replace (d2 o w) with (d2 o m) by (unfold d2; rewrite E1, E2; reflexivity); lra).
    destruct (Pge w Hw) as [G _]. lra. }
  assert (Two : forall u v w, In w S -> 0 < D u v w -> D v w m = 0 -> D w u m = 0 -> False).
  { intros u v w Hw Hpw E1 E2. apply (Nm w Hw).
    assert (Ix : D u v w * (X m - X w) = D v w m * (X u - X w) + D w u m * (X v - X w)) by (unfold area2; ring).
    assert (Iy : D u v w * (Y m - Y w) = D v w m * (Y u - Y w) + D w u m * (Y v - Y w)) by (unfold area2; ring).
    rewrite E1, E2 in Ix, Iy. assert (X m - X w = 0) by (apply (Rmult_eq_reg_l (D u v w)); lra). assert (Y m - Y w = 0) by (apply (Rmult_eq_reg_l (D u v w)); lra). split; lra. }
  pose proof (D_rot x y z) as R1. pose proof (D_rot2 x y z) as R2. fold d in R1, R2. destruct (D_neq _ _ _ Hp) as (n1 & n2 & n3).
  assert (Done : forall u v, side_of (u, v) (Tri x y z) -> (u = a /\ v = b) \/ (u = b /\ v = a) -> medge S tr a b).
  { intros u v Hsd [[-> ->]|[-> ->]]; [exists (Tri x y z); auto|]. apply (medge_flip S tr HD). exists (Tri x y z). auto. }
  destruct (vdec x a) as [xa|xa], (vdec x b) as [xb|xb]; try congruence.
  - destruct (vdec y b) as [yb|yb]; [apply (Done x y); [constructor|auto]|]. destruct (vdec z b) as [zb|zb]; [apply (Done z x); [constructor|auto]|]. exfalso.
    apply (Two y z x Hx); [lra|apply Zy; congruence|]. apply Zz; congruence.
  - destruct (vdec y a) as [ya|ya]; [apply (Done x y); [constructor|auto]|]. destruct (vdec z a) as [za|za]; [apply (Done z x); [constructor|auto]|]. exfalso.
    apply (Two y z x Hx); [lra|apply Zy; congruence|]. apply Zz; congruence.
  - destruct (vdec y a) as [ya|ya], (vdec y b) as [yb|yb]; try congruence.
    + destruct (vdec z b) as [zb|zb]; [apply (Done y z); [constructor|auto]|]. exfalso. apply (Two z x y Hy); [lra|apply Zz; congruence|apply Zx; congruence].
    + destruct (vdec z a) as [za|za]; [apply (Done y z); [constructor|auto]|]. exfalso. apply (Two z x y Hy); [lra|apply Zz; congruence|apply Zx; congruence].
    + exfalso. apply (Two x y z Hz); [exact Hp|apply Zx; assumption|apply Zy; assumption].
Qed.

Lemma stage_fills : forall l S (tr1 tr' : mesh), delaunay S tr1 -> resolved l -> NoDup l -> (forall w, In w S <-> In w l) ->
  0 < shoelace (polygon_sides l) -> (forall a b, In (a, b) (polygon_sides l) -> free_side l a b) ->
  (exists u, In u (tris tr1) /\ solid_over S u) ->
  (forall x, In x (tris tr') <->
       (In x (tris tr1) /\ ~ swept (fun x => In x (tris tr1)) (map flip (polygon_sides l)) (map flip (polygon_sides l)) x) \/
       exists e, In e (polygon_sides l) /\ x = Tri (snd e) (fst e) ghost_vertex) ->
  fills l tr'.
Proof.
  intros l S tr1 tr' HD HR Hnd HS Ha Hfr Hsol Hiff.
  assert (HRS : resolved S) by (apply (resolved_incl l); [exact HR|intros w; apply HS]).
  assert (Hone : forall x y, In (x, y) (polygon_sides l) -> ~ In (y, x) (polygon_sides l)).
  { intros x y H1 H2. pose proof (both_ways l x y Hnd H1 H2). lra. }
  assert (Hes : forall x y, In (x, y) (polygon_sides l) -> medge S tr1 x y).
  { intros x y Hxy. destruct (polygon_ends l (x, y) Hxy) as [Hx Hy]. cbn [fst snd] in *. apply (free_medge S tr1 l x y HD HRS).
    - exact Hsol.
    - intros w; apply HS.
    - apply HS, Hx.
    - apply HS, Hy.
    - intros ->. exact (Hone y y Hxy Hxy).
    - apply Hfr, Hxy. }
  apply (run_fills l tr1 (tris tr') S); auto; try (intros w; apply HS).
  intros e He. apply (left_kept S tr1 l HD HRS); auto; intros w; apply HS.
Qed.

Lemma polygon_filled_free : forall (H : HashOrder) fuel p (t t' : triangulator ArithR) l, only_polygon t l -> NoDup l -> resolved l ->
  0 < shoelace (polygon_sides l) -> (forall a b, In (a, b) (polygon_sides l) -> free_side l a b) -> triangulate H fuel p t = Ok t' ->
  (forall w, In w l -> exists u, solid_in (t_trn t') u /\ corner_of w u) -> fills l (t_trn t').
Proof.
  intros H fuel p t t' l Ho Hnd HR Ha Hfr Hr Hs. destruct (polygon_stages H fuel p t t' l Ho Hr) as (v1 & v2 & rest & tr1 & inc & del & f1 & p1 & El & Hi & Hso & Hiff).
  assert (H12 : In v1 l /\ In v2 l) by (rewrite El; cbn [In]; auto). assert (Hne : v1 <> v2) by (rewrite El in Hnd; inversion Hnd as [|? ? Hx _]; intros ->; apply Hx; left; reflexivity).
  assert (H0 : delaunay [v1; v2] (from_initial_segment v1 v2)) by (apply initial_delaunay; auto; apply (rs_plain _ HR); tauto).
  destruct (insertion H f1 p1 [v1; v2] _ l tr1 inc del H0) as (ins & _ & Hins & HD).
  { apply (resolved_incl l); [exact HR|]. intros w Hw. apply in_app_or in Hw. destruct Hw as [Hw|[<-|[<-|[]]]]; tauto. }
  { exact Hi. }
  set (S := ins ++ [v1; v2]) in *.
  assert (HS : forall w, In w S -> In w l) by (intros w Hw; apply in_app_or in Hw; destruct Hw as [Hw|[<-|[<-|[]]]]; [apply Hins, Hw|tauto|tauto]).
  assert (HRS : resolved S) by (apply (resolved_incl l); assumption). specialize (Hiff (dl_complete _ _ HD)).
  assert (Hsol : forall u, solid_in (t_trn t') u -> In u (tris tr1) /\ solid_over S u).
  { intros u [Hu G]. destruct (solid_from _ _ _ Hiff u Hu G) as [Hu1 _]. split; [exact Hu1|]. destruct (dl_shape _ _ HD u Hu1) as [Hso1|(x & y & -> & _)]; [exact Hso1|].
    unfold is_ghost in G. cbn in G. rewrite !orb_true_r in G. discriminate. }
  assert (Hall : forall w, In w l -> In w S).
  { intros w Hw. destruct (Hs w Hw) as (u & Hu & Hc). destruct (Hsol u Hu) as [_ (x & y & z & -> & Hx & Hy & Hz & _)]. inversion Hc; subst; assumption. }
  apply (stage_fills l S tr1); auto.
  - intros w. split; auto.
  - destruct (Hs v1 (proj1 H12)) as (u & Hu & _). exists u. apply Hsol, Hu.
Qed.
