(** P_D7.v — insertion of a list of points one at a time, integer points, tiling
    of the convex hull, uniqueness. *)

From Coq Require Import Reals List ZArith Lra Lia Psatz Bool Permutation.
From Verif Require Import Base Arith Geometry Elements Polyline Procedures ArithR Spec SpecR SpecD
  P_Base P_Trn P_Fuel P_Vertices P_Cavity P_R1 P_R2 P_R5 P_D1 P_D2 P_D3 P_D4 P_D5 P_D6 P_RX.
Import ListNotations.
Local Open Scope R_scope.

(** ** Integer points *)
Lemma int_small : forall n : Z, - eps <= IZR n <= eps -> IZR n = 0.
Proof.
  intros n [H1 H2]. pose proof eps_small. assert (Hn : n = 0%Z); [|rewrite Hn; reflexivity].
  assert (L1 : IZR (-1) < IZR n) by lra. assert (L2 : IZR n < IZR 1) by lra. apply lt_IZR in L1. apply lt_IZR in L2. lia.
Qed.
Lemma grid_resolved : forall S, grid S -> resolved S.
Proof.
  intros S G. split.
  - intros a Ha. apply G, Ha.
  - intros a b Ha Hb [Hx Hy]. destruct (G a Ha) as (Ga & m & n & Xa & Ya). destruct (G b Hb) as (Gb & m' & n' & Xb & Yb).
    rewrite Xa, Xb, <- minus_IZR in Hx. rewrite Ya, Yb, <- minus_IZR in Hy. apply int_small in Hx. apply int_small in Hy.
    rewrite minus_IZR in Hx, Hy. apply plain_coincide; auto. split; lra.
  - intros a b c Ha Hb Hc. destruct (G a Ha) as (_ & m & n & Xa & Ya). destruct (G b Hb) as (_ & m' & n' & Xb & Yb). destruct (G c Hc) as (_ & m'' & n'' & Xc & Yc).
    unfold area2. rewrite Xa, Xb, Xc, Ya, Yb, Yc, <- !minus_IZR, <- !mult_IZR, <- !minus_IZR. apply int_small.
  - intros a b c d Ha Hb Hc Hd. destruct (G a Ha) as (_ & m & n & Xa & Ya). destruct (G b Hb) as (_ & m' & n' & Xb & Yb). destruct (G c Hc) as (_ & m'' & n'' & Xc & Yc). destruct (G d Hd) as (_ & k & l & Xd & Yd).
    unfold in_square, dotp, area2. rewrite Xa, Xb, Xc, Xd, Ya, Yb, Yc, Yd. repeat (rewrite <- ?minus_IZR, <- ?mult_IZR, <- ?plus_IZR). apply int_small.
Qed.

(** ** A list of points, one call each *)
Lemma line_incl : forall S S', all_on_a_line S' -> (forall w, In w S -> In w S') -> all_on_a_line S.
Proof. intros S S' Hl Hi a b c Ha Hb Hc. apply Hl; auto. Qed.

Lemma include_each_delaunay : forall (H : HashOrder) vs p S (tr : mesh), delaunay S tr -> resolved (vs ++ S) -> (vs <> [] -> ~ all_on_a_line (hd gv vs :: S)) ->
  exists n0 tr', (forall fuel, (n0 <= fuel)%nat -> include_each H fuel p tr vs = Ok tr') /\ delaunay (vs ++ S) tr'.
Proof.
  intros H vs. induction vs as [|v vs IH]; intros p S tr HD HR Hl; [exists 0%nat, tr; auto|]. specialize (Hl ltac:(discriminate)). cbn [hd] in Hl.
  assert (HR1 : resolved (v :: S)) by (apply (resolved_incl _ _ HR); intros w [<-|Hw]; apply in_or_app; [left; left; reflexivity|right; exact Hw]).
  destruct (include_one H (1%nat :: p) S tr v HD HR1 Hl) as (n1 & tr1 & inc & del & R1 & D1).
  destruct (IH (0%nat :: p) (v :: S) tr1 D1) as (n2 & tr2 & R2 & D2).
  - apply (resolved_incl _ _ HR). intros w Hw. apply in_app_or in Hw. apply in_or_app. destruct Hw as [Hw|[<-|Hw]]; [left; right; exact Hw|left; left; reflexivity|right; exact Hw].
  - intros _ Hc. apply Hl. apply (line_incl _ _ Hc). intros w Hw. right. exact Hw.
  - exists (n1 + n2)%nat, tr2. split.
    + intros fuel Hf. cbn [include_each]. rewrite (R1 fuel) by lia. cbn [bind]. apply R2. lia.
    + apply (delaunay_incl _ _ _ D2). intros w. rewrite !in_app_iff. cbn [In]. tauto.
Qed.

(** ** The triangles tile the convex hull *)
Lemma affine_bary : forall (al be ga : R) a b c q,
  D a b c * (al * X q + be * Y q + ga) =
  D b c q * (al * X a + be * Y a + ga) + D c a q * (al * X b + be * Y b + ga) + D a b q * (al * X c + be * Y c + ga).
Proof. intros. unfold area2. ring. Qed.
Lemma D_affine : forall x y, exists al be ga, forall q, D x y q = al * X q + be * Y q + ga.
Proof. intros x y. exists (- (Y y - Y x)), (X y - X x), ((Y y - Y x) * X x - (X y - X x) * Y x). intros q. unfold area2. ring. Qed.
Lemma I_affine : forall a b c, exists al be ga, forall q, I a b c q = al * X q + be * Y q + ga - D a b c * (X q * X q + Y q * Y q).
Proof.
  intros a b c. set (n := fun p : pnt => X p * X p + Y p * Y p).
  exists (Y a * (n c - n b) + Y b * (n a - n c) + Y c * (n b - n a)),
         (- (X a * (n c - n b) + X b * (n a - n c) + X c * (n b - n a))),
         (n a * (X b * Y c - X c * Y b) + n b * (X c * Y a - X a * Y c) + n c * (X a * Y b - X b * Y a)).
  intros q. unfold n, incircle, Rdet4, Rdet3, area2. ring.
Qed.

Lemma solid_view : forall S (tr : mesh) a b c, delaunay S tr -> resolved S -> In (Tri a b c) (tris tr) -> vghost c = false ->
  In a S /\ In b S /\ In c S /\ 0 < D a b c.
Proof.
  intros S tr a b c HD HR Hi Gc. destruct (dl_shape _ _ HD _ Hi) as [(x & y & z & E & Hx & Hy & Hz & Hp)|(x & y & E & _)].
  - injection E as <- <- <-. auto.
  - injection E as -> -> ->. discriminate.
Qed.
Lemma has_two : forall S (tr : mesh), delaunay S tr -> exists s, In s S.
Proof.
  intros S tr HD. destruct (tris tr) as [|t ts] eqn:Et; [exfalso; apply (dl_some _ _ HD), Et|].
  assert (Ht : In t (tris tr)) by (rewrite Et; left; reflexivity).
  destruct (dl_shape _ _ HD t Ht) as [(a & b & c & _ & Ha & _)|(a & b & _ & Ha & _)]; exists a; exact Ha.
Qed.
Lemma resolved_dup : forall S s, resolved S -> In s S -> resolved (s :: S).
Proof. intros S s HR Hs. apply (resolved_incl S); [exact HR|]. intros w [<-|Hw]; assumption. Qed.

Lemma in_triangle_hull : forall S a b c q, In a S -> In b S -> In c S -> 0 < D a b c -> in_triangle a b c q -> in_hull S q.
Proof.
  intros S a b c q Ha Hb Hc Hp (H1 & H2 & H3) x y Hw. destruct (D_affine x y) as (al & be & ga & E).
  pose proof (affine_bary al be ga a b c q) as B. rewrite <- !E in B. apply (div_le _ (D a b c)); [exact Hp|].
  pose proof (mpn _ _ H2 (Hw a Ha)). pose proof (mpn _ _ H3 (Hw b Hb)). pose proof (mpn _ _ H1 (Hw c Hc)). lra.
Qed.

(** Tiling, first half: the closed triangles cover exactly the convex hull. *)
Lemma tiles_hull : forall S (tr : mesh) q, delaunay S tr -> resolved S -> ~ all_on_a_line S ->
  (in_hull S q <-> exists a b c, In (Tri a b c) (tris tr) /\ vghost c = false /\ in_triangle a b c q).
Proof.
  intros S tr q HD HR Hl. split.
  - intros Hq. assert (Hs : exists t, In t (tris tr) /\ solid_over S t).
    { destruct (flat_or_solid S tr HD (rs_plain _ HR)) as [Hs|(a & b & _ & _ & Ha & Hb & Hn & Hf)]; [exact Hs|]. exfalso. apply Hl.
      intros x y z Hx Hy Hz. destruct (Hf x Hx) as [-> | ->], (Hf y Hy) as [-> | ->], (Hf z Hz) as [-> | ->]; unfold area2; ring. }
    destruct (covered S tr q HD HR Hs) as [(a & b & c & H1 & H2 & H3)|(a & b & Hi & Hp)]; [exists a, b, c; auto|].
    exfalso. assert (D a b q <= 0); [|lra]. apply Hq. intros w Hw. apply (dl_hull _ _ HD a b Hi w Hw).
  - intros (a & b & c & Hi & Gc & Ht). destruct (solid_view S tr a b c HD HR Hi Gc) as (Ha & Hb & Hc & Hp). apply (in_triangle_hull S a b c); auto.
Qed.

(** Tiling, second half: no point is inside two triangles. *)
Lemma tiles_once : forall S (tr : mesh) q a b c a' b' c', delaunay S tr -> resolved S -> In (Tri a b c) (tris tr) -> In (Tri a' b' c') (tris tr) ->
  vghost c = false -> vghost c' = false -> inside_triangle a b c q -> inside_triangle a' b' c' q -> Tri a b c = Tri a' b' c'.
Proof.
  intros S tr q a b c a' b' c' HD HR Hi Hi' Gc Gc' (H1 & H2 & H3) (H1' & H2' & H3'). destruct (has_two S tr HD) as [s Hs].
  destruct (solid_view S tr a b c HD HR Hi Gc) as (_ & _ & _ & Hp). destruct (solid_view S tr a' b' c' HD HR Hi' Gc') as (_ & _ & _ & Hp').
  apply (no_overlap S (tris tr) (plain_tr S tr s HD (resolved_dup S s HR Hs)) q); auto; apply inside_tw; auto.
Qed.

(** ** Two Delaunay triangulations of the same points *)
Lemma same_power : forall a b c a' b' c' q, 0 < D a b c -> 0 < D a' b' c' ->
  I a b c a' <= 0 -> I a b c b' <= 0 -> I a b c c' <= 0 -> I a' b' c' a <= 0 -> I a' b' c' b <= 0 -> I a' b' c' c <= 0 ->
  inside_triangle a b c q -> in_triangle a' b' c' q -> I a' b' c' a = 0 /\ I a' b' c' b = 0 /\ I a' b' c' c = 0.
Proof.
  intros a b c a' b' c' q Hp Hp' E1 E2 E3 F1 F2 F3 (H1 & H2 & H3) (K1 & K2 & K3).
  destruct (I_affine a b c) as (al & be & ga & E). destruct (I_affine a' b' c') as (al' & be' & ga' & E').
  set (f := fun x : pnt => I a b c x * D a' b' c' - I a' b' c' x * D a b c).
  assert (Ef : forall x, f x = (al * D a' b' c' - al' * D a b c) * X x + (be * D a' b' c' - be' * D a b c) * Y x + (ga * D a' b' c' - ga' * D a b c)).
  { intros x. unfold f. rewrite E, E'. ring. }
  pose proof (affine_bary (al * D a' b' c' - al' * D a b c) (be * D a' b' c' - be' * D a b c) (ga * D a' b' c' - ga' * D a b c) a b c q) as B.
  pose proof (affine_bary (al * D a' b' c' - al' * D a b c) (be * D a' b' c' - be' * D a b c) (ga * D a' b' c' - ga' * D a b c) a' b' c' q) as B'.
  rewrite <- !Ef in B, B'.
  assert (V1 : f a' <= 0) by (unfold f; rewrite I_a; pose proof (mnp _ (D a' b' c') E1 ltac:(lra)); lra).
  assert (V2 : f b' <= 0) by (unfold f; rewrite I_b; pose proof (mnp _ (D a' b' c') E2 ltac:(lra)); lra).
  assert (V3 : f c' <= 0) by (unfold f; rewrite I_c; pose proof (mnp _ (D a' b' c') E3 ltac:(lra)); lra).
  assert (W1 : 0 <= f a) by (unfold f; rewrite I_a; pose proof (mnp _ (D a b c) F1 ltac:(lra)); lra).
  assert (W2 : 0 <= f b) by (unfold f; rewrite I_b; pose proof (mnp _ (D a b c) F2 ltac:(lra)); lra).
  assert (W3 : 0 <= f c) by (unfold f; rewrite I_c; pose proof (mnp _ (D a b c) F3 ltac:(lra)); lra).
  assert (Q1 : f q <= 0).
  { apply (div_le _ (D a' b' c')); [exact Hp'|]. pose proof (mpn _ _ K2 V1). pose proof (mpn _ _ K3 V2). pose proof (mpn _ _ K1 V3). lra. }
  pose proof (mpp _ _ (Rlt_le _ _ H2) W1) as M1. pose proof (mpp _ _ (Rlt_le _ _ H3) W2) as M2. pose proof (mpp _ _ (Rlt_le _ _ H1) W3) as M3.
  pose proof (mpn (D a b c) (f q) ltac:(lra) Q1) as M0.
  assert (Za : f a = 0) by (apply (div_eq _ (D b c q)); lra).
  assert (Zb : f b = 0) by (apply (div_eq _ (D c a q)); lra).
  assert (Zc : f c = 0) by (apply (div_eq _ (D a b q)); lra).
  unfold f in Za, Zb, Zc. rewrite I_a in Za. rewrite I_b in Zb. rewrite I_c in Zc.
  split; [|split]; apply (div_eq _ (D a b c)); lra.
Qed.

Definition middle (a b c : pnt) : pnt := at_ ((X a + X b + X c) / 3) ((Y a + Y b + Y c) / 3).
Lemma middle_inside : forall a b c, 0 < D a b c -> inside_triangle a b c (middle a b c).
Proof.
  intros a b c Hp. assert (E1 : D a b (middle a b c) = D a b c / 3) by (unfold middle, area2; rewrite X_at, Y_at; field).
  assert (E2 : D b c (middle a b c) = D a b c / 3) by (unfold middle, area2; rewrite X_at, Y_at; field).
  assert (E3 : D c a (middle a b c) = D a b c / 3) by (unfold middle, area2; rewrite X_at, Y_at; field).
  unfold inside_triangle. rewrite E1, E2, E3. lra.
Qed.

(** Every circle of one is a circle of the other. *)
Lemma same_circles : forall S (tr tr' : mesh) a b c, delaunay S tr -> delaunay S tr' -> resolved S -> In (Tri a b c) (tris tr) -> vghost c = false ->
  exists a' b' c', In (Tri a' b' c') (tris tr') /\ vghost c' = false /\ In a' S /\ In b' S /\ In c' S /\ 0 < D a' b' c' /\
    I a' b' c' a = 0 /\ I a' b' c' b = 0 /\ I a' b' c' c = 0.
Proof.
  intros S tr tr' a b c HD HD' HR Hi Gc. destruct (solid_view S tr a b c HD HR Hi Gc) as (Ha & Hb & Hc & Hp). pose proof (middle_inside a b c Hp) as Hm.
  assert (Hl : ~ all_on_a_line S) by (intros Hl; specialize (Hl a b c Ha Hb Hc); lra).
  destruct (proj1 (tiles_hull S tr' (middle a b c) HD' HR Hl)) as (a' & b' & c' & Hi' & Gc' & Hm').
  { apply (in_triangle_hull S a b c); auto. destruct Hm as (H1 & H2 & H3). repeat split; lra. }
  destruct (solid_view S tr' a' b' c' HD' HR Hi' Gc') as (Ha' & Hb' & Hc' & Hp'). pose proof (resolved_dup S a HR Ha) as HR'.
  exists a', b', c'. repeat (split; [assumption|]).
  apply (same_power a b c a' b' c' (middle a b c)); auto; first [apply (I_none S tr a HD HR'); assumption|apply (I_none S tr' a HD' HR'); assumption].
Qed.

Lemma on_circle_corner : forall S a b c w, no_four_on_a_circle S -> In a S -> In b S -> In c S -> In w S -> 0 < D a b c -> I a b c w = 0 -> w = a \/ w = b \/ w = c.
Proof.
  intros S a b c w H4 Ha Hb Hc Hw Hp Hi. destruct (vdec w a); [auto|]. destruct (vdec w b); [auto|]. destruct (vdec w c); [auto|]. exfalso.
  destruct (D_neq _ _ _ Hp) as (m1 & m2 & m3). destruct (circumcenter_spec a b c) as [_ Hcc]. destruct Hcc as (o & _ & _ & H1 & H2 & _); [lra|].
  rewrite (incircle_power a b c w o H1 H2) in Hi. apply (H4 o a b c w); auto.
  - repeat constructor; cbn [In]; intuition congruence.
  - rewrite Rmult_comm in Hi. apply div_eq in Hi; lra.
Qed.

Lemma unique_solid : forall S (tr tr' : mesh) a b c, delaunay S tr -> delaunay S tr' -> resolved S -> no_four_on_a_circle S ->
  In (Tri a b c) (tris tr) -> vghost c = false -> exists u, In u (tris tr') /\ same_triangle (Tri a b c) u.
Proof.
  intros S tr tr' a b c HD HD' HR H4 Hi Gc. destruct (solid_view S tr a b c HD HR Hi Gc) as (Ha & Hb & Hc & Hp).
  destruct (same_circles S tr tr' a b c HD HD' HR Hi Gc) as (a' & b' & c' & Hi' & Gc' & Ha' & Hb' & Hc' & Hp' & I1 & I2 & I3).
  destruct (D_neq _ _ _ Hp) as (n1 & n2 & n3). exists (Tri a' b' c'). split; [exact Hi'|]. exists a, b, c. split; [reflexivity|].
  pose proof (on_circle_corner S a' b' c' a H4 Ha' Hb' Hc' Ha Hp' I1) as C1. pose proof (on_circle_corner S a' b' c' b H4 Ha' Hb' Hc' Hb Hp' I2) as C2.
  pose proof (on_circle_corner S a' b' c' c H4 Ha' Hb' Hc' Hc Hp' I3) as C3.
  destruct C1 as [-> | [-> | ->]], C2 as [-> | [-> | ->]], C3 as [-> | [-> | ->]]; try congruence; auto; exfalso;
    revert Hp Hp'; unfold area2; lra.
Qed.

Lemma unique : forall S (tr tr' : mesh), delaunay S tr -> delaunay S tr' -> resolved S -> no_four_on_a_circle S ->
  forall t, In t (tris tr) -> exists u, In u (tris tr') /\ same_triangle t u.
Proof.
  intros S tr tr' HD HD' HR H4 t Ht. pose proof (rs_plain _ HR) as P.
  destruct (dl_shape _ _ HD t Ht) as [(a & b & c & -> & Ha & Hb & Hc & Hp)|(a & b & -> & Ha & Hb & Hn)].
  { apply (unique_solid S tr tr'); auto. }
  exists (Tri a b gv). split; [|exists a, b, gv; auto].
  assert (Gab : a <> gv /\ b <> gv) by (split; intros ->; [specialize (P _ Ha)|specialize (P _ Hb)]; discriminate).
  destruct (dl_closed _ _ HD _ (a, b) Ht) as (u & Hu & Su); [constructor|]. cbn [flip fst snd] in Su.
  destruct (view S tr HD u b a Hu Su) as (_ & _ & _ & [(d & Hd1 & Hl & Hd2)| ->]); [tauto|tauto| |].
  - destruct (dl_shape _ _ HD u Hu) as [(x & y & z & -> & Hx & Hy & Hz & Hp)|(x & y & -> & Hx & Hy & Hxy)].
    2:{ exfalso. assert (d <> gv) by (intros ->; specialize (P _ Hd1); discriminate). destruct Hl as [E|[E|E]]; injection E; intros; destruct Gab; congruence. }
    destruct (unique_solid S tr tr' x y z HD HD' HR H4 Hu (P _ Hz)) as (u' & Hu' & x' & y' & z' & E & Hsame). injection E as <- <- <-.
    assert (Su' : side_of (b, a) u') by (destruct Hsame as [-> | [-> | ->]]; inversion Su; subst; constructor).
    destruct (dl_closed _ _ HD' u' (b, a) Hu' Su') as (w & Hw & Sw). cbn [flip fst snd] in Sw.
    destruct (view S tr' HD' w a b Hw Sw) as (_ & _ & _ & [(e & He1 & _ & He2)| ->]); [tauto|tauto| |exact Hw].
    exfalso. destruct (dl_hull _ _ HD a b Ht e He1). lra.
  - pose proof (dl_flat _ _ HD a b Ht Hu) as Hf.
    destruct (flat_or_solid S tr' HD' P) as [(u & _ & x & y & z & _ & Hx & Hy & Hz & Hp)|(x & y & G1 & G2 & Hx & Hy & Hxy & _)].
    + exfalso. destruct (D_neq _ _ _ Hp) as (n1 & n2 & n3). destruct (Hf x Hx), (Hf y Hy), (Hf z Hz); congruence.
    + destruct (Hf x Hx) as [-> | ->], (Hf y Hy) as [-> | ->]; try congruence; assumption.
Qed.
