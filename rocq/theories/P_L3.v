(** P_L3.v — a strictly convex polygon: its corners are in convex position, and
    triangulating it fills it. *)

From Coq Require Import Reals List ZArith Lra Lia Psatz Bool Permutation.
From Verif Require Import Base Arith Geometry Elements Polyline Procedures Refine Triangulator ArithR Spec SpecR SpecD SpecP SpecC SpecQ
  P_Base P_Trn P_Fuel P_R1 P_R4 P_D1 P_D2 P_D3 P_D4 P_D5 P_D7 P_D8 P_Region2 P_Fill2 P_D6 P_Polygon P_Polygon2 P_Polygon3 P_L2.
Import ListNotations.
Local Open Scope R_scope.

Section Convex.
  Variable l : list pnt.
  Hypothesis Hnd : NoDup l.
  Hypothesis Hplain : forall w, In w l -> vghost w = false.
  Hypothesis Hleft : forall a b w, In (a, b) (polygon_sides l) -> In w l -> w <> a -> w <> b -> 0 < area2 a b w.

  Lemma side_at : forall w, In w l -> exists u, In (w, u) (polygon_sides l) /\ (forall q, In q l -> 0 <= D w u q) /\
    (forall q, In q l -> D w u q = 0 -> q = w \/ q = u).
  Proof.
    intros w Hw. destruct (polygon_starts l w Hw) as ([w' u] & He & E). cbn in E. subst w'. exists u. split; [exact He|].
    assert (K : forall q, In q l -> q = w \/ q = u \/ 0 < D w u q).
    { intros q Hq. destruct (vdec q w) as [|N1]; [auto|]. destruct (vdec q u) as [|N2]; [auto|]. right. right. apply Hleft; assumption. }
    split; intros q Hq.
    - destruct (K q Hq) as [-> |[-> |P]]; rewrite ?D_ab_a, ?D_ab_b; lra.
    - intros E. destruct (K q Hq) as [-> |[-> |P]]; auto. lra.
  Qed.

  Lemma nothing_inside : forall a b c w, In a l -> In b l -> In c l -> In w l -> 0 < D a b w -> 0 < D b c w -> 0 < D c a w -> False.
  Proof.
    intros a b c w Ha Hb Hc Hw P1 P2 P3. destruct (side_at w Hw) as (u & _ & Hn & Hz). destruct (D_affine w u) as (al & be & ga & Hf).
    pose proof (affine_bary al be ga a b c w) as E. rewrite <- !Hf in E. rewrite D_ab_a, Rmult_0_r in E.
    pose proof (Hn a Ha) as A1. pose proof (Hn b Hb) as A2. pose proof (Hn c Hc) as A3.
    pose proof (mpp _ _ (Rlt_le _ _ P2) A1) as M1. pose proof (mpp _ _ (Rlt_le _ _ P3) A2) as M2. pose proof (mpp _ _ (Rlt_le _ _ P1) A3) as M3.
    assert (Z : forall x y, 0 < x -> x * y = 0 -> y = 0) by (intros x y Hx Hxy; apply Rmult_integral in Hxy; destruct Hxy; lra).
    destruct (pos_neq _ _ _ P1) as (N1 & N2 & N3). destruct (pos_neq _ _ _ P2) as (N4 & N5 & N6).
    destruct (Hz a Ha) as [-> |Ea]; [apply (Z (D b c w)); lra|congruence|].
    destruct (Hz b Hb) as [-> |Eb]; [apply (Z (D c a w)); lra|congruence|]. congruence.
  Qed.

  Lemma nothing_between : forall a b w, In a l -> In b l -> In w l -> strictly_between a b w -> False.
  Proof.
    intros a b w Ha Hb Hw Hs. destruct (side_at w Hw) as (u & _ & Hn & Hz).
    destruct (between_irrefl a b) as [B1 B2]. assert (Na : a <> w) by (intros ->; contradiction). assert (Nb : b <> w) by (intros ->; contradiction).
    assert (Nab : a <> b).
    { intros ->. destruct Hs as [_ Hs]. unfold dotp in Hs. pose proof (Rle_0_sqr (X b - X w)). pose proof (Rle_0_sqr (Y b - Y w)). unfold Rsqr in *. lra. }
    destruct (between_param a b w Hs) as (k & Hk & E1 & E2).
    assert (E : D w u w = (1 - k) * D w u a + k * D w u b) by (clear - E1 E2; unfold area2 in *; rewrite E1, E2; ring).
    rewrite D_ab_a in E. pose proof (Hn a Ha) as A1. pose proof (Hn b Hb) as A2.
    pose proof (mpp (1 - k) _ ltac:(lra) A1) as M1. pose proof (mpp k _ ltac:(lra) A2) as M2.
    assert (Z : forall x y, 0 < x -> x * y = 0 -> y = 0) by (intros x y Hx Hxy; apply Rmult_integral in Hxy; destruct Hxy; lra).
    destruct (Hz a Ha) as [-> |Ea]; [apply (Z (1 - k)); lra|congruence|].
    destruct (Hz b Hb) as [-> |Eb]; [apply (Z k); lra|congruence|]. congruence.
  Qed.

  Lemma no_three : forall a b c, In a l -> In b l -> In c l -> a <> b -> b <> c -> c <> a -> D a b c <> 0.
  Proof.
    intros a b c Ha Hb Hc N1 N2 N3 E.
    assert (K : forall x y z, In x l -> In y l -> In z l -> D x y z = 0 -> 0 <= dotp z x z y).
    { intros x y z Hx Hy Hz Exyz. destruct (Rle_dec 0 (dotp z x z y)) as [|Hl]; [assumption|]. exfalso. apply (nothing_between x y z Hx Hy Hz). split; [exact Exyz|lra]. }
    pose proof (K a b c Ha Hb Hc E) as K1. pose proof (K b c a Hb Hc Ha ltac:(rewrite D_rot; exact E)) as K2. pose proof (K c a b Hc Ha Hb ltac:(rewrite D_rot2; exact E)) as K3.
    pose proof (d2_pos a b (Hplain a Ha) (Hplain b Hb) N1) as P1. pose proof (d2_pos b c (Hplain b Hb) (Hplain c Hc) N2) as P2. pose proof (d2_pos c a (Hplain c Hc) (Hplain a Ha) N3) as P3.
    assert (Q1 : d2 a b * dotp c a c b = D a b c * D a b c - dotp a b a c * dotp b c b a) by (unfold d2, dotp, area2; ring).
    assert (Q2 : d2 b c * dotp a b a c = D a b c * D a b c - dotp b c b a * dotp c a c b) by (unfold d2, dotp, area2; ring).
    assert (Q3 : d2 c a * dotp b c b a = D a b c * D a b c - dotp c a c b * dotp a b a c) by (unfold d2, dotp, area2; ring).
    assert (S1 : dotp a b a c + dotp b c b a = d2 a b) by (unfold d2, dotp; ring).
    assert (K2' : 0 <= dotp a b a c) by exact K2. assert (K3' : 0 <= dotp b c b a) by exact K3.
    rewrite E in Q1, Q2, Q3. pose proof (mpp _ _ K2' K3') as M1. pose proof (mpp _ _ K3' K1) as M2. pose proof (mpp _ _ K1 K2') as M3.
    pose proof (mpp _ _ (Rlt_le _ _ P2) K2') as M4. pose proof (mpp _ _ (Rlt_le _ _ P3) K3') as M5.
    assert (Z : forall x y, 0 < x -> x * y = 0 -> y = 0) by (intros x y Hx Hxy; apply Rmult_integral in Hxy; destruct Hxy; lra).
    assert (Z1 : dotp a b a c = 0) by (apply (Z (d2 b c)); lra). assert (Z2 : dotp b c b a = 0) by (apply (Z (d2 c a)); lra). lra.
  Qed.

  Lemma polygon_position : convex_position l.
  Proof. split; [exact no_three|]. intros a b c w Ha Hb Hc Hw (P1 & P2 & P3). exact (nothing_inside a b c w Ha Hb Hc Hw P1 P2 P3). Qed.
End Convex.

(** ** Its area *)
Definition crs (a b : pnt) : R := X a * Y b - X b * Y a.
Lemma path_fan : forall (q : pnt) l x, total (map (fun s : edge ArithR => crs (fst s) (snd s) / 2) (path_sides (x :: l))) =
  total (map (fun s : edge ArithR => D q (fst s) (snd s) / 2) (path_sides (x :: l))) - (crs q x + crs (last l x) q) / 2.
Proof.
  intros q l. induction l as [|y l IH]; intros x; [cbn; unfold crs; lra|].
  change (path_sides (x :: y :: l)) with ((x, y) :: path_sides (y :: l)). cbn [map total fold_right fst snd].
  specialize (IH y). unfold total in IH. rewrite IH.
  assert (El : last (y :: l) x = last l y) by (clear; revert x y; induction l as [|z l IHl]; intros x y; [reflexivity|]; change (last (y :: z :: l) x) with (last (z :: l) x); rewrite (IHl x z); change (last (z :: l) y) with (last (z :: l) y); rewrite (IHl y z); reflexivity).
  rewrite El. assert (Ed : D q x y = crs q x + crs x y + crs y q) by (unfold area2, crs; ring). rewrite Ed. unfold crs. lra.
Qed.
Lemma polygon_fan : forall (q : pnt) l, shoelace (polygon_sides l) = total (map (fun s : edge ArithR => D q (fst s) (snd s) / 2) (polygon_sides l)).
Proof.
  intros q [|x l]; [reflexivity|]. unfold shoelace. change (polygon_sides (x :: l)) with (path_sides (x :: (l ++ [x]))).
  pose proof (path_fan q (l ++ [x]) x) as E. rewrite last_last in E. refine (eq_trans E _).
  assert (Z : crs q x + crs x q = 0) by (unfold crs; ring). rewrite Z. unfold Rdiv. rewrite Rmult_0_l. apply Rminus_0_r.
Qed.
Lemma total_nonneg : forall (l : list (edge ArithR)) f, (forall s, In s l -> 0 <= f s) -> 0 <= total (map f l).
Proof. intros l f Hf. induction l as [|s l IH]; cbn; [lra|]. pose proof (Hf s (or_introl eq_refl)). specialize (IH (fun x Hx => Hf x (or_intror Hx))). unfold total in IH. lra. Qed.
Lemma total_pos : forall (l : list (edge ArithR)) f s, (forall s, In s l -> 0 <= f s) -> In s l -> 0 < f s -> 0 < total (map f l).
Proof.
  intros l f s Hf Hs Hp. induction l as [|x l IH]; [destruct Hs|]. cbn. assert (Hf' : forall s, In s l -> 0 <= f s) by (intros y Hy; apply Hf; right; exact Hy).
  pose proof (total_nonneg l f Hf') as N. unfold total in *. destruct Hs as [-> |Hs]; [lra|]. specialize (IH Hf' Hs). pose proof (Hf x (or_introl eq_refl)). lra.
Qed.
Lemma convex_area : forall l, NoDup l -> (3 <= length l)%nat ->
  (forall a b w, In (a, b) (polygon_sides l) -> In w l -> w <> a -> w <> b -> 0 < area2 a b w) -> 0 < shoelace (polygon_sides l).
Proof.
  intros l Hnd Hl Hc. destruct l as [|x [|y [|z l]]]; cbn in Hl; try lia.
  rewrite (polygon_fan x). apply total_pos with (s := (y, z)).
  - intros [a b] Hs. cbn [fst snd]. assert (0 <= D a b x); [|pose proof (D_rot2 a b x); lra].
    destruct (vdec x a) as [<-|Na]; [rewrite D_ab_a; lra|]. destruct (vdec x b) as [<-|Nb]; [rewrite D_ab_b; lra|].
    apply Rlt_le, Hc; auto. left. reflexivity.
  - right. left. reflexivity.
  - cbn [fst snd]. assert (0 < D y z x); [|pose proof (D_rot2 y z x); lra]. inversion Hnd as [|? ? Hx _]; subst. apply Hc.
    + right. left. reflexivity.
    + left. reflexivity.
    + intros ->. apply Hx. left. reflexivity.
    + intros ->. apply Hx. right. left. reflexivity.
Qed.

(** ** Its triangulation *)
Lemma convex_triangulates : forall (H : HashOrder) p (t : triangulator ArithR) l, only_polygon t l -> NoDup l -> resolved l -> (3 <= length l)%nat ->
  (forall a b w, In (a, b) (polygon_sides l) -> In w l -> w <> a -> w <> b -> 0 < area2 a b w) ->
  exists n0 t', (forall fuel, (n0 <= fuel)%nat -> triangulate H fuel p t = Ok t') /\ fills l (t_trn t').
Proof.
  intros H p t l Ho Hnd HR Hl Hc. pose proof (convex_area l Hnd Hl Hc) as Ha.
  pose proof (polygon_position l (rs_plain _ HR) Hc) as HP.
  assert (El0 : exists a b rest, l = a :: b :: rest /\ rest <> []) by (destruct l as [|a [|b [|c l]]]; cbn in Hl; try lia; exists a, b, (c :: l); split; [reflexivity|discriminate]).
  destruct El0 as (a & b & rest & El0 & Hrest).
  assert (Nab : a <> b) by (rewrite El0 in Hnd; inversion Hnd as [|? ? Hx _]; intros ->; apply Hx; left; reflexivity).
  destruct (polygon_returns H p t _ a b rest Ho El0 Nab HR) as (n0 & t' & Hr). exists n0, t'. split; [exact Hr|].
  destruct (polygon_stages H n0 p t t' _ Ho (Hr n0 (Nat.le_refl _))) as (v1 & v2 & rest' & tr1 & inc & del & f1 & p1 & El & Hi & Hso & Hiff).
  rewrite El0 in El. injection El as <- <- <-.
  assert (Hii : forall w, In w (l ++ [a; b]) <-> In w l).
  { intros w. rewrite in_app_iff, El0. cbn [In]. tauto. }
  destruct (include_convex H p1 a b l Nab Hnd) as (n1 & tr2 & inc2 & del2 & Hrun & HD).
  { apply (resolved_incl l); [exact HR|]. intros w Hw. apply Hii, Hw. }
  { apply (convex_incl l); [exact HP|]. intros w Hw. apply Hii, Hw. }
  pose proof (ok_agree _ (fun n => vertices_include H n p1 (from_initial_segment a b) l [] None []) (fun n n' L => vertices_include_mono H _ _ L _ _ _ _ _ _) n1 _ Hrun f1 _ Hi) as E.
  injection E as -> -> ->. apply (delaunay_incl _ l _) in HD; [|exact Hii].
  apply (stage_fills l l tr2); auto; try tauto.
  - intros x y Hxy. apply hull_free. intros w Hw. apply Hc; assumption.
  - destruct (flat_or_solid _ tr2 HD (rs_plain _ HR)) as [Hs|(x & y & _ & _ & _ & _ & _ & Hall)]; [exact Hs|]. exfalso.
    destruct rest as [|c rest]; [congruence|]. rewrite El0 in Hall, Hnd.
    pose proof (Hall a ltac:(cbn; auto)) as H1. pose proof (Hall b ltac:(cbn; auto)) as H2. pose proof (Hall c ltac:(cbn; auto)) as H3.
    inversion Hnd as [|? ? Q1 Hnd1]; subst. inversion Hnd1 as [|? ? Q2 _]; subst. cbn [In] in Q1, Q2. clear -H1 H2 H3 Q1 Q2.
    assert (a <> b /\ a <> c /\ b <> c) by (repeat split; intros ->; tauto). destruct H1, H2, H3; intuition congruence.
  - apply Hiff, (dl_complete _ _ HD).
Qed.

Lemma fills_corners : forall l (tr : mesh), fills l tr -> forall w, In w l -> exists u, solid_in tr u /\ corner_of w u.
Proof.
  intros l tr HF w Hw. destruct (polygon_starts l w Hw) as (e & He & <-). destruct (fl_border _ _ HF e He) as (u & Hu & Su). exists u. split; [exact Hu|apply side_corner1, Su].
Qed.
