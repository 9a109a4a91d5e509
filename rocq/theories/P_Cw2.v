(** P_Cw2.v — a convex polygon given clockwise: no triangle is left. *)

From Coq Require Import Reals List ZArith Lra Lia Psatz Bool Permutation ClassicalDedekindReals.
From Verif Require Import Base Arith Geometry Elements Polyline Procedures Refine Triangulator Interface ArithR Spec SpecR SpecD SpecP SpecC SpecE SpecQ SpecM SpecK SpecN
  P_Base P_Fuel P_Trn P_Vertices P_Flood P_Contains P_R1 P_R5 P_D1 P_D2 P_D3 P_D4 P_D5 P_D6 P_D7 P_D8 P_RX P_Fill P_Fill2 P_Slide P_Region P_Region2 P_Region3 P_C3 P_Polygon P_Polygon2 P_Polygon3 P_J1 P_K7 P_E4 P_L2 P_L3 P_Cw1.
Import ListNotations.
Local Open Scope R_scope.

Section Emptied.
  Variables (h : list pnt) (tr tr' : mesh).
  Hypothesis Hnd : NoDup h.
  Hypothesis HR : resolved h.
  Hypothesis Hl : (3 <= length h)%nat.
  Hypothesis Hc : forall a b w, In (a, b) (polygon_sides h) -> In w h -> w <> a -> w <> b -> 0 < area2 a b w.
  Hypothesis HD : delaunay h tr.
  Hypothesis Hsolid : exists t, In t (tris tr) /\ solid_over h t.
  Hypothesis HH : hollowed h tr tr'.

  Lemma cc_free : forall a b, In (a, b) (polygon_sides h) -> free_side h a b.
  Proof. intros a b Hab. apply hull_free. intros w Hw. apply Hc; assumption. Qed.
  Lemma cc_left : forall a b w, In (a, b) (polygon_sides h) -> In w h -> 0 <= D a b w.
  Proof.
    intros a b w Hab Hw. destruct (vdec w a) as [->|N1]; [rewrite D_ab_a; lra|]. destruct (vdec w b) as [->|N2]; [rewrite D_ab_b; lra|]. apply Rlt_le, Hc; assumption.
  Qed.
  Lemma cc_medge : forall a b, In (a, b) (polygon_sides h) -> medge h tr a b.
  Proof. apply (cw_medge h tr h HD HR Hsolid Hnd); [tauto|apply convex_area; assumption|exact cc_free]. Qed.

  Lemma none_solid : forall t, ~ solid_in tr' t.
  Proof.
    intros t Ht. pose proof (hw_old _ _ _ HH t Ht) as [Ho G].
    destruct (old_solid h tr HD HR t Ho G) as (a & b & c & -> & Ha & Hb & Hcc & Hp & _).
    assert (Hi : inside_triangle a b c (P_Region3.mid (Tri a b c))) by (apply mid_inside, Hp).
    pose proof (proj1 (hw_solid _ _ _ HH a b c _ (conj Ho G) Hi) (proj1 Ht)) as E. revert E.
    apply inner_winding; [intros ->; destruct Ha|]. intros x y Hxy. rewrite P_Region3.mid_D.
    pose proof (cc_left x y a Hxy Ha) as Q1. pose proof (cc_left x y b Hxy Hb) as Q2. pose proof (cc_left x y c Hxy Hcc) as Q3.
    assert (0 < D x y a \/ 0 < D x y b \/ 0 < D x y c); [|lra].
    assert (N : a <> b /\ b <> c /\ c <> a).
    { repeat split; intros ->; unfold area2 in Hp; lra. }
    assert (K : forall w, In w h -> 0 < D x y w \/ w = x \/ w = y) by (intros w Hw; destruct (vdec w x); [auto|]; destruct (vdec w y); [auto|]; left; apply Hc; assumption).
    destruct (K a Ha) as [?|[E1|E1]]; [auto| |]; (destruct (K b Hb) as [?|[E2|E2]]; [auto| |]); (destruct (K c Hcc) as [?|[E3|E3]]; [auto| |]); exfalso; destruct N as (N1 & N2 & N3); congruence.
  Qed.

  Lemma old_face : forall a b, In (Tri a b ghost_vertex) (tris tr) <-> In (b, a) (polygon_sides h).
  Proof.
    intros a b. split.
    - intros Ht. destruct (dl_shape _ _ HD _ Ht) as [(x & y & z & E & _ & _ & Hz & _)|(x & y & E & Ha & Hb & Hn)].
      + injection E as <- <- <-. pose proof (rs_plain _ HR _ Hz) as G. discriminate G.
      + injection E as <- <-. destruct (polygon_starts h b Hb) as ([b' c] & Hs & E). cbn [fst] in E. subst b'.
        destruct (vdec a c) as [<-|N]; [exact Hs|exfalso]. destruct (polygon_ends h _ Hs) as [_ Hcc]. cbn [snd] in Hcc.
        pose proof (Hc b c a Hs Ha Hn N) as P0. destruct (dl_hull _ _ HD a b Ht c Hcc) as [P1 _].
        assert (area2 b c a = area2 a b c) by (unfold area2; ring). lra.
    - intros Hs. destruct (cc_medge b a Hs) as (u & Hu & Su & Hb & Ha). destruct (dl_closed _ _ HD u (b, a) Hu Su) as (t & Ht & St). cbn [flip] in St.
      destruct (side_looks t a b St) as (c & Lc).
      destruct (dl_shape _ _ HD t Ht) as [(x & y & z & -> & Hx & Hy & Hz & Hp)|(x & y & -> & Hx & Hy & Hn)].
      + exfalso. assert (In c h /\ 0 < D a b c) as [Hcc Hp'].
        { destruct Lc as [E|[E|E]]; injection E as -> -> ->; (split; [assumption|]); revert Hp; unfold area2; intros; lra. }
        pose proof (cc_left b a c Hs Hcc) as Q. unfold area2 in Q, Hp'. lra.
      + destruct Lc as [E|[E|E]]; injection E as E1 E2 E3; subst; [exact Ht| |]; exfalso.
        * pose proof (rs_plain _ HR _ Ha) as G. discriminate G.
        * pose proof (rs_plain _ HR _ Hb) as G. discriminate G.
  Qed.

  Lemma all_emptied : emptied h tr'.
  Proof.
    intros t. destruct (is_ghost t) eqn:G.
    - rewrite (hw_faces _ _ _ HH t G). split.
      + intros [Ht|([a b] & Hs & ->)].
        * destruct (dl_shape _ _ HD t Ht) as [(a & b & c & -> & Ha & Hb & Hcc & _)|(a & b & -> & _)].
          -- unfold is_ghost in G. cbn [tv1 tv2 tv3] in G. rewrite (rs_plain _ HR a Ha), (rs_plain _ HR b Hb), (rs_plain _ HR c Hcc) in G. discriminate G.
          -- exists a, b. split; [right; apply old_face, Ht|reflexivity].
        * exists a, b. split; [left; exact Hs|reflexivity].
      + intros (a & b & [Hs|Hs] & ->); [right; exists (a, b); auto|left; apply old_face, Hs].
    - split.
      + intros Ht. exfalso. exact (none_solid t (conj Ht G)).
      + intros (a & b & _ & ->). exfalso. unfold is_ghost in G. cbn in G. rewrite !orb_true_r in G. discriminate G.
  Qed.
End Emptied.

Lemma clockwise_triangulates : forall (H : HashOrder) p (t : triangulator ArithR) h, only_polygon t (rev h) -> NoDup h -> resolved h -> (3 <= length h)%nat ->
  (forall a b w, In (a, b) (polygon_sides h) -> In w h -> w <> a -> w <> b -> 0 < area2 a b w) ->
  exists n0 t', (forall fuel, (n0 <= fuel)%nat -> triangulate H fuel p t = Ok t') /\ emptied h (t_trn t').
Proof.
  intros H p t h Ho Hnd HR Hl Hc. pose proof (convex_area h Hnd Hl Hc) as Ha.
  pose proof (polygon_position h (rs_plain _ HR) Hc) as HP.
  assert (Hrl : forall w, In w (rev h) <-> In w h) by (intros w; symmetry; apply in_rev).
  assert (Hrn : NoDup (rev h)) by (apply NoDup_rev, Hnd).
  assert (HRr : resolved (rev h)) by (apply (resolved_incl h); [exact HR|intros w Hw; apply Hrl, Hw]).
  assert (El0 : exists a b rest, rev h = a :: b :: rest /\ rest <> []).
  { pose proof (rev_length h) as E. destruct (rev h) as [|a [|b [|c l]]]; cbn in E; try lia. exists a, b, (c :: l). split; [reflexivity|discriminate]. }
  destruct El0 as (a & b & rest & El0 & Hrest).
  assert (Nab : a <> b) by (rewrite El0 in Hrn; inversion Hrn as [|? ? Hx _]; intros ->; apply Hx; left; reflexivity).
  destruct (polygon_returns H p t _ a b rest Ho El0 Nab HRr) as (n0 & t' & Hr). exists n0, t'. split; [exact Hr|].
  destruct (polygon_stages H n0 p t t' _ Ho (Hr n0 (Nat.le_refl _))) as (v1 & v2 & rest' & tr1 & inc & del & f1 & p1 & El & Hi & Hso & Hiff).
  rewrite El0 in El. injection El as <- <- <-.
  assert (Hii : forall w, In w (rev h ++ [a; b]) <-> In w h).
  { intros w. rewrite in_app_iff, <- Hrl, El0. cbn [In]. tauto. }
  destruct (include_convex H p1 a b (rev h) Nab Hrn) as (n1 & tr2 & inc2 & del2 & Hrun & HD).
  { apply (resolved_incl h); [exact HR|]. intros w Hw. apply Hii, Hw. }
  { apply (convex_incl h); [exact HP|]. intros w Hw. apply Hii, Hw. }
  pose proof (ok_agree _ (fun n => vertices_include H n p1 (from_initial_segment a b) (rev h) [] None []) (fun n n' L => vertices_include_mono H _ _ L _ _ _ _ _ _) n1 _ Hrun f1 _ Hi) as E.
  injection E as -> -> ->. apply (delaunay_incl _ h _) in HD; [|exact Hii].
  assert (Hs : exists x, In x (tris tr2) /\ solid_over h x).
  { destruct (flat_or_solid _ tr2 HD (rs_plain _ HR)) as [Hs|(x & y & _ & _ & _ & _ & _ & Hall)]; [exact Hs|]. exfalso.
    destruct rest as [|c rest]; [congruence|]. rewrite El0 in Hrn.
    assert (Hm : forall w, In w (a :: b :: c :: rest) -> w = x \/ w = y) by (intros w Hw; apply Hall; rewrite <- El0 in Hw; apply Hrl, Hw).
    pose proof (Hm a ltac:(cbn; auto)) as H1. pose proof (Hm b ltac:(cbn; auto)) as H2. pose proof (Hm c ltac:(cbn; auto)) as H3.
    inversion Hrn as [|? ? Q1 Hnd1]; subst. inversion Hnd1 as [|? ? Q2 _]; subst. cbn [In] in Q1, Q2. clear -H1 H2 H3 Q1 Q2.
    assert (a <> b /\ a <> c /\ b <> c) by (repeat split; intros ->; tauto). destruct H1, H2, H3; intuition congruence. }
  apply (all_emptied h tr2); auto.
  apply (stage_hollow h tr2 (t_trn t') h HD HR Hs Hnd); auto.
  - intros x y Hxy. apply hull_free. intros w Hw. apply Hc; assumption.
  - apply Hiff, (dl_complete _ _ HD).
Qed.

Lemma emptied_points : forall h (tr : mesh), emptied h tr -> (forall w, In w h -> vghost w = false) -> forall w, In w (trn_vertices tr) <-> In w h.
Proof.
  intros h tr HE Hp w. rewrite trn_vertices_In. split.
  - intros [G (t & Ht & Hw)]. apply HE in Ht. destruct Ht as (a & b & Hs & ->).
    assert (In a h /\ In b h) as [Ha Hb] by (destruct Hs as [Hs|Hs]; apply polygon_ends in Hs; cbn [fst snd] in Hs; tauto).
    inversion Hw; subst; try assumption. discriminate G.
  - intros Hw. split; [apply Hp, Hw|]. destruct (polygon_starts h w Hw) as ([a b] & Hs & E). cbn [fst] in E. subst a.
    exists (Tri w b ghost_vertex). split; [apply HE; exists w, b; auto|constructor].
Qed.
