(** P_C8.v — triangulating a convex polygon with free vertices in it. *)

From Coq Require Import Reals List ZArith Lra Lia Psatz Bool Permutation.
From Verif Require Import Base Arith Geometry Elements Polyline Procedures Triangulator ArithR Spec SpecR SpecD SpecP SpecC
  P_Base P_Trn P_Fuel P_Poly P_Vertices P_Flood P_R1 P_R2 P_R3 P_R5 P_R6 P_RX P_D1 P_D2 P_D3 P_D4 P_D5 P_D6 P_D7 P_D8 P_Fill P_Fill2 P_Region P_Region2 P_Contains P_Slide P_Polygon P_Polygon2 P_Polygon3 P_Zone P_Checks P_C1 P_C2 P_C3 P_C4 P_C5 P_C6 P_C7.
Import ListNotations.
Local Open Scope R_scope.

Section ConvexBatch.
  Variables (l vs : list pnt) (tr0 : mesh).
  Hypothesis HF : fills l tr0.
  Hypothesis Hl : l <> [].
  Hypothesis Hcorner : forall a b w, In (a, b) (polygon_sides l) -> In w l -> w <> a -> w <> b -> spread 3 a b w.
  Hypothesis Hinner : forall a b w, In (a, b) (polygon_sides l) -> In w vs -> spread 3 a b w.
  Hypothesis HR : resolved (vs ++ l).
  Let K := polygon_sides l.

  Lemma spread_less : forall m a b w, 1 <= m -> spread m a b w -> spread 1 a b w.
  Proof.
    intros m a b w Hm Hs. unfold spread in *. pose proof eps_pos. pose proof (Rabs_pos (X b - X a)). pose proof (Rabs_pos (Y b - Y a)).
    assert (Q := mpp eps (Rabs (X b - X a) + Rabs (Y b - Y a))). assert (Q' := mpp (m - 1) (eps * (Rabs (X b - X a) + Rabs (Y b - Y a)))). lra.
  Qed.
  Lemma corner1 : forall a b w, In (a, b) (polygon_sides l) -> In w l -> w <> a -> w <> b -> spread 1 a b w.
  Proof. intros a b w Hab Hw N1 N2. apply (spread_less 3); [lra|]. apply Hcorner; assumption. Qed.
  Lemma inner_well : forall w, In w vs -> well_in l w.
  Proof. intros w Hw a b Hab. apply (spread_less 3); [lra|]. apply Hinner; assumption. Qed.
  Lemma inner_pos : forall w, In w vs -> forall a b, In (a, b) (polygon_sides l) -> 0 < D a b w.
  Proof. intros w Hw a b Hab. apply (spread_pos 3); [lra|]. apply Hinner; assumption. Qed.
  Definition used (w : pnt) : Prop := In w l \/ In w vs.
  Lemma used_side : forall x y w, In (x, y) (polygon_sides l) -> used w -> D x y w = 0 /\ (w = x \/ w = y) \/ 3 * eps * (Rabs (X y - X x) + Rabs (Y y - Y x)) < D x y w.
  Proof.
    intros x y w Hxy [Hw|Hw]; [|right; apply Hinner; assumption]. destruct (vdec w x) as [->|N1]; [left; rewrite D_ab_a; auto|]. destruct (vdec w y) as [->|N2]; [left; rewrite D_ab_b; auto|].
    right. apply Hcorner; assumption.
  Qed.
  Lemma used_centroid : forall a b c, used a -> used b -> used c -> 0 < D a b c -> well_in l (centroid a b c).
  Proof.
    intros a b c Ha Hb Hc P x y Hxy. unfold spread. rewrite centroid_D. set (m := Rabs (X y - X x) + Rabs (Y y - Y x)).
    assert (Hm : 0 <= eps * m).
    { pose proof eps_pos. apply mpp; [lra|]. unfold m. pose proof (Rabs_pos (X y - X x)). pose proof (Rabs_pos (Y y - Y x)). lra. }
    destruct (used_side x y a Hxy Ha) as [[E1 Q1]|P1]; destruct (used_side x y b Hxy Hb) as [[E2 Q2]|P2]; destruct (used_side x y c Hxy Hc) as [[E3 Q3]|P3]; try fold m in P1; try fold m in P2; try fold m in P3; try lra.
    exfalso. destruct Q1 as [-> | ->]; destruct Q2 as [-> | ->]; destruct Q3 as [-> | ->]; rewrite ?D_ab_a, ?D_ab_b in P; try lra.
    all: unfold area2 in P; lra.
  Qed.

  Definition kept_outer (S : list pnt) (tr : mesh) : Prop := (forall x, In x S -> used x) /\ forall a b, In (Tri a b gv) (tris tr) -> In (b, a) (polygon_sides l).

  Lemma used_plain : forall w, used w -> vghost w = false.
  Proof. intros w [Hw|Hw]; apply (rs_plain _ HR), in_or_app; auto. Qed.

  Lemma convex_batch : forall (H : HashOrder) p, NoDup vs -> constrained_delaunay l K tr0 ->
    exists n0 tr' inc del ins dropped, (forall fuel, (n0 <= fuel)%nat -> vertices_include H fuel p tr0 vs K (Some (Poly l false)) [] = Ok (tr', inc, del)) /\
      constrained_delaunay (ins ++ l) K tr' /\ kept_outer (ins ++ l) tr' /\ Permutation vs (ins ++ dropped) /\ (forall q, in_region tr0 q <-> in_region tr' q) /\ (vs <> [] -> ins <> []).
  Proof.
    intros H p Hnd HC0.
    assert (Hno : forall w, In w vs -> ~ In w l).
    { intros w Hw Hi. destruct (polygon_starts l w Hi) as ([a b] & Hab & E). cbn in E. subst a. pose proof (inner_pos w Hw w b Hab) as P. rewrite D_ab_a in P. lra. }
    destruct (include_constrained H K (Some (Poly l false)) [] (length l + 4) (fun w => In w vs) kept_outer) with (p := p) (S := l) (tr := tr0) (vs := vs)
      as (n0 & tr' & inc & del & ins & dropped & Hrun & HC' & HP' & Hperm & Hreg & Hne); auto.
    - intros w Hw. apply convex_off, inner_pos, Hw.
    - intros S tr w u fuel p' HC [HS HG] Hw Hn HRw Hu Hfu. exists true. split; [|reflexivity].
      destruct (cd_shape _ _ _ HC u Hu) as [(a & b & c & -> & Ha & Hb & Hc & Hp)|(a & b & -> & _)].
      + apply (solid_line l tr0); auto using corner1, used_plain, inner_well; [apply used_centroid; auto|lia].
      + apply (outer_line l tr0); auto using corner1, inner_well.
    - intros S tr w u HC [HS HG] Hw Hn HRw Hu He _. apply (unscreened_zone S K tr w HC HRw); auto. intros t Ht Het.
      destruct (cd_shape _ _ _ HC t Ht) as [(a & b & c & -> & Ha & Hb & Hc & Hp)|(a & b & -> & _)].
      + exists a, b, c, (centroid a b c). split; [reflexivity|]. split; [apply used_plain, HS, Hc|]. pose proof (centroid_inside a b c Hp) as Hq.
        split; [destruct Hq as (Q1 & Q2 & Q3); repeat split; apply Rlt_le; assumption|]. apply convex_sees; [|apply inner_pos, Hw].
        intros x y Hxy. apply (spread_pos 1); [lra|]. apply used_centroid; auto.
      + exfalso. rewrite ghost_encircles in Het. destruct (orientation a b w) eqn:E; try discriminate. apply orientation_spec in E. pose proof eps_pos.
        pose proof (inner_pos w Hw b a (HG a b Ht)) as P. rewrite (D_swap a b w) in P. lra.
    - intros S tr v fuel p' a b ws HC [HS HG] Hv Hn Hfu Ha Hb Hp Hws.
      destruct (split_total H (Some (Poly l false)) [] fuel (Tri a b v) ws p') as (conf & rest & E & _); [|eauto].
      intros w p'' Hw. exists true. apply (solid_line l tr0 HF Hl corner1); [apply used_plain; auto|apply used_plain; auto|apply used_plain; right; exact Hv|apply used_centroid; auto; right; exact Hv|apply inner_well, Hws, Hw|lia].
    - intros S tr w tr' HC [HS HG] Hw Hn HC' Hreg Hx. split.
      + intros x [<-|Hi]; [right; exact Hw|apply HS, Hi].
      + intros a b Ht. apply Hx in Ht. destruct Ht as [[Ht _]|(a' & b' & _ & E)]; [apply HG, Ht|]. injection E as _ _ <-.
        pose proof (used_plain ghost_vertex (or_intror Hw)) as G. discriminate G.
    - split; [intros x Hx; left; exact Hx|]. intros a b Ht. destruct (proj1 (fl_outer _ _ HF (Tri a b gv))) as ([x y] & Hxy & E).
      + split; [exact Ht|]. unfold is_ghost. cbn. rewrite !orb_true_r. reflexivity.
      + cbn [fst snd] in E. injection E as -> ->. exact Hxy.
    - exists n0, tr', inc, del, ins, dropped. split; [exact Hrun|]. split; [exact HC'|]. split; [exact HP'|]. split; [|split; [exact Hreg|]].
      + rewrite <- Hperm. assert (E : filter (fun v => negb (hmem vdec v (trn_vertices tr0))) vs = vs); [|rewrite E; reflexivity].
        assert (G : forall ws, (forall w, In w ws -> In w vs) -> filter (fun v => negb (hmem vdec v (trn_vertices tr0))) ws = ws).
        { induction ws as [|w ws IH]; intros Hi; [reflexivity|]. cbn [filter]. destruct (hmem vdec w (trn_vertices tr0)) eqn:Em.
          - exfalso. apply hmem_In in Em. apply (Hno w (Hi w (or_introl eq_refl))). apply (cd_points l K tr0 HC0); [|exact Em]. intros x Hx. apply used_plain. left. exact Hx.
          - cbn [negb]. rewrite IH; [reflexivity|]. intros x Hx. apply Hi. right. exact Hx. }
        apply G. auto.
      + intros Hvs. destruct vs as [|w ws] eqn:Ev; [congruence|]. rewrite <- Ev in *. assert (Hw : In w vs) by (rewrite Ev; left; reflexivity). apply Hne.
        assert (HRw : resolved (w :: l)) by (apply (resolved_incl (vs ++ l)); [exact HR|]; intros x [<-|Hx]; apply in_or_app; auto).
        assert (Hcv : convex l) by (apply spread_convex, corner1).
        destruct (region_hit l K tr0 w HC0 HRw (Hno w Hw)) as (a & b & c & Ht & He & _); [apply (convex_region l tr0 w Hl HF Hcv); apply inner_pos, Hw|].
        exists (Tri a b c), w. split; [exact Hw|]. split; [apply Hno, Hw|]. split; [exact He|].
        apply (unscreened_zone l K tr0 w HC0 HRw); [|exact (proj1 Ht)|exact He]. apply convex_unscreened; auto. apply inner_pos, Hw.
  Qed.
End ConvexBatch.

(** ** Whole runs *)
Lemma polygon_then : forall (H : HashOrder) n p (t0 t0' t : triangulator ArithR) l vs, only_polygon t0 l -> NoDup l -> triangulate H n p t0 = Ok t0' -> polygon_with t l vs ->
  forall fuel tr' inc del, (n <= fuel)%nat ->
    vertices_include H fuel (6%nat :: p) (t_trn t0') (ho H (7%nat :: p) _ vs) (polygon_sides l) (Some (Poly l false)) [] = Ok (tr', inc, del) ->
    triangulate H fuel p t = Ok (with_triangulation t tr').
Proof.
  intros H n p t0 t0' t l vs [Eb Eh Es Ev] Hnd Hr [Eb' Eh' Es' Ev'] fuel tr' inc del Hfu Hin. unfold triangulate in *.
  rewrite Eb, Eh, Es, Ev in Hr. rewrite Eb', Eh', Es', Ev'. cbn [pverts] in *.
  destruct l as [|v1 [|v2 rest]]; [discriminate|discriminate|]. cbn [nth_error unwrap bind] in *. cbn zeta in *. set (l := v1 :: v2 :: rest) in *.
  apply bind_ok in Hr. destruct Hr as (tr1' & Hb & Hr). apply bind_ok in Hr. destruct Hr as (bes & Hbe & Hr).
  rewrite !ho_nil in *. cbn [include_holes include_segments bind] in *.
  apply bind_ok in Hr. destruct Hr as ([[tr4 inc4] del4] & Hv & E). injection E as <-. cbn [t_trn with_triangulation] in *.
  assert (E4 : tr4 = tr1').
  { pose proof (vertices_include_mono H n (Datatypes.S n) ltac:(lia) (6%nat :: p) tr1' [] (hset edec bes) (Some (Poly l false)) []) as M.
    pose proof (rle_ok _ _ _ _ M Hv) as Hv'. rewrite include_present in Hv'; [injection Hv' as -> _ _; reflexivity|lia|intros v []]. }
  subst tr4. rewrite polygon_edges in Hbe by discriminate. injection Hbe as <-.
  rewrite (rle_ok _ _ _ _ (boundary_include_mono H n fuel Hfu (1%nat :: p) (from_initial_segment v1 v2) (Poly l false) []) Hb). cbn [bind].
  rewrite polygon_edges by discriminate. cbn [bind]. rewrite hset_NoDup_id by (apply polygon_NoDup, Hnd). rewrite Hin. reflexivity.
Qed.

Lemma fills_region : forall l (tr : mesh), l <> [] -> fills l tr -> forall q, in_region tr q <-> winding q (polygon_sides l) = 1%Z \/ on_polygon l q.
Proof.
  intros l tr Hl HF q. split.
  - intros (a & b & c & Ht & Hi). exact (fl_within _ _ HF a b c q Ht Hi).
  - intros [W|(s & Hs & Hq)].
    + destruct (fl_covers _ _ HF q W) as (a & b & c & Ht & Hi). exists a, b, c. auto.
    + destruct s as [x y]. cbn [fst snd] in *. destruct (fl_border _ _ HF _ Hs) as (u & Hu & Su). destruct u as [a b c]. exists a, b, c. split; [exact Hu|].
      destruct (fl_shape _ _ HF a b c Hu) as (_ & _ & _ & P & _). pose proof (D_rot a b c) as R1. pose proof (D_rot2 a b c) as R2.
      assert (Z : D a b a = 0 /\ D a b b = 0 /\ D b c b = 0 /\ D b c c = 0 /\ D c a c = 0 /\ D c a a = 0) by (rewrite !D_ab_a, !D_ab_b; auto 6).
      destruct Z as (Z1 & Z2 & Z3 & Z4 & Z5 & Z6).
      assert (Q : forall a' b', exists t, 0 <= t <= 1 /\ D a' b' q = (1 - t) * D a' b' x + t * D a' b' y) by (intros a' b'; apply segment_D, Hq).
      destruct (Q a b) as (t1 & T1 & E1). destruct (Q b c) as (t2 & T2 & E2). destruct (Q c a) as (t3 & T3 & E3).
      assert (M : forall t k k', 0 <= t <= 1 -> 0 <= k -> 0 <= k' -> 0 <= (1 - t) * k + t * k').
      { intros t k k' Ht Hk Hk'. assert (M1 := mpp (1 - t) k). assert (M2 := mpp t k'). lra. }
      unfold in_triangle. rewrite E1, E2, E3. inversion Su; subst; repeat split; apply M; lra.
Qed.

Lemma convex_triangulated : forall (H : HashOrder) n p (t0 t0' t : triangulator ArithR) l vs, only_polygon t0 l -> triangulate H n p t0 = Ok t0' -> polygon_with t l vs ->
  NoDup l -> NoDup vs -> resolved (vs ++ l) -> 0 < shoelace (polygon_sides l) ->
  (forall a b w, In (a, b) (polygon_sides l) -> In w l -> w <> a -> w <> b -> spread 3 a b w) -> (forall a b w, In (a, b) (polygon_sides l) -> In w vs -> spread 3 a b w) ->
  (forall w, In w l -> exists u, solid_in (t_trn t0') u /\ corner_of w u) ->
  exists n0 t' ins dropped, (forall fuel, (n0 <= fuel)%nat -> triangulate H fuel p t = Ok t') /\
    constrained_delaunay (ins ++ l) (polygon_sides l) (t_trn t') /\ Permutation vs (ins ++ dropped) /\ (vs <> [] -> ins <> []) /\
    (forall q, in_region (t_trn t') q <-> winding q (polygon_sides l) = 1%Z \/ on_polygon l q).
Proof.
  intros H n p t0 t0' t l vs Ho Hr Hw Hnd Hndv HR Ha Hc Hi Hu.
  assert (Hl : l <> []).
  { intros ->. destruct Ho as [Eb _ _ _]. unfold triangulate in Hr. rewrite Eb in Hr. discriminate. }
  assert (HRl : resolved l) by (apply (resolved_incl (vs ++ l)); [exact HR|]; intros x Hx; apply in_or_app; auto).
  assert (Hcv : forall a b w, In (a, b) (polygon_sides l) -> In w l -> w <> a -> w <> b -> 0 < area2 a b w).
  { intros a b w Hab Hx N1 N2. apply (spread_pos 3); [lra|]. apply Hc; assumption. }
  assert (HF : fills l (t_trn t0')) by (apply (convex_filled H n p t0 t0' l); assumption).
  pose proof (polygon_constrained H n p t0 t0' l Ho Hnd HRl Hr HF) as HC.
  set (vs' := ho H (7%nat :: p) _ vs). assert (Pv : Permutation vs' vs) by (apply Permutation_sym, ho_perm).
  destruct (convex_batch l vs' (t_trn t0') HF Hl Hc) with (H := H) (p := (6%nat :: p)) as (n0 & tr' & inc & del & ins & dropped & Hrun & HC' & _ & Hperm & Hreg & Hne).
  - intros a b w Hab Hx. apply Hi; [exact Hab|]. apply (Permutation_in _ Pv), Hx.
  - apply (resolved_incl (vs ++ l)); [exact HR|]. intros x Hx. apply in_app_or in Hx. apply in_or_app. destruct Hx as [Hx|Hx]; [left; apply (Permutation_in _ Pv), Hx|auto].
  - apply (Permutation_NoDup (Permutation_sym Pv)), Hndv.
  - exact HC.
  - exists (n + n0)%nat, (with_triangulation t tr'), ins, dropped. split; [|split; [exact HC'|split; [|split]]].
    + intros fuel Hfu. apply (polygon_then H n p t0 t0' t l vs Ho Hnd Hr Hw fuel tr' inc del); [lia|]. apply Hrun. lia.
    + rewrite <- Hperm. symmetry. exact Pv.
    + intros Hvs. apply Hne. intros E. apply Hvs. rewrite E in Pv. apply Permutation_nil in Pv. exact Pv.
    + intros q. cbn [t_trn with_triangulation]. rewrite <- Hreg. apply fills_region; assumption.
Qed.

(** ** Integer coordinates *)
Lemma eps_bound : 3 * eps * 10000000000000 < 1.
Proof. unfold eps. cbv [Z.pow Z.pow_pos Pos.iter Z.mul Pos.mul]. lra. Qed.
Lemma spread_grid : forall a b w, grid [a; b; w] -> Rabs (X b - X a) + Rabs (Y b - Y a) <= 10000000000000 -> 0 < area2 a b w -> spread 3 a b w.
Proof.
  intros a b w G Hd Hp. unfold spread.
  destruct (G a) as (_ & xa & ya & Ea & Fa); [cbn; auto|]. destruct (G b) as (_ & xb & yb & Eb & Fb); [cbn; auto|]. destruct (G w) as (_ & xw & yw & Ew & Fw); [cbn; auto|].
  assert (E : area2 a b w = IZR ((xb - xa) * (yw - ya) - (yb - ya) * (xw - xa))) by (unfold area2; rewrite Ea, Fa, Eb, Fb, Ew, Fw, ?minus_IZR, ?mult_IZR, ?minus_IZR; ring).
  rewrite E in *. apply lt_IZR in Hp. assert (H1 : 1 <= IZR ((xb - xa) * (yw - ya) - (yb - ya) * (xw - xa))) by (apply IZR_le; lia).
  pose proof eps_bound. pose proof eps_pos. set (m := Rabs (X b - X a) + Rabs (Y b - Y a)) in *. assert (Q := mpp (3 * eps) (10000000000000 - m)). lra.
Qed.

(** ** Quadrilaterals with one vertex in them *)
Lemma quadrilateral_with_vertex : forall (H : HashOrder) p (t : triangulator ArithR) a b c d v, polygon_with t [a; b; c; d] [v] ->
  resolved [v; a; b; c; d] -> (forall x y w, In (x, y) (polygon_sides [a; b; c; d]) -> In w [v; a; b; c; d] -> w <> x -> w <> y -> spread 3 x y w) ->
  ~ In v [a; b; c; d] -> NoDup [a; b; c; d] ->
  exists n0 t', (forall fuel, (n0 <= fuel)%nat -> triangulate H fuel p t = Ok t') /\
    constrained_delaunay [v; a; b; c; d] (polygon_sides [a; b; c; d]) (t_trn t') /\
    (forall q, in_region (t_trn t') q <-> winding q (polygon_sides [a; b; c; d]) = 1%Z \/ on_polygon [a; b; c; d] q).
Proof.
  intros H p t a b c d v Hw HR Hs Hv Hnd. set (l := [a; b; c; d]) in *. set (t0 := triangulator_new (Poly l false)).
  assert (Ho : only_polygon t0 l) by (split; reflexivity).
  assert (Hc : forall x y w, In (x, y) (polygon_sides l) -> In w l -> w <> x -> w <> y -> spread 3 x y w) by (intros x y w Hxy Hi; apply Hs; [exact Hxy|right; exact Hi]).
  assert (HRl : resolved l) by (apply (resolved_incl (v :: l)); [exact HR|]; intros x Hx; right; exact Hx).
  assert (Hd : a <> b /\ a <> c /\ a <> d /\ b <> c /\ b <> d /\ c <> d).
  { pose proof Hnd as Hq. unfold l in Hq. rewrite !NoDup_cons_iff in Hq. cbn [In] in Hq. destruct Hq as (Q1 & Q2 & Q3 & _). clear - Q1 Q2 Q3. repeat split; intros ->; tauto. }
  destruct Hd as (N1 & N2 & N3 & N4 & N5 & N6).
  assert (P : forall x y w, In (x, y) (polygon_sides l) -> In w l -> w <> x -> w <> y -> 0 < area2 x y w) by (intros x y w Hxy Hi M1 M2; apply (spread_pos 3); [lra|]; apply Hc; assumption).
  assert (P1 : 0 < area2 a b c) by (apply P; unfold l; cbn; auto 6). assert (P2 : 0 < area2 b c d) by (apply P; unfold l; cbn; auto 6).
  assert (P3 : 0 < area2 c d a) by (apply P; unfold l; cbn; auto 6). assert (P4 : 0 < area2 d a b) by (apply P; unfold l; cbn; auto 6).
  destruct (convex_quadrilateral_filled H p t0 a b c d Ho HRl P1 P2 P3 P4) as (n & t0' & Hr & HF).
  specialize (Hr n (Nat.le_refl _)).
  destruct (convex_triangulated H n p t0 t0' t l [v] Ho Hr Hw Hnd) as (n0 & t' & ins & dropped & Hrun & HC & Hperm & Hne & Hreg); auto.
  - repeat constructor. intros [].
  - assert (S4 : shoelace (polygon_sides l) = (area2 a b c + area2 c d a) / 2) by (unfold shoelace, l, polygon_sides, total, area2; cbn [path_sides app map fold_right fst snd]; field).
    rewrite S4. lra.
  - intros x y w Hxy [<-|[]]. apply Hs; [exact Hxy|left; reflexivity| |]; intros ->; apply Hv; destruct (polygon_ends l _ Hxy); assumption.
  - intros w Hi. destruct (polygon_starts l w Hi) as (e & He & <-). destruct (fl_border _ _ HF e He) as (u & Hu & Su). exists u. split; [exact Hu|apply side_corner1, Su].
  - exists n0, t'. split; [exact Hrun|]. split; [|exact Hreg].
    destruct ins as [|x ins]; [exfalso; apply Hne; [discriminate|reflexivity]|].
    pose proof (Permutation_length Hperm) as El. cbn [length app] in El. destruct ins; [|cbn in El; lia].
    assert (Ev : x = v) by (pose proof (Permutation_in x (Permutation_sym Hperm) (or_introl eq_refl)) as [E|[]]; congruence). subst x. exact HC.
Qed.

(** ** A case *)
Definition pG : pnt := at_ 3 2.
Definition kite_full : triangulator ArithR := TR trn_new (Poly kite false) [] [pE; pG] [].
Lemma case_full : only_polygon kite_input kite /\ polygon_with kite_full kite [pE; pG] /\ NoDup kite /\ NoDup [pE; pG] /\ resolved ([pE; pG] ++ kite) /\ 0 < shoelace (polygon_sides kite) /\
  (forall a b w, In (a, b) (polygon_sides kite) -> In w kite -> w <> a -> w <> b -> spread 3 a b w) /\ (forall a b w, In (a, b) (polygon_sides kite) -> In w [pE; pG] -> spread 3 a b w) /\
  grid ([pE; pG] ++ kite) /\
  exists n t', triangulate ho_id n [] kite_input = Ok t' /\ (forall w, In w kite -> exists u, solid_in (t_trn t') u /\ corner_of w u).
Proof.
  destruct case_kite as (Ho & HR & Hnd & Hsh & P1 & P2 & P3 & P4 & Hcv & n & t' & Hr & Hu).
  assert (G : grid ([pE; pG] ++ kite)).
  { intros w Hw. cbn [In app kite] in Hw. destruct Hw as [<-|[<-|[<-|[<-|[<-|[<-|[]]]]]]]; (split; [reflexivity|]);
      [exists 2%Z, 1%Z|exists 3%Z, 2%Z|exists 0%Z, 0%Z|exists 4%Z, 0%Z|exists 7%Z, 5%Z|exists 1%Z, 3%Z]; split; reflexivity. }
  assert (Sp : forall a b w, In (a, b) (polygon_sides kite) -> In w ([pE; pG] ++ kite) -> 0 < area2 a b w -> spread 3 a b w).
  { intros a b w Hab Hw Hp. destruct (polygon_ends kite _ Hab) as [Ha Hb]. cbn [fst snd] in *. apply spread_grid; [|clear Hw Hp Ha Hb|exact Hp].
    - intros x [<-|[<-|[<-|[]]]]; apply G; [apply in_or_app; right; exact Ha|apply in_or_app; right; exact Hb|exact Hw].
    - assert (Hc : In (a, b) [(pA, pB); (pB, pF); (pF, pC); (pC, pA)]) by exact Hab.
      destruct Hc as [E|[E|[E|[E|[]]]]]; injection E as <- <-; unfold pA, pB, pC, pF; rewrite !X_at, !Y_at; unfold Rabs; repeat destruct (Rcase_abs _); lra. }
  assert (Hin : forall a b w, In (a, b) (polygon_sides kite) -> In w [pE; pG] -> 0 < area2 a b w).
  { intros a b w Hab Hw. assert (Hc : In (a, b) [(pA, pB); (pB, pF); (pF, pC); (pC, pA)]) by exact Hab.
    destruct Hc as [E|[E|[E|[E|[]]]]]; injection E as <- <-; destruct Hw as [<-|[<-|[]]]; unfold area2, pA, pB, pC, pF, pE, pG; rewrite !X_at, !Y_at; lra. }
  split; [exact Ho|]. split; [split; reflexivity|]. split; [exact Hnd|]. split.
  { constructor; [intros [E|[]]; injection E; intros; lra|]. constructor; [intros []|constructor]. }
  split; [apply grid_resolved, G|]. split; [exact Hsh|]. split.
  { intros a b w Hab Hw N1 N2. apply Sp; [exact Hab|apply in_or_app; right; exact Hw|apply Hcv; assumption]. }
  split; [intros a b w Hab Hw; apply Sp; [exact Hab|apply in_or_app; left; exact Hw|apply Hin; assumption]|]. split; [exact G|]. exists n, t'. auto.
Qed.
Lemma case_one : polygon_with (TR trn_new (Poly [pA; pB; pF; pC] false) [] [pE] []) [pA; pB; pF; pC] [pE] /\ resolved [pE; pA; pB; pF; pC] /\
  (forall x y w, In (x, y) (polygon_sides [pA; pB; pF; pC]) -> In w [pE; pA; pB; pF; pC] -> w <> x -> w <> y -> spread 3 x y w) /\ ~ In pE [pA; pB; pF; pC] /\ NoDup [pA; pB; pF; pC].
Proof.
  destruct case_full as (_ & _ & Hnd & _ & HR & _ & Hc & Hi & _). destruct case_kite_inner as (_ & Hn & HR' & _).
  split; [split; reflexivity|]. split; [exact HR'|]. split; [|split; [exact Hn|exact Hnd]].
  intros x y w Hxy [<-|Hw] N1 N2; [apply Hi; [exact Hxy|left; reflexivity]|apply Hc; assumption].
Qed.
