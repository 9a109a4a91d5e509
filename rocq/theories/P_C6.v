(** P_C6.v — the mesh of a polygon alone is constrained Delaunay, and in a convex
    polygon nothing hides anything. *)

From Coq Require Import Reals List ZArith Lra Lia Psatz Bool Permutation.
From Verif Require Import Base Arith Geometry Elements Polyline Procedures Triangulator ArithR Spec SpecR SpecD SpecP SpecC
  P_Base P_Trn P_Fuel P_Poly P_Vertices P_Flood P_R1 P_R2 P_R5 P_R6 P_RX P_D1 P_D2 P_D3 P_D4 P_D5 P_D6 P_D7 P_D8 P_Fill P_Fill2 P_Region P_Region2 P_Contains P_Slide P_Polygon P_Polygon2 P_Polygon3 P_Zone P_Checks P_C1 P_C2 P_C3 P_C4 P_C5.
Import ListNotations.
Local Open Scope R_scope.

(** ** The mesh of a polygon alone *)
Lemma polygon_constrained : forall (H : HashOrder) fuel p (t t' : triangulator ArithR) l, only_polygon t l -> NoDup l -> resolved l ->
  triangulate H fuel p t = Ok t' -> fills l (t_trn t') -> constrained_delaunay l (polygon_sides l) (t_trn t').
Proof.
  intros H fuel p t t' l [Eb Eh Es Ev] Hnd HR Hr HF. unfold triangulate in Hr. rewrite Eb, Eh, Es, Ev in Hr. cbn [pverts] in Hr.
  destruct l as [|v1 [|v2 rest]]; [discriminate|discriminate|]. cbn [nth_error unwrap bind] in Hr. cbn zeta in Hr. set (l := v1 :: v2 :: rest) in *.
  apply bind_ok in Hr. destruct Hr as (tr1' & Hb & Hr). apply bind_ok in Hr. destruct Hr as (bes & Hbe & Hr).
  rewrite !ho_nil in Hr. cbn [include_holes include_segments bind] in Hr.
  apply bind_ok in Hr. destruct Hr as ([[tr4 inc4] del4] & Hv & E). injection E as <-. cbn [t_trn with_triangulation] in *.
  assert (E4 : tr4 = tr1').
  { pose proof (vertices_include_mono H fuel (Datatypes.S fuel) ltac:(lia) (6%nat :: p) tr1' [] (hset edec bes) (Some (Poly l false)) []) as M.
    pose proof (rle_ok _ _ _ _ M Hv) as Hv'. rewrite include_present in Hv'; [injection Hv' as -> _ _; reflexivity|lia|intros v []]. }
  subst tr4. assert (H12 : In v1 l /\ In v2 l) by (unfold l; cbn [In]; auto). assert (Hne : v1 <> v2) by (inversion Hnd as [|? ? Hx _]; intros ->; apply Hx; left; reflexivity).
  assert (H0 : delaunay [v1; v2] (from_initial_segment v1 v2)) by (apply initial_delaunay; auto; apply (rs_plain _ HR); tauto).
  destruct (boundary_include_spec H _ _ _ _ _ _ (initial_sound v1 v2) Hb) as (es & tr1 & inc & del & Hes & Hi & Hs & _ & Hiff). cbn [pverts] in Hi.
  destruct (insertion H fuel (1%nat :: 1%nat :: p) [v1; v2] _ l tr1 inc del H0) as (ins & _ & Hins & HD).
  { apply (resolved_incl l); [exact HR|]. intros w Hw. apply in_app_or in Hw. destruct Hw as [Hw|[<-|[<-|[]]]]; tauto. }
  { exact Hi. }
  destruct (boundary_adj H fuel (1%nat :: p) (from_initial_segment v1 v2) (Poly l false) [] tr1' tr1 inc del) as (A1 & A2 & A3).
  - apply initial_sound.
  - exact Hb.
  - exact Hi.
  - exact (dl_complete _ _ HD).
  - exact (dl_nodup _ _ HD).
  - apply (fl_unique l); assumption.
  - apply fills_constrained; assumption.
Qed.

(** ** Nothing hides anything in a convex polygon *)
Lemma segment_D : forall x y g v z, on_segment g v z -> exists t, 0 <= t <= 1 /\ D x y z = (1 - t) * D x y g + t * D x y v.
Proof. intros x y g v z (t & Ht & Ex & Ey). exists t. split; [exact Ht|]. unfold area2. rewrite Ex, Ey. ring. Qed.

Definition convex (l : list pnt) : Prop := forall a b w, In (a, b) (polygon_sides l) -> In w l -> w <> a -> w <> b -> 0 < D a b w.

Lemma convex_side : forall l, convex l -> forall x y w, In (x, y) (polygon_sides l) -> In w l -> D x y w = 0 /\ (w = x \/ w = y) \/ 0 < D x y w.
Proof.
  intros l Hcv x y w Hxy Hw. destruct (vdec w x) as [->|N1]; [left; rewrite D_ab_a; auto|]. destruct (vdec w y) as [->|N2]; [left; rewrite D_ab_b; auto|].
  right. apply Hcv; assumption.
Qed.

Lemma convex_centroid : forall l, convex l -> forall x y a b c, In (x, y) (polygon_sides l) -> In a l -> In b l -> In c l -> 0 < D a b c -> 0 < D x y (centroid a b c).
Proof.
  intros l Hcv x y a b c Hxy Ha Hb Hc P. rewrite centroid_D.
  destruct (convex_side l Hcv x y a Hxy Ha) as [[E1 Q1]|P1]; destruct (convex_side l Hcv x y b Hxy Hb) as [[E2 Q2]|P2];
    destruct (convex_side l Hcv x y c Hxy Hc) as [[E3 Q3]|P3]; try lra.
  exfalso. destruct Q1 as [-> | ->]; destruct Q2 as [-> | ->]; destruct Q3 as [-> | ->]; rewrite ?D_ab_a, ?D_ab_b in P; try lra.
  all: unfold area2 in P; lra.
Qed.

Lemma convex_sees : forall (l : list pnt) g v, (forall x y, In (x, y) (polygon_sides l) -> 0 < D x y g) ->
  (forall x y, In (x, y) (polygon_sides l) -> 0 < D x y v) -> sees (polygon_sides l) g v.
Proof.
  intros l g v Hg Hv.
  assert (K : forall x y, In (x, y) (polygon_sides l) -> forall z, on_segment x y z -> on_segment g v z -> False).
  { intros x y Hxy z Hz Hz'. apply segment_line in Hz. destruct (segment_D x y g v z Hz') as (t & Ht & E). specialize (Hg x y Hxy). specialize (Hv x y Hxy).
    assert (Q1 := mpp (1 - t) (D x y g)). destruct (Req_dec t 0) as [->|N]; [lra|]. assert (Q2 := spp t (D x y v)). lra. }
  intros x y z [Hxy|Hxy] Hz Hz'; [exact (K x y Hxy z Hz Hz')|apply (K y x Hxy z); [apply on_segment_flip, Hz|exact Hz']].
Qed.

Lemma convex_unscreened : forall l (tr : mesh) v, fills l tr -> resolved (v :: l) -> convex l -> (forall a b, In (a, b) (polygon_sides l) -> 0 < D a b v) ->
  unscreened (polygon_sides l) tr v.
Proof.
  intros l tr v HF HR Hcv Hv t Ht He. destruct (is_ghost t) eqn:G.
  - exfalso. destruct (proj1 (fl_outer _ _ HF t) (conj Ht G)) as ([a b] & Hs & ->). cbn [fst snd] in *. destruct (polygon_ends l _ Hs) as [Ha Hb]. cbn [fst snd] in *.
    rewrite ghost_encircles in He. destruct (orientation b a v) eqn:E; try discriminate.
    specialize (Hv a b Hs). pose proof (D_swap a b v) as Q. apply orientation_spec in E. pose proof eps_pos. lra.
  - destruct t as [a b c]. destruct (fl_shape _ _ HF a b c (conj Ht G)) as (Ha & Hb & Hc & P & _). exists a, b, c, (centroid a b c).
    split; [reflexivity|]. split; [exact (rs_plain _ HR c (or_intror Hc))|]. pose proof (centroid_inside a b c P) as Hq.
    split; [destruct Hq as (Q1 & Q2 & Q3); repeat split; apply Rlt_le; assumption|].
    apply convex_sees; auto. intros x y Hxy. apply (convex_centroid l); auto.
Qed.

Lemma convex_region : forall l (tr : mesh) v, l <> [] -> fills l tr -> convex l -> (forall a b, In (a, b) (polygon_sides l) -> 0 < D a b v) ->
  winding v (polygon_sides l) = 1%Z /\ in_region tr v.
Proof.
  intros l tr v Hne HF Hcv Hv. destruct l as [|w0 l0]; [congruence|]. set (l := w0 :: l0) in *.
  destruct (polygon_starts l w0 (or_introl eq_refl)) as (e & He & _). destruct (fl_border _ _ HF e He) as (u & Hu & _). destruct u as [a b c].
  destruct (fl_shape _ _ HF a b c Hu) as (Ha & Hb & Hc & P & _). pose proof (centroid_inside a b c P) as Hq.
  pose proof (fl_inside _ _ HF a b c _ Hu Hq) as W. assert (W' : winding v (polygon_sides l) = 1%Z).
  { rewrite <- W. symmetry. apply winding_const. intros x y Hxy (z & Hz & Hz').
    apply (convex_sees l (centroid a b c) v) with (a := x) (b := y) (z := z); auto; [|left; exact Hxy]. intros x' y' Hx. apply (convex_centroid l); auto. }
  split; [exact W'|]. destruct (fl_covers _ _ HF v W') as (a' & b' & c' & Ht & Hi). exists a', b', c'. auto.
Qed.

Lemma convex_off : forall (l : list pnt) v, (forall a b, In (a, b) (polygon_sides l) -> 0 < D a b v) -> forall a b, barred (polygon_sides l) a b -> ~ strictly_between a b v.
Proof. intros l v Hv a b [Hb|Hb] [E _]; specialize (Hv _ _ Hb); [lra|]. rewrite (D_swap b a v) in E. lra. Qed.

(** ** A case: a vertex inside a kite *)
Lemma case_kite_inner : (forall a b, In (a, b) (polygon_sides kite) -> 0 < D a b pE) /\ ~ In pE kite /\ resolved (pE :: kite) /\ convex kite /\ NoDup kite /\ resolved kite /\
  exists n0 t', (forall fuel, (n0 <= fuel)%nat -> triangulate ho_id fuel [] kite_input = Ok t') /\ fills kite (t_trn t') /\ constrained_delaunay kite (polygon_sides kite) (t_trn t') /\
  (forall a b, barred (polygon_sides kite) a b -> ~ strictly_between a b pE) /\ in_region (t_trn t') pE /\ unscreened (polygon_sides kite) (t_trn t') pE.
Proof.
  destruct case_kite as (Ho & HR & Hnd & Hsh & P1 & P2 & P3 & P4 & Hcv & _).
  destruct (convex_quadrilateral_filled ho_id [] kite_input pA pB pF pC Ho HR P1 P2 P3 P4) as (n0 & t' & Hr & HF). fold kite in HF.
  assert (HR' : resolved (pE :: kite)) by (apply (resolved_incl _ _ case_resolved); unfold kite; cbn [In]; tauto).
  assert (Hin : forall a b, In (a, b) (polygon_sides kite) -> 0 < D a b pE).
  { intros a b Hab. assert (Hc : In (a, b) [(pA, pB); (pB, pF); (pF, pC); (pC, pA)]) by exact Hab.
    destruct Hc as [E|[E|[E|[E|[]]]]]; injection E as <- <-; unfold area2, pA, pB, pC, pF, pE; rewrite !X_at, !Y_at; lra. }
  assert (HnE : ~ In pE kite).
  { assert (N : forall x y x' y', x <> x' \/ y <> y' -> at_ x y <> at_ x' y') by (intros x y x' y' Hn E; injection E; intros; lra).
    unfold kite, pA, pB, pC, pF, pE. intros Hx; repeat (destruct Hx as [Hx|Hx]); try contradiction; revert Hx; apply N; lra. }
  split; [exact Hin|]. split; [exact HnE|]. split; [exact HR'|]. split; [exact Hcv|]. split; [exact Hnd|]. split; [exact HR|].
  exists n0, t'. split; [exact Hr|]. split; [exact HF|]. split; [exact (polygon_constrained ho_id n0 [] kite_input t' kite Ho Hnd HR (Hr n0 (Nat.le_refl _)) HF)|].
  split; [apply convex_off, Hin|]. split; [apply (convex_region kite); auto; discriminate|apply convex_unscreened; auto].
Qed.

Lemma clear_unscreened : forall S K (tr : mesh) v, constrained_delaunay S K tr -> resolved (v :: S) -> clear_view K tr v -> unscreened K tr v.
Proof.
  intros S K tr v HC HR [Hs Hg] t Ht He. destruct (cd_shape _ _ _ HC t Ht) as [(a & b & c & -> & Ha & Hb & Hc & Hp)|(a & b & -> & _)].
  - assert (G : is_ghost (Tri a b c) = false) by (unfold is_ghost; cbn [tv1 tv2 tv3]; rewrite !(rs_plain _ HR) by (right; assumption); reflexivity).
    destruct (Hs a b c (conj Ht G)) as (q & Hq & Hv); [apply (inside_circle S K tr v a b c HC HR (conj Ht G)), He|]. exists a, b, c, q.
    split; [reflexivity|]. split; [apply (rs_plain _ HR); right; exact Hc|]. auto.
  - exfalso. specialize (Hg a b Ht). rewrite ghost_encircles in He. destruct (orientation a b v) eqn:E; try discriminate. apply orientation_spec in E. pose proof eps_pos. lra.
Qed.
Lemma unscreened_clear : forall S K (tr : mesh) v, constrained_delaunay S K tr -> resolved (v :: S) -> unscreened K tr v -> clear_view K tr v.
Proof.
  intros S K tr v HC HR Hu. split.
  - intros a b c Ht Ho. pose proof (proj2 (inside_circle S K tr v a b c HC HR Ht) Ho) as He. destruct (Hu _ (proj1 Ht) He) as (a' & b' & c' & q & E & _ & Hq & Hv). injection E as <- <- <-. eauto.
  - intros a b Ht. apply Rnot_lt_le. intros L. destruct (Hu (Tri a b ghost_vertex) Ht) as (a' & b' & c' & q & E & G & _).
    + rewrite ghost_encircles. destruct (cd_shape _ _ _ HC _ Ht) as [(x & y & z & E & Hx & Hy & Hz & _)|(x & y & E & Hx & Hy & _)].
      * injection E as -> -> <-. pose proof (rs_plain _ HR _ (or_intror Hz)) as G. discriminate G.
      * injection E as -> ->. rewrite (left_ccw (v :: S) x y v); auto; (right; assumption) || (left; reflexivity).
    + injection E as _ _ <-. discriminate G.
Qed.

Lemma clear_insert : forall (H : HashOrder) p S K (tr : mesh) v, constrained_delaunay S K tr -> resolved (v :: S) -> ~ In v S ->
  (forall a b, barred K a b -> ~ strictly_between a b v) -> in_region tr v -> clear_view K tr v ->
  exists n0 tr' inc del, (forall fuel, (n0 <= fuel)%nat -> vertices_include H fuel p tr [v] K None [] = Ok (tr', inc, del)) /\
    constrained_delaunay (v :: S) K tr' /\ (forall q, in_region tr q <-> in_region tr' q) /\
    (forall a b c, solid_in tr (Tri a b c) ->
       (In (Tri a b c) (tris tr') <-> ~ forall o, d2 o a = d2 o b -> d2 o a = d2 o c -> d2 o v < d2 o a)) /\
    (forall a b, In (Tri a b ghost_vertex) (tris tr) <-> In (Tri a b ghost_vertex) (tris tr')) /\
    (forall t, In t (tris tr') -> In t (tris tr) \/ corner_of v t).
Proof.
  intros H p S K tr v HC HR Hn Hoff Hin Hcl. pose proof (clear_unscreened S K tr v HC HR Hcl) as Hu.
  destruct (one_vertex H p S K tr v HC HR Hn Hoff Hin Hu) as (n0 & tr' & inc & del & Hrun & HC' & Hreg & Hst & Hnew).
  exists n0, tr', inc, del. split; [exact Hrun|]. split; [exact HC'|]. split; [exact Hreg|]. split.
  { intros a b c Ht. rewrite (Hst _ (proj1 Ht)). rewrite (inside_circle S K tr v a b c HC HR Ht). reflexivity. }
  split; [|exact Hnew]. intros a b. split.
  - intros Ht. apply (Hst _ Ht). intros He. destruct (Hu _ Ht He) as (a' & b' & c' & q & E & G & _). injection E as _ _ <-. discriminate G.
  - intros Ht. destruct (Hnew _ Ht) as [Ht'|Hc]; [exact Ht'|]. exfalso.
    destruct (cd_shape _ _ _ HC' _ Ht) as [(x & y & z & E & Hx & Hy & Hz & _)|(x & y & E & Hx & Hy & _)].
    + injection E as -> -> <-. pose proof (rs_plain _ HR _ Hz) as G. discriminate G.
    + injection E as -> ->. apply Hn. destruct (cd_outer _ _ _ HC' _ _ Ht) as [Hb|Hb]; destruct (cd_bars _ _ _ HC _ _ Hb) as (B1 & B2 & _);
        pose proof (rs_plain _ HR v (or_introl eq_refl)) as G; inversion Hc; subst; try discriminate G; assumption.
Qed.

Lemma convex_insert : forall (H : HashOrder) p l (tr : mesh) v, NoDup l -> fills l tr -> constrained_delaunay l (polygon_sides l) tr -> resolved (v :: l) ->
  (forall a b w, In (a, b) (polygon_sides l) -> In w l -> w <> a -> w <> b -> 0 < area2 a b w) -> l <> [] -> ~ In v l ->
  (forall a b, In (a, b) (polygon_sides l) -> 0 < area2 a b v) ->
  exists n0 tr' inc del, (forall fuel, (n0 <= fuel)%nat -> vertices_include H fuel p tr [v] (polygon_sides l) None [] = Ok (tr', inc, del)) /\
    constrained_delaunay (v :: l) (polygon_sides l) tr' /\ (forall q, in_region tr q <-> in_region tr' q).
Proof.
  intros H p l tr v Hnd HF HC HR Hcv Hne Hn Hin. destruct (one_vertex H p l (polygon_sides l) tr v HC HR Hn) as (n0 & tr' & inc & del & Hrun & HC' & Hreg & _).
  - apply convex_off, Hin.
  - apply (convex_region l); assumption.
  - apply convex_unscreened; assumption.
  - exists n0, tr', inc, del. auto.
Qed.
Lemma case_clear : exists tr : mesh, constrained_delaunay kite (polygon_sides kite) tr /\ resolved (pE :: kite) /\ ~ In pE kite /\
  (forall a b, barred (polygon_sides kite) a b -> ~ strictly_between a b pE) /\ in_region tr pE /\ clear_view (polygon_sides kite) tr pE /\
  NoDup kite /\ fills kite tr /\ kite <> [] /\ (forall a b, In (a, b) (polygon_sides kite) -> 0 < area2 a b pE) /\
  (forall a b w, In (a, b) (polygon_sides kite) -> In w kite -> w <> a -> w <> b -> 0 < area2 a b w) /\
  exists n0 t', triangulate ho_id n0 [] kite_input = Ok t' /\ tr = t_trn t'.
Proof.
  destruct case_kite_inner as (Hin & Hn & HR & Hcv & Hnd & _ & n0 & t' & Hr & HF & HC & Hoff & Hreg & Hu). exists (t_trn t').
  split; [exact HC|]. split; [exact HR|]. split; [exact Hn|]. split; [exact Hoff|]. split; [exact Hreg|]. split; [apply (unscreened_clear kite); assumption|].
  split; [exact Hnd|]. split; [exact HF|]. split; [discriminate|]. split; [exact Hin|]. split; [exact Hcv|]. exists n0, t'. split; [apply Hr; lia|reflexivity].
Qed.
