(** P_Polygon3.v — whole runs on polygons of the real plane. *)

From Coq Require Import Reals List ZArith Lra Lia Psatz Bool Permutation.
From Verif Require Import Base Arith Geometry Elements Polyline Procedures Triangulator ArithR Spec SpecR SpecD SpecP
  P_Base P_Trn P_Fuel P_Poly P_Vertices P_Flood P_R1 P_R2 P_R5 P_D1 P_D2 P_D3 P_D4 P_D5 P_D6 P_D7 P_D8 P_RX P_Fill P_Fill2 P_Contains P_Slide P_Polygon P_Polygon2.
Import ListNotations.
Local Open Scope R_scope.

(** ** The run returns *)
Lemma polygon_returns : forall (H : HashOrder) p (t : triangulator ArithR) l v1 v2 rest, only_polygon t l -> l = v1 :: v2 :: rest -> v1 <> v2 -> resolved l ->
  exists n0 t', forall fuel, (n0 <= fuel)%nat -> triangulate H fuel p t = Ok t'.
Proof.
  intros H p t l v1 v2 rest [Eb Eh Es Ev] El Hne HR.
  assert (H12 : In v1 l /\ In v2 l) by (rewrite El; cbn [In]; auto).
  assert (H0 : delaunay [v1; v2] (from_initial_segment v1 v2)) by (apply initial_delaunay; auto; apply (rs_plain _ HR); tauto).
  destruct (insertion_returns H (1%nat :: 1%nat :: p) [v1; v2] _ l H0) as (n1 & [[tr1 inc] del] & Hi).
  { apply (resolved_incl l); [exact HR|]. intros w Hw. apply in_app_or in Hw. destruct Hw as [Hw|[<-|[<-|[]]]]; tauto. }
  set (n := (1 + n1 + 4 * length (tris tr1))%nat).
  assert (Ee : into_edges (Poly l false) = Ok (polygon_sides l)) by (apply polygon_edges; rewrite El; discriminate).
  destruct (boundary_include_total H n (1%nat :: p) (from_initial_segment v1 v2) (Poly l false) [] (polygon_sides l) tr1 inc del) as [tr' Hb].
  - exact (dl_sound _ _ H0).
  - exact Ee.
  - apply Hi. unfold n. lia.
  - unfold n. lia.
  - assert (Ht : triangulate H n p t = Ok (with_triangulation t tr')).
    { unfold triangulate. rewrite Eb, Eh, Es, Ev. cbn [pverts]. replace (nth_error l 0) with (Some v1) by (rewrite El; reflexivity). replace (nth_error l 1) with (Some v2) by (rewrite El; reflexivity). cbn [unwrap bind]. cbn zeta.
      rewrite Hb. cbn [bind]. rewrite Ee. cbn [bind]. rewrite !ho_nil. cbn [include_holes include_segments bind].
      rewrite include_present; [reflexivity|unfold n; lia|intros v []]. }
    exists n, (with_triangulation t tr'). intros fuel Hf. refine (rle_ok _ _ _ _ _ Ht). apply triangulate_mono. exact Hf.
Qed.

(** ** Hull sides are free *)
Lemma far_centre : forall (a b w : pnt) s, let o := at_ ((X a + X b) / 2 + s * (Y b - Y a)) ((Y a + Y b) / 2 - s * (X b - X a)) in
  d2 o a = d2 o b /\ d2 o w - d2 o a = d2 (at_ ((X a + X b) / 2) ((Y a + Y b) / 2)) w - d2 a b / 4 + 2 * s * area2 a b w.
Proof. intros a b w s o. unfold o, d2, area2. rewrite !X_at, !Y_at. split; field. Qed.
Lemma hull_free : forall l a b, (forall w, In w l -> w <> a -> w <> b -> 0 < area2 a b w) -> free_side l a b.
Proof.
  intros l a b Hl.
  assert (Hs : exists s0, forall s, s0 <= s -> forall w, In w l -> w <> a -> w <> b ->
    0 < d2 (at_ ((X a + X b) / 2) ((Y a + Y b) / 2)) w - d2 a b / 4 + 2 * s * area2 a b w).
  { clear -Hl. induction l as [|x l IH]; [exists 0; intros s _ w []|].
    destruct IH as [s0 IH]; [intros w Hw; apply Hl; right; exact Hw|].
    destruct (vdec x a) as [-> |Na].
    { exists s0. intros s Hs w [<-|Hw] N1 N2; [contradiction|apply IH; assumption]. }
    destruct (vdec x b) as [-> |Nb].
    { exists s0. intros s Hs w [<-|Hw] N1 N2; [contradiction|apply IH; assumption]. }
    pose proof (Hl x (or_introl eq_refl) Na Nb) as Px. set (k := d2 (at_ ((X a + X b) / 2) ((Y a + Y b) / 2)) x - d2 a b / 4).
    set (d := area2 a b x) in *.
    exists (Rmax s0 ((1 - k) / (2 * d))). intros s Hs w [<-|Hw] N1 N2; [|apply IH; try assumption; pose proof (Rmax_l s0 ((1 - k) / (2 * d))); lra].
    fold k d. pose proof (Rmax_r s0 ((1 - k) / (2 * d))) as Hm.
    assert (E : 2 * ((1 - k) / (2 * d)) * d = 1 - k) by (field; lra).
    assert (2 * ((1 - k) / (2 * d)) * d <= 2 * s * d) by (apply Rmult_le_compat_r; lra). lra. }
  destruct Hs as [s Hs]. destruct (far_centre a b a s) as [E _].
  exists (at_ ((X a + X b) / 2 + s * (Y b - Y a)) ((Y a + Y b) / 2 - s * (X b - X a))). split; [exact E|].
  intros w Hw N1 N2. destruct (far_centre a b w s) as [_ Ew]. pose proof (Hs s (Rle_refl s) w Hw N1 N2). lra.
Qed.

(** ** Four corners *)
Lemma quadrilateral_filled : forall (H : HashOrder) p (t : triangulator ArithR) a b c d, only_polygon t [a; b; c; d] ->
  NoDup [a; b; c; d] -> resolved [a; b; c; d] -> 0 < shoelace (polygon_sides [a; b; c; d]) -> 0 < area2 a b c -> 0 < area2 a b d ->
  (forall x y, In (x, y) (polygon_sides [a; b; c; d]) -> free_side [a; b; c; d] x y) ->
  exists n0 t', (forall fuel, (n0 <= fuel)%nat -> triangulate H fuel p t = Ok t') /\ fills [a; b; c; d] (t_trn t').
Proof.
  intros H p t a b c d Ho Hnd HR Ha Pc Pd Hfr.
  assert (Nab : a <> b) by (inversion Hnd as [|? ? Hx _]; intros ->; apply Hx; left; reflexivity).
  destruct (polygon_returns H p t _ a b [c; d] Ho eq_refl Nab HR) as (n0 & t' & Hr). exists n0, t'. split; [exact Hr|].
  destruct (polygon_stages H n0 p t t' _ Ho (Hr n0 (Nat.le_refl _))) as (v1 & v2 & rest & tr1 & inc & del & f1 & p1 & El & Hi & Hso & Hiff).
  injection El as <- <- <-. destruct (four_used H p1 a b c d Hnd HR Pc Pd) as (n1 & tr2 & inc2 & del2 & Hrun & HD).
  pose proof (ok_agree _ (fun n => vertices_include H n p1 (from_initial_segment a b) [a; b; c; d] [] None []) (fun n n' L => vertices_include_mono H _ _ L _ _ _ _ _ _) n1 _ Hrun f1 _ Hi) as E.
  injection E as -> -> ->.
  apply (stage_fills [a; b; c; d] [a; b; c; d] tr2); auto; try tauto.
  - destruct (flat_or_solid _ tr2 HD (rs_plain _ HR)) as [Hs|(x & y & _ & _ & _ & _ & _ & Hall)]; [exact Hs|]. exfalso.
    pose proof (Hall a ltac:(cbn; auto)) as H1. pose proof (Hall b ltac:(cbn; auto)) as H2. pose proof (Hall c ltac:(cbn; auto)) as H3.
    inversion Hnd as [|? ? Q1 Hnd1]; subst. inversion Hnd1 as [|? ? Q2 _]; subst. cbn [In] in Q1, Q2. clear -H1 H2 H3 Q1 Q2.
    assert (a <> b /\ a <> c /\ b <> c) by (repeat split; intros ->; tauto). destruct H1, H2, H3; intuition congruence.
  - apply Hiff, (dl_complete _ _ HD).
Qed.

(** A strictly convex one needs no circles. *)
Lemma convex_quadrilateral_filled : forall (H : HashOrder) p (t : triangulator ArithR) a b c d, only_polygon t [a; b; c; d] ->
  resolved [a; b; c; d] -> 0 < area2 a b c -> 0 < area2 b c d -> 0 < area2 c d a -> 0 < area2 d a b ->
  exists n0 t', (forall fuel, (n0 <= fuel)%nat -> triangulate H fuel p t = Ok t') /\ fills [a; b; c; d] (t_trn t').
Proof.
  intros H p t a b c d Ho HR P1 P2 P3 P4.
  assert (E1 : area2 a b d = area2 d a b) by (unfold area2; ring). assert (E2 : area2 b c a = area2 a b c) by (unfold area2; ring).
  assert (E3 : area2 c d b = area2 b c d) by (unfold area2; ring). assert (E4 : area2 d a c = area2 c d a) by (unfold area2; ring).
  assert (Z : forall x y, area2 x x y = 0 /\ area2 x y x = 0 /\ area2 y x x = 0) by (intros x y; unfold area2; repeat split; ring).
  assert (N : a <> b /\ a <> c /\ a <> d /\ b <> c /\ b <> d /\ c <> d).
  { repeat split; intros ->;
      match goal with
      | P : 0 < area2 ?x ?x ?y |- _ => rewrite (proj1 (Z x y)) in P; lra
      | P : 0 < area2 ?x ?y ?x |- _ => rewrite (proj1 (proj2 (Z x y))) in P; lra
      | P : 0 < area2 ?y ?x ?x |- _ => rewrite (proj2 (proj2 (Z x y))) in P; lra
      end. }
  destruct N as (N1 & N2 & N3 & N4 & N5 & N6). apply quadrilateral_filled; auto.
  - repeat constructor; cbn [In]; intuition congruence.
  - unfold shoelace. cbn. unfold area2 in *. lra.
  - lra.
  - intros x y Hxy. apply hull_free. intros w Hw Nx Ny.
    assert (Hc : In (x, y) [(a, b); (b, c); (c, d); (d, a)]) by exact Hxy.
    destruct Hc as [E|[E|[E|[E|[]]]]]; injection E as <- <-; destruct Hw as [<-|[<-|[<-|[<-|[]]]]]; try congruence; lra.
Qed.

(** ** Any number of corners *)
Lemma convex_filled : forall (H : HashOrder) fuel p (t t' : triangulator ArithR) l, only_polygon t l -> NoDup l -> resolved l ->
  0 < shoelace (polygon_sides l) -> (forall a b w, In (a, b) (polygon_sides l) -> In w l -> w <> a -> w <> b -> 0 < area2 a b w) ->
  triangulate H fuel p t = Ok t' -> (forall w, In w l -> exists u, solid_in (t_trn t') u /\ corner_of w u) -> fills l (t_trn t').
Proof.
  intros H fuel p t t' l Ho Hnd HR Ha Hc Hr Hs. apply (polygon_filled_free H fuel p t t' l); auto.
  intros a b Hab. apply hull_free. intros w Hw. apply Hc; assumption.
Qed.

(** ** The answers of [contains] *)
Lemma filled_contains : forall l (tr : mesh), fills l tr -> forall v,
  (poly_contains (Poly l false) v = Ok (Some Inside) -> exists a b c, solid_in tr (Tri a b c) /\ in_triangle a b c v) /\
  (poly_contains (Poly l false) v = Ok (Some Outside) -> forall a b c, solid_in tr (Tri a b c) -> ~ inside_triangle a b c v).
Proof.
  intros l tr HF v. destruct l as [|x l]; [split; intros E; discriminate|].
  destruct (contains_winding (x :: l) v) as (k & Hk & _ & H1 & H2); [discriminate|]. rewrite Hk. split; intros E; injection E as ->.
  - destruct (fl_simple _ _ HF v) as [E|E]; [exfalso; exact (H1 eq_refl E)|]. apply (fl_covers _ _ HF v E).
  - intros a b c Ht Hi. pose proof (fl_inside _ _ HF a b c v Ht Hi) as E. rewrite (H2 eq_refl) in E. discriminate.
Qed.

(** ** Samples *)
Definition dart : list pnt := [pA; pB; pE; pC].
Definition dart_input : triangulator ArithR := triangulator_new (Poly dart false).
Definition case_only : only_polygon dart_input dart.
Proof. split; reflexivity. Qed.
Lemma dart_nodup : NoDup dart.
Proof.
  assert (N : forall x y x' y', x <> x' \/ y <> y' -> at_ x y <> at_ x' y') by (intros x y x' y' Hn E; injection E; intros; lra).
  unfold dart, pA, pB, pC, pE. repeat constructor; cbn [In]; intros Hx; repeat (destruct Hx as [Hx|Hx]); try contradiction; revert Hx; apply N; lra.
Qed.
Lemma dart_resolved : resolved dart.
Proof. apply (resolved_incl _ _ case_resolved). unfold dart. cbn [In]. tauto. Qed.
Lemma dart_area : shoelace (polygon_sides dart) = 9 / 2.
Proof. unfold shoelace, dart, polygon_sides, total, pA, pB, pC, pE. cbn [path_sides app map fold_right fst snd]. rewrite !X_at, !Y_at. lra. Qed.
Lemma dart_free : forall a b, In (a, b) (polygon_sides dart) -> free_side dart a b.
Proof.
  intros a b Hab. assert (Hc : In (a, b) [(pA, pB); (pB, pE); (pE, pC); (pC, pA)]) by exact Hab.
  destruct Hc as [E|[E|[E|[E|[]]]]]; injection E as <- <-;
    [exists (at_ 2 (- 2))|exists (at_ 3 (1 / 2))|exists (at_ (3 / 2) 2)|exists (at_ (1 / 5) (8 / 5))];
    (split; [unfold d2, pA, pB, pC, pE; rewrite !X_at, !Y_at; field|]);
    intros w Hw N1 N2; unfold dart in Hw; destruct Hw as [<-|[<-|[<-|[<-|[]]]]]; try congruence; unfold d2, pA, pB, pC, pE; rewrite !X_at, !Y_at; lra.
Qed.
Lemma dart_left : 0 < area2 pA pB pE /\ 0 < area2 pA pB pC.
Proof. unfold area2, pA, pB, pC, pE. rewrite !X_at, !Y_at. lra. Qed.
Lemma dart_run : exists n0 t', (forall fuel, (n0 <= fuel)%nat -> triangulate ho_id fuel [] dart_input = Ok t') /\ fills dart (t_trn t').
Proof.
  destruct dart_left. apply quadrilateral_filled; auto using case_only, dart_nodup, dart_resolved, dart_free. fold dart. rewrite dart_area. lra.
Qed.
Lemma case_dart : only_polygon dart_input dart /\ NoDup dart /\ resolved dart /\ 0 < shoelace (polygon_sides dart) /\
  (forall a b, In (a, b) (polygon_sides dart) -> free_side dart a b) /\
  exists n0 t', triangulate ho_id n0 [] dart_input = Ok t' /\
    (forall e, In e (polygon_sides dart) -> exists u, solid_in (t_trn t') u /\ side_of e u) /\
    (forall w, In w dart -> exists u, solid_in (t_trn t') u /\ corner_of w u) /\ fills dart (t_trn t').
Proof.
  split; [exact case_only|]. split; [exact dart_nodup|]. split; [exact dart_resolved|]. split; [rewrite dart_area; lra|]. split; [exact dart_free|].
  destruct dart_run as (n0 & t' & Hr & HF). exists n0, t'. split; [apply Hr; lia|]. pose proof (fl_border _ _ HF) as Hb. split; [exact Hb|]. split; [|exact HF].
  intros w Hw. destruct (polygon_starts dart w Hw) as (e & He & <-). destruct (Hb e He) as (u & Hu & Su). exists u. split; [exact Hu|apply side_corner1, Su].
Qed.
(** ... a convex one *)
Definition kite : list pnt := [pA; pB; pF; pC].
Definition kite_input : triangulator ArithR := triangulator_new (Poly kite false).
Lemma case_kite : only_polygon kite_input kite /\ resolved kite /\ NoDup kite /\ 0 < shoelace (polygon_sides kite) /\
  0 < area2 pA pB pF /\ 0 < area2 pB pF pC /\ 0 < area2 pF pC pA /\ 0 < area2 pC pA pB /\
  (forall a b w, In (a, b) (polygon_sides kite) -> In w kite -> w <> a -> w <> b -> 0 < area2 a b w) /\
  exists n0 t', triangulate ho_id n0 [] kite_input = Ok t' /\ (forall w, In w kite -> exists u, solid_in (t_trn t') u /\ corner_of w u).
Proof.
  assert (Ho : only_polygon kite_input kite) by (split; reflexivity).
  assert (HR : resolved kite) by (apply (resolved_incl _ _ case_resolved); unfold kite; cbn [In]; tauto).
  assert (P : 0 < area2 pA pB pF /\ 0 < area2 pB pF pC /\ 0 < area2 pF pC pA /\ 0 < area2 pC pA pB).
  { unfold area2, pA, pB, pC, pF. rewrite !X_at, !Y_at. lra. }
  destruct P as (P1 & P2 & P3 & P4). split; [exact Ho|]. split; [exact HR|]. split.
  { assert (N : forall x y x' y', x <> x' \/ y <> y' -> at_ x y <> at_ x' y') by (intros x y x' y' Hn E; injection E; intros; lra).
    unfold kite, pA, pB, pC, pF. repeat constructor; cbn [In]; intros Hx; repeat (destruct Hx as [Hx|Hx]); try contradiction; revert Hx; apply N; lra. }
  split; [unfold shoelace, kite, polygon_sides, total, pA, pB, pC, pF; cbn [path_sides app map fold_right fst snd]; rewrite !X_at, !Y_at; lra|].
  repeat (split; [assumption|]). split.
  - intros a b w Hab Hw N1 N2. assert (Hc : In (a, b) [(pA, pB); (pB, pF); (pF, pC); (pC, pA)]) by exact Hab.
    destruct Hc as [E|[E|[E|[E|[]]]]]; injection E as <- <-; unfold kite in Hw; destruct Hw as [<-|[<-|[<-|[<-|[]]]]]; try congruence;
      unfold area2, pA, pB, pC, pF; rewrite !X_at, !Y_at; lra.
  - destruct (convex_quadrilateral_filled ho_id [] kite_input pA pB pF pC Ho HR P1 P2 P3 P4) as (n0 & t' & Hr & HF).
    exists n0, t'. split; [apply Hr; lia|]. intros w Hw. destruct (polygon_starts kite w Hw) as (e & He & <-).
    destruct (fl_border _ _ HF e He) as (u & Hu & Su). exists u. split; [exact Hu|apply side_corner1, Su].
Qed.
(** ... and a way that does not meet it. *)
Lemma case_way : forall x y, In (x, y) (polygon_sides dart) -> ~ exists z, on_segment (at_ 1 (1 / 2)) (at_ 1 2) z /\ on_segment x y z.
Proof.
  intros x y Hxy. assert (Hc : In (x, y) [(pA, pB); (pB, pE); (pE, pC); (pC, pA)]) by exact Hxy.
  intros (r & (k & Hk & Ex & Ey) & (k' & Hk' & Ex' & Ey')). rewrite !X_at in Ex. rewrite !Y_at in Ey.
  destruct Hc as [E|[E|[E|[E|[]]]]]; injection E as <- <-; unfold pA, pB, pC, pE in Ex', Ey'; rewrite !X_at in Ex'; rewrite !Y_at in Ey'; nra.
Qed.
