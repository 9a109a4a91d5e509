(** T_Polygon.v — what triangulating a polygon leaves, over exact real arithmetic
    with the tolerances of the code (C77–C81, C105). *)

From Coq Require Import Reals List ZArith Permutation.
From Verif Require Import Base Arith Geometry Elements Polyline Procedures Triangulator ArithR Spec SpecR SpecD SpecP SpecC SpecE SpecQ P_RX P_D8 P_Polygon3 P_L2 P_L3 P_L4.
Import ListNotations.
Local Open Scope R_scope.

(** C77 *)
Theorem C77_polygon_filled : forall (H : HashOrder) fuel p (t t' : triangulator ArithR) l, only_polygon t l -> NoDup l -> resolved l ->
  0 < shoelace (polygon_sides l) -> triangulate H fuel p t = Ok t' ->
  (forall e, In e (polygon_sides l) -> exists u, solid_in (t_trn t') u /\ side_of e u) -> fills l (t_trn t').
Proof. exact P_Fill2.polygon_filled. Qed.
Print Assumptions C77_polygon_filled.

Theorem C77_contains_agrees : forall l (tr : mesh), fills l tr -> forall v,
  (poly_contains (Poly l false) v = Ok (Some Inside) -> exists a b c, solid_in tr (Tri a b c) /\ in_triangle a b c v) /\
  (poly_contains (Poly l false) v = Ok (Some Outside) -> forall a b c, solid_in tr (Tri a b c) -> ~ inside_triangle a b c v).
Proof. exact filled_contains. Qed.
Print Assumptions C77_contains_agrees.

Example C77_hypotheses : only_polygon dart_input dart /\ NoDup dart /\ resolved dart /\ 0 < shoelace (polygon_sides dart) /\
  (forall a b, In (a, b) (polygon_sides dart) -> free_side dart a b) /\
  exists n0 t', triangulate ho_id n0 [] dart_input = Ok t' /\
    (forall e, In e (polygon_sides dart) -> exists u, solid_in (t_trn t') u /\ side_of e u) /\
    (forall w, In w dart -> exists u, solid_in (t_trn t') u /\ corner_of w u) /\ fills dart (t_trn t').
Proof. exact case_dart. Qed.

(** C78 *)
Theorem C78_free_sides_filled : forall (H : HashOrder) fuel p (t t' : triangulator ArithR) l, only_polygon t l -> NoDup l -> resolved l ->
  0 < shoelace (polygon_sides l) -> (forall a b, In (a, b) (polygon_sides l) -> free_side l a b) -> triangulate H fuel p t = Ok t' ->
  (forall w, In w l -> exists u, solid_in (t_trn t') u /\ corner_of w u) -> fills l (t_trn t').
Proof. exact P_Polygon.polygon_filled_free. Qed.
Print Assumptions C78_free_sides_filled.

Theorem C78_convex_filled : forall (H : HashOrder) fuel p (t t' : triangulator ArithR) l, only_polygon t l -> NoDup l -> resolved l ->
  0 < shoelace (polygon_sides l) -> (forall a b w, In (a, b) (polygon_sides l) -> In w l -> w <> a -> w <> b -> 0 < area2 a b w) ->
  triangulate H fuel p t = Ok t' -> (forall w, In w l -> exists u, solid_in (t_trn t') u /\ corner_of w u) -> fills l (t_trn t').
Proof. exact convex_filled. Qed.
Print Assumptions C78_convex_filled.

Example C78_hypotheses : only_polygon kite_input kite /\ resolved kite /\ NoDup kite /\ 0 < shoelace (polygon_sides kite) /\
  0 < area2 pA pB pF /\ 0 < area2 pB pF pC /\ 0 < area2 pF pC pA /\ 0 < area2 pC pA pB /\
  (forall a b w, In (a, b) (polygon_sides kite) -> In w kite -> w <> a -> w <> b -> 0 < area2 a b w) /\
  exists n0 t', triangulate ho_id n0 [] kite_input = Ok t' /\ (forall w, In w kite -> exists u, solid_in (t_trn t') u /\ corner_of w u).
Proof. exact case_kite. Qed.

(** C79 *)
Theorem C79_quadrilateral_filled : forall (H : HashOrder) p (t : triangulator ArithR) a b c d, only_polygon t [a; b; c; d] ->
  NoDup [a; b; c; d] -> resolved [a; b; c; d] -> 0 < shoelace (polygon_sides [a; b; c; d]) -> 0 < area2 a b c -> 0 < area2 a b d ->
  (forall x y, In (x, y) (polygon_sides [a; b; c; d]) -> free_side [a; b; c; d] x y) ->
  exists n0 t', (forall fuel, (n0 <= fuel)%nat -> triangulate H fuel p t = Ok t') /\ fills [a; b; c; d] (t_trn t').
Proof. exact quadrilateral_filled. Qed.
Print Assumptions C79_quadrilateral_filled.

Theorem C79_convex_quadrilateral_filled : forall (H : HashOrder) p (t : triangulator ArithR) a b c d, only_polygon t [a; b; c; d] ->
  resolved [a; b; c; d] -> 0 < area2 a b c -> 0 < area2 b c d -> 0 < area2 c d a -> 0 < area2 d a b ->
  exists n0 t', (forall fuel, (n0 <= fuel)%nat -> triangulate H fuel p t = Ok t') /\ fills [a; b; c; d] (t_trn t').
Proof. exact convex_quadrilateral_filled. Qed.
Print Assumptions C79_convex_quadrilateral_filled.

Example C79_hypotheses : (only_polygon dart_input dart /\ NoDup dart /\ resolved dart /\ shoelace (polygon_sides dart) = 9 / 2 /\
    (0 < area2 pA pB pE /\ 0 < area2 pA pB pC) /\ forall a b, In (a, b) (polygon_sides dart) -> free_side dart a b) /\
  (only_polygon kite_input kite /\ resolved kite).
Proof.
  exact (conj (conj case_only (conj dart_nodup (conj dart_resolved (conj dart_area (conj dart_left dart_free)))))
              (conj (proj1 case_kite) (proj1 (proj2 case_kite)))).
Qed.

(** C80 *)
Theorem C80_polygon_returns : forall (H : HashOrder) p (t : triangulator ArithR) l v1 v2 rest, only_polygon t l -> l = v1 :: v2 :: rest -> v1 <> v2 -> resolved l ->
  exists n0 t', forall fuel, (n0 <= fuel)%nat -> triangulate H fuel p t = Ok t'.
Proof. exact polygon_returns. Qed.
Print Assumptions C80_polygon_returns.

Example C80_hypotheses : only_polygon dart_input dart /\ dart = pA :: pB :: [pE; pC] /\ pA <> pB /\ resolved dart.
Proof. exact (conj case_only (conj eq_refl (conj (proj1 (proj2 case_points)) dart_resolved))). Qed.

(** C81 *)
Theorem C81_winding_constant : forall l q q', (forall x y, In (x, y) (polygon_sides l) -> ~ exists z, on_segment q q' z /\ on_segment x y z) ->
  winding q (polygon_sides l) = winding q' (polygon_sides l).
Proof. exact P_Slide.winding_const. Qed.
Print Assumptions C81_winding_constant.

Example C81_hypotheses : forall x y, In (x, y) (polygon_sides dart) -> ~ exists z, on_segment (at_ 1 (1 / 2)) (at_ 1 2) z /\ on_segment x y z.
Proof. exact case_way. Qed.

(** C105 *)
Theorem C105_convex_position_inserted : forall (H : HashOrder) p a b vs, a <> b -> NoDup vs -> resolved (vs ++ [a; b]) -> convex_position (vs ++ [a; b]) ->
  exists n0 tr' inc del,
    (forall fuel, (n0 <= fuel)%nat -> vertices_include H fuel p (from_initial_segment a b) vs [] None [] = Ok (tr', inc, del)) /\
    delaunay (vs ++ [a; b]) tr'.
Proof. exact include_convex. Qed.
Print Assumptions C105_convex_position_inserted.

Theorem C105_convex_polygon_filled : forall (H : HashOrder) p (t : triangulator ArithR) l, only_polygon t l -> NoDup l -> resolved l -> (3 <= length l)%nat ->
  (forall a b w, In (a, b) (polygon_sides l) -> In w l -> w <> a -> w <> b -> 0 < area2 a b w) ->
  exists n0 t', (forall fuel, (n0 <= fuel)%nat -> triangulate H fuel p t = Ok t') /\ fills l (t_trn t').
Proof. exact convex_triangulates. Qed.
Print Assumptions C105_convex_polygon_filled.

(** A hexagon; its last two corners are those the mesh starts from. *)
Example C105_hypotheses : only_polygon (alone hexagon) hexagon /\ polygon_with (TR trn_new (Poly hexagon false) [] [at_ 2 3] []) hexagon [at_ 2 3] /\ convex_polygon hexagon /\
  resolved (at_ 2 3 :: hexagon) /\ resolved hexagon /\ deep hexagon (at_ 2 3) /\ convex_position hexagon /\
  (forall a b w, In (a, b) (polygon_sides hexagon) -> In w hexagon -> w <> a -> w <> b -> 0 < area2 a b w).
Proof. exact case_hexagon. Qed.
Example C105_hypotheses_start : hexagon = [at_ 0 0; at_ 4 0; at_ 6 3; at_ 4 6] ++ [at_ 0 6; at_ (- 2) 3].
Proof. reflexivity. Qed.
