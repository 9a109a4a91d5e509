(** T_Constrained.v — inserting vertices between constrained edges, over exact real
    arithmetic with the tolerances of the code (C83 to C85). *)

From Coq Require Import Reals List ZArith Permutation.
From Verif Require Import Base Arith Geometry Elements Polyline Procedures Triangulator ArithR Spec SpecR SpecD SpecP SpecC SpecE SpecQ P_RX P_D8 P_Polygon3 P_C6 P_C8 P_C9 P_L4.
Import ListNotations.
Local Open Scope R_scope.

(** C83 *)
Theorem C83_insert_between_constraints : forall (H : HashOrder) p S K (tr : mesh) v, constrained_delaunay S K tr -> resolved (v :: S) -> ~ In v S ->
  (forall a b, barred K a b -> ~ strictly_between a b v) -> in_region tr v -> clear_view K tr v ->
  exists n0 tr' inc del, (forall fuel, (n0 <= fuel)%nat -> vertices_include H fuel p tr [v] K None [] = Ok (tr', inc, del)) /\
    constrained_delaunay (v :: S) K tr' /\ (forall q, in_region tr q <-> in_region tr' q) /\
    (forall a b c, solid_in tr (Tri a b c) ->
       (In (Tri a b c) (tris tr') <-> ~ forall o, d2 o a = d2 o b -> d2 o a = d2 o c -> d2 o v < d2 o a)) /\
    (forall a b, In (Tri a b ghost_vertex) (tris tr) <-> In (Tri a b ghost_vertex) (tris tr')) /\
    (forall t, In t (tris tr') -> In t (tris tr) \/ corner_of v t).
Proof. exact clear_insert. Qed.
Print Assumptions C83_insert_between_constraints.

Theorem C83_polygon_is_constrained : forall (H : HashOrder) fuel p (t t' : triangulator ArithR) l, only_polygon t l -> NoDup l -> resolved l ->
  triangulate H fuel p t = Ok t' -> fills l (t_trn t') -> constrained_delaunay l (polygon_sides l) (t_trn t').
Proof. exact polygon_constrained. Qed.
Print Assumptions C83_polygon_is_constrained.

Theorem C83_insert_in_convex : forall (H : HashOrder) p l (tr : mesh) v, NoDup l -> fills l tr -> constrained_delaunay l (polygon_sides l) tr -> resolved (v :: l) ->
  (forall a b w, In (a, b) (polygon_sides l) -> In w l -> w <> a -> w <> b -> 0 < area2 a b w) -> l <> [] -> ~ In v l ->
  (forall a b, In (a, b) (polygon_sides l) -> 0 < area2 a b v) ->
  exists n0 tr' inc del, (forall fuel, (n0 <= fuel)%nat -> vertices_include H fuel p tr [v] (polygon_sides l) None [] = Ok (tr', inc, del)) /\
    constrained_delaunay (v :: l) (polygon_sides l) tr' /\ (forall q, in_region tr q <-> in_region tr' q).
Proof. exact convex_insert. Qed.
Print Assumptions C83_insert_in_convex.

Example C83_hypotheses : exists tr : mesh, constrained_delaunay kite (polygon_sides kite) tr /\ resolved (pE :: kite) /\ ~ In pE kite /\
  (forall a b, barred (polygon_sides kite) a b -> ~ strictly_between a b pE) /\ in_region tr pE /\ clear_view (polygon_sides kite) tr pE /\
  NoDup kite /\ fills kite tr /\ kite <> [] /\ (forall a b, In (a, b) (polygon_sides kite) -> 0 < area2 a b pE) /\
  (forall a b w, In (a, b) (polygon_sides kite) -> In w kite -> w <> a -> w <> b -> 0 < area2 a b w) /\
  exists n0 t', triangulate ho_id n0 [] kite_input = Ok t' /\ tr = t_trn t'.
Proof. exact case_clear. Qed.

(** C84 *)
Theorem C84_convex_with_vertices : forall (H : HashOrder) p (t : triangulator ArithR) l vs, polygon_with t l vs ->
  convex_polygon l -> NoDup vs -> resolved (vs ++ l) -> (forall w, In w vs -> deep l w) ->
  exists n0 t' ins dropped, (forall fuel, (n0 <= fuel)%nat -> triangulate H fuel p t = Ok t') /\
    constrained_delaunay (ins ++ l) (polygon_sides l) (t_trn t') /\ Permutation vs (ins ++ dropped) /\ (vs <> [] -> ins <> []) /\
    (forall q, in_region (t_trn t') q <-> winding q (polygon_sides l) = 1%Z \/ on_polygon l q).
Proof. exact convex_with_vertices. Qed.
Print Assumptions C84_convex_with_vertices.

Theorem C84_convex_with_one_vertex : forall (H : HashOrder) p (t : triangulator ArithR) l v, polygon_with t l [v] -> convex_polygon l -> resolved (v :: l) -> deep l v ->
  exists n0 t', (forall fuel, (n0 <= fuel)%nat -> triangulate H fuel p t = Ok t') /\ constrained_delaunay (v :: l) (polygon_sides l) (t_trn t') /\
    (forall q, in_region (t_trn t') q <-> winding q (polygon_sides l) = 1%Z \/ on_polygon l q).
Proof. exact convex_with_one. Qed.
Print Assumptions C84_convex_with_one_vertex.

Theorem C84_integer_spread : forall a b w, grid [a; b; w] -> Rabs (X b - X a) + Rabs (Y b - Y a) <= 10000000000000 -> 0 < area2 a b w -> spread 3 a b w.
Proof. exact spread_grid. Qed.
Print Assumptions C84_integer_spread.

(** A quadrilateral with two vertices and a hexagon with one. *)
Example C84_hypotheses : polygon_with kite_full kite [pE; pG] /\ convex_polygon kite /\ NoDup [pE; pG] /\ resolved ([pE; pG] ++ kite) /\ (forall w, In w [pE; pG] -> deep kite w) /\
  grid ([pE; pG] ++ kite).
Proof. exact case_kite_full. Qed.
Example C84_hypotheses_hexagon : only_polygon (alone hexagon) hexagon /\ polygon_with (TR trn_new (Poly hexagon false) [] [at_ 2 3] []) hexagon [at_ 2 3] /\ convex_polygon hexagon /\
  resolved (at_ 2 3 :: hexagon) /\ resolved hexagon /\ deep hexagon (at_ 2 3) /\ convex_position hexagon /\
  (forall a b w, In (a, b) (polygon_sides hexagon) -> In w hexagon -> w <> a -> w <> b -> 0 < area2 a b w).
Proof. exact case_hexagon. Qed.

Theorem C84_quadrilateral_with_vertex : forall (H : HashOrder) p (t : triangulator ArithR) a b c d v, polygon_with t [a; b; c; d] [v] ->
  resolved [v; a; b; c; d] -> (forall x y w, In (x, y) (polygon_sides [a; b; c; d]) -> In w [v; a; b; c; d] -> w <> x -> w <> y -> spread 3 x y w) ->
  ~ In v [a; b; c; d] -> NoDup [a; b; c; d] ->
  exists n0 t', (forall fuel, (n0 <= fuel)%nat -> triangulate H fuel p t = Ok t') /\
    constrained_delaunay [v; a; b; c; d] (polygon_sides [a; b; c; d]) (t_trn t') /\
    (forall q, in_region (t_trn t') q <-> winding q (polygon_sides [a; b; c; d]) = 1%Z \/ on_polygon [a; b; c; d] q).
Proof. exact quadrilateral_with_vertex. Qed.
Print Assumptions C84_quadrilateral_with_vertex.

Example C84_hypotheses_quadrilateral : polygon_with (TR trn_new (Poly [pA; pB; pF; pC] false) [] [pE] []) [pA; pB; pF; pC] [pE] /\ resolved [pE; pA; pB; pF; pC] /\
  (forall x y w, In (x, y) (polygon_sides [pA; pB; pF; pC]) -> In w [pE; pA; pB; pF; pC] -> w <> x -> w <> y -> spread 3 x y w) /\ ~ In pE [pA; pB; pF; pC] /\ NoDup [pA; pB; pF; pC].
Proof. exact case_one. Qed.

(** C85 *)
Theorem C85_visible_vertices_outside : forall S K (tr : mesh) w a b c q, constrained_delaunay S K tr -> resolved S -> In w S ->
  (forall x y, barred K x y -> ~ strictly_between x y w) -> solid_in tr (Tri a b c) -> in_triangle a b c q ->
  (forall x y z, barred K x y -> on_segment x y z -> on_segment q w z -> coincide z w) ->
  forall o, d2 o a = d2 o b -> d2 o a = d2 o c -> d2 o a <= d2 o w.
Proof. exact visible_outside. Qed.
Print Assumptions C85_visible_vertices_outside.

Theorem C85_convex_empty_circles : forall S l (tr : mesh), constrained_delaunay S (polygon_sides l) tr -> resolved S -> NoDup l ->
  (forall x y w, In (x, y) (polygon_sides l) -> In w S -> 0 <= area2 x y w) ->
  (forall x y w, In (x, y) (polygon_sides l) -> In w S -> ~ strictly_between x y w) ->
  forall a b c w, solid_in tr (Tri a b c) -> In w S -> forall o, d2 o a = d2 o b -> d2 o a = d2 o c -> d2 o a <= d2 o w.
Proof. exact convex_delaunay. Qed.
Print Assumptions C85_convex_empty_circles.

Example C85_hypotheses : exists (tr : mesh) (w a b c q : pnt), constrained_delaunay kite (polygon_sides kite) tr /\ resolved kite /\ In w kite /\
  (forall x y, barred (polygon_sides kite) x y -> ~ strictly_between x y w) /\ solid_in tr (Tri a b c) /\ in_triangle a b c q /\
  (forall x y z, barred (polygon_sides kite) x y -> on_segment x y z -> on_segment q w z -> coincide z w) /\ ~ In w [a; b; c] /\
  NoDup kite /\ (forall x y v, In (x, y) (polygon_sides kite) -> In v kite -> 0 <= area2 x y v) /\
  (forall x y v, In (x, y) (polygon_sides kite) -> In v kite -> ~ strictly_between x y v).
Proof. exact case_visible. Qed.
