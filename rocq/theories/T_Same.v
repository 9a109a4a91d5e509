(** T_Same.v — all runs on a convex polygon give one mesh (C134). *)

From Coq Require Import Reals List ZArith Permutation.
From Verif Require Import Base Arith Geometry Elements Polyline Procedures Triangulator ArithR Spec SpecR SpecD SpecP SpecC SpecE P_RX P_D8 P_Polygon3 P_Same.
Import ListNotations.
Local Open Scope R_scope.

(** C134: two runs, with the corners listed from different starts and the vertices
    in different orders.  A batch may drop a vertex ([C63_requested_vertices_refuted]);
    runs that keep the same vertices agree. *)
Theorem C134_same_vertices_same_mesh : forall (H H' : HashOrder) fuel fuel' p p' (t t' u u' : triangulator ArithR) l1 l2 vs vs', polygon_with t (l1 ++ l2) vs -> polygon_with u (l2 ++ l1) vs' ->
  convex_polygon (l1 ++ l2) -> NoDup vs -> Permutation vs vs' -> resolved (vs ++ l1 ++ l2) -> (forall w, In w vs -> deep (l1 ++ l2) w) -> no_four_on_a_circle (vs ++ l1 ++ l2) ->
  triangulate H fuel p t = Ok t' -> triangulate H' fuel' p' u = Ok u' ->
  (forall w, In w vs -> In w (trn_vertices (t_trn t')) <-> In w (trn_vertices (t_trn u'))) ->
  forall x, In x (tris (t_trn t')) -> exists y, In y (tris (t_trn u')) /\ same_triangle x y.
Proof. exact same_mesh. Qed.
Print Assumptions C134_same_vertices_same_mesh.

Theorem C134_polygon : forall (H H' : HashOrder) fuel fuel' p p' (t t' u u' : triangulator ArithR) l1 l2, only_polygon t (l1 ++ l2) -> only_polygon u (l2 ++ l1) ->
  convex_polygon (l1 ++ l2) -> resolved (l1 ++ l2) -> no_four_on_a_circle (l1 ++ l2) -> triangulate H fuel p t = Ok t' -> triangulate H' fuel' p' u = Ok u' ->
  forall x, In x (tris (t_trn t')) -> exists y, In y (tris (t_trn u')) /\ same_triangle x y.
Proof. exact same_polygon. Qed.
Print Assumptions C134_polygon.

Theorem C134_one_vertex : forall (H H' : HashOrder) fuel fuel' p p' (t t' u u' : triangulator ArithR) l1 l2 v, polygon_with t (l1 ++ l2) [v] -> polygon_with u (l2 ++ l1) [v] ->
  convex_polygon (l1 ++ l2) -> resolved (v :: l1 ++ l2) -> deep (l1 ++ l2) v -> no_four_on_a_circle (v :: l1 ++ l2) -> triangulate H fuel p t = Ok t' -> triangulate H' fuel' p' u = Ok u' ->
  forall x, In x (tris (t_trn t')) -> exists y, In y (tris (t_trn u')) /\ same_triangle x y.
Proof. exact same_one. Qed.
Print Assumptions C134_one_vertex.

(** A kite with a vertex in it, read from two corners under two hash orders. *)
Example C134_case : polygon_with kite_one ([pA; pB] ++ [pF; pC]) [pE] /\ polygon_with kite_two kite_turned [pE] /\ convex_polygon ([pA; pB] ++ [pF; pC]) /\ resolved (pE :: [pA; pB] ++ [pF; pC]) /\
  deep ([pA; pB] ++ [pF; pC]) pE /\ no_four_on_a_circle (pE :: [pA; pB] ++ [pF; pC]) /\
  exists n t' u', triangulate ho_id n [] kite_one = Ok t' /\ triangulate ho_rev n [] kite_two = Ok u' /\
    (In pE (trn_vertices (t_trn t')) <-> In pE (trn_vertices (t_trn u'))).
Proof. exact case_same. Qed.
