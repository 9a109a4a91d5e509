(** T_Quad.v — quadrilaterals (C145). *)

From Coq Require Import Reals List ZArith.
From Verif Require Import Base Arith ArithR ArithF Geometry Elements Polyline Procedures Triangulator Spec SpecR SpecD SpecP SpecF Samples P_RX P_D8 P_Polygon3 P_Y8 P_Y9.
Import ListNotations.
Local Open Scope R_scope.

(** C145: four vertices given at once to the segment over the first two are all
    used, unless they are on a line: the mesh is Delaunay over the four. *)
Theorem C145_batch : forall k, fine_spacing k -> forall (H : HashOrder) p a b v w a' b' v' w', Forall2 (fine_reads k) [a; b; v; w] [a'; b'; v'; w'] ->
  NoDup [a'; b'; v'; w'] -> no_four_on_a_circle [a'; b'; v'; w'] -> area2 a' b' v' <> 0 \/ area2 a' b' w' <> 0 ->
  exists n0 tr M inc del, (forall fuel, (n0 <= fuel)%nat -> vertices_include H fuel p (from_initial_segment a b) [a; b; v; w] [] None [] = Ok (tr, inc, del)) /\
    stands_for [a; b; v; w] tr M /\ delaunay [a'; b'; v'; w'] M.
Proof. exact float_batch. Qed.
Print Assumptions C145_batch.

(** So quadrilaterals with free sides are filled, in doubles ... *)
Theorem C145_double : forall k, fine_spacing k -> forall (H : HashOrder) p (t : triangulator ArithF) l a b c d, only_polygon t l -> Forall2 (fine_reads k) l [a; b; c; d] ->
  NoDup [a; b; c; d] -> no_four_on_a_circle [a; b; c; d] -> 0 < shoelace (polygon_sides [a; b; c; d]) ->
  (forall x y, In (x, y) (polygon_sides [a; b; c; d]) -> free_side [a; b; c; d] x y) ->
  exists n0 t' M, (forall fuel, (n0 <= fuel)%nat -> triangulate H fuel p t = Ok t') /\ reads_as l (t_trn t') M /\ fills [a; b; c; d] M.
Proof. exact float_quadrilateral. Qed.
Print Assumptions C145_double.

(** ... with the same triangles in every hash order ... *)
Theorem C145_same : forall k, fine_spacing k -> forall l a b c d, Forall2 (fine_reads k) l [a; b; c; d] -> NoDup [a; b; c; d] -> no_four_on_a_circle [a; b; c; d] ->
  0 < shoelace (polygon_sides [a; b; c; d]) -> (forall x y, In (x, y) (polygon_sides [a; b; c; d]) -> free_side [a; b; c; d] x y) ->
  forall (H H' : HashOrder) fuel fuel' p p' (t t' u u' : triangulator ArithF), only_polygon t l -> only_polygon u l ->
  triangulate H fuel p t = Ok t' -> triangulate H' fuel' p' u = Ok u' ->
  forall x, In x (tris (t_trn t')) -> exists y, In y (tris (t_trn u')) /\ exists a b c, x = Tri a b c /\ (y = Tri a b c \/ y = Tri b c a \/ y = Tri c a b).
Proof. exact quadrilateral_same. Qed.
Print Assumptions C145_same.

(** ... and in the real plane.  C79 asks the first side to have the other corners on
    its left; here the polygon may start anywhere. *)
Theorem C145_real : forall (H : HashOrder) p (t : triangulator ArithR) a b c d, only_polygon t [a; b; c; d] ->
  NoDup [a; b; c; d] -> resolved [a; b; c; d] -> 0 < shoelace (polygon_sides [a; b; c; d]) ->
  (forall x y, In (x, y) (polygon_sides [a; b; c; d]) -> free_side [a; b; c; d] x y) ->
  exists n0 t', (forall fuel, (n0 <= fuel)%nat -> triangulate H fuel p t = Ok t') /\ fills [a; b; c; d] (t_trn t').
Proof. exact real_quadrilateral. Qed.
Print Assumptions C145_real.

(** A quadrilateral that is not convex, from each of its four corners. *)
Example C145_case : forall n l', (n < 4)%nat -> l' = turned n dart -> exists l a b c d, l' = [a; b; c; d] /\ fine_spacing 0 /\ only_polygon (triangulator_new (Poly l false)) l /\ Forall2 (fine_reads 0) l [a; b; c; d] /\
  NoDup [a; b; c; d] /\ no_four_on_a_circle [a; b; c; d] /\ resolved [a; b; c; d] /\ 0 < shoelace (polygon_sides [a; b; c; d]) /\
  (forall x y, In (x, y) (polygon_sides [a; b; c; d]) -> free_side [a; b; c; d] x y) /\ In pE [a; b; c; d] /\ area2 pB pE pC < 0.
Proof. exact case_float_quadrilateral. Qed.
Example C145_case_batch : area2 pA pB pE <> 0 \/ area2 pA pB pC <> 0.
Proof. exact case_batch. Qed.
