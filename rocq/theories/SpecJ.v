(** SpecJ.v — a convex polygon with a hole. *)

From Coq Require Import Reals List ZArith.
From Verif Require Import Base Arith Geometry Elements Polyline Procedures Triangulator ArithR Spec SpecR SpecD SpecP SpecC SpecE.
Import ListNotations.
Local Open Scope R_scope.

(** The mesh [tr] with vertices [S] covers exactly the polygon [l] without the
    inside of the hole [h]; it is a triangulation constrained by the sides of
    both, its triangles have circles empty of all of [S], and its outer faces lie
    along the polygon and around the hole. *)
Record holed (l h S : list pnt) (tr : mesh) : Prop := {
  hl_mesh : constrained_delaunay S (polygon_sides l ++ polygon_sides h) tr;
  hl_circle : forall a b c, solid_in tr (Tri a b c) -> empty_circle S a b c;
  hl_region : forall q, in_region tr q <->
    (forall a b, In (a, b) (polygon_sides l) -> 0 <= area2 a b q) /\ (winding q (polygon_sides h) = 0%Z \/ on_polygon h q);
  hl_faces : forall a b, In (Tri a b ghost_vertex) (tris tr) <-> In (b, a) (polygon_sides l) \/ In (a, b) (polygon_sides h)
}.

(** A triangulator for a polygon with one hole, and nothing else. *)
Record polygon_hole (t : triangulator ArithR) (l h : list pnt) : Prop := {
  ph_boundary : t_boundary t = Poly l false;
  ph_holes : t_holes t = [Poly h false];
  ph_segments : t_segments t = [];
  ph_vertices : t_vertices t = []
}.

(** The corners of [l] and points well inside of it. *)
Definition corner_or_deep (l : list pnt) (w : pnt) : Prop := In w l \/ deep l w.
