(** SpecN.v — what is left of a mesh when the inside of a polygon is taken out. *)

From Coq Require Import Reals List ZArith.
From Verif Require Import Base Arith Geometry Elements Polyline Procedures Triangulator ArithR Spec SpecR SpecD SpecP SpecC.
Import ListNotations.
Local Open Scope R_scope.

(** [tr'] is [tr] without the triangles inside the counterclockwise polygon [h],
    with an outer face at each side of [h], turned to its inside. *)
Record hollowed (h : list pnt) (tr tr' : mesh) : Prop := {
  hw_solid : forall a b c q, solid_in tr (Tri a b c) -> inside_triangle a b c q ->
    (In (Tri a b c) (tris tr') <-> winding q (polygon_sides h) = 0%Z);
  hw_old : forall t, solid_in tr' t -> solid_in tr t;
  hw_faces : forall t, is_ghost t = true ->
    (In t (tris tr') <-> In t (tris tr) \/ exists s, In s (polygon_sides h) /\ t = Tri (fst s) (snd s) ghost_vertex);
  hw_region : forall q, ~ on_polygon h q -> (in_region tr' q <-> in_region tr q /\ winding q (polygon_sides h) = 0%Z)
}.

(** The mesh has no triangle, and two outer faces at each side of [h]. *)
Definition emptied (h : list pnt) (tr : mesh) : Prop := forall t, In t (tris tr) <->
  exists a b, (In (a, b) (polygon_sides h) \/ In (b, a) (polygon_sides h)) /\ t = Tri a b ghost_vertex.
