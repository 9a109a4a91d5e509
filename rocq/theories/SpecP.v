(** SpecP.v — polygons filled with triangles. *)

From Coq Require Import Reals List ZArith.
From Verif Require Import Base Arith Geometry Elements Polyline Procedures Triangulator ArithR Spec SpecR SpecD.
Import ListNotations.
Local Open Scope R_scope.

(** The triangulator is given a closed polygon and nothing else. *)
Record only_polygon {A : Arith} (t : triangulator A) (l : list (vertex A)) : Prop := {
  op_boundary : t_boundary t = Poly l false;
  op_holes : t_holes t = [];
  op_segments : t_segments t = [];
  op_vertices : t_vertices t = []
}.

Definition solid_in (tr : mesh) (t : tri) : Prop := In t (tris tr) /\ is_ghost t = false.
Definition on_polygon (l : list pnt) (q : pnt) : Prop := exists s, In s (polygon_sides l) /\ on_segment (fst s) (snd s) q.

(** The solid triangles of [tr] are a Delaunay tiling of the polygon [l]. *)
Record fills (l : list pnt) (tr : mesh) : Prop := {
  (** counterclockwise, with corners of the polygon, and circles that are empty of them *)
  fl_shape : forall a b c, solid_in tr (Tri a b c) -> In a l /\ In b l /\ In c l /\ 0 < area2 a b c /\ empty_circle l a b c;
  (** the polygon goes once around its inside *)
  fl_simple : forall q, winding q (polygon_sides l) = 0%Z \/ winding q (polygon_sides l) = 1%Z;
  (** the triangles cover the inside ... *)
  fl_covers : forall q, winding q (polygon_sides l) = 1%Z -> exists a b c, solid_in tr (Tri a b c) /\ in_triangle a b c q;
  (** ... and nothing outside ... *)
  fl_within : forall a b c q, solid_in tr (Tri a b c) -> in_triangle a b c q -> winding q (polygon_sides l) = 1%Z \/ on_polygon l q;
  fl_inside : forall a b c q, solid_in tr (Tri a b c) -> inside_triangle a b c q -> winding q (polygon_sides l) = 1%Z;
  (** ... without overlap *)
  fl_once : forall a b c a' b' c' q, solid_in tr (Tri a b c) -> solid_in tr (Tri a' b' c') ->
    inside_triangle a b c q -> inside_triangle a' b' c' q -> Tri a b c = Tri a' b' c';
  (** a side of a triangle is shared with another, or is a side of the polygon *)
  fl_sides : forall t e, solid_in tr t -> side_of e t ->
    (In e (polygon_sides l) /\ ~ exists u, solid_in tr u /\ side_of (flip e) u) \/
    (~ In e (polygon_sides l) /\ exists u, solid_in tr u /\ side_of (flip e) u);
  (** the sides of the polygon are all there *)
  fl_border : forall e, In e (polygon_sides l) -> exists u, solid_in tr u /\ side_of e u;
  (** the outer faces are those of the polygon *)
  fl_outer : forall t, In t (tris tr) /\ is_ghost t = true <-> exists s, In s (polygon_sides l) /\ t = Tri (snd s) (fst s) ghost_vertex;
  (** the areas add up *)
  fl_area : exists ts, NoDup ts /\ (forall t, In t ts <-> solid_in tr t) /\
    total (map (fun t => area2 (tv1 t) (tv2 t) (tv3 t) / 2) ts) = shoelace (polygon_sides l)
}.

(** Some circle through the two ends has all the other points strictly outside. *)
Definition free_side (l : list pnt) (a b : pnt) : Prop :=
  exists o, d2 o a = d2 o b /\ forall w, In w l -> w <> a -> w <> b -> d2 o a < d2 o w.
