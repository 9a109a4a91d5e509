(** SpecC.v — constrained Delaunay meshes of the real plane: the triangles fill a
    region between constrained edges, and circles need not be empty of what lies
    behind a constrained edge. *)

From Coq Require Import Reals List ZArith.
From Verif Require Import Base Arith Geometry Elements Polyline Procedures Triangulator ArithR Spec SpecR SpecD SpecP.
Import ListNotations.
Local Open Scope R_scope.

(** [ab] is constrained, in one direction or the other. *)
Definition barred (K : list (edge ArithR)) (a b : pnt) : Prop := In (a, b) K \/ In (b, a) K.

(** The triangle [t] of the mesh, read from its side [ab]. *)
Definition reads (tr : mesh) (t : tri) (a b c : pnt) : Prop := In t (tris tr) /\ (t = Tri a b c \/ t = Tri b c a \/ t = Tri c a b).

(** The mesh is a triangulation of part of the plane, with the constrained edges
    among the sides of its solid triangles, outer faces behind constrained edges only, no overlap, and
    locally Delaunay across every other edge: the corner facing [ab] on one side
    is not strictly inside the circle of the triangle on the other side. *)
Record constrained_delaunay (S : list pnt) (K : list (edge ArithR)) (tr : mesh) : Prop := {
  cd_sound : adj_sound tr;
  cd_complete : adj_complete tr;
  cd_nodup : NoDup (tris tr);
  cd_shape : forall t, In t (tris tr) -> solid_over S t \/ ghost_over S t;
  cd_closed : forall t e, In t (tris tr) -> side_of e t -> exists t', In t' (tris tr) /\ side_of (flip e) t';
  cd_outer : forall a b, In (Tri a b ghost_vertex) (tris tr) -> barred K a b;
  cd_bars : forall a b, In (a, b) K -> In a S /\ In b S /\ exists t, solid_in tr t /\ (side_of (a, b) t \/ side_of (b, a) t);
  cd_local : forall a b c d t u, reads tr t a b c -> reads tr u b a d -> is_ghost t = false -> is_ghost u = false -> ~ barred K a b ->
    forall o, d2 o a = d2 o b -> d2 o a = d2 o c -> d2 o a <= d2 o d;
  cd_once : forall a b c a' b' c' q, solid_in tr (Tri a b c) -> solid_in tr (Tri a' b' c') ->
    inside_triangle a b c q -> inside_triangle a' b' c' q -> Tri a b c = Tri a' b' c';
  cd_used : forall w, In w S -> exists t, solid_in tr t /\ corner_of w t
}.

(** The region covered by the solid triangles, and the inside of the triangles. *)
Definition in_region (tr : mesh) (q : pnt) : Prop := exists a b c, solid_in tr (Tri a b c) /\ in_triangle a b c q.
Definition in_open_region (tr : mesh) (q : pnt) : Prop := exists a b c, solid_in tr (Tri a b c) /\ inside_triangle a b c q.

(** No constrained edge touches the segment from [q] to [v]. *)
Definition sees (K : list (edge ArithR)) (q v : pnt) : Prop :=
  forall a b z, barred K a b -> on_segment a b z -> on_segment q v z -> False.
(** Every triangle whose circle strictly contains [v] has a point that sees [v]. *)
Definition unscreened (K : list (edge ArithR)) (tr : mesh) (v : pnt) : Prop :=
  forall t, In t (tris tr) -> encircles t v = Inside ->
    exists a b c q, t = Tri a b c /\ vghost c = false /\ in_triangle a b c q /\ sees K q v.

(** The same in terms of circles: a triangle whose circle strictly contains [v] has
    a point that sees [v], and [v] is on the inner side of every outer face. *)
Definition clear_view (K : list (edge ArithR)) (tr : mesh) (v : pnt) : Prop :=
  (forall a b c, solid_in tr (Tri a b c) -> (forall o, d2 o a = d2 o b -> d2 o a = d2 o c -> d2 o v < d2 o a) ->
     exists q, in_triangle a b c q /\ sees K q v) /\
  (forall a b, In (Tri a b ghost_vertex) (tris tr) -> area2 a b v <= 0).

(** [w] is to the left of [ab], farther than [m] times the tolerance. *)
Definition spread (m : R) (a b w : pnt) : Prop := m * eps * (Rabs (X b - X a) + Rabs (Y b - Y a)) < area2 a b w.

(** A triangulator for a polygon with free vertices, and nothing else in it. *)
Record polygon_with (t : triangulator ArithR) (l vs : list pnt) : Prop := {
  pw_boundary : t_boundary t = Poly l false;
  pw_holes : t_holes t = [];
  pw_segments : t_segments t = [];
  pw_vertices : t_vertices t = vs
}.
