(** SpecD.v — Delaunay triangulations of a finite set of points of the real
    plane, as relations on points and on the set of triangles of a mesh. *)

From Coq Require Import Reals List ZArith.
From Verif Require Import Base Arith Geometry Elements Polyline Procedures ArithR Spec SpecR.
Import ListNotations.
Local Open Scope R_scope.

Notation tri := (triangle ArithR).
Notation mesh := (triangulation ArithR).

(** [w] is strictly between [a] and [b]. *)
Definition strictly_between (a b w : pnt) : Prop := area2 a b w = 0 /\ dotp w a w b < 0.

(** A counterclockwise triangle with corners among [S]. *)
Definition solid_over (S : list pnt) (t : tri) : Prop :=
  exists a b c, t = Tri a b c /\ In a S /\ In b S /\ In c S /\ 0 < area2 a b c.
(** The outer face of the directed hull edge [ab]: the points that see it are on
    its left. *)
Definition ghost_over (S : list pnt) (t : tri) : Prop :=
  exists a b, t = Tri a b ghost_vertex /\ In a S /\ In b S /\ a <> b.

(** No point of [S] is strictly inside the circle through the corners. *)
Definition empty_circle (S : list pnt) (a b c : pnt) : Prop :=
  forall o w, In w S -> d2 o a = d2 o b -> d2 o a = d2 o c -> d2 o a <= d2 o w.
(** No point of [S] is to the left of [ab] nor strictly between [a] and [b]. *)
Definition hull_edge (S : list pnt) (a b : pnt) : Prop :=
  forall w, In w S -> area2 a b w <= 0 /\ ~ strictly_between a b w.

(** The mesh is a Delaunay triangulation of [S]: the adjacency map is exact, the
    triangles are counterclockwise triangles of [S] and outer faces, each side
    has exactly one triangle on each of its two sides, circles are empty, outer
    faces see nothing, every point of [S] is a corner, and a mesh that is only
    a segment has only its two ends. *)
Record delaunay (S : list pnt) (tr : mesh) : Prop := {
  dl_sound : adj_sound tr;
  dl_complete : adj_complete tr;
  dl_nodup : NoDup (tris tr);
  dl_shape : forall t, In t (tris tr) -> solid_over S t \/ ghost_over S t;
  dl_closed : forall t e, In t (tris tr) -> side_of e t -> exists t', In t' (tris tr) /\ side_of (flip e) t';
  dl_circle : forall a b c, In (Tri a b c) (tris tr) -> vghost c = false -> empty_circle S a b c;
  dl_hull : forall a b, In (Tri a b ghost_vertex) (tris tr) -> hull_edge S a b;
  dl_used : forall w, In w S -> exists t, In t (tris tr) /\ corner_of w t;
  dl_flat : forall a b, In (Tri a b ghost_vertex) (tris tr) -> In (Tri b a ghost_vertex) (tris tr) ->
    forall w, In w S -> w = a \/ w = b;
  dl_some : tris tr <> []
}.

(** The tolerances of the predicates do not bite on [S]: a triple reported
    collinear is collinear, a quadruple reported on one circle is, and different
    points are told apart. *)
Definition in_square (a b c d : pnt) : R :=
  dotp d a d b * area2 a b c - area2 a b d * dotp c a c b.
Record resolved (S : list pnt) : Prop := {
  rs_plain : forall a, In a S -> vghost a = false;
  rs_apart : forall a b, In a S -> In b S -> close a b -> a = b;
  rs_line : forall a b c, In a S -> In b S -> In c S -> - eps <= area2 a b c <= eps -> area2 a b c = 0;
  rs_circle : forall a b c d, In a S -> In b S -> In c S -> In d S ->
    - eps <= in_square a b c d <= eps -> in_square a b c d = 0
}.

Definition all_on_a_line (S : list pnt) : Prop := forall a b c, In a S -> In b S -> In c S -> area2 a b c = 0.
(** No four different points are on one circle. *)
Definition no_four_on_a_circle (S : list pnt) : Prop :=
  forall o a b c d, In a S -> In b S -> In c S -> In d S -> NoDup [a; b; c; d] ->
    d2 o a = d2 o b -> d2 o a = d2 o c -> d2 o a = d2 o d -> False.

(** Points of the integer grid. *)
Definition grid (S : list pnt) : Prop :=
  forall a, In a S -> vghost a = false /\ exists m n : Z, X a = IZR m /\ Y a = IZR n.

(** The closed triangle, and its inside. *)
Definition in_triangle (a b c q : pnt) : Prop := 0 <= area2 a b q /\ 0 <= area2 b c q /\ 0 <= area2 c a q.
Definition inside_triangle (a b c q : pnt) : Prop := 0 < area2 a b q /\ 0 < area2 b c q /\ 0 < area2 c a q.
(** The convex hull: the points that no line separates from [S]. *)
Definition in_hull (S : list pnt) (q : pnt) : Prop :=
  forall a b : pnt, (forall w, In w S -> area2 a b w <= 0) -> area2 a b q <= 0.

(** The same triangle up to the corner it starts with. *)
Definition same_triangle (t u : tri) : Prop := exists a b c, t = Tri a b c /\ (u = Tri a b c \/ u = Tri b c a \/ u = Tri c a b).

(** A client that inserts a list of vertices one call at a time. *)
Section Each.
  Context {A : Arith} (H : HashOrder).
  (** One call of [vertices::include] per vertex. *)
  Fixpoint include_each (fuel : nat) (p : path) (tr : triangulation A) (vs : list (vertex A)) : res (triangulation A) :=
    match vs with
    | [] => Ok tr
    | v :: vs' => let! (tr', _, _) := vertices_include H fuel (1%nat :: p) tr [v] [] None [] in
                  include_each fuel (0%nat :: p) tr' vs'
    end.
End Each.
