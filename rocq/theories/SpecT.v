(** SpecT.v — an input that asks for one polygon, or a circle, with some vertices
    in it. *)

From Coq Require Import String List Reals.
From Verif Require Import Base Arith Geometry Elements Interface ArithR SpecR.
Import ListNotations.
Local Open Scope string_scope.

(** The vertex at a point of the input. *)
Definition put (q : R * R) : pnt := V (A:=ArithR) (fst q) (snd q) false.

(** [n] points evenly spread on the circle, counterclockwise from the east. *)
Definition circle_ring (c : R * R) (r : R) (n : nat) : list pnt :=
  map (fun i => put (fst c + r * cos (2 * PI * INR i / INR n), snd c + r * sin (2 * PI * INR i / INR n)))%R (seq 0 n).
(** The first scalar is the radius, the second the number of points (100 if it is
    left out). *)
Definition asks_circle (c : R * R) (r : R) (n : nat) (a : action ArithR) : Prop :=
  a_intent a = "include" /\ a_geometry a = "circle" /\ a_points a = [c] /\ (3 <= n)%nat /\
  exists rest, a_scalars a = r :: rest /\ (rest = [] /\ n = 100%nat \/ exists x, hd_error rest = Some x /\ INR n - / 2 <= x < INR n + / 2)%R.

Definition asks_polygon (l : list pnt) (a : action ArithR) : Prop :=
  (a_intent a = "include" /\ a_geometry a = "polyline" /\ map put (a_points a) = l) \/
  (exists c r n, asks_circle c r n a /\ l = circle_ring c r n).
Definition asks_vertices (a : action ArithR) : Prop := a_intent a = "constraint" /\ a_geometry a = "vertices".

(** The polygon [l], perhaps several times, and vertices at the points [vs]. *)
Record polygon_job (inp : input ArithR) (l vs : list pnt) : Prop := {
  pj_some : exists a, In a (i_actions inp) /\ asks_polygon l a;
  pj_only : forall a, In a (i_actions inp) -> asks_polygon l a \/ asks_vertices a;
  pj_vertices : forall w, In w vs <-> exists a q, In a (i_actions inp) /\ asks_vertices a /\ In q (a_points a) /\ w = put q
}.
