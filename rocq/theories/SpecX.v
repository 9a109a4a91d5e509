(** SpecX.v — the sides of polylines; circles. *)

From Coq Require Import List Bool.
From Verif Require Import Base Arith Geometry Elements Polyline Procedures Refine Triangulator.
Import ListNotations.

Section Sides.
  Context {A : Arith}.

  (** From each vertex to the next, and from the last to the first if the
      polyline is closed. *)
  Inductive polyline_side (pl : polyline A) : edge A -> Prop :=
  | side_step : forall l1 a b l2, pverts pl = l1 ++ a :: b :: l2 -> polyline_side pl (a, b)
  | side_closing : forall a l, popened pl = false -> pverts pl = a :: l -> polyline_side pl (last (a :: l) a, a).

  (** What refinement may not cross. *)
  Definition constraint_on (t : triangulator A) (e : edge A) : Prop :=
    polyline_side (t_boundary t) e \/ (exists h, In h (t_holes t) /\ polyline_side h e) \/ In e (t_segments t).
End Sides.
