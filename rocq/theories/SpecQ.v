(** SpecQ.v — points in convex position. *)

From Coq Require Import Reals List.
From Verif Require Import Base Arith Geometry Elements ArithR Spec SpecR SpecD.
Import ListNotations.
Local Open Scope R_scope.

(** No three of the points are on a line, and none is inside a triangle of three
    others: all are corners of their convex hull. *)
Definition convex_position (S : list pnt) : Prop :=
  (forall a b c, In a S -> In b S -> In c S -> a <> b -> b <> c -> c <> a -> area2 a b c <> 0) /\
  (forall a b c w, In a S -> In b S -> In c S -> In w S -> ~ inside_triangle a b c w).
