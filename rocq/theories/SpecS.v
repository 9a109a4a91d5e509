(** SpecS.v — the triangles that the insertion of a segment may touch. *)

From Coq Require Import List.
From Verif Require Import Base Arith Geometry Elements Polyline Spec.
Import ListNotations.

Section Way.
  Context {A : Arith}.

  (** An end of the segment is not outside the circle of the triangle, or the
      segment is not wholly outside the triangle. *)
  Definition in_the_way (fuel : nat) (s : edge A) (t : triangle A) : Prop :=
    encircles t (fst s) <> Outside \/ encircles t (snd s) <> Outside \/
    exists o, poly_continence fuel (Poly [tv1 t; tv2 t; tv3 t] false) (Poly [fst s; snd s] true) = Ok o /\ o <> Some (Outside, Open).

  (** An end of the segment is strictly beyond the line of a constrained side. *)
  Definition shielded (cs : list (edge A)) (s : edge A) (t : triangle A) : Prop :=
    exists a b, side_of (a, b) t /\ (In (a, b) cs \/ In (b, a) cs) /\
      (orientation b a (fst s) = CCW \/ orientation b a (snd s) = CCW).

  (** A triangle that the insertion of the segment takes away. *)
  Definition gives_way (fuel : nat) (cs : list (edge A)) (s : edge A) (t : triangle A) : Prop :=
    is_ghost t = false /\ in_the_way fuel s t /\ ~ shielded cs s t.

  (** The ends of edges. *)
  Definition ends_of (es : list (edge A)) : list (vertex A) := flat_map (fun e => [fst e; snd e]) es.
End Way.
