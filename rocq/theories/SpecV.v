(** SpecV.v — parts of segments. *)

From Coq Require Import List.
From Verif Require Import Base Arith Geometry Elements Spec.
Import ListNotations.

Section SpecV.
  Context {A : Arith}.
  Notation edge := (edge A).

  (** [new] is [e] cut at its midpoint, and its halves cut further at midpoints. *)
  Definition cut_into (e : edge) (new : list edge) : Prop :=
    exists l1 l2, tiling (fst e, edge_midpoint e) l1 /\ tiling (edge_midpoint e, snd e) l2 /\ forall s, In s new <-> In s (l1 ++ l2).

  (** [s] is one of the pieces left after cutting [e]. *)
  Definition part_of (e s : edge) : Prop := exists new, cut_into e new /\ In s new.

  (** What comes out of the segments in [start] by cutting some of them, in
      either direction, and then some of the parts, and so on. *)
  Inductive comes_from (start : list edge) : edge -> Prop :=
  | from_start : forall e, In e start -> comes_from start e
  | from_back : forall a b, comes_from start (a, b) -> comes_from start (b, a)
  | from_part : forall e s, comes_from start e -> part_of e s -> comes_from start s.
End SpecV.
