(** SpecO.v — directed edges followed from vertex to vertex, and the sides of a
    list of vertices taken as a chain or as a ring. *)

From Coq Require Import List.
From Verif Require Import Base Arith Geometry Elements Polyline.
Import ListNotations.

Section SpecO.
  Context {A : Arith}.
  Notation vertex := (vertex A).
  Notation edge := (edge A).

  (** From one vertex to another along one or more of the edges. *)
  Inductive leads (E : list edge) : vertex -> vertex -> Prop :=
  | leads_one : forall a b, In (a, b) E -> leads E a b
  | leads_on : forall a b c, In (a, b) E -> leads E b c -> leads E a c.

  Definition starts_at (E : list edge) (v : vertex) : Prop := exists w, In (v, w) E.

  (** The library's equality of vertices tells the ends of the edges from
      their starts. *)
  Definition told_apart (E : list edge) : Prop :=
    forall a b, starts_at E a -> (exists u, In (u, b) E) -> (veqb b a = true <-> b = a).

  (** No two edges start at the same vertex. *)
  Definition one_way (E : list edge) : Prop := NoDup (map fst E).

  (** Every edge ends where an edge starts. *)
  Definition no_dead_end (E : list edge) : Prop := forall e, In e E -> starts_at E (snd e).

  Fixpoint chain (l : list vertex) : list edge :=
    match l with
    | a :: ((b :: _) as l') => (a, b) :: chain l'
    | _ => []
    end.
  Definition ring (l : list vertex) : list edge :=
    match l with
    | [] => []
    | a :: _ => chain l ++ [(last l a, a)]
    end.
End SpecO.
