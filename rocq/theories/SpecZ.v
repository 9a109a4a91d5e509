(** SpecZ.v — what can be reached from a triangle without leaving the boundary
    and without crossing a hole. *)

From Coq Require Import List.
From Verif Require Import Base Arith Geometry Elements Polyline.
Import ListNotations.

Section SpecZ.
  Context {A : Arith}.
  Notation vertex := (vertex A).
  Notation triangle := (triangle A).
  Notation polyline := (polyline A).

  (** From the centre of a triangle straight to a vertex; from a ghost triangle,
      the triangle of its two vertices with the new one. *)
  Definition way (t : triangle) (v : vertex) : polyline :=
    if is_ghost t then Poly [tv1 t; tv2 t; v] false else Poly [tri_center t; v] true.

  (** Neither cut by the boundary nor outside of it. *)
  Definition in_bounds (n : nat) (bd : option polyline) (t : triangle) (v : vertex) : Prop :=
    match bd with
    | None => True
    | Some b => exists c k, poly_continence n b (way t v) = Ok (Some (c, k)) /\ c <> Outside
    end.
  (** Neither cut by the hole nor inside of it. *)
  Definition past_hole (n : nat) (h : polyline) (t : triangle) (v : vertex) : Prop :=
    exists c k, poly_continence n h (way t v) = Ok (Some (c, k)) /\ c <> Inside.

  Definition sees_past_all (n : nat) (bd : option polyline) (hs : list polyline) (t : triangle) (v : vertex) : Prop :=
    in_bounds n bd t v /\ forall h, In h hs -> past_hole n h t v.
  Definition sees_past_one (n : nat) (bd : option polyline) (hs : list polyline) (t : triangle) (v : vertex) : Prop :=
    in_bounds n bd t v /\ (hs = [] \/ exists h, In h hs /\ past_hole n h t v).

  Definition in_circle (t : triangle) (v : vertex) : Prop := encircles t v = Inside.
  (** On the side of a ghost triangle that has no ghost. *)
  Definition on_rim (t : triangle) (v : vertex) : Prop := is_ghost t = true /\ edge_contains (tv1 t, tv2 t) v = true.
End SpecZ.
