(** SpecShow.v — when two things print alike. *)

From Coq Require Import String Ascii List Permutation.
From Verif Require Import Base Arith Geometry Elements.
Import ListNotations.

(** A text with no space, comma, parenthesis or line break in it. *)
Definition mark (c : ascii) : Prop :=
  c = " "%char \/ c = ","%char \/ c = "("%char \/ c = ")"%char \/ c = ascii_of_nat 10.
Fixpoint unmarked (s : string) : Prop :=
  match s with
  | EmptyString => True
  | String c s => ~ mark c /\ unmarked s
  end.

(** Different things are spelled differently and without marks. *)
Definition spells {X : Type} (show : X -> string) (ok : X -> Prop) : Prop :=
  (forall x, ok x -> unmarked (show x)) /\
  (forall x y, ok x -> ok y -> show x = show y -> x = y).

Section SpecShow.
  Context {A : Arith}.
  Notation vertex := (vertex A).
  Notation edge := (edge A).
  Notation triangle := (triangle A).
  Notation triangulation := (triangulation A).

  (** Vertices whose coordinates are among the numbers that can be told apart. *)
  Definition ok_vertex (ok : T A -> Prop) (v : vertex) : Prop :=
    vghost v = false -> ok (vx v) /\ ok (vy v).
  Definition ok_edge (ok : T A -> Prop) (e : edge) : Prop :=
    ok_vertex ok (fst e) /\ ok_vertex ok (snd e).
  Definition ok_triangle (ok : T A -> Prop) (t : triangle) : Prop :=
    ok_vertex ok (tv1 t) /\ ok_vertex ok (tv2 t) /\ ok_vertex ok (tv3 t).
  Definition ok_triangulation (ok : T A -> Prop) (tr : triangulation) : Prop :=
    (forall t, In t (tris tr) -> ok_triangle ok t) /\
    (forall e t, In (e, t) (adj tr) -> ok_edge ok e /\ ok_triangle ok t).

  (** The same vertex, all ghosts being the same. *)
  Definition alike (v w : vertex) : Prop :=
    (vghost v = true /\ vghost w = true) \/
    (vghost v = false /\ vghost w = false /\ vx v = vx w /\ vy v = vy w).
  Definition alike_edge (e f : edge) : Prop := alike (fst e) (fst f) /\ alike (snd e) (snd f).
  Definition alike_triangle (t u : triangle) : Prop :=
    alike (tv1 t) (tv1 u) /\ alike (tv2 t) (tv2 u) /\ alike (tv3 t) (tv3 u).

  (** The same members, in whatever order. *)
  Definition same_members {X : Type} (r : X -> X -> Prop) (l m : list X) : Prop :=
    exists k, Permutation k m /\ Forall2 r l k.
  Definition alike_triangulation (tr ur : triangulation) : Prop :=
    same_members alike_triangle (tris tr) (tris ur) /\
    same_members (fun x y => alike_edge (fst x) (fst y) /\ alike_triangle (snd x) (snd y)) (adj tr) (adj ur).
End SpecShow.

(** The first [k * (length l / k)] members: what is left over when taking [k] at
    a time is dropped. *)
Definition groups {X : Type} (k : nat) (l : list X) : list X := firstn (k * Nat.div (length l) k) l.

(** Parts one after the other, each with a text before it. *)
Fixpoint weave (before : list string) (parts : list string) (last : string) : string :=
  match before, parts with
  | b :: before, p :: parts => b ++ p ++ weave before parts last
  | _, _ => last
  end%string.
