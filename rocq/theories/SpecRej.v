(** SpecRej.v — the inputs that are refused and those that stop the program, stated
    apart from the interpreter. *)

From Coq Require Import String List Arith.
From Verif Require Import Base Arith Geometry Elements Polyline Interface SpecI.
Import ListNotations.
Local Open Scope string_scope.
Local Open Scope list_scope.

Section SpecRej.
  Context {A : Arith}.
  Notation action := (action A).

  (** The sides of the ring of an action, and what cutting them where they cross
      makes of them. *)
  Definition cut_into (fuel : nat) (a : action) (es cut : list (edge A)) : Prop :=
    vertex_pairs (map set_at (a_points a)) false = Ok es /\ split_intersections fuel es = Ok cut.

  (** Two indices of points. *)
  Definition good_set (a : action) (s : list nat) : Prop :=
    exists i j r, s = i :: j :: r /\ i < length (a_points a) /\ j < length (a_points a).

  (** The number of corners of a circle. *)
  Definition corners (rest : list (T A)) : nat := match rest with x :: _ => fround_usize x | [] => 100 end.

  (** A ring with at least three corners that does not cross itself, or a circle. *)
  Definition ring (fuel : nat) (a : action) : Prop :=
    (a_geometry a = "polyline" /\ 3 <= length (a_points a) /\ exists es cut, cut_into fuel a es cut /\ length cut <= length es) \/
    (a_geometry a = "circle" /\ exists r rest c, a_scalars a = r :: rest /\ a_points a = [c] /\ 3 <= corners rest).

  (** Points that come in pairs, by position or by index. *)
  Definition paired (a : action) : Prop :=
    (a_assemble a = [] /\ Nat.Even (length (a_points a))) \/ (a_assemble a <> [] /\ forall s, In s (a_assemble a) -> good_set a s).

  (** Actions that are refused with an error. *)
  Inductive refused (fuel : nat) (a : action) : Prop :=
  | rf_geometry : ~ In (a_geometry a) ["polyline"; "circle"; "segments"; "vertices"] -> refused fuel a
  | rf_empty : a_geometry a = "polyline" -> a_points a = [] -> refused fuel a
  | rf_crossing : forall es cut, a_geometry a = "polyline" -> cut_into fuel a es cut -> length es < length cut -> refused fuel a
  | rf_circle : a_geometry a = "circle" -> a_scalars a = [] \/ length (a_points a) <> 1 -> refused fuel a
  | rf_ring : ring fuel a -> a_intent a <> "include" -> a_intent a <> "remove" -> refused fuel a
  | rf_odd : a_geometry a = "segments" -> a_assemble a = [] -> Nat.Odd (length (a_points a)) -> refused fuel a
  | rf_set : forall before s after, a_geometry a = "segments" -> a_assemble a = before ++ s :: after -> (forall x, In x before -> good_set a x) ->
      length s < 2 -> refused fuel a
  | rf_segments : a_geometry a = "segments" -> paired a -> a_intent a <> "constraint" -> refused fuel a
  | rf_vertices : a_geometry a = "vertices" -> a_intent a <> "constraint" -> refused fuel a.

  (** Actions that make the program panic. *)
  Inductive broken (fuel : nat) (a : action) : Prop :=
  | bk_ring : forall es cut, a_geometry a = "polyline" -> cut_into fuel a es cut -> length cut <= length es -> length (a_points a) < 3 -> broken fuel a
  | bk_circle : forall r rest c, a_geometry a = "circle" -> a_scalars a = r :: rest -> a_points a = [c] -> corners rest < 3 -> broken fuel a
  | bk_set : forall before i j r after, a_geometry a = "segments" -> a_assemble a = before ++ (i :: j :: r) :: after -> (forall x, In x before -> good_set a x) ->
      length (a_points a) <= i \/ length (a_points a) <= j -> broken fuel a.

  (** The first action that does not mean anything. *)
  Definition stops_at (fuel : nat) (inp : input A) (a : action) : Prop :=
    exists before after, i_actions inp = before ++ a :: after /\ forall b, In b before -> exists f, means fuel b f.
End SpecRej.
