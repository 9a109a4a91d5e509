(** SpecY.v — what a JSON value says as an output of the program. *)

From Coq Require Import String List Bool ZArith.
From Verif Require Import Base Arith Geometry Elements Polyline Procedures Refine Triangulator Interface Json SpecW.
Import ListNotations.
Local Open Scope string_scope.
Local Open Scope list_scope.

Section Output.
  Context {A : Arith}.
  Notation F := (T A).
  Notation json := (json F).
  Variables (of_int : Z -> F) (uuid : Type) (uuid_read : string -> option uuid).

  Definition tells_triangle (j : json) (t : nat * nat * nat) : Prop :=
    exists byname get j1 j2 j3, fields ["v1"; "v2"; "v3"] j byname get /\
      get "v1" = Some j1 /\ index j1 (fst (fst t)) /\ get "v2" = Some j2 /\ index j2 (snd (fst t)) /\ get "v3" = Some j3 /\ index j3 (snd t).
  Definition tells_tetrahedron (j : json) (t : nat * nat * nat * nat) : Prop :=
    exists byname get j1 j2 j3 j4, fields ["v1"; "v2"; "v3"; "v4"] j byname get /\
      get "v1" = Some j1 /\ index j1 (fst (fst (fst t))) /\ get "v2" = Some j2 /\ index j2 (snd (fst (fst t))) /\
      get "v3" = Some j3 /\ index j3 (snd (fst t)) /\ get "v4" = Some j4 /\ index j4 (snd t).

  (** The name and the coordinates are needed; the rest may be missing. *)
  Definition tells_report (id : uuid) (now : string) (j : json) (r : report (A:=A) uuid) : Prop :=
    exists byname get jc, fields ["id"; "name"; "date"; "coordinates"; "triangles"; "tetrahedrons"] j byname get /\
      or_else (fun j u => exists s, j = JStr s /\ uuid_read s = Some u) id (get "id") (r_id _ r) /\
      get "name" = Some (JStr (r_name _ r)) /\
      or_else (fun j s => j = JStr s) now (get "date") (r_date _ r) /\
      get "coordinates" = Some jc /\ listing (tells_point of_int) jc (r_coordinates _ r) /\
      or_else (listing tells_triangle) [] (get "triangles") (r_triangles _ r) /\
      or_else (listing tells_tetrahedron) [] (get "tetrahedrons") (r_tetrahedrons _ r).
End Output.
