(** SpecI.v — what an input means, stated apart from the interpreter. *)

From Coq Require Import String List.
From Verif Require Import Base Arith Geometry Elements Polyline Refine Triangulator Interface.
Import ListNotations.
Local Open Scope string_scope.
Local Open Scope list_scope.

Section SpecI.
  Context {A : Arith} (H : HashOrder).
  Notation vertex := (vertex A).
  Notation edge := (edge A).
  Notation triangle := (triangle A).
  Notation polyline := (polyline A).
  Notation action := (action A).
  Notation triangulation := (triangulation A).

  (** The vertex at a point of the input. *)
  Definition set_at (q : T A * T A) : vertex := V (fst q) (snd q) false.

  (** What one action asks for. *)
  Inductive effect : Type :=
  | EInclude (pl : polyline) | ERemove (pl : polyline)
  | ESegments (es : list edge) | EVertices (vs : list vertex).

  Definition body (fuel : nat) (a : action) (pl : polyline) : Prop :=
    (a_geometry a = "polyline" /\ parse_polyline fuel a = Ok (Some pl)) \/
    (a_geometry a = "circle" /\ parse_circle a = Ok (Some pl)).

  Inductive means (fuel : nat) (a : action) : effect -> Prop :=
  | means_include : forall pl, body fuel a pl -> a_intent a = "include" -> means fuel a (EInclude pl)
  | means_remove : forall pl, body fuel a pl -> a_intent a = "remove" -> means fuel a (ERemove pl)
  | means_segments : forall es, a_geometry a = "segments" -> a_intent a = "constraint" ->
      parse_segments a = Ok (Some es) -> means fuel a (ESegments es)
  | means_vertices : a_geometry a = "vertices" -> a_intent a = "constraint" ->
      means fuel a (EVertices (map set_at (a_points a))).

  Definition included (f : effect) : list polyline := match f with EInclude pl => [pl] | _ => [] end.
  Definition removed (f : effect) : list polyline := match f with ERemove pl => [pl] | _ => [] end.
  Definition segments_of (f : effect) : list edge := match f with ESegments es => es | _ => [] end.
  Definition vertices_of (f : effect) : list vertex := match f with EVertices vs => vs | _ => [] end.

  (** The polylines of a list united one after the other. *)
  Inductive united : list polyline -> polyline -> Prop :=
  | united_one : forall b, united [b] b
  | united_more : forall l b c u rest fuel p, united l b ->
      poly_union H fuel p b c = Ok (Some (u, rest)) -> united (c :: l) u.

  (** Removals taken one after the other out of a boundary; [kept] lists those
      that do not cut it. *)
  Inductive carved_out : polyline -> list polyline -> polyline -> list polyline -> Prop :=
  | carve_none : forall b, carved_out b [] b []
  | carve_uncut : forall b r rs b' kept rest fuel p,
      poly_subtraction H fuel p b r = Ok ([], rest) ->
      carved_out b rs b' kept -> carved_out b (r :: rs) b' (r :: kept)
  | carve_cut : forall b r rs b1 b' kept rest fuel p,
      poly_subtraction H fuel p b r = Ok ([b1], rest) ->
      carved_out b1 rs b' kept -> carved_out b (r :: rs) b' kept.

  (** A side of a triangle without ghost corner. *)
  Definition names (vec : list vertex) (t : triangle) (ijk : nat * nat * nat) : Prop :=
    let '(i, j, k) := ijk in
    nth_error vec i = Some (tv1 t) /\ nth_error vec j = Some (tv2 t) /\ nth_error vec k = Some (tv3 t).
End SpecI.
