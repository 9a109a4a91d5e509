(** T_Rounds.v — how often the loops of insertion and of a polygon's run go round (C133). *)

From Coq Require Import Reals List ZArith.
From Verif Require Import Base Arith Geometry Elements Polyline Procedures Triangulator ArithR Spec SpecR SpecD SpecP P_RX P_D8 P_Polygon3 P_Round.
Import ListNotations.
Local Open Scope R_scope.

(** C133 *)
Theorem C133_insertion : forall (H : HashOrder) fuel p S (tr : mesh) vs, delaunay S tr -> resolved (vs ++ S) ->
  (4 * length (trn_vertices tr) + 5 * length vs <= fuel)%nat ->
  exists x, vertices_include H fuel p tr vs [] None [] = Ok x.
Proof. exact insertion_rounds. Qed.
Print Assumptions C133_insertion.

Example C133_case_insertion : delaunay [pA; pB] (from_initial_segment pA pB) /\ resolved ([pC; pE; pF] ++ [pA; pB]) /\ grid [pA; pB; pC; pE; pF] /\ pA <> pB /\
  exists n0 x, vertices_include ho_id n0 [] (from_initial_segment pA pB) [pC; pE; pF] [] None [] = Ok x.
Proof. exact case_insertion. Qed.

Theorem C133_polygon : forall (H : HashOrder) fuel p (t : triangulator ArithR) l v1 v2 rest, only_polygon t l -> l = v1 :: v2 :: rest -> v1 <> v2 -> resolved l ->
  (8 * (length l + 1) <= fuel)%nat -> exists t', triangulate H fuel p t = Ok t'.
Proof. exact polygon_rounds. Qed.
Print Assumptions C133_polygon.

Example C133_case_polygon : only_polygon dart_input dart /\ dart = pA :: pB :: [pE; pC] /\ pA <> pB /\ resolved dart.
Proof. exact (conj case_only (conj eq_refl (conj (proj1 (proj2 case_points)) dart_resolved))). Qed.
