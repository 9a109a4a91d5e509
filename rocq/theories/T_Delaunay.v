(** T_Delaunay.v — unconstrained insertion keeps the Delaunay triangulation, over
    exact real arithmetic with the tolerances of the code (C33–C35, C67–C69). *)

From Coq Require Import Reals List ZArith Permutation.
From Verif Require Import Base Arith Geometry Elements Polyline Procedures ArithR Spec SpecR SpecD P_D8.
Import ListNotations.
Local Open Scope R_scope.

(** C33 *)
Theorem C33_insertion : forall (H : HashOrder) fuel p S (tr : mesh) vs tr' inc del, delaunay S tr -> resolved (vs ++ S) ->
  vertices_include H fuel p tr vs [] None [] = Ok (tr', inc, del) ->
  exists ins, NoDup ins /\ (forall w, In w ins -> In w vs /\ ~ In w S) /\ delaunay (ins ++ S) tr'.
Proof. exact insertion. Qed.
Print Assumptions C33_insertion.

Theorem C33_initial_segment : forall a b : pnt, vghost a = false -> vghost b = false -> a <> b -> delaunay [a; b] (from_initial_segment a b).
Proof. exact P_D5.initial_delaunay. Qed.
Print Assumptions C33_initial_segment.

Theorem C33_integer_points : forall (H : HashOrder) p a b (vs : list pnt), grid (a :: b :: vs) -> a <> b ->
  exists n0 tr' inc del ins, (forall fuel, (n0 <= fuel)%nat -> vertices_include H fuel p (from_initial_segment a b) vs [] None [] = Ok (tr', inc, del)) /\
    (forall w, In w ins -> In w vs) /\ delaunay (ins ++ [a; b]) tr'.
Proof. exact grid_batch. Qed.
Print Assumptions C33_integer_points.

Theorem C33_integer_points_resolved : forall S, grid S -> resolved S.
Proof. exact P_D7.grid_resolved. Qed.
Print Assumptions C33_integer_points_resolved.

Example C33_hypotheses : delaunay [pA; pB] (from_initial_segment pA pB) /\ resolved ([pC; pE; pF] ++ [pA; pB]) /\ grid [pA; pB; pC; pE; pF] /\ pA <> pB /\
  exists n0 x, vertices_include ho_id n0 [] (from_initial_segment pA pB) [pC; pE; pF] [] None [] = Ok x.
Proof. exact case_insertion. Qed.

(** C34 *)
Theorem C34_closed_surface : forall (H : HashOrder) fuel p S (tr : mesh) vs tr' inc del, delaunay S tr -> resolved (vs ++ S) ->
  vertices_include H fuel p tr vs [] None [] = Ok (tr', inc, del) -> forall t e, In t (tris tr') -> side_of e t ->
  (forall u, In u (tris tr') -> side_of e u -> u = t) /\
  exists u, In u (tris tr') /\ side_of (flip e) u /\ forall u', In u' (tris tr') -> side_of (flip e) u' -> u' = u.
Proof. exact insertion_closed. Qed.
Print Assumptions C34_closed_surface.

(** C35 *)
Theorem C35_returns : forall (H : HashOrder) p S (tr : mesh) vs, delaunay S tr -> resolved (vs ++ S) ->
  exists n0 x, forall fuel, (n0 <= fuel)%nat -> vertices_include H fuel p tr vs [] None [] = Ok x.
Proof. exact insertion_returns. Qed.
Print Assumptions C35_returns.

(** C67 *)
Theorem C67_alone : forall (H : HashOrder) fuel p S (tr : mesh) v tr' inc del, delaunay S tr -> resolved (v :: S) -> ~ all_on_a_line (v :: S) ->
  vertices_include H fuel p tr [v] [] None [] = Ok (tr', inc, del) -> delaunay (v :: S) tr' /\ In v (trn_vertices tr').
Proof. exact alone_kept. Qed.
Print Assumptions C67_alone.

Theorem C67_one_by_one : forall (H : HashOrder) p a b c (vs : list pnt), grid (a :: b :: c :: vs) -> area2 a b c <> 0 ->
  exists n0 tr', (forall fuel, (n0 <= fuel)%nat -> include_each H fuel p (from_initial_segment a b) (c :: vs) = Ok tr') /\
    delaunay ((c :: vs) ++ [a; b]) tr' /\ forall w, In w (trn_vertices tr') <-> In w (a :: b :: c :: vs).
Proof. exact each_kept. Qed.
Print Assumptions C67_one_by_one.

Example C67_hypotheses : resolved (pC :: [pA; pB]) /\ ~ all_on_a_line (pC :: [pA; pB]) /\ area2 pA pB pC <> 0 /\
  exists n0 x, vertices_include ho_id n0 [] (from_initial_segment pA pB) [pC] [] None [] = Ok x.
Proof. exact case_alone. Qed.

(** C68 *)
Theorem C68_order_independent : forall (H H' : HashOrder) fuel fuel' p p' S (tr : mesh) vs vs' tr1 tr2, delaunay S tr -> resolved (vs ++ S) -> ~ all_on_a_line S ->
  no_four_on_a_circle (vs ++ S) -> Permutation vs vs' -> include_each H fuel p tr vs = Ok tr1 -> include_each H' fuel' p' tr vs' = Ok tr2 ->
  forall t, In t (tris tr1) -> exists u, In u (tris tr2) /\ same_triangle t u.
Proof. exact order_independent. Qed.
Print Assumptions C68_order_independent.

Theorem C68_unique : forall S (tr tr' : mesh), delaunay S tr -> delaunay S tr' -> resolved S -> no_four_on_a_circle S ->
  forall t, In t (tris tr) -> exists u, In u (tris tr') /\ same_triangle t u.
Proof. exact P_D7.unique. Qed.
Print Assumptions C68_unique.

Example C68_hypotheses : exists tr, delaunay [pC; pA; pB] tr /\ resolved ([pE] ++ [pC; pA; pB]) /\ ~ all_on_a_line [pC; pA; pB] /\
  no_four_on_a_circle ([pE] ++ [pC; pA; pB]) /\ exists n0 tr1 tr2, include_each ho_id n0 [] tr [pE] = Ok tr1 /\ include_each ho_rev n0 [] tr [pE] = Ok tr2.
Proof. exact case_orders. Qed.

(** C69 *)
Theorem C69_tiling : forall (H : HashOrder) fuel p S (tr : mesh) vs tr' inc del, delaunay S tr -> resolved (vs ++ S) -> ~ all_on_a_line S ->
  vertices_include H fuel p tr vs [] None [] = Ok (tr', inc, del) ->
  (forall q, in_hull (trn_vertices tr') q <-> exists a b c, In (Tri a b c) (tris tr') /\ vghost c = false /\ in_triangle a b c q) /\
  (forall q a b c a' b' c', In (Tri a b c) (tris tr') -> In (Tri a' b' c') (tris tr') -> vghost c = false -> vghost c' = false ->
    inside_triangle a b c q -> inside_triangle a' b' c' q -> Tri a b c = Tri a' b' c').
Proof. exact insertion_tiles. Qed.
Print Assumptions C69_tiling.

Example C69_hypotheses : exists tr, delaunay [pC; pA; pB] tr /\ resolved ([pE; pF] ++ [pC; pA; pB]) /\ ~ all_on_a_line [pC; pA; pB] /\
  exists n0 x, vertices_include ho_id n0 [] tr [pE; pF] [] None [] = Ok x.
Proof. exact case_tiling. Qed.
