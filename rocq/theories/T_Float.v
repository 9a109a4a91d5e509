(** T_Float.v — binary64 (the arithmetic the crate really uses) on points whose
    coordinates are multiples of a power of two. *)

From Coq Require Import Reals List ZArith Lia.
From Verif Require Import Base Arith ArithR ArithF Geometry Elements Polyline Triangulator Spec SpecR SpecF Samples P_RX P_Z3 P_Z4 P_Z10.
Import ListNotations.
Local Open Scope R_scope.

(** C107 *)
Theorem C107_orientation : forall k, spacing k -> forall (a b c : vertex ArithF) (a' b' c' : pnt),
  grid_point k a' -> grid_point k b' -> grid_point k c' -> reads a a' -> reads b b' -> reads c c' ->
  (orientation a b c = CCW <-> 0 < area2 a' b' c') /\
  (orientation a b c = CW <-> area2 a' b' c' < 0) /\
  (orientation a b c = Colinear <-> area2 a' b' c' = 0).
Proof. exact float_orientation. Qed.
Print Assumptions C107_orientation.

Theorem C107_encroachment : forall k, spacing k -> forall (a b v : vertex ArithF) (a' b' v' : pnt),
  grid_point k a' -> grid_point k b' -> grid_point k v' -> reads a a' -> reads b b' -> reads v v' ->
  forall m, half_point a' b' m ->
  (encroach a b v = Inside <-> d2 m v' < d2 a' b' / 4) /\
  (encroach a b v = Outside <-> d2 a' b' / 4 < d2 m v') /\
  (encroach a b v = Boundary <-> d2 m v' = d2 a' b' / 4).
Proof. exact float_encroach. Qed.
Print Assumptions C107_encroachment.

Theorem C107_parallel : forall k, spacing k -> forall (a b c d : vertex ArithF) (a' b' c' d' : pnt),
  grid_point k a' -> grid_point k b' -> grid_point k c' -> grid_point k d' -> reads a a' -> reads b b' -> reads c c' -> reads d d' ->
  (parallel a b c d = true <-> crossp a' b' c' d' = 0).
Proof. exact float_parallel. Qed.
Print Assumptions C107_parallel.

Theorem C107_dot : forall k, spacing k -> forall (a b c d : vertex ArithF) (a' b' c' d' : pnt),
  grid_point k a' -> grid_point k b' -> grid_point k c' -> grid_point k d' -> reads a a' -> reads b b' -> reads c c' -> reads d d' ->
  double (dot a b c d) (dotp a' b' c' d').
Proof. exact float_dot. Qed.
Print Assumptions C107_dot.

Theorem C107_area : forall k, spacing k -> forall (a b c : vertex ArithF) (a' b' c' : pnt),
  grid_point k a' -> grid_point k b' -> grid_point k c' -> reads a a' -> reads b b' -> reads c c' ->
  double (area_triangle a b c) (area2 a' b' c' / 2).
Proof. exact float_area. Qed.
Print Assumptions C107_area.

Theorem C107_equality : forall k, spacing k -> forall (a b : vertex ArithF) (a' b' : pnt),
  grid_point k a' -> grid_point k b' -> reads a a' -> reads b b' -> (veqb a b = true <-> coincide a' b').
Proof. exact float_equal. Qed.
Print Assumptions C107_equality.

Theorem C107_midpoint : forall k, spacing k -> forall (a b : vertex ArithF) (a' b' : pnt),
  grid_point k a' -> grid_point k b' -> reads a a' -> reads b b' -> exists m, half_point a' b' m /\ reads (midpoint a b) m.
Proof. exact float_midpoint. Qed.
Print Assumptions C107_midpoint.

Theorem C107_edge_contains : forall k, spacing k -> forall (a b v : vertex ArithF) (a' b' v' : pnt),
  grid_point k a' -> grid_point k b' -> grid_point k v' -> reads a a' -> reads b b' -> reads v v' ->
  (edge_contains (a, b) v = true <-> on_segment a' b' v').
Proof. exact float_edge_contains. Qed.
Print Assumptions C107_edge_contains.

Theorem C107_contains : forall k, spacing k -> forall (l : list (vertex ArithF)) (l' : list pnt) (v : vertex ArithF) (v' : pnt),
  l <> [] -> Forall2 (grid_reads k) l l' -> grid_reads k v v' ->
  exists c, poly_contains (Poly l false) v = Ok (Some c) /\
    (c = Boundary <-> exists s, In s (polygon_sides l') /\ on_segment (fst s) (snd s) v') /\
    (c = Inside <-> strictly_in l' v') /\ (c = Outside <-> strictly_out l' v').
Proof. exact float_contains. Qed.
Print Assumptions C107_contains.

Theorem C107_insert_vertices : forall k, spacing k -> forall (H : HashOrder) p (t : triangulator ArithF) vs vs' b b' hs hs',
  t_boundary t = Poly b false -> t_holes t = map (fun h => Poly h false) hs -> b <> [] -> (forall h, In h hs -> h <> []) ->
  Forall2 (grid_reads k) b b' -> Forall2 (Forall2 (grid_reads k)) hs hs' -> Forall2 (grid_reads k) vs vs' ->
  exists t' r, insert_vertices H p t vs = Ok (t', r) /\
    (r = RFine <-> forall w, In w vs' -> in_domain b' hs' w) /\
    (forall bad, r = RErr bad -> t' = t /\ forall v w, grid_reads k v w -> In v vs -> (In v bad <-> ~ in_domain b' hs' w)).
Proof. exact float_insert. Qed.
Print Assumptions C107_insert_vertices.

(** Every point of the grid can be given to the crate. *)
Theorem C107_readable : forall k w, spacing k -> grid_point k w -> exists v, reads v w.
Proof. exact grid_readable. Qed.
Print Assumptions C107_readable.

Example C107_case : spacing 0 /\ Forall2 (grid_reads 0) [pt 0 0; pt 8 0; pt 8 8; pt 0 8] [at_ 0 0; at_ 8 0; at_ 8 8; at_ 0 8] /\
  Forall2 (Forall2 (grid_reads 0)) [[pt 2 2; pt 4 2; pt 4 4; pt 2 4]] [[at_ 2 2; at_ 4 2; at_ 4 4; at_ 2 4]] /\
  Forall2 (grid_reads 0) [pt 1 1; pt 3 3; pt 8 5] [at_ 1 1; at_ 3 3; at_ 8 5].
Proof. exact case_square. Qed.
Example C107_integers : forall x y, (- 2 ^ 24 <= x <= 2 ^ 24)%Z -> (- 2 ^ 24 <= y <= 2 ^ 24)%Z -> grid_reads 0 (pt x y) (at_ (IZR x) (IZR y)).
Proof. exact pt_reads. Qed.

(** C108 *)
Theorem C108_cocircular_refuted : exists a b c d a' b' c' d' o,
  grid_reads 0 a a' /\ grid_reads 0 b b' /\ grid_reads 0 c c' /\ grid_reads 0 d d' /\
  0 < area2 a' b' c' /\ 0 < area2 a' c' d' /\ 0 < area2 a' b' d' /\ 0 < area2 b' c' d' /\
  d2 o b' = d2 o a' /\ d2 o c' = d2 o a' /\ d2 o d' = d2 o a' /\
  continence a b c d = Inside /\ continence b c a d = Outside /\ continence b c d a = Inside.
Proof. exact cocircular_wrong. Qed.
Print Assumptions C108_cocircular_refuted.

(** C109 *)
Theorem C109_incircle : forall k, fine_spacing k -> forall (a b c d : vertex ArithF) (a' b' c' d' : pnt),
  fine_point k a' -> fine_point k b' -> fine_point k c' -> fine_point k d' -> reads a a' -> reads b b' -> reads c c' -> reads d d' ->
  forall o, d2 o a' = d2 o b' -> d2 o a' = d2 o c' -> 0 < area2 a' b' c' -> d2 o d' <> d2 o a' ->
  (continence a b c d = Inside <-> d2 o d' < d2 o a') /\ (continence a b c d = Outside <-> d2 o a' < d2 o d').
Proof. exact float_circle. Qed.
Print Assumptions C109_incircle.

Theorem C109_incircle_clockwise : forall k, fine_spacing k -> forall (a b c d : vertex ArithF) (a' b' c' d' : pnt),
  fine_point k a' -> fine_point k b' -> fine_point k c' -> fine_point k d' -> reads a a' -> reads b b' -> reads c c' -> reads d d' ->
  forall o, d2 o a' = d2 o b' -> d2 o a' = d2 o c' -> area2 a' b' c' < 0 -> d2 o d' <> d2 o a' ->
  (continence a b c d = Outside <-> d2 o d' < d2 o a') /\ (continence a b c d = Inside <-> d2 o a' < d2 o d').
Proof. exact float_turned. Qed.
Print Assumptions C109_incircle_clockwise.

Example C109_case : fine_spacing 0 /\ fine_point 0 (at_ (-4) (-3)) /\ fine_point 0 (at_ 5 0) /\ fine_point 0 (at_ 3 4) /\ fine_point 0 (at_ 1 5) /\ fine_point 0 (at_ (-2) 4) /\
  reads (pt (-4) (-3)) (at_ (-4) (-3)) /\ reads (pt 5 0) (at_ 5 0) /\ reads (pt 3 4) (at_ 3 4) /\ reads (pt 1 5) (at_ 1 5) /\ reads (pt (-2) 4) (at_ (-2) 4) /\
  let o := at_ 0 0 in d2 o (at_ (-4) (-3)) = d2 o (at_ 5 0) /\ d2 o (at_ (-4) (-3)) = d2 o (at_ 3 4) /\ 0 < area2 (at_ (-4) (-3)) (at_ 5 0) (at_ 3 4) /\
    area2 (at_ (-4) (-3)) (at_ 3 4) (at_ 5 0) < 0 /\
    d2 o (at_ (-4) (-3)) < d2 o (at_ 1 5) /\ d2 o (at_ (-2) 4) < d2 o (at_ (-4) (-3)).
Proof. exact circle_near. Qed.
