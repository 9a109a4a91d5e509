(** T_Fuel.v — the step budget never changes an answer (C62): with a larger
    budget a run either gives the same outcome or the smaller budget was
    exhausted. *)

From Coq Require Import List ZArith.
From Verif Require Import Base Arith Geometry Elements Polyline Procedures Refine Triangulator Interface
  P_Fuel ArithF Samples.
Import ListNotations.
Local Open Scope nat_scope.

Theorem C62_edge_arrange : forall (A : Arith) (H : HashOrder) n n', n <= n' -> forall p es,
  edge_arrange (A:=A) H n p es = NoFuel \/ edge_arrange (A:=A) H n p es = edge_arrange H n' p es.
Proof. exact @edge_arrange_mono. Qed.
Print Assumptions C62_edge_arrange.

Theorem C62_decompose : forall (A : Arith) (H : HashOrder) n n', n <= n' -> forall p b e,
  decompose (A:=A) H n p b e = NoFuel \/ decompose (A:=A) H n p b e = decompose H n' p b e.
Proof. exact @decompose_mono. Qed.
Print Assumptions C62_decompose.

Theorem C62_split_intersections : forall (A : Arith) n n', n <= n' -> forall l,
  split_intersections (A:=A) n l = NoFuel \/ split_intersections (A:=A) n l = split_intersections n' l.
Proof. exact @split_intersections_mono. Qed.
Print Assumptions C62_split_intersections.

Theorem C62_poly_arrange : forall (A : Arith) (H : HashOrder) n n', n <= n' -> forall p es,
  poly_arrange (A:=A) H n p es = NoFuel \/ poly_arrange (A:=A) H n p es = poly_arrange H n' p es.
Proof. exact @poly_arrange_mono. Qed.
Print Assumptions C62_poly_arrange.

Theorem C62_poly_continence : forall (A : Arith) n n', n <= n' -> forall p1 p2,
  poly_continence (A:=A) n p1 p2 = NoFuel \/ poly_continence (A:=A) n p1 p2 = poly_continence n' p1 p2.
Proof. exact @poly_continence_mono. Qed.
Print Assumptions C62_poly_continence.

Theorem C62_poly_union : forall (A : Arith) (H : HashOrder) n n', n <= n' -> forall p a b,
  poly_union (A:=A) H n p a b = NoFuel \/ poly_union (A:=A) H n p a b = poly_union H n' p a b.
Proof. exact @poly_union_mono. Qed.
Print Assumptions C62_poly_union.

Theorem C62_poly_intersection : forall (A : Arith) (H : HashOrder) n n', n <= n' -> forall p a b,
  poly_intersection (A:=A) H n p a b = NoFuel \/ poly_intersection (A:=A) H n p a b = poly_intersection H n' p a b.
Proof. exact @poly_intersection_mono. Qed.
Print Assumptions C62_poly_intersection.

Theorem C62_poly_subtraction : forall (A : Arith) (H : HashOrder) n n', n <= n' -> forall p a b,
  poly_subtraction (A:=A) H n p a b = NoFuel \/ poly_subtraction (A:=A) H n p a b = poly_subtraction H n' p a b.
Proof. exact @poly_subtraction_mono. Qed.
Print Assumptions C62_poly_subtraction.

Theorem C62_triangles_hull : forall (A : Arith) (H : HashOrder) n n', n <= n' -> forall p ts,
  triangles_hull (A:=A) H n p ts = NoFuel \/ triangles_hull (A:=A) H n p ts = triangles_hull H n' p ts.
Proof. exact @triangles_hull_mono. Qed.
Print Assumptions C62_triangles_hull.

Theorem C62_vertices_include : forall (A : Arith) (H : HashOrder) n n', n <= n' -> forall p tr vs c b hs,
  vertices_include (A:=A) H n p tr vs c b hs = NoFuel \/ vertices_include (A:=A) H n p tr vs c b hs = vertices_include H n' p tr vs c b hs.
Proof. exact @vertices_include_mono. Qed.
Print Assumptions C62_vertices_include.

Theorem C62_boundary_include : forall (A : Arith) (H : HashOrder) n n', n <= n' -> forall p tr b c,
  boundary_include (A:=A) H n p tr b c = NoFuel \/ boundary_include (A:=A) H n p tr b c = boundary_include H n' p tr b c.
Proof. exact @boundary_include_mono. Qed.
Print Assumptions C62_boundary_include.

Theorem C62_segment_include : forall (A : Arith) (H : HashOrder) n n', n <= n' -> forall p tr s c,
  segment_include (A:=A) H n p tr s c = NoFuel \/ segment_include (A:=A) H n p tr s c = segment_include H n' p tr s c.
Proof. exact @segment_include_mono. Qed.
Print Assumptions C62_segment_include.

Theorem C62_hole_include : forall (A : Arith) (H : HashOrder) n n', n <= n' -> forall p tr h c,
  hole_include (A:=A) H n p tr h c = NoFuel \/ hole_include (A:=A) H n p tr h c = hole_include H n' p tr h c.
Proof. exact @hole_include_mono. Qed.
Print Assumptions C62_hole_include.

Theorem C62_unencroach_segment : forall (A : Arith) (H : HashOrder) n n', n <= n' -> forall p tr e vs c b hs,
  unencroach_segment (A:=A) H n p tr e vs c b hs = NoFuel \/ unencroach_segment (A:=A) H n p tr e vs c b hs = unencroach_segment H n' p tr e vs c b hs.
Proof. exact @unencroach_segment_mono. Qed.
Print Assumptions C62_unencroach_segment.

Theorem C62_unencroach : forall (A : Arith) (H : HashOrder) n n', n <= n' -> forall p tr c b hs,
  unencroach (A:=A) H n p tr c b hs = NoFuel \/ unencroach (A:=A) H n p tr c b hs = unencroach H n' p tr c b hs.
Proof. exact @unencroach_mono. Qed.
Print Assumptions C62_unencroach.

Theorem C62_try_circumcenter : forall (A : Arith) (H : HashOrder) n n', n <= n' -> forall p tr t c b hs,
  try_circumcenter (A:=A) H n p tr t c b hs = NoFuel \/ try_circumcenter (A:=A) H n p tr t c b hs = try_circumcenter H n' p tr t c b hs.
Proof. exact @try_circumcenter_mono. Qed.
Print Assumptions C62_try_circumcenter.

Theorem C62_split_irregular : forall (A : Arith) (H : HashOrder) n n', n <= n' -> forall p prm tr c b hs,
  split_irregular (A:=A) H n p prm tr c b hs = NoFuel \/ split_irregular (A:=A) H n p prm tr c b hs = split_irregular H n' p prm tr c b hs.
Proof. exact @split_irregular_mono. Qed.
Print Assumptions C62_split_irregular.

Theorem C62_insert_segments : forall (A : Arith) (H : HashOrder) n n', n <= n' -> forall p t ss,
  insert_segments (A:=A) H n p t ss = NoFuel \/ insert_segments (A:=A) H n p t ss = insert_segments H n' p t ss.
Proof. exact @insert_segments_mono. Qed.
Print Assumptions C62_insert_segments.

Theorem C62_insert_hole : forall (A : Arith) n n', n <= n' -> forall t h,
  insert_hole (A:=A) n t h = NoFuel \/ insert_hole (A:=A) n t h = insert_hole n' t h.
Proof. exact @insert_hole_mono. Qed.
Print Assumptions C62_insert_hole.

Theorem C62_refine : forall (A : Arith) (H : HashOrder) n n', n <= n' -> forall p t prm,
  refine (A:=A) H n p t prm = NoFuel \/ refine (A:=A) H n p t prm = refine H n' p t prm.
Proof. exact @refine_mono. Qed.
Print Assumptions C62_refine.

Theorem C62_triangulate : forall (A : Arith) (H : HashOrder) n n', n <= n' -> forall p t,
  triangulate (A:=A) H n p t = NoFuel \/ triangulate (A:=A) H n p t = triangulate H n' p t.
Proof. exact @triangulate_mono. Qed.
Print Assumptions C62_triangulate.

Theorem C62_interpret : forall (A : Arith) n n', n <= n' -> forall i,
  interpret (A:=A) n i = NoFuel \/ interpret (A:=A) n i = interpret n' i.
Proof. exact @interpret_mono. Qed.
Print Assumptions C62_interpret.

Theorem C62_domain_boundary : forall (A : Arith) (H : HashOrder) n n', n <= n' -> forall p i r,
  domain_boundary (A:=A) H n p i r = NoFuel \/ domain_boundary (A:=A) H n p i r = domain_boundary H n' p i r.
Proof. exact @domain_boundary_mono. Qed.
Print Assumptions C62_domain_boundary.

Theorem C62_domain_holes : forall (A : Arith) (H : HashOrder) n n', n <= n' -> forall p b rs,
  domain_holes (A:=A) H n p b rs = NoFuel \/ domain_holes (A:=A) H n p b rs = domain_holes H n' p b rs.
Proof. exact @domain_holes_mono. Qed.
Print Assumptions C62_domain_holes.

Theorem C62_parse : forall (A : Arith) (H : HashOrder) n n', n <= n' -> forall p i,
  parse (A:=A) H n p i = NoFuel \/ parse (A:=A) H n p i = parse H n' p i.
Proof. exact @parse_mono. Qed.
Print Assumptions C62_parse.

Theorem C62_run_main : forall (A : Arith) (H : HashOrder) n n', n <= n' -> forall p i,
  run_main (A:=A) H n p i = NoFuel \/ run_main (A:=A) H n p i = run_main H n' p i.
Proof. exact @run_main_mono. Qed.
Print Assumptions C62_run_main.

Example C62_hypotheses :
  (exists x, triangulate ho_id 100 [] (with_vertices domain0 [pt 3 4]) = Ok x /\
     Nat.ltb 4 (length (tris (t_trn x))) = true) /\
  match triangulate ho_id 5 [] (with_vertices domain0 [pt 3 4]) with NoFuel => true | _ => false end = true.
Proof. split; [apply okb_ok|]; vm_compute; reflexivity. Qed.
