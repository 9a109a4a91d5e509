(** T_Refuted.v — claims that are false of the code, each with a concrete
    counterexample computed with binary64 arithmetic.  The witness itself is the
    non-trivial case. *)

From Coq Require Import String List ZArith.
From Verif Require Import Base Arith Geometry Elements Polyline Procedures Refine Triangulator Interface Json Main
  Spec SpecMain ArithF Samples P_Refuted P_Refuted2 P_Refuted3 P_Refuted4 P_Refuted5 P_Refuted6 P_Refuted7 P_Refuted8 P_Refuted9.
Import ListNotations.
Local Open Scope nat_scope.
Local Open Scope list_scope.

Theorem C15_hash_contract_refuted : exists v w : vertex ArithF,
  veqb v w = true /\ v <> w /\ hset vdec [v; w] = [v; w].
Proof. exact eq_without_same_hash. Qed.
Print Assumptions C15_hash_contract_refuted.

Theorem C15_transitive_refuted : exists u v w : vertex ArithF,
  veqb u v = true /\ veqb v w = true /\ veqb u w = false.
Proof. exact eq_not_transitive. Qed.
Print Assumptions C15_transitive_refuted.

Theorem C16_sort_refuted : exists l r : list (vertex ArithF),
  vertex_sort l = Ok r /\
  exists v w rest, r = v :: w :: rest /\ flt (vx w) (vx v) = true.
Proof. exact sort_unsorted. Qed.
Print Assumptions C16_sort_refuted.

Theorem C21_continence_direction_refuted : exists fuel (p q : polyline ArithF),
  proper_closed p /\ proper q /\
  poly_continence fuel p q = Ok (Some (Inside, Open)) /\
  poly_continence fuel p (Poly (rev (pverts q)) (popened q)) = Ok (Some (Inside, Closed)).
Proof. exact continence_directed. Qed.
Print Assumptions C21_continence_direction_refuted.

Theorem C45_segment_direction_refuted : exists H fuel p (t : triangulator ArithF) s t1 t2 bad,
  insert_segments H fuel p t [s] = Ok (t1, RFine) /\
  insert_segments H fuel p t [flip s] = Ok (t2, RErr bad).
Proof. exact insert_directed. Qed.
Print Assumptions C45_segment_direction_refuted.

Theorem C42_zero_length_refuted : exists H fuel p (t : triangulator ArithF) ss t' v,
  t_segments t = [] /\ (forall s, In s ss -> veqb (fst s) (snd s) = false) /\
  insert_segments H fuel p t ss = Ok (t', RFine) /\ In (v, v) (t_segments t').
Proof. exact zero_length_segment. Qed.
Print Assumptions C42_zero_length_refuted.

Theorem C44_hole_over_vertex_refuted : exists H p fuel (t : triangulator ArithF) v h t1 t2,
  insert_vertices H p t [v] = Ok (t1, RFine) /\ insert_hole fuel t1 h = Ok (t2, RFine) /\
  In v (t_vertices t2) /\ poly_contains h v = Ok (Some Inside).
Proof. exact hole_over_vertex. Qed.
Print Assumptions C44_hole_over_vertex_refuted.

Theorem C46_every_hole_blocks_refuted : exists H1 H2 fuel p (t : triangle ArithF) v h h',
  is_ghost t = false /\
  poly_continence fuel h (Poly [tri_center t; v] true) = Ok (Some (Inside, Open)) /\
  may_insert_triangle H1 fuel p t v None [h; h'] = Ok true /\
  may_insert_triangle H2 fuel p t v None [h; h'] = Ok false.
Proof. exact only_last_hole_counts. Qed.
Print Assumptions C46_every_hole_blocks_refuted.

Theorem C50_refine_targets_refuted : exists H fuel p b vs prm (t0 t1 t2 : triangulator ArithF) cs x q,
  proper_closed b /\
  insert_vertices H p (triangulator_new b) vs = Ok (t0, RFine) /\
  triangulate H fuel p t0 = Ok t1 /\ refine H fuel p t1 prm = Ok (t2, cs) /\
  In x (tris (t_trn t2)) /\ is_ghost x = false /\ quality x = Some q /\ fle (quality_ratio prm) q = true.
Proof. exact target_missed. Qed.
Print Assumptions C50_refine_targets_refuted.

Theorem C51_unencroach_report_refuted : exists H fuel p (t0 t1 : triangulator ArithF) cs tr sm del x,
  triangulate H fuel p t0 = Ok t1 /\ refine_constraints t1 = Ok cs /\
  unencroach H fuel p (t_trn t1) cs (Some (t_boundary t1)) (t_holes t1) = Ok (tr, sm, [], del) /\
  In x (tris tr) /\ ~ In x (tris (t_trn t1)).
Proof. exact unencroach_misreports. Qed.
Print Assumptions C51_unencroach_report_refuted.

Theorem C52_output_index_refuted : exists H p (t : triangle ArithF) cs i j k x y,
  output H p (incl_tri t trn_new) = Ok (cs, [(i, j, k)]) /\
  nth_error cs i = Some (x, y) /\ veqb (mkv x y) (tv1 t) = false.
Proof. exact output_index_wrong. Qed.
Print Assumptions C52_output_index_refuted.

Theorem C55_parsers_panic_refuted : exists fuel q (a1 a2 a3 : action ArithF),
  a_geometry a1 = "polyline"%string /\ a_points a1 <> [] /\ interpret fuel (Inp [a1] None q) = Panic /\
  a_geometry a2 = "segments"%string /\ interpret fuel (Inp [a2] None q) = Panic /\
  a_geometry a3 = "circle"%string /\ interpret fuel (Inp [a3] None q) = Panic.
Proof. exact parsers_panic. Qed.
Print Assumptions C55_parsers_panic_refuted.

Theorem C56_removals_merged_refuted : exists H fuel p inp (b r1 r2 : polyline ArithF) hs u q h1 h2,
  poly_continence fuel b r1 = Ok (Some (Inside, Open)) /\
  poly_continence fuel b r2 = Ok (Some (Inside, Open)) /\
  poly_union H fuel p r1 r2 = Ok (Some (u, q)) /\
  domain_holes H fuel p b [r1; r2] = Ok hs /\
  In h1 hs /\ In h2 hs /\ h1 <> h2 /\ poly_continence fuel h1 h2 <> Ok (Some (Outside, Open)) /\
  i_actions inp = [act_of "include" [(0, 0); (10, 0); (10, 10); (0, 10)]%Z;
    act_of "remove" [(4, 4); (6, 4); (6, 6); (4, 6)]%Z; act_of "remove" [(5, 5); (7, 5); (7, 7); (5, 7)]%Z] /\
  parse H fuel p inp = Ok None.
Proof. exact removals_not_merged. Qed.
Print Assumptions C56_removals_merged_refuted.

Theorem C61_batch_insertion_refuted : exists H H' fuel p (a b : vertex ArithF) vs tr inc del tr' inc' del' v,
  scattered (a :: b :: vs) /\
  vertices_include H fuel p (from_initial_segment a b) vs [] None [] = Ok (tr, inc, del) /\
  vertices_include H' fuel p (from_initial_segment a b) vs [] None [] = Ok (tr', inc', del') /\
  In v vs /\ ~ In v (trn_vertices tr) /\
  forall w, In w vs -> In w (trn_vertices tr').
Proof. exact vertex_lost. Qed.
Print Assumptions C61_batch_insertion_refuted.

Theorem C64_unencroached_refuted : exists H fuel p (t0 t1 : triangulator ArithF) cs s vs tr vs' new inc del e v,
  triangulate H fuel p t0 = Ok t1 /\ refine_constraints t1 = Ok cs /\ In s cs /\
  (forall w, In w vs <-> In w (trn_vertices (t_trn t1)) /\ edge_encroach s w = Inside) /\
  unencroach_segment H fuel p (t_trn t1) s vs cs (Some (t_boundary t1)) (t_holes t1) = Ok (tr, vs', new, inc, del) /\
  In e new /\ In v vs /\ edge_encroach e v = Inside.
Proof. exact still_encroached. Qed.
Print Assumptions C64_unencroached_refuted.

(** C63: the run of [C61_batch_insertion_refuted] read alone. *)
Theorem C63_requested_vertices_refuted : exists H fuel p (a b : vertex ArithF) vs tr inc del v,
  scattered (a :: b :: vs) /\
  vertices_include H fuel p (from_initial_segment a b) vs [] None [] = Ok (tr, inc, del) /\
  In v vs /\ ~ In v (trn_vertices tr).
Proof. exact vertex_lost_alone. Qed.
Print Assumptions C63_requested_vertices_refuted.

(** C82 *)
Theorem C82_counterclockwise_tiling_refuted : exists H fuel p (b : polyline ArithF) s v t1 t2 t3 x y z q,
  insert_segments H fuel p (triangulator_new b) [s] = Ok (t1, RFine) /\
  insert_vertices H p t1 [v] = Ok (t2, RFine) /\ triangulate H fuel p t2 = Ok t3 /\
  In x (tris (t_trn t3)) /\ is_ghost x = false /\ orientation (tv1 x) (tv2 x) (tv3 x) = CW /\
  In y (tris (t_trn t3)) /\ In z (tris (t_trn t3)) /\ y <> z /\
  (is_ghost y = false /\ orientation (tv1 y) (tv2 y) q = CCW /\ orientation (tv2 y) (tv3 y) q = CCW /\ orientation (tv3 y) (tv1 y) q = CCW) /\
  (is_ghost z = false /\ orientation (tv1 z) (tv2 z) q = CCW /\ orientation (tv2 z) (tv3 z) q = CCW /\ orientation (tv3 z) (tv1 z) q = CCW).
Proof. exact P_Refuted2.torn_mesh. Qed.
Print Assumptions C82_counterclockwise_tiling_refuted.

(** C86 *)
Theorem C86_every_segment_kept_refuted : exists H H' fuel p (b : polyline ArithF) s1 s2 q t1 t2 t1' t2',
  orientation (fst s2) (snd s2) (fst s1) = CCW /\ orientation (fst s2) (snd s2) (snd s1) = CCW /\
  insert_segments H fuel p (triangulator_new b) [s1; s2] = Ok (t1, RFine) /\ triangulate H fuel p t1 = Ok t2 /\
  insert_segments H' fuel p (triangulator_new b) [s1; s2] = Ok (t1', RFine) /\ triangulate H' fuel p t1' = Ok t2' /\
  (forall t, In t (tris (t_trn t2)) -> ~ side_of s2 t /\ ~ side_of (flip s2) t) /\
  poly_contains b q = Ok (Some Inside) /\
  (forall t, In t (tris (t_trn t2)) -> is_ghost t = false ->
     orientation (tv1 t) (tv2 t) q = CW \/ orientation (tv2 t) (tv3 t) q = CW \/ orientation (tv3 t) (tv1 t) q = CW) /\
  exists t t', In t (tris (t_trn t2')) /\ side_of s1 t /\ In t' (tris (t_trn t2')) /\ side_of s2 t'.
Proof. exact P_Refuted3.segment_lost. Qed.
Print Assumptions C86_every_segment_kept_refuted.

Theorem C86_segments_never_panic_refuted : exists H fuel p (b : polyline ArithF) s1 s2 t1,
  orientation (fst s2) (snd s2) (fst s1) = CCW /\ orientation (fst s2) (snd s2) (snd s1) = CCW /\
  insert_segments H fuel p (triangulator_new b) [s1; s2] = Ok (t1, RFine) /\ triangulate H fuel p t1 = Panic.
Proof. exact P_Refuted3.segments_panic. Qed.
Print Assumptions C86_segments_never_panic_refuted.

(** C87 *)
Theorem C87_refine_keeps_segments_refuted : exists H fuel p (b : polyline ArithF) s1 s2 v prm t1 t2 t3 t4 cs e,
  insert_segments H fuel p (triangulator_new b) [s1; s2] = Ok (t1, RFine) /\ insert_vertices H p t1 [v] = Ok (t2, RFine) /\ triangulate H fuel p t2 = Ok t3 /\
  (forall t, In t (tris (t_trn t3)) -> is_ghost t = false -> orientation (tv1 t) (tv2 t) (tv3 t) = CCW) /\
  (exists t t', In t (tris (t_trn t3)) /\ side_of s1 t /\ In t' (tris (t_trn t3)) /\ side_of s2 t') /\
  refine H fuel p t3 prm = Ok (t4, cs) /\ In e cs /\ fst e = fst s1 /\ snd e = edge_midpoint s1 /\
  (forall t, In t (tris (t_trn t4)) -> ~ side_of e t /\ ~ side_of (flip e) t).
Proof. exact P_Refuted3.refine_loses. Qed.
Print Assumptions C87_refine_keeps_segments_refuted.

Theorem C87_refine_never_panics_refuted : exists H fuel p (b : polyline ArithF) s1 s2 v prm t1 t2 t3,
  insert_segments H fuel p (triangulator_new b) [s1; s2] = Ok (t1, RFine) /\ insert_vertices H p t1 [v] = Ok (t2, RFine) /\ triangulate H fuel p t2 = Ok t3 /\
  (forall t, In t (tris (t_trn t3)) -> is_ghost t = false -> orientation (tv1 t) (tv2 t) (tv3 t) = CCW) /\
  (exists t t', In t (tris (t_trn t3)) /\ side_of s1 t /\ In t' (tris (t_trn t3)) /\ side_of s2 t') /\
  refine H fuel p t3 prm = Panic.
Proof. exact P_Refuted3.refine_panics. Qed.
Print Assumptions C87_refine_never_panics_refuted.

(** C96 *)
Theorem C96_two_holes_refuted : exists H H' fuel p (b h g : polyline ArithF) q w t1 t2 t3 t3',
  insert_hole fuel (triangulator_new b) h = Ok (t1, RFine) /\ insert_hole fuel t1 g = Ok (t2, RFine) /\
  triangulate H fuel p t2 = Ok t3 /\ triangulate H' fuel p t2 = Ok t3' /\ poly_contains h q = Ok (Some Inside) /\
  (exists x, In x (tris (t_trn t3)) /\ (is_ghost x = false /\ orientation (tv1 x) (tv2 x) q = CCW /\ orientation (tv2 x) (tv3 x) q = CCW /\ orientation (tv3 x) (tv1 x) q = CCW)) /\
  (exists y z, In y (tris (t_trn t3)) /\ In z (tris (t_trn t3)) /\ y <> z /\
     (is_ghost y = false /\ orientation (tv1 y) (tv2 y) w = CCW /\ orientation (tv2 y) (tv3 y) w = CCW /\ orientation (tv3 y) (tv1 y) w = CCW) /\
     (is_ghost z = false /\ orientation (tv1 z) (tv2 z) w = CCW /\ orientation (tv2 z) (tv3 z) w = CCW /\ orientation (tv3 z) (tv1 z) w = CCW)) /\
  (forall x, In x (tris (t_trn t3')) -> ~ (is_ghost x = false /\ orientation (tv1 x) (tv2 x) q = CCW /\ orientation (tv2 x) (tv3 x) q = CCW /\ orientation (tv3 x) (tv1 x) q = CCW)).
Proof. exact P_Refuted4.hole_covered. Qed.
Print Assumptions C96_two_holes_refuted.

(** C97 *)
Theorem C97_hole_in_a_bent_polygon_refuted : exists H H' fuel p (b h : polyline ArithF) q w t1 t2 t2',
  insert_hole fuel (triangulator_new b) h = Ok (t1, RFine) /\
  triangulate H fuel p t1 = Ok t2 /\ triangulate H' fuel p t1 = Ok t2' /\
  poly_contains h q = Ok (Some Inside) /\ poly_contains b w = Ok (Some Outside) /\
  (exists x y, In x (tris (t_trn t2)) /\ (is_ghost x = false /\ orientation (tv1 x) (tv2 x) q = CCW /\ orientation (tv2 x) (tv3 x) q = CCW /\ orientation (tv3 x) (tv1 x) q = CCW) /\
     In y (tris (t_trn t2)) /\ (is_ghost y = false /\ orientation (tv1 y) (tv2 y) w = CCW /\ orientation (tv2 y) (tv3 y) w = CCW /\ orientation (tv3 y) (tv1 y) w = CCW)) /\
  (forall x, In x (tris (t_trn t2')) ->
     ~ (is_ghost x = false /\ orientation (tv1 x) (tv2 x) q = CCW /\ orientation (tv2 x) (tv3 x) q = CCW /\ orientation (tv3 x) (tv1 x) q = CCW) /\
     ~ (is_ghost x = false /\ orientation (tv1 x) (tv2 x) w = CCW /\ orientation (tv2 x) (tv3 x) w = CCW /\ orientation (tv3 x) (tv1 x) w = CCW)).
Proof. exact P_Refuted4.hole_covered_alone. Qed.
Print Assumptions C97_hole_in_a_bent_polygon_refuted.

Theorem C116_removal_refuted : exists H fuel p (inp : input ArithF) t prm q,
  i_actions inp = [act_of "include" [(0, 0); (4, 0); (4, 4); (0, 4)]%Z; act_of "remove" [(0, 0); (2, 0); (2, 2); (0, 2)]%Z] /\
  parse H fuel p inp = Ok (Some (t, prm)) /\ t_holes t = [] /\ poly_contains (t_boundary t) q = Ok (Some Inside) /\
  poly_contains (Poly [pt 0 0; pt 2 0; pt 2 2; pt 0 2] false) q = Ok (Some Inside).
Proof. exact removal_ignored. Qed.
Print Assumptions C116_removal_refuted.

Theorem C116_subtraction_refuted : exists H fuel p u (q : vertex ArithF),
  poly_subtraction H fuel p (Poly [pt 0 0; pt 4 0; pt 4 4; pt 0 4] false) (Poly [pt 0 0; pt 2 0; pt 2 2; pt 0 2] false) = Ok ([], u) /\
  poly_contains (Poly [pt 0 0; pt 4 0; pt 4 4; pt 0 4] false) q = Ok (Some Inside) /\ poly_contains (Poly [pt 0 0; pt 2 0; pt 2 2; pt 0 2] false) q = Ok (Some Outside).
Proof. exact corner_not_cut. Qed.
Print Assumptions C116_subtraction_refuted.

(** C124 *)
Theorem C124_refined_hole_refuted : exists H fuel p prm (b h : polyline ArithF) q w t1 t2 t3 cs,
  insert_hole fuel (triangulator_new b) h = Ok (t1, RFine) /\ triangulate H fuel p t1 = Ok t2 /\ refine H fuel p t2 prm = Ok (t3, cs) /\
  poly_contains h q = Ok (Some Inside) /\
  (forall u, In u (tris (t_trn t2)) -> is_ghost u = false -> orientation (tv1 u) (tv2 u) (tv3 u) = CCW) /\
  (forall u, In u (tris (t_trn t2)) -> ~ (is_ghost u = false /\ orientation (tv1 u) (tv2 u) q = CCW /\ orientation (tv2 u) (tv3 u) q = CCW /\ orientation (tv3 u) (tv1 u) q = CCW)) /\
  (exists u, In u (tris (t_trn t3)) /\ (is_ghost u = false /\ orientation (tv1 u) (tv2 u) q = CCW /\ orientation (tv2 u) (tv3 u) q = CCW /\ orientation (tv3 u) (tv1 u) q = CCW)) /\
  (exists y z, In y (tris (t_trn t3)) /\ In z (tris (t_trn t3)) /\ y <> z /\
     (is_ghost y = false /\ orientation (tv1 y) (tv2 y) w = CCW /\ orientation (tv2 y) (tv3 y) w = CCW /\ orientation (tv3 y) (tv1 y) w = CCW) /\
     (is_ghost z = false /\ orientation (tv1 z) (tv2 z) w = CCW /\ orientation (tv2 z) (tv3 z) w = CCW /\ orientation (tv3 z) (tv1 z) w = CCW)).
Proof. exact refined_covers_hole. Qed.
Print Assumptions C124_refined_hole_refuted.

Theorem C124_refine_never_panics_refuted : exists H fuel p prm (b h : polyline ArithF) q t1 t2,
  insert_hole fuel (triangulator_new b) h = Ok (t1, RFine) /\ triangulate H fuel p t1 = Ok t2 /\ refine H fuel p t2 prm = Panic /\
  poly_contains h q = Ok (Some Inside) /\
  (forall u, In u (tris (t_trn t2)) -> is_ghost u = false -> orientation (tv1 u) (tv2 u) (tv3 u) = CCW) /\
  (forall u, In u (tris (t_trn t2)) -> ~ (is_ghost u = false /\ orientation (tv1 u) (tv2 u) q = CCW /\ orientation (tv2 u) (tv3 u) q = CCW /\ orientation (tv3 u) (tv1 u) q = CCW)).
Proof. exact refined_panics. Qed.
Print Assumptions C124_refine_never_panics_refuted.

Theorem C124_triangulate_never_panics_refuted : exists H fuel p t1,
  insert_hole fuel (triangulator_new (Poly [pt 0 0; pt 8 0; pt 8 8; pt 0 8] false)) (Poly [pt 3 2; pt 6 1; pt 2 3] false) = Ok (t1, RFine) /\ triangulate H fuel p t1 = Panic.
Proof. exact thin_hole_panics. Qed.
Print Assumptions C124_triangulate_never_panics_refuted.

(** C125: the corners of a convex polygon, clockwise; one of them is close to
    another side. *)
Theorem C125_never_panics_refuted : exists H fuel p,
  run_main H fuel p (Inp [act_of "include" [(0, 0); (9, 1); (20, 0); (8, -1)]%Z] None (fpz 10)) = Panic.
Proof. exact turned_panics. Qed.
Print Assumptions C125_never_panics_refuted.

(** C126 *)
Theorem C126_simple_polygon_filled_refuted : let hook : polyline ArithF := Poly [pt 0 0; pt 40 0; pt 40 2; pt 4 2; pt 4 4; pt 20 4; pt 20 10; pt 0 10] false in
  exists H fuel p q es t, into_edges hook = Ok es /\ (forall e e', In e es -> In e' es -> crosses e e' = false) /\
    poly_contains hook q = Ok (Some Inside) /\ triangulate H fuel p (triangulator_new hook) = Ok t /\
    (forall v, In v (pverts hook) -> In v (trn_vertices (t_trn t))) /\ forall u, In u (tris (t_trn t)) -> is_ghost u = true.
Proof. exact hook_unfilled. Qed.
Print Assumptions C126_simple_polygon_filled_refuted.

(** C129: a square with a triangular hole; all its coordinates are small integers. *)
Theorem C129_always_ends_refuted : exists (H : HashOrder) (inp : input ArithF),
  i_actions inp = [act_of "include" [(0, 0); (6, 0); (6, 6); (0, 6)]%Z; act_of "remove" [(2, 2); (4, 1); (1, 3)]%Z] /\
  forall p, (exists N t prm, (forall fuel, N <= fuel -> parse H fuel (1 :: p) inp = Ok (Some (t, prm))) /\ forall fuel, triangulate H fuel (2 :: p) t = NoFuel) /\
    forall fuel, run_main H fuel p inp = NoFuel.
Proof. exact input_forever. Qed.
Print Assumptions C129_always_ends_refuted.

Theorem C129_program_ends_refuted : exists (H : HashOrder) (j : json (T ArithF)),
  (forall uuid uuid_read (id : uuid) now, exists d, read_input (A:=ArithF) fpz uuid uuid_read id now j = Some d /\
    i_actions (d_input _ d) = [act_of "include" [(0, 0); (6, 0); (6, 6); (0, 6)]%Z; act_of "remove" [(2, 2); (4, 1); (1, 3)]%Z]) /\
  forall finite uuid (uuid_read : string -> option uuid) uuid_show F32 (cast : T ArithF -> F32) text_read text_show writable display p id now c (w : world F32),
    holds_value text_read w (c_input c) j ->
    forall fuel, main (A:=ArithF) H fpz finite uuid uuid_read uuid_show cast text_read text_show writable display fuel p id now c w = Unfinished.
Proof. exact program_forever. Qed.
Print Assumptions C129_program_ends_refuted.

(** The same input in another order of the hash sets. *)
Theorem C129_never_panics_refuted : exists H fuel p,
  run_main H fuel p (Inp [act_of "include" [(0, 0); (6, 0); (6, 6); (0, 6)]%Z; act_of "remove" [(2, 2); (4, 1); (1, 3)]%Z] None (fpz 10)) = Panic.
Proof. exact input_panics. Qed.
Print Assumptions C129_never_panics_refuted.

(** C136: a convex quadrilateral and two points inside it, all with small integer coordinates. *)
Theorem C136_refined_polygon_refuted : let quad : polyline ArithF := Poly [pt 0 0; pt 20 0; pt 21 19; pt 1 18] false in
  exists H H' fuel p prm w t1 t2 t3 cs t3' cs',
  insert_vertices H p (triangulator_new quad) [pt 11 10; pt 12 9] = Ok (t1, RFine) /\ triangulate H fuel p t1 = Ok t2 /\ refine H fuel p t2 prm = Ok (t3, cs) /\ refine H' fuel p t2 prm = Ok (t3', cs') /\
  (forall u, In u (tris (t_trn t2)) -> is_ghost u = false -> orientation (tv1 u) (tv2 u) (tv3 u) = CCW) /\
  (forall u, In u (tris (t_trn t3')) -> is_ghost u = false -> orientation (tv1 u) (tv2 u) (tv3 u) = CCW) /\
  (exists u, In u (tris (t_trn t3)) /\ is_ghost u = false /\ orientation (tv1 u) (tv2 u) (tv3 u) = CW) /\
  (exists y z, In y (tris (t_trn t3)) /\ In z (tris (t_trn t3)) /\ y <> z /\
     (is_ghost y = false /\ orientation (tv1 y) (tv2 y) w = CCW /\ orientation (tv2 y) (tv3 y) w = CCW /\ orientation (tv3 y) (tv1 y) w = CCW) /\
     (is_ghost z = false /\ orientation (tv1 z) (tv2 z) w = CCW /\ orientation (tv2 z) (tv3 z) w = CCW /\ orientation (tv3 z) (tv1 z) w = CCW)).
Proof. exact refined_torn. Qed.
Print Assumptions C136_refined_polygon_refuted.

Theorem C136_line_inside_refuted : let quad : polyline ArithF := Poly [pt 0 0; pt 20 0; pt 21 19; pt 1 18] false in
  exists fuel q, poly_contains quad q = Ok (Some Inside) /\ poly_continence fuel quad (Poly [q; edge_midpoint (pt 20 0, pt 21 19)] true) = Ok None.
Proof. exact middle_left_out. Qed.
Print Assumptions C136_line_inside_refuted.

Theorem C136_same_input_refuted : exists (H H' : HashOrder) fuel p c ts c' ts',
  let inp : input ArithF := Inp [act_of "include" [(0, 0); (20, 0); (21, 19); (1, 18)]%Z;
    Act (A:=ArithF) "constraint" "vertices" [] [point_of 11 10; point_of 12 9] []] None (fpz 1000) in
  run_main H fuel p inp = Ok (Some (c, ts)) /\ run_main H' fuel p inp = Ok (Some (c', ts')) /\ length c = length c' /\ length ts <> length ts'.
Proof. exact written_differs. Qed.
Print Assumptions C136_same_input_refuted.
