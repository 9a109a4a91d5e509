(** Conformance2.v — more unit tests of the crate replayed on the model: segment
    inclusion, refinement and the triangulator. *)

From Coq Require Import List Bool Arith ZArith.
From Verif Require Import Base Arith Geometry Elements Polyline Procedures Refine Triangulator ArithF Conformance.
Import ListNotations.

(** planar/triangulation_procedures/hole.rs, sample_3 (one hash order: slow) *)
Definition include_hole_3 : bool := Eval vm_compute in
  (let b := [pt 1 1; pt 8 1; pt 8 7; pt 1 7] in
  let h := [pt 2 6; pt 2 2; pt 7 2; pt 7 6; pt 4 6; pt 4 4; pt 5 4; pt 5 5; pt 6 5; pt 6 3; pt 3 3; pt 3 6] in
  okb (let! tr := boundary_include ho_id N1 [1] (from_initial_segment (pt 1 1) (pt 8 1)) (closed b) [] in
       let! es := into_edges (closed b) in
       hole_include ho_id N1 [2] tr (closed h) es) (fun tr =>
    forallb (fun t => is_cont (closed b) (tri_center t) Inside
                      && is_cont (closed h) (tri_center t) Outside) (solid tr))).
Example include_hole_3_passes : include_hole_3 = true.
Proof. reflexivity. Qed.

(** planar/triangulation_procedures/segment.rs *)
Definition vmemh (v : vertex ArithF) l := hmem vdec v l.
Definition ememh (e : edge ArithF) l := hmem edec e l.
Definition include_segment_1 : bool := Eval vm_compute in
  (all_orders (fun H =>
  okb (let! (tr, _, _) := vertices_include H N1 [1] (from_initial_segment w1 w2) [w1;w2;w3;w4] [] None [] in
       segment_include H N1 [2] tr (w5, w6) []) (fun tr =>
    subset vmemh [w1;w2;w3;w4] (trn_vertices tr) && ememh (w5, w6) (trn_edges tr)
    && Nat.eqb (length (trn_vertices tr)) 6 && Nat.eqb (length (solid tr)) 6
    && subset tmem w_exp (solid tr)))).
Example include_segment_1_passes : include_segment_1 = true.
Proof. reflexivity. Qed.
Definition include_segment_2 : bool := Eval vm_compute in
  (all_orders (fun H =>
  let vs := [q1;q2;q3;q4;q5;q6;q7;q8] in
  okb (let! (tr, _, _) := vertices_include H N1 [1] (from_initial_segment q1 q2) vs [] None [] in
       segment_include H N1 [2] tr (pt 2 2, pt 4 4) []) (fun tr =>
    subset vmemh vs (trn_vertices tr) && ememh (pt 2 2, pt 4 4) (trn_edges tr)
    && Nat.eqb (length (trn_vertices tr)) 10))).
Example include_segment_2_passes : include_segment_2 = true.
Proof. reflexivity. Qed.
Definition include_segment_3 : bool := Eval vm_compute in
  (all_orders (fun H =>
  let vs := [pt 1 1; pt 7 1; pt 7 7; pt 1 7; pt 2 4; pt 6 3; pt 6 5] in
  let s1 := (pt 3 2, pt 3 6) in let s2 := (pt 4 4, pt 5 4) in
  okb (let! (tr, _, _) := vertices_include H N1 [1] (from_initial_segment (pt 1 1) (pt 7 1)) vs [] None [] in
       let! tr1 := segment_include H N1 [2] tr s1 [] in
       let! tr2 := segment_include H N1 [3] tr1 s2 [s1] in Ok (tr1, tr2)) (fun '(tr1, tr2) =>
    Nat.eqb (length (trn_vertices tr1)) 9 && ememh s1 (trn_edges tr1)
    && subset vmemh (pt 3 2 :: pt 3 6 :: vs) (trn_vertices tr1)
    && Nat.eqb (length (trn_vertices tr2)) 11 && ememh s1 (trn_edges tr2) && ememh s2 (trn_edges tr2)))).
Example include_segment_3_passes : include_segment_3 = true.
Proof. reflexivity. Qed.

(** planar/refine_procedures/encroachment.rs *)
Definition corner := [pt 0 0; pt 2 0; pt 0 2].
Definition tmemh (t : triangle ArithF) l := hmem tdec t l.
Definition split_segment_1 : bool := Eval vm_compute in
  (all_orders (fun H =>
  let m := pt 1 1 in
  okb (let! tr := boundary_include H N1 [1] (from_initial_segment (pt 0 0) (pt 2 0)) (closed corner) [] in
       split_segment H N1 [2] tr (pt 2 0, pt 0 2) [] (Some (closed corner)) []) (fun '(h1, h2, (tr, _, _)) =>
    ememh h1 [(pt 2 0, m)] && ememh h2 [(m, pt 0 2)] && vmemh m (trn_vertices tr)
    && ememh h1 (trn_edges tr) && ememh h2 (trn_edges tr) && Nat.eqb (length (tris tr)) 6
    && tmem (mkt (pt 0 0) (pt 2 0) m) (tris tr) && tmem (mkt (pt 0 2) (pt 0 0) m) (tris tr)))).
Example split_segment_1_passes : split_segment_1 = true.
Proof. reflexivity. Qed.
Definition split_segment_2 : bool := Eval vm_compute in
  (all_orders (fun H =>
  let b := closed [pt 0 0; pt 3 0; pt 3 3; pt 0 3] in
  let h := closed [pt 1 1; pt 2 1; pt 1 2] in
  let m := ptq 3 2 3 2 in
  okb (let! tr := boundary_include H N1 [1] (from_initial_segment (pt 0 0) (pt 3 0)) b [] in
       let! tr1 := hole_include H N1 [3] tr h [] in
       split_segment H N1 [2] tr1 (pt 2 1, pt 1 2) [] (Some b) [h]) (fun '(h1, h2, (tr, _, _)) =>
    vmemh m (trn_vertices tr) && ememh (pt 2 1, m) (trn_edges tr) && ememh (m, pt 1 2) (trn_edges tr)
    && ememh (m, pt 3 3) (trn_edges tr) && Nat.eqb (length (ghosts tr)) 8 && Nat.eqb (length (solid tr)) 8
    && tmem (mkt (pt 2 1) (pt 3 3) m) (tris tr) && tmem (mkt (pt 3 3) (pt 1 2) m) (tris tr)))).
Example split_segment_2_passes : split_segment_2 = true.
Proof. reflexivity. Qed.
Definition sqrt3 : sf := fpsqrt (fpz 3).
Definition height : sf := fpdiv sqrt3 (fpz 2).
Definition equi : list (vertex ArithF) :=
  [pt 0 0; pt 1 0; V (A:=ArithF) (fpq 1 2) height false].
Definition equi_mid : vertex ArithF := V (A:=ArithF) (fpq 1 2) (fpdiv height (fpz 3)) false.
Definition unencroach_run H (l : list (vertex ArithF)) (v : vertex ArithF) :=
  let v1 := nth 0 l gv in let v2 := nth 1 l gv in
  let! tr := boundary_include H N1 [1] (from_initial_segment v1 v2) (closed l) [] in
  let! (tr1, _, _) := vertices_include H N1 [2] tr [v] [] (Some (closed l)) [] in
  unencroach H N1 [3] tr1 (edges_from_vertices l) (Some (closed l)) [].
Definition unencroach_1 : bool := Eval vm_compute in
  (all_orders (fun H =>
  okb (unencroach_run H equi equi_mid) (fun '(_, sm, _, _) =>
    Nat.eqb (length (hset edec (map snd sm))) 3 && Nat.eqb (length sm) 6
    && subset ememh (edges_from_vertices equi) (map snd sm)))).
Example unencroach_1_passes : unencroach_1 = true.
Proof. reflexivity. Qed.
Definition corner8 := [pt 0 0; pt 8 0; pt 0 8].
Definition unencroach_2 : bool := Eval vm_compute in
  (all_orders (fun H =>
  okb (unencroach_run H corner8 (pt 1 1)) (fun '(_, sm, _, _) =>
    Nat.eqb (length (hset edec (map snd sm))) 3 && Nat.eqb (length sm) 8
    && subset ememh [(pt 0 0, pt 2 0); (pt 2 0, pt 4 0); (pt 4 0, pt 8 0)] (map fst sm)))).
Example unencroach_2_passes : unencroach_2 = true.
Proof. reflexivity. Qed.

(** planar/refine_procedures/triangle_split.rs *)
Definition split_irregular_1 : bool := Eval vm_compute in
  (all_orders (fun H =>
  let f := fun a b => fpq a b in
  let p a b (y : sf) := V (A:=ArithF) (fpq a b) y false in
  let h4 := fpdiv height (fpz 4) in let h2 := fpdiv height (fpz 2) in
  let h34 := fpdiv (fpmul height (fpz 3)) (fpz 4) in
  let c := equi_mid in
  let exp := [mkt c (p 1%Z 2%Z f0) (p 3%Z 4%Z f0); mkt c (p 3%Z 4%Z f0) (p 7%Z 8%Z h4);
              mkt (p 3%Z 8%Z h34) c (p 5%Z 8%Z h34); mkt (p 1%Z 4%Z h2) c (p 3%Z 8%Z h34);
              mkt (p 3%Z 4%Z f0) (p 1%Z 1%Z f0) (p 7%Z 8%Z h4);
              mkt (p 1%Z 2%Z height) (p 3%Z 8%Z h34) (p 5%Z 8%Z h34);
              mkt c (p 1%Z 4%Z h2) (p 1%Z 8%Z h4); mkt (p 1%Z 2%Z f0) c (p 1%Z 4%Z f0);
              mkt (p 3%Z 4%Z h2) c (p 7%Z 8%Z h4); mkt (p 1%Z 4%Z f0) c (p 1%Z 8%Z h4);
              mkt (p 0%Z 1%Z f0) (p 1%Z 4%Z f0) (p 1%Z 8%Z h4); mkt c (p 3%Z 4%Z h2) (p 5%Z 8%Z h34)] in
  okb (let! (tr, sm, _, _) := unencroach_run H equi equi_mid in
       let removed := map snd sm in
       (* the unit test keeps (sic) the split segments *)
       let cstr := hset edec (filter (fun s => ememh s removed || ememh (opposite s) removed)
                     (edges_from_vertices equi) ++ map fst sm) in
       split_irregular H N1 [4] (RP (A:=ArithF) None (fpz 1)) tr cstr (Some (closed equi)) [])
    (fun '(tr, _, _) => subset tmem exp (tris tr)))).
Example split_irregular_1_passes : split_irregular_1 = true.
Proof. reflexivity. Qed.
Definition try_circumcenter_1 : bool := Eval vm_compute in
  (all_orders (fun H =>
  let p1 := ptq 4 5 (-1) 2 in let p2 := ptq 19 20 (-1) 2 in
  let p3 := ptq 19 20 1 2 in let p4 := ptq 4 5 1 2 in
  okb (let! (tr, _, _) := vertices_include H N1 [1] (from_initial_segment p1 p2) [p3; p4] [] None [] in
       let! t := unwrap (hd_error (solid tr)) in
       try_circumcenter H N1 [2] tr t [(p2, p3)] (Some (closed [p1;p2;p3;p4])) [])
    (fun '(_, r) => match r with inr enc => ememh (p2, p3) enc | inl _ => false end))).
Example try_circumcenter_1_passes : try_circumcenter_1 = true.
Proof. reflexivity. Qed.

(** planar/triangulator.rs *)
Definition sq14 := closed [pt 1 1; pt 4 1; pt 4 4; pt 1 4].
Definition sq15 := closed [pt 1 1; pt 5 1; pt 5 5; pt 1 5].
Definition sq23 := closed [pt 2 2; pt 3 2; pt 3 3; pt 2 3].
Definition t14 := triangulator_new sq14.
Definition err_set {X} (r : res (triangulator ArithF * result (list X))) (f : triangulator ArithF -> list X -> bool) :=
  okb r (fun '(t, e) => match e with RErr l => f t l | RFine => false end).
Definition fine {X} (r : res (triangulator ArithF * result (list X))) (f : triangulator ArithF -> bool) :=
  okb r (fun '(t, e) => match e with RFine => f t | RErr _ => false end).
Definition st {X} (r : res (triangulator ArithF * result (list X))) : res (triangulator ArithF) :=
  let! (t, _) := r in Ok t.
Definition tr_hole_1 : bool := Eval vm_compute in
  (fine (insert_hole N1 t14 sq23) (fun t => hmem pdec sq23 (t_holes t))).
Example tr_hole_1_passes : tr_hole_1 = true.
Proof. reflexivity. Qed.
Definition same_verts l l' := Nat.eqb (length l) (length l') && subset vmemh l l'.
Definition no_holes (t : triangulator ArithF) := match t_holes t with [] => true | _ => false end.
Definition tr_hole_2 : bool := Eval vm_compute in
  (err_set (insert_hole N1 t14 (closed [pt 2 2; pt 3 2; pt 6 6; pt 2 3]))
    (fun t l => same_verts (pverts sq14) l && no_holes t)
  && err_set (insert_hole N1 t14 (closed [pt 2 2; pt 3 2; pt 3 3; pt 2 4]))
    (fun t l => same_verts (pverts sq14) l && no_holes t)).
Example tr_hole_2_passes : tr_hole_2 = true.
Proof. reflexivity. Qed.
Definition hole1 := closed [pt 2 2; ptq 29 10 2 1; ptq 2 1 29 10].
Definition hole2 := closed [pt 3 3; ptq 21 10 3 1; ptq 3 1 21 10].
Definition hole3 := closed [pt 3 3; ptq 21 10 3 1; ptq 29 10 2 1; ptq 3 1 21 10].
Definition tr_two_holes : bool := Eval vm_compute in
  (okb (st (insert_hole N1 t14 hole1)) (fun t => fine (insert_hole N1 t hole2)
    (fun t => hmem pdec hole1 (t_holes t) && hmem pdec hole2 (t_holes t)))).
Example tr_two_holes_passes : tr_two_holes = true.
Proof. reflexivity. Qed.
Definition tr_hole_hole : bool := Eval vm_compute in
  (okb (st (insert_hole N1 t14 hole1)) (fun t => err_set (insert_hole N1 t hole3)
    (fun t l => hmem pdec hole1 (t_holes t) && same_verts (pverts hole1) l))).
Example tr_hole_hole_passes : tr_hole_hole = true.
Proof. reflexivity. Qed.
Definition s1122 := [(pt 2 2, pt 3 2); (pt 3 3, pt 2 3)].
Definition tr_hole_segments : bool := Eval vm_compute in
  (all_orders (fun H =>
  okb (st (insert_segments H N1 [] t14 s1122)) (fun t => err_set (insert_hole N1 t
     (closed [ptq 3 2 3 2; ptq 7 2 3 2; ptq 7 2 7 2; ptq 3 2 7 2]))
    (fun t l => no_holes t && same_verts (pverts sq23) l)))).
Example tr_hole_segments_passes : tr_hole_segments = true.
Proof. reflexivity. Qed.
Definition v15 := ptq 10000001 10000000 10000001 10000000.
Definition v16 := ptq 49999999 10000000 49999999 10000000.
Definition tr_vertices_1 : bool := Eval vm_compute in
  (all_orders (fun H =>
  fine (insert_vertices H [] (triangulator_new sq15) [pt 2 3; v15; v16])
    (fun t => subset vmemh [pt 2 3; v15; v16] (t_vertices t)))).
Example tr_vertices_1_passes : tr_vertices_1 = true.
Proof. reflexivity. Qed.
Definition tr_vertices_2 : bool := Eval vm_compute in
  (all_orders (fun H =>
  let out := [pt 0 0; ptq 9999999 10000000 9999999 10000000; ptq 50000001 10000000 50000001 10000000; pt 3 1] in
  err_set (insert_vertices H [] (triangulator_new sq15) (out ++ [pt 2 3; v15; v16]))
    (fun t l => same_verts out l))).
Example tr_vertices_2_passes : tr_vertices_2 = true.
Proof. reflexivity. Qed.
Definition tr_vertices_3 : bool := Eval vm_compute in
  (all_orders (fun H =>
  okb (st (insert_hole N1 t14 sq23)) (fun t =>
    let bad := [ptq 11 5 11 5; ptq 2 1 5 2] in
    err_set (insert_vertices H [] t ([ptq 7 5 7 5; ptq 7 2 7 2] ++ bad)) (fun t l => same_verts bad l)))).
Example tr_vertices_3_passes : tr_vertices_3 = true.
Proof. reflexivity. Qed.
Definition tr_segments_1 : bool := Eval vm_compute in
  (all_orders (fun H =>
  fine (insert_segments H N1 [] t14 s1122) (fun t => subset ememh s1122 (t_segments t)))).
Example tr_segments_1_passes : tr_segments_1 = true.
Proof. reflexivity. Qed.
Definition tr_segments_2 : bool := Eval vm_compute in
  (all_orders (fun H =>
  let e2 := (pt 3 3, pt 2 5) in
  err_set (insert_segments H N1 [] t14 [(pt 2 2, pt 3 2); e2])
    (fun t l => Nat.eqb (length l) 1 && ememh e2 l))).
Example tr_segments_2_passes : tr_segments_2 = true.
Proof. reflexivity. Qed.
Definition tr_segments_3 : bool := Eval vm_compute in
  (all_orders (fun H =>
  let v21 := ptq 5 2 3 1 in let v22 := ptq 2 1 11 5 in
  okb (st (insert_vertices H [1] t14 [v21; v22])) (fun t =>
    fine (insert_segments H N1 [2] t s1122)
      (fun t => negb (vmemh v21 (t_vertices t)) && vmemh v22 (t_vertices t))))).
Example tr_segments_3_passes : tr_segments_3 = true.
Proof. reflexivity. Qed.
Definition seg_err H (e1 e2 : edge ArithF) : bool :=
  okb (st (insert_hole N1 t14 sq23)) (fun t =>
    err_set (insert_segments H N1 [] t [e1; e2]) (fun t l =>
      ememh e1 l && negb (ememh e2 l) && match t_segments t with [] => true | _ => false end)).
Definition tr_segments_4 : bool := Eval vm_compute in
  (all_orders (fun H =>
  seg_err H (ptq 23 10 23 10, ptq 28 10 28 10) (ptq 3 2 3 2, ptq 3 2 7 2)
  && seg_err H (ptq 23 10 23 10, ptq 35 10 23 10) (ptq 3 2 3 2, ptq 3 2 7 2)
  && seg_err H (ptq 3 2 5 2, ptq 7 2 5 2) (ptq 7 2 7 2, ptq 3 2 7 2))).
Example tr_segments_4_passes : tr_segments_4 = true.
Proof. reflexivity. Qed.
Definition centers (p : polyline ArithF) c (tr : triangulation ArithF) :=
  forallb (fun t => is_cont p (tri_center t) c) (solid tr).
Definition tr_triangulate_1 : bool := Eval vm_compute in
  (all_orders (fun H =>
  okb (triangulate H N1 [] t14) (fun t =>
    subset ememh (edges_from_vertices (pverts sq14)) (trn_edges (t_trn t)) && centers sq14 Inside (t_trn t)))).
Example tr_triangulate_1_passes : tr_triangulate_1 = true.
Proof. reflexivity. Qed.
Definition tr_triangulate_2 : bool := Eval vm_compute in
  (all_orders (fun H =>
  okb (let! t := st (insert_hole N1 t14 sq23) in triangulate H N1 [] t) (fun t =>
    subset ememh (edges_from_vertices (pverts sq14) ++ edges_from_vertices (pverts sq23)) (trn_edges (t_trn t))
    && centers sq14 Inside (t_trn t) && centers sq23 Outside (t_trn t)))).
Example tr_triangulate_2_passes : tr_triangulate_2 = true.
Proof. reflexivity. Qed.
Definition tr_triangulate_3 : bool := Eval vm_compute in
  (all_orders (fun H =>
  let ss := [(ptq 3 2 5 2, ptq 7 2 5 2); (ptq 7 2 7 2, ptq 3 2 7 2)] in
  okb (let! t := st (insert_segments H N1 [1] t14 ss) in triangulate H N1 [2] t) (fun t =>
    forallb (fun e => okb (decompose H N1 [3] (trn_edges (t_trn t)) e)
                        (fun o => match o with Some _ => true | None => false end))
      (ss ++ edges_from_vertices (pverts sq14))))).
Example tr_triangulate_3_passes : tr_triangulate_3 = true.
Proof. reflexivity. Qed.
Definition tr_triangulate_4 : bool := Eval vm_compute in
  (all_orders (fun H =>
  let vs := [ptq 3 2 5 2; ptq 7 2 5 2; ptq 7 2 7 2; ptq 3 2 7 2] in
  okb (let! t := st (insert_vertices H [1] t14 vs) in triangulate H N1 [2] t) (fun t =>
    subset vmemh vs (trn_vertices (t_trn t))))).
Example tr_triangulate_4_passes : tr_triangulate_4 = true.
Proof. reflexivity. Qed.
