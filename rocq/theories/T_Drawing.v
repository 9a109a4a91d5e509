(** T_Drawing.v — the lists of positions for drawing (C112) and lists of
    coordinates (C113). *)

From Coq Require Import List Bool Arith ZArith Permutation.
From Verif Require Import Base Arith Geometry Elements Polyline Procedures Interface ArithF Spec P_Interface P_V1 Samples.
Import ListNotations.

(** C112 *)
Theorem C112_triangles_drawn : forall (A : Arith) (H : HashOrder) F32 (cast : T A -> F32) p (tr : triangulation A), exists ts,
  Permutation ts (filter (fun t => negb (is_ghost t)) (tris tr)) /\
  glium_triangles H cast p tr = concat (map (fun t => map (fun v => (cast (vx v), cast (vy v))) [tv1 t; tv2 t; tv3 t]) ts).
Proof. exact @triangles_drawn. Qed.
Print Assumptions C112_triangles_drawn.

Theorem C112_edges_drawn : forall (A : Arith) (H : HashOrder) F32 (cast : T A -> F32) p (tr : triangulation A), exists es,
  NoDup es /\ (forall e, In e es -> solid_side tr e) /\ (forall e, solid_side tr e -> In e es \/ In (flip e) es) /\ (forall e, In e es -> In (flip e) es -> e = flip e) /\
  glium_edges H cast p tr = concat (map (fun e => map (fun v => (cast (vx v), cast (vy v))) [fst e; snd e]) es).
Proof. exact @edges_drawn. Qed.
Print Assumptions C112_edges_drawn.

(** Two triangles and a ghost. *)
Example C112_case :
  let tr := incl_tri (Tri (pt 0 0) (pt 4 0) (pt 1 2)) (incl_tri (Tri (pt 4 0) (pt 3 3) (pt 1 2)) (incl_tri (Tri (pt 4 0) (pt 0 0) ghost_vertex) trn_new)) in
  Nat.eqb (length (tris tr)) 3 && Nat.eqb (length (glium_triangles ho_rev (fun x => x) [] tr)) 6 && Nat.eqb (length (glium_edges ho_rev (fun x => x) [] tr)) 10 = true.
Proof. vm_compute. reflexivity. Qed.

(** C113 *)
Theorem C113_vertices_read : forall (A : Arith) (ps : list (T A * T A)),
  vertices_from_coordinates (flat_map (fun c => [fst c; snd c]) ps) = Ok (map (fun c => V (fst c) (snd c) false) ps).
Proof. exact @pairs_read. Qed.
Print Assumptions C113_vertices_read.

Theorem C113_edges_read : forall (A : Arith) (ps : list (T A * T A)), edges_from_coordinates (flat_map (fun c => [fst c; snd c]) ps) =
  Ok (let vs := map (fun c => V (fst c) (snd c) false) ps in combine vs (tl vs ++ firstn 1 vs)).
Proof. exact @edges_read. Qed.
Print Assumptions C113_edges_read.

Theorem C113_odd_refused : forall (A : Arith) (l : list (T A)), Nat.odd (length l) = true -> vertices_from_coordinates l = Panic /\ edges_from_coordinates l = Panic.
Proof. exact @odd_refused. Qed.
Print Assumptions C113_odd_refused.

Theorem C113_positions_read : forall F32 (ps : list (F32 * F32)), glium_from_coordinates (flat_map (fun c => [fst c; snd c]) ps) = Ok ps.
Proof. exact glium_read. Qed.
Print Assumptions C113_positions_read.

Theorem C113_odd_positions_refused : forall F32 (l : list F32), Nat.odd (length l) = true -> glium_from_coordinates l = Panic.
Proof. exact glium_odd. Qed.
Print Assumptions C113_odd_positions_refused.

Theorem C113_ends : forall (A : Arith) a (l : list (vertex A)) b,
  poly_head (A:=A) (Poly (a :: l ++ [b]) true) = Ok (Some a) /\ poly_tail (A:=A) (Poly (a :: l ++ [b]) true) = Ok (Some b) /\
  forall l' : list (vertex A), poly_head (A:=A) (Poly l' false) = Ok None /\ poly_tail (A:=A) (Poly l' false) = Ok None.
Proof. exact @ends_read. Qed.
Print Assumptions C113_ends.

Example C113_case : exists es, edges_from_coordinates (A:=ArithF) [fpz 0; fpz 0; fpz 4; fpz 0; fpz 1; fpz 2] = Ok es /\
  (Nat.eqb (length es) 3 && hmem edec (pt 1 2, pt 0 0) es)%bool = true.
Proof. apply okb_ok. vm_compute. reflexivity. Qed.
