(** T_Interface.v — accessors (C60), output and viewer lists (C52, C53), input
    (C54) and domain boundary (C58), for every arithmetic and hash order. *)

From Coq Require Import String List Bool ZArith Permutation.
From Verif Require Import Base Arith Geometry Elements Polyline Procedures Refine Triangulator Interface Spec SpecI
  P_Base P_Elements P_Interface ArithF Samples.
Import ListNotations.
Local Open Scope string_scope.
Local Open Scope list_scope.
Local Open Scope nat_scope.

(** C60 *)
Theorem C60_sides : forall (A : Arith) (t : triangle A),
  (forall e, In e (inner_edges t) <-> side_of e t) /\
  (forall e, In e (outer_edges t) <-> side_of (flip e) t) /\
  length (inner_edges t) = 3 /\ length (outer_edges t) = 3.
Proof. exact @inner_outer. Qed.
Print Assumptions C60_sides.

Theorem C60_opposites : forall (A : Arith) (t : triangle A), corners_apart t ->
  (forall v, corner_of v t -> exists e, opposite_edge t v = Some e /\ side_of e t /\ ~ (v = fst e \/ v = snd e) /\
     opposite_vertex t e = Some v) /\
  (forall e, side_of e t -> exists v, opposite_vertex t e = Some v /\ corner_of v t /\ ~ (v = fst e \/ v = snd e) /\
     opposite_edge t v = Some e).
Proof. exact @opposites_inverse. Qed.
Print Assumptions C60_opposites.

Theorem C60_from_vertices : forall (A : Arith) (l : list (vertex A)),
  length (edges_from_vertices l) = length l /\
  forall i a b, nth_error (edges_from_vertices l) i = Some (a, b) <->
    nth_error l i = Some a /\ nth_error l (if S i =? length l then 0 else S i) = Some b.
Proof. exact @edges_from_vertices_spec. Qed.
Print Assumptions C60_from_vertices.

Example C60_hypotheses : corners_apart (Tri (pt 0 0) (pt 4 0) (pt 1 2)).
Proof. vm_compute. repeat split. Qed.

(** C52, the part that holds: [order] is the order of the coordinates, [vec] the
    order behind the indices; they need not be the same (C52_output_index_refuted). *)
Theorem C52_output_lists : forall (A : Arith) (H : HashOrder) p (tr : triangulation A), exists coords triples vec order,
  output H p tr = Ok (coords, triples) /\
  Permutation vec (trn_vertices tr) /\ Permutation order (trn_vertices tr) /\
  coords = map (fun v => (vx v, vy v)) order /\
  Forall2 (names vec) (filter (fun t => negb (is_ghost t)) (ho H (3 :: p) _ (tris tr))) triples /\
  (forall i j k, In (i, j, k) triples -> i < length coords /\ j < length coords /\ k < length coords) /\
  (vec = order -> forall n t i j k, nth_error (filter (fun t => negb (is_ghost t)) (ho H (3 :: p) _ (tris tr))) n = Some t ->
     nth_error triples n = Some (i, j, k) ->
     nth_error coords i = Some (vx (tv1 t), vy (tv1 t)) /\ nth_error coords j = Some (vx (tv2 t), vy (tv2 t)) /\
     nth_error coords k = Some (vx (tv3 t), vy (tv3 t))).
Proof. exact @output_spec. Qed.
Print Assumptions C52_output_lists.

(** C53 *)
Theorem C53_wireframe : forall (A : Arith) (H : HashOrder) p (tr : triangulation A),
  let l := glium_edge_list H p tr in
  NoDup l /\ (forall e, In e l -> In (flip e) l -> e = flip e) /\
  (forall e, In e l -> solid_side tr e) /\
  (forall e, solid_side tr e -> In e l \/ In (flip e) l).
Proof. exact @glium_edges_spec. Qed.
Print Assumptions C53_wireframe.

Theorem C53_counts : forall (A : Arith) (H : HashOrder) F32 (cast : T A -> F32) p (tr : triangulation A),
  length (glium_triangles H cast p tr) = 3 * length (filter (fun t => negb (is_ghost t)) (tris tr)) /\
  length (glium_edges H cast p tr) = 2 * length (glium_edge_list H (1 :: p) tr).
Proof. exact @glium_counts. Qed.
Print Assumptions C53_counts.

Definition two_triangles : triangulation ArithF :=
  incl_tri (Tri (pt 0 0) (pt 4 0) (pt 1 2)) (incl_tri (Tri (pt 4 0) (pt 3 3) (pt 1 2)) trn_new).
Example C53_hypotheses :
  Nat.eqb (length (glium_edge_list ho_rev [] two_triangles)) 5 &&
  okb (output ho_rev [] two_triangles) (fun o => Nat.eqb (length (fst o)) 4 && Nat.eqb (length (snd o)) 2) = true.
Proof. vm_compute. reflexivity. Qed.

(** C54 *)
Theorem C54_accepted_exactly : forall (A : Arith) fuel (inp : input A),
  ((exists d, interpret fuel inp = Ok (Some d)) <-> (forall a, In a (i_actions inp) -> exists f, means fuel a f)) /\
  (interpret fuel inp = Ok None -> exists a, In a (i_actions inp) /\ forall f, ~ means fuel a f).
Proof. exact @interpret_exact. Qed.
Print Assumptions C54_accepted_exactly.

Theorem C54_collected : forall (A : Arith) fuel (inp : input A) d prm, interpret fuel inp = Ok (Some (d, prm)) ->
  prm = RP (i_max_area inp) (i_quality inp) /\
  exists fs, Forall2 (means fuel) (i_actions inp) fs /\
    d_includes d = flat_map included fs /\ d_removes d = flat_map removed fs /\
    (forall e, In e (d_segments d) <-> exists f, In f fs /\ In e (segments_of f)) /\
    (forall v, In v (d_vertices d) <-> exists f, In f fs /\ In v (vertices_of f)).
Proof. exact @interpret_accepts. Qed.
Print Assumptions C54_collected.

Theorem C54_segments_body : forall (A : Arith) (a : action A),
  (a_assemble a = [] ->
     if Nat.even (length (a_points a))
     then exists es, parse_segments a = Ok (Some es) /\
       forall e, In e es <-> exists n p1 p2, nth_error (a_points a) (2 * n) = Some p1 /\
         nth_error (a_points a) (S (2 * n)) = Some p2 /\ e = (set_at p1, set_at p2)
     else parse_segments a = Ok None) /\
  (forall es, a_assemble a <> [] -> parse_segments a = Ok (Some es) ->
     (forall e, In e es <-> exists i j r p1 p2, In (i :: j :: r) (a_assemble a) /\
        nth_error (a_points a) i = Some p1 /\ nth_error (a_points a) j = Some p2 /\
        e = (set_at p1, set_at p2)) /\
     (forall s, In s (a_assemble a) -> exists i j r, s = i :: j :: r /\ i < length (a_points a) /\ j < length (a_points a))).
Proof. exact @parse_segments_spec. Qed.
Print Assumptions C54_segments_body.

Theorem C54_polyline_body : forall (A : Arith) fuel (a : action A) pl, parse_polyline fuel a = Ok (Some pl) ->
  3 <= length (a_points a) /\ pl = Poly (map set_at (a_points a)) false.
Proof. exact @parse_polyline_some. Qed.
Print Assumptions C54_polyline_body.

Theorem C54_polyline_accepted : forall (A : Arith) fuel (a : action A),
  3 <= length (a_points a) -> length (a_points a) < fuel ->
  (forall es, vertex_pairs (map set_at (a_points a)) false = Ok es ->
     pairwise (fun x y => ~ crossing y x) (rev es)) ->
  parse_polyline fuel a = Ok (Some (Poly (map set_at (a_points a)) false)).
Proof. exact @parse_polyline_accepts. Qed.
Print Assumptions C54_polyline_accepted.

Definition act_square : action ArithF :=
  Act (A:=ArithF) "include" "polyline" [] [point_of 0 0; point_of 10 0; point_of 10 10; point_of 0 10] [].
Definition act_square2 : action ArithF :=
  Act (A:=ArithF) "include" "polyline" [] [point_of 5 5; point_of 15 5; point_of 15 15; point_of 5 15] [].
Definition act_hole : action ArithF :=
  Act (A:=ArithF) "remove" "polyline" [] [point_of 4 4; point_of 6 4; point_of 4 6] [].
Definition act_segments : action ArithF :=
  Act (A:=ArithF) "constraint" "segments" [] [point_of 1 1; point_of 1 8; point_of 2 2] [[0; 1]; [1; 2]].
Definition act_vertices : action ArithF := Act (A:=ArithF) "constraint" "vertices" [] [point_of 8 8; point_of 2 7] [].
Definition full_input : input ArithF := Inp (A:=ArithF) [act_square; act_hole; act_segments; act_vertices] None (fpz 1%Z).
Example C54_hypotheses : exists o, interpret 30 full_input = Ok o /\
  match o with
  | Some (d, _) => Nat.eqb (length (d_includes d)) 1 && Nat.eqb (length (d_removes d)) 1 &&
                   Nat.eqb (length (d_segments d)) 2 && Nat.eqb (length (d_vertices d)) 2
  | None => false
  end = true.
Proof. apply okb_ok. vm_compute. reflexivity. Qed.

(** C58 *)
Theorem C58_domain : forall (A : Arith) (H : HashOrder) fuel p (includes removes : list (polyline A)),
  (includes = [] -> domain_boundary H fuel p includes removes = Ok None) /\
  (forall b kept, domain_boundary H fuel p includes removes = Ok (Some (b, kept)) ->
     exists l b0, united H l b0 /\ NoDup l /\ (forall x, In x l <-> In x includes) /\ carved_out H b0 removes b kept).
Proof. exact @domain_boundary_spec. Qed.
Print Assumptions C58_domain.

Example C58_hypotheses : exists o, (let! i := interpret 60 (Inp (A:=ArithF) [act_square; act_square2; act_hole] None (fpz 1%Z)) in
    match i with Some (d, _) => domain_boundary ho_id 60 [] (d_includes d) (d_removes d) | None => Ok None end) = Ok o /\
  match o with Some (b, kept) => Nat.eqb (length (pverts b)) 8 && Nat.leb (length kept) 1 | None => false end = true.
Proof. apply okb_ok. vm_compute. reflexivity. Qed.
