(** Conformance.v — unit tests of the crate replayed on the model with binary64
    arithmetic, each under three hash orders.  These are tests of the model, not
    proofs of properties: each [Definition] holds the answer computed by the
    virtual machine at compile time, and the [Example] below it fails to compile
    when the answer is not [true]. *)

From Coq Require Import List Bool Arith ZArith.
From Verif Require Import Base Arith Geometry Elements Polyline Procedures Refine Triangulator ArithF.
Import ListNotations.

(** Helpers: vertices with integer or rational coordinates. *)
Definition pt (x y : Z) : vertex ArithF := V (A:=ArithF) (fpz x) (fpz y) false.
Definition ptq (a b c d : Z) : vertex ArithF := V (A:=ArithF) (fpq a b) (fpq c d) false.
Definition gv : vertex ArithF := ghost_vertex.
Definition closed (l : list (vertex ArithF)) : polyline ArithF := Poly l false.
Definition opened (l : list (vertex ArithF)) : polyline ArithF := Poly l true.
Definition all_orders (f : HashOrder -> bool) : bool := f ho_id && f ho_rev && f ho_rot.
Definition okb {X} (r : res X) (f : X -> bool) : bool :=
  match r with Ok x => f x | _ => false end.
Definition vmem (v : vertex ArithF) l := existsb (veqb v) l.
Definition tmem (t : triangle ArithF) l := existsb (teqb t) l.
Definition semem (e : edge ArithF) l := existsb (eeqb e) l.
Definition subset {X} (mem : X -> list X -> bool) (l l' : list X) := forallb (fun x => mem x l') l.
Definition solid (tr : triangulation ArithF) := filter (fun t => negb (is_ghost t)) (tris tr).
Definition ghosts (tr : triangulation ArithF) := filter is_ghost (tris tr).
Definition N1 : nat := 400.

(** elements/polyline.rs, mod intersection_vertices *)
Definition tri_a := closed [pt 1 1; pt 5 1; pt 3 5].
Definition tri_b := closed [pt 3 0; pt 5 4; pt 1 4].
Definition poly_intersection_vertices : bool := Eval vm_compute in
  (okb (intersection_vertices tri_a tri_b) (fun l => Nat.eqb (length l) 6)
  && okb (intersection_vertices tri_a (opened [pt 3 0; pt 5 4])) (fun l => Nat.eqb (length l) 2)
  && okb (intersection_vertices tri_a (opened [pt 5 4; pt 1 4])) (fun l => Nat.eqb (length l) 2)
  && okb (intersection_vertices tri_a (opened [pt 1 4; pt 3 0])) (fun l => Nat.eqb (length l) 2)).
Example poly_intersection_vertices_passes : poly_intersection_vertices = true.
Proof. reflexivity. Qed.

(** mod continence *)
Definition is_cont (p : polyline ArithF) v c := okb (contains_is p v c) (fun b => b).
Definition sq_a := closed [pt 1 2; pt 2 2; pt 2 3; pt 1 3].
Definition tri_c := closed [pt 3 1; pt 2 3; pt 1 2].
Definition poly_continence_1 : bool := Eval vm_compute in
  (is_cont sq_a (pt 1 2) Boundary && is_cont sq_a (midpoint (pt 1 2) (pt 3 1)) Outside
  && is_cont sq_a (pt 3 1) Outside
  && is_cont tri_c (midpoint (pt 1 2) (pt 3 1)) Boundary && is_cont tri_c (pt 1 2) Boundary
  && is_cont tri_c (midpoint (pt 3 1) (pt 2 3)) Boundary).
Example poly_continence_1_passes : poly_continence_1 = true.
Proof. reflexivity. Qed.
Definition poly_continence_2 : bool := Eval vm_compute in
  (let m := midpoint (ptq 5 2 4 1) (ptq 7 4 5 2) in
  is_cont tri_a m Boundary && is_cont tri_b m Inside).
Example poly_continence_2_passes : poly_continence_2 = true.
Proof. reflexivity. Qed.
Definition poly_continence_3 : bool := Eval vm_compute in
  (let v7 := ptq 5 2 1 1 in
  let m := midpoint v7 (pt 3 0) in
  is_cont tri_a m Outside && is_cont tri_b m Boundary && is_cont tri_a v7 Boundary
  && is_cont tri_b v7 Boundary && is_cont tri_a (pt 3 0) Outside && is_cont tri_b (pt 3 0) Boundary).
Example poly_continence_3_passes : poly_continence_3 = true.
Proof. reflexivity. Qed.
Definition c_shape := closed [pt 1 2; pt 4 2; pt 4 3; pt 2 3; pt 2 4; pt 4 4; pt 4 5; pt 1 5].
Definition bar := closed [pt 3 1; pt 5 1; pt 5 6; pt 3 6].
Definition poly_continence_4 : bool := Eval vm_compute in
  (let m := midpoint (pt 5 6) (pt 3 6) in
  is_cont c_shape m Outside && is_cont bar m Boundary && is_cont c_shape (pt 5 6) Outside
  && is_cont bar (pt 5 6) Boundary && is_cont c_shape (pt 3 6) Outside && is_cont bar (pt 3 6) Boundary).
Example poly_continence_4_passes : poly_continence_4 = true.
Proof. reflexivity. Qed.

(** mod intersection *)
Definition sizes (r : res (list (polyline ArithF) * list (edge ArithF))) : res (list nat * nat) :=
  let! (l, u) := r in Ok (map (fun p => length (pverts p)) l, length u).
Definition sizes_are r (l : list nat) (n : nat) : bool :=
  okb (sizes r) (fun x => if list_eq_dec Nat.eq_dec (fst x) l then Nat.eqb (snd x) n else false).
Definition first_has r (l : list (vertex ArithF)) : bool :=
  okb r (fun x => match fst (x : list (polyline ArithF) * list (edge ArithF)) with
                  | p :: _ => subset vmem l (pverts p) | [] => false end).
Definition poly_intersection_hexagon : bool := Eval vm_compute in
  (all_orders (fun H => let r := poly_intersection H N1 [] tri_a tri_b in
    sizes_are r [6] 12
    && first_has r [ptq 7 2 1 1; ptq 17 4 5 2; ptq 7 2 4 1; ptq 5 2 4 1; ptq 7 4 5 2; ptq 5 2 1 1])).
Example poly_intersection_hexagon_passes : poly_intersection_hexagon = true.
Proof. reflexivity. Qed.
Definition sq_b := closed [pt 2 1; pt 4 1; pt 4 3; pt 2 3].
Definition sq_c := closed [pt 1 2; pt 3 2; pt 3 4; pt 1 4].
Definition poly_intersection_squares : bool := Eval vm_compute in
  (all_orders (fun H => let r := poly_intersection H N1 [] sq_b sq_c in
    sizes_are r [4] 8 && first_has r [pt 2 2; pt 3 2; pt 3 3; pt 2 3])).
Example poly_intersection_squares_passes : poly_intersection_squares = true.
Proof. reflexivity. Qed.
Definition poly_intersection_at_vertex : bool := Eval vm_compute in
  (all_orders (fun H => let r := poly_intersection H N1 [] sq_a tri_c in
    sizes_are r [3] 4 && first_has r [pt 1 2; pt 2 2; pt 2 3])).
Example poly_intersection_at_vertex_passes : poly_intersection_at_vertex = true.
Proof. reflexivity. Qed.
Definition poly_intersection_double : bool := Eval vm_compute in
  (all_orders (fun H => let r := poly_intersection H N1 [] c_shape bar in
    sizes_are r [4; 4] 12
    && okb r (fun x => subset semem
         [(pt 3 6, pt 3 5); (pt 3 5, pt 1 5); (pt 2 4, pt 3 4); (pt 2 3, pt 2 4); (pt 1 5, pt 1 2);
          (pt 5 6, pt 3 6); (pt 3 4, pt 3 3); (pt 3 3, pt 2 3); (pt 3 2, pt 3 1); (pt 1 2, pt 3 2);
          (pt 5 1, pt 5 6); (pt 3 1, pt 5 1)] (snd x)))).
Example poly_intersection_double_passes : poly_intersection_double = true.
Proof. reflexivity. Qed.

(** mod union *)
Definition union_is (H : HashOrder) p1 p2 (n : option nat) (u : nat) (l : list (vertex ArithF)) : bool :=
  okb (poly_union H N1 [] p1 p2) (fun o =>
    match o with
    | Some (p, unused) =>
        (match n with Some n => Nat.eqb (length (pverts p)) n | None => true end)
        && Nat.eqb (length unused) u && subset vmem l (pverts p)
    | None => false
    end).
Definition poly_union_star : bool := Eval vm_compute in
  (all_orders (fun H => union_is H tri_a tri_b (Some 12) 6
    [ptq 7 2 1 1; ptq 17 4 5 2; ptq 7 2 4 1; ptq 5 2 4 1; ptq 7 4 5 2; ptq 5 2 1 1;
     pt 1 1; pt 3 0; pt 5 1; pt 5 4; pt 3 5; pt 1 4])).
Example poly_union_star_passes : poly_union_star = true.
Proof. reflexivity. Qed.
Definition poly_union_squares : bool := Eval vm_compute in
  (all_orders (fun H => union_is H sq_c sq_b (Some 8) 4
    [pt 1 2; pt 3 4; pt 1 4; pt 2 1; pt 4 1; pt 4 3; pt 2 2; pt 3 3])).
Example poly_union_squares_passes : poly_union_squares = true.
Proof. reflexivity. Qed.
Definition poly_union_at_vertex : bool := Eval vm_compute in
  (all_orders (fun H => union_is H sq_a tri_c (Some 4) 3 [pt 1 2; pt 3 1; pt 2 3; pt 1 3])).
Example poly_union_at_vertex_passes : poly_union_at_vertex = true.
Proof. reflexivity. Qed.
Definition poly_union_double : bool := Eval vm_compute in
  (all_orders (fun H => union_is H c_shape bar None 12
    [pt 1 2; pt 3 1; pt 5 1; pt 5 6; pt 3 6; pt 1 5; pt 3 2; pt 3 5])).
Example poly_union_double_passes : poly_union_double = true.
Proof. reflexivity. Qed.

(** mod subtraction *)
Definition poly_subtraction_triangles : bool := Eval vm_compute in
  (all_orders (fun H => okb (poly_subtraction H N1 [] tri_a tri_b) (fun x =>
    Nat.eqb (length (fst x)) 3 && Nat.eqb (length (snd x)) 9
    && subset semem
       [(ptq 5 2 1 1, ptq 7 2 1 1); (ptq 7 2 4 1, pt 5 4); (pt 5 4, ptq 17 4 5 2);
        (ptq 7 2 1 1, pt 3 0); (ptq 5 2 4 1, ptq 7 4 5 2); (pt 3 0, ptq 5 2 1 1);
        (ptq 17 4 5 2, ptq 7 2 4 1); (ptq 7 4 5 2, pt 1 4); (pt 1 4, ptq 5 2 4 1)] (snd x)))).
Example poly_subtraction_triangles_passes : poly_subtraction_triangles = true.
Proof. reflexivity. Qed.
Definition poly_subtraction_squares : bool := Eval vm_compute in
  (all_orders (fun H => let r := poly_subtraction H N1 [] sq_c sq_b in
    sizes_are r [6] 6 && first_has r [pt 1 2; pt 3 4; pt 1 4; pt 2 3; pt 2 2; pt 3 3])).
Example poly_subtraction_squares_passes : poly_subtraction_squares = true.
Proof. reflexivity. Qed.
Definition poly_subtraction_at_vertex : bool := Eval vm_compute in
  (all_orders (fun H => let r := poly_subtraction H N1 [] sq_a tri_c in
    sizes_are r [3] 4 && first_has r [pt 1 2; pt 2 3; pt 1 3])).
Example poly_subtraction_at_vertex_passes : poly_subtraction_at_vertex = true.
Proof. reflexivity. Qed.
Definition poly_subtraction_double : bool := Eval vm_compute in
  (all_orders (fun H => let r := poly_subtraction H N1 [] c_shape bar in
    sizes_are r [8] 12
    && first_has r [pt 1 2; pt 1 5; pt 2 4; pt 2 3; pt 3 2; pt 3 3; pt 3 4; pt 3 5])).
Example poly_subtraction_double_passes : poly_subtraction_double = true.
Proof. reflexivity. Qed.
Definition concave := [pt 4 1; pt 5 1; pt 6 2; pt 4 4; pt 3 4; pt 1 2; pt 2 1; pt 3 1; pt 2 2; pt 3 3; pt 4 3; pt 5 2].
Definition sub_is H p2 (n : nat) l :=
  let r := poly_subtraction H N1 [] p2 (closed concave) in
  okb r (fun x => Nat.eqb (length (fst x)) 1
                  && forallb (fun p => Nat.eqb (length (pverts p)) n) (fst x)) && first_has r l.
Definition poly_subtraction_exc1 : bool := Eval vm_compute in
  (all_orders (fun H => sub_is H (closed [pt 4 1; pt 5 1; pt 4 4]) 4
    [pt 4 1; pt 4 3; ptq 9 2 5 2; ptq 19 4 7 4])).
Example poly_subtraction_exc1_passes : poly_subtraction_exc1 = true.
Proof. reflexivity. Qed.
Definition poly_subtraction_exc2 : bool := Eval vm_compute in
  (all_orders (fun H => sub_is H (closed [pt 4 1; pt 5 1; pt 3 3]) 3
    [pt 4 1; pt 3 3; ptq 9 2 3 2])).
Example poly_subtraction_exc2_passes : poly_subtraction_exc2 = true.
Proof. reflexivity. Qed.
Definition poly_subtraction_exc3 : bool := Eval vm_compute in
  (all_orders (fun H => sub_is H (closed [pt 4 1; pt 5 1; pt 3 4]) 4
    [pt 4 1; ptq 10 3 3 1; ptq 11 3 3 1; ptq 23 5 8 5])).
Example poly_subtraction_exc3_passes : poly_subtraction_exc3 = true.
Proof. reflexivity. Qed.

(** mod split_intersections, mod arrange *)
Definition poly_split : bool := Eval vm_compute in
  (okb (let! a := poly_pairs tri_a in let! b := poly_pairs tri_b in
  split_intersections N1 (a ++ b)) (fun l => Nat.eqb (length l) 18)).
Example poly_split_passes : poly_split = true.
Proof. reflexivity. Qed.
Definition poly_arrange_1 : bool := Eval vm_compute in
  (all_orders (fun H =>
  okb (let! es := into_edges (closed concave) in poly_arrange H N1 [] es) (fun o =>
    match o with Some p => Nat.eqb (length (pverts p)) 12 && subset vmem concave (pverts p) | None => false end))).
Example poly_arrange_1_passes : poly_arrange_1 = true.
Proof. reflexivity. Qed.

(** planar/triangulation_procedures/vertices.rs *)
Definition inc_ok (r : res (triangulation ArithF * list (triangle ArithF) * list (triangle ArithF)))
  (nv : nat) (exp : list (triangle ArithF)) : bool :=
  okb r (fun '(tr, _, _) => Nat.eqb (length (trn_vertices tr)) nv && subset tmem exp (tris tr)).
Definition q1 := pt 1 1. Definition q2 := pt 5 1. Definition q3 := pt 5 5. Definition q4 := pt 1 5.
Definition q5 := pt 3 2. Definition q6 := pt 4 3. Definition q7 := pt 3 4. Definition q8 := pt 2 3.
Definition mkt (a b c : vertex ArithF) : triangle ArithF := Tri a b c.
Definition include_vertices_1 : bool := Eval vm_compute in
  (all_orders (fun H =>
  inc_ok (vertices_include H N1 [] (from_initial_segment q1 q2) [q1;q2;q3;q4;q5;q6;q7;q8] [] None []) 8
    [mkt q1 q2 q5; mkt q1 q5 q8; mkt q1 q8 q4; mkt q3 q4 q7; mkt q3 q7 q6; mkt q3 q6 q2; mkt q2 q6 q5; mkt q4 q8 q7])).
Example include_vertices_1_passes : include_vertices_1 = true.
Proof. reflexivity. Qed.
Definition w1 := pt 1 1. Definition w2 := pt 6 1. Definition w3 := pt 8 8. Definition w4 := pt 1 6.
Definition w5 := pt 2 2. Definition w6 := pt 5 5.
Definition w_exp := [mkt w2 w5 w1; mkt w2 w6 w5; mkt w2 w3 w6; mkt w4 w1 w5; mkt w4 w5 w6; mkt w4 w6 w3].
Definition include_vertices_2 : bool := Eval vm_compute in
  (all_orders (fun H =>
  inc_ok (vertices_include H N1 [] (from_initial_segment w5 w6) [w1;w2;w3;w4] [(w5,w6)] None []) 6 w_exp)).
Example include_vertices_2_passes : include_vertices_2 = true.
Proof. reflexivity. Qed.
Definition include_vertices_3 : bool := Eval vm_compute in
  (all_orders (fun H =>
  inc_ok (vertices_include H N1 [] (from_initial_segment w5 w6) [w1;w2;w3;w4] [(w5,w6)]
            (Some (closed [w1;w2;w3;w4])) []) 6 w_exp)).
Example include_vertices_3_passes : include_vertices_3 = true.
Proof. reflexivity. Qed.
Definition may_insert_1 : bool := Eval vm_compute in
  (all_orders (fun H =>
  let v1 := pt 1 1 in let v2 := pt 6 1 in let v4 := pt 1 5 in
  let v5 := pt 3 2 in let v6 := pt 4 2 in let v8 := pt 4 4 in let v9 := pt 3 4 in let v10 := pt 2 3 in
  okb (triangles_hull H N1 [] [mkt v9 v6 v8; mkt v10 v4 v1; mkt v10 v1 v6; mkt v6 v1 v2; mkt v9 v10 v6]) (fun o =>
    match o with
    | Some hull => okb (may_insert_triangle H N1 [] (mkt (pt 2 3) (pt 6 1) gv) (pt 3 4) (Some hull) []) negb
    | None => false
    end))).
Example may_insert_1_passes : may_insert_1 = true.
Proof. reflexivity. Qed.
Definition hexagon := [pt 1 0; pt 2 0; pt 3 1; pt 2 2; pt 1 2; pt 0 1].
Definition distribute_1 : bool := Eval vm_compute in
  (all_orders (fun H => forallb (fun v => forallb (fun b =>
  okb (distribute_conflicts H N1 [] (mkt (pt 1 0) (pt 2 0) gv) [] [v] b [])
      (fun x => Nat.eqb (length (fst x)) 1)) [None; Some (closed hexagon)])
  [pt 3 1; pt 2 2; pt 1 2; pt 0 1])).
Example distribute_1_passes : distribute_1 = true.
Proof. reflexivity. Qed.

(** planar/triangulation_procedures/boundary.rs *)
Definition bound_ok (l : list (vertex ArithF)) (ns ng : nat) : bool :=
  match l with
  | a :: b :: _ => all_orders (fun H =>
      okb (boundary_include H N1 [] (from_initial_segment a b) (closed l) []) (fun tr =>
        Nat.eqb (length (solid tr)) ns && Nat.eqb (length (ghosts tr)) ng))
  | _ => false
  end.
Definition include_boundary_1 : bool := Eval vm_compute in
  (bound_ok hexagon 4 6).
Example include_boundary_1_passes : include_boundary_1 = true.
Proof. reflexivity. Qed.
Definition include_boundary_2 : bool := Eval vm_compute in
  (bound_ok [pt 0 1; ptq 1 1 3 2; pt 2 1; ptq 3 1 3 2; ptq 3 1 7 2; pt 2 3; ptq 1 1 7 2; pt 0 3] 6 8).
Example include_boundary_2_passes : include_boundary_2 = true.
Proof. reflexivity. Qed.
Definition include_boundary_3 : bool := Eval vm_compute in
  (bound_ok concave 10 12).
Example include_boundary_3_passes : include_boundary_3 = true.
Proof. reflexivity. Qed.

(** planar/triangulation_procedures/hole.rs *)
Definition hole_ok (b h : list (vertex ArithF)) : bool :=
  match b with
  | v1 :: v2 :: _ => all_orders (fun H =>
      okb (let! tr := boundary_include H N1 [1] (from_initial_segment v1 v2) (closed b) [] in
           let! es := into_edges (closed b) in
           hole_include H N1 [2] tr (closed h) es) (fun tr =>
        subset tmem (map ghost_on (edges_from_vertices h)) (ghosts tr)
        && forallb (fun t => is_cont (closed b) (tri_center t) Inside
                             && is_cont (closed h) (tri_center t) Outside) (solid tr)))
  | _ => false
  end.
Definition include_hole_1 : bool := Eval vm_compute in
  (hole_ok [pt 1 1; pt 5 1; pt 5 5; pt 1 5] [pt 3 2; pt 4 3; pt 3 4; pt 2 3]).
Example include_hole_1_passes : include_hole_1 = true.
Proof. reflexivity. Qed.
Definition include_hole_2 : bool := Eval vm_compute in
  (hole_ok [pt 1 1; pt 6 1; pt 6 5; pt 1 5] [pt 3 2; pt 4 2; pt 5 3; pt 4 4; pt 3 4; pt 2 3]).
Example include_hole_2_passes : include_hole_2 = true.
Proof. reflexivity. Qed.
