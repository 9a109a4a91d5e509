(** T_Geometry.v — the geometric predicates over exact real arithmetic (C01–C14,
    C17, C22, C25, C47, C49, C57).  The tolerance [eps] is the one of the code. *)

From Coq Require Import String Reals List ZArith Lra Bool.
From Verif Require Import Base Arith Geometry Elements Polyline Procedures Refine Triangulator Interface ArithR Spec SpecR
  P_R1 P_R2 P_R3 P_R4 P_Contains P_R5 P_R6 P_RX.
Import ListNotations.
Local Open Scope R_scope.

(** C01 *)
Theorem C01_orientation : forall a b c : pnt,
  (orientation a b c = CCW <-> eps < area2 a b c) /\
  (orientation a b c = CW <-> area2 a b c < - eps) /\
  (orientation a b c = Colinear <-> - eps <= area2 a b c <= eps).
Proof. exact orientation_spec. Qed.
Print Assumptions C01_orientation.

Theorem C01_symmetries : forall a b c : pnt,
  orientation b c a = orientation a b c /\ orientation b a c = turned (orientation a b c) /\
  forall dx dy a' b' c', moved dx dy a a' -> moved dx dy b b' -> moved dx dy c c' -> orientation a' b' c' = orientation a b c.
Proof. exact orientation_symmetries. Qed.
Print Assumptions C01_symmetries.

Theorem C01_parallel : forall a b c d : pnt, parallel a b c d = true <-> crossp a b c d = 0.
Proof. exact parallel_spec. Qed.
Print Assumptions C01_parallel.

Example C01_cases : orientation (at_ 0 0) (at_ 1 0) (at_ 0 1) = CCW /\ orientation (at_ 0 0) (at_ 0 1) (at_ 1 0) = CW /\
  orientation (at_ 0 0) (at_ 1 1) (at_ 2 2) = Colinear /\ moved 3 4 (at_ 0 0) (at_ 3 4).
Proof. exact case_orientation. Qed.

(** C02 *)
Theorem C02_in_circle : forall a b c d o : pnt, d2 o a = d2 o b -> d2 o a = d2 o c ->
  (continence a b c d = Inside <-> eps < area2 a b c * (d2 o a - d2 o d)) /\
  (continence a b c d = Outside <-> area2 a b c * (d2 o a - d2 o d) < - eps) /\
  (continence a b c d = Boundary <-> - eps <= area2 a b c * (d2 o a - d2 o d) <= eps).
Proof. exact continence_spec. Qed.
Print Assumptions C02_in_circle.

Theorem C02_counterclockwise : forall a b c d o : pnt, d2 o a = d2 o b -> d2 o a = d2 o c -> 0 < area2 a b c ->
  (continence a b c d = Inside -> d2 o d < d2 o a) /\ (continence a b c d = Outside -> d2 o a < d2 o d).
Proof. exact continence_circle. Qed.
Print Assumptions C02_counterclockwise.

Theorem C02_symmetries : forall a b c d : pnt,
  continence b c a d = continence a b c d /\ continence b a c d = swapped (continence a b c d).
Proof. exact continence_symmetries. Qed.
Print Assumptions C02_symmetries.

Theorem C02_encircles : forall (t : triangle ArithR) (d : pnt),
  (is_ghost t = false -> forall o, d2 o (tv1 t) = d2 o (tv2 t) -> d2 o (tv1 t) = d2 o (tv3 t) -> 0 < area2 (tv1 t) (tv2 t) (tv3 t) ->
     (encircles t d = Inside <-> d2 o d < d2 o (tv1 t) - eps / area2 (tv1 t) (tv2 t) (tv3 t)) /\
     (encircles t d = Outside <-> d2 o (tv1 t) + eps / area2 (tv1 t) (tv2 t) (tv3 t) < d2 o d)) /\
  (is_ghost t = true ->
     (encircles t d = Inside <-> eps < area2 (tv1 t) (tv2 t) d) /\ (encircles t d = Outside <-> area2 (tv1 t) (tv2 t) d < - eps)).
Proof. exact encircles_spec. Qed.
Print Assumptions C02_encircles.

Example C02_hypotheses : let a := at_ 1 0 in let b := at_ 0 1 in let c := at_ (-1) 0 in let o := at_ 0 0 in
  d2 o a = d2 o b /\ d2 o a = d2 o c /\ 0 < area2 a b c /\ is_ghost (Tri a b c) = false /\ is_ghost (Tri a b ghost_vertex) = true.
Proof. exact case_circle. Qed.

(** C03 *)
Theorem C03_circumcenter : forall a b c : pnt,
  (area2 a b c = 0 -> circumcenter a b c = None) /\
  (area2 a b c <> 0 -> exists o, circumcenter a b c = Some o /\ vghost o = false /\
     d2 o a = d2 o b /\ d2 o a = d2 o c /\
     forall o', d2 o' a = d2 o' b -> d2 o' a = d2 o' c -> coincide o o').
Proof. exact circumcenter_spec. Qed.
Print Assumptions C03_circumcenter.

Example C03_hypotheses : area2 (at_ 0 0) (at_ 1 1) (at_ 2 2) = 0 /\ area2 (at_ 0 0) (at_ 3 1) (at_ 1 2) <> 0.
Proof. exact case_circumcenter. Qed.

(** C04 *)
Theorem C04_encroachment : forall a b v m : pnt, half_point a b m ->
  (encroach a b v = Inside <-> d2 m v < d2 a b / 4 - eps) /\
  (encroach a b v = Outside <-> d2 a b / 4 + eps < d2 m v) /\
  (encroach a b v = Boundary <-> d2 a b / 4 - eps <= d2 m v <= d2 a b / 4 + eps).
Proof. exact encroach_spec. Qed.
Print Assumptions C04_encroachment.

Theorem C04_symmetry_and_midpoint : forall a b v : pnt, encroach a b v = encroach b a v /\
  (4 * eps < d2 a b -> forall m, half_point a b m -> encroach a b m = Inside).
Proof. exact encroach_extra. Qed.
Print Assumptions C04_symmetry_and_midpoint.

Example C04_hypotheses : half_point (at_ 0 0) (at_ 4 2) (at_ 2 1) /\ 4 * eps < d2 (at_ 0 0) (at_ 4 2).
Proof. exact case_encroach. Qed.

(** C05 *)
Theorem C05_intersection_sound : forall a b c d p : pnt, intersection a b c d = Some p ->
  near_box eps a b p /\ near_box eps c d p /\ vghost p = false /\
  (crossp a b c d <> 0 -> on_line a b p /\ on_line c d p) /\
  - eps <= area2 a b p <= eps /\ - eps <= area2 c d p <= eps.
Proof. exact intersection_sound. Qed.
Print Assumptions C05_intersection_sound.

Example C05_hypotheses : exists p, intersection (at_ 0 0) (at_ 2 2) (at_ 0 2) (at_ 2 0) = Some p /\ coincide (at_ 1 1) p.
Proof. exact case_intersection. Qed.

(** C06 *)
Theorem C06_intersection_complete : forall a b c d p, on_segment a b p -> on_segment c d p ->
  exists q, intersection a b c d = Some q /\ (crossp a b c d <> 0 -> coincide p q).
Proof. exact intersection_complete. Qed.
Print Assumptions C06_intersection_complete.

Theorem C06_order_irrelevant : forall a b c d : pnt,
  intersection a b c d = intersection c d a b /\ intersection a b c d = intersection b a c d /\ intersection a b c d = intersection a b d c.
Proof. exact intersection_orders. Qed.
Print Assumptions C06_order_irrelevant.

Example C06_hypotheses : on_segment (at_ 0 0) (at_ 4 4) (at_ 1 1) /\ on_segment (at_ 0 2) (at_ 2 0) (at_ 1 1) /\
  on_segment (at_ 1 1) (at_ 1 1) (at_ 1 1) /\ crossp (at_ 0 0) (at_ 4 4) (at_ 0 2) (at_ 2 0) <> 0.
Proof. exact case_shared. Qed.

(** C07 *)
Theorem C07_from_vertices : forall l : list pnt,
  match bbox_from_vertices l with
  | None => l = []
  | Some b => (forall v, In v l -> in_box b v) /\ forall b', (forall v, In v l -> in_box b' v) -> box_le b b'
  end.
Proof. exact from_vertices_spec. Qed.
Print Assumptions C07_from_vertices.

Theorem C07_contains : forall (b : bbox ArithR) (p : pnt), bbox_contains b p = true <-> in_box b p.
Proof. exact bbox_contains_spec. Qed.
Print Assumptions C07_contains.

Theorem C07_intersection : forall b1 b2 : bbox ArithR,
  match bbox_intersection b1 b2 with
  | None => forall p, ~ (in_box b1 p /\ in_box b2 p)
  | Some b => forall p, in_box b p <-> in_box b1 p /\ in_box b2 p
  end.
Proof. exact bbox_intersection_spec. Qed.
Print Assumptions C07_intersection.

Theorem C07_union : forall b1 b2 : bbox ArithR,
  box_le b1 (bbox_union b1 b2) /\ box_le b2 (bbox_union b1 b2) /\
  forall b', box_le b1 b' -> box_le b2 b' -> box_le (bbox_union b1 b2) b'.
Proof. exact bbox_union_spec. Qed.
Print Assumptions C07_union.

Theorem C07_union_list : forall l : list (bbox ArithR),
  match bbox_union_list l with
  | None => l = []
  | Some b => (forall x, In x l -> box_le x b) /\ forall b', (forall x, In x l -> box_le x b') -> box_le b b'
  end.
Proof. exact union_list_spec. Qed.
Print Assumptions C07_union_list.

Example C07_cases : in_box (BB (A:=ArithR) 0 0 2 3) (at_ 1 3) /\ ~ in_box (BB (A:=ArithR) 0 0 2 3) (at_ 1 4) /\
  box_le (BB (A:=ArithR) 0 0 1 1) (BB (A:=ArithR) 0 0 2 3).
Proof. exact case_boxes. Qed.

(** C08 *)
Theorem C08_winding : forall (l : list pnt) (v : pnt), l <> [] ->
  exists k, poly_contains (Poly l false) v = Ok (Some k) /\
    (k = Boundary <-> exists s, In s (polygon_sides l) /\ touches_side v s) /\
    (k = Inside -> winding v (polygon_sides l) <> 0%Z) /\
    (k = Outside -> winding v (polygon_sides l) = 0%Z).
Proof. exact contains_winding. Qed.
Print Assumptions C08_winding.

Theorem C08_on_side : forall (l : list pnt) (v a b : pnt), In (a, b) (polygon_sides l) -> on_segment a b v ->
  poly_contains (Poly l false) v = Ok (Some Boundary).
Proof. exact contains_on_side. Qed.
Print Assumptions C08_on_side.

(** Two corners are straight above and below the query point. *)
Example C08_hypotheses : kite <> [] /\ winding (at_ 4 1) (polygon_sides kite) = 1%Z /\ winding (at_ 4 3) (polygon_sides kite) = 0%Z /\
  In (at_ 8 0, at_ 4 2) (polygon_sides kite) /\ on_segment (at_ 8 0) (at_ 4 2) (at_ 6 1).
Proof. exact case_kite. Qed.

(** C09 *)
Theorem C09_triangle : forall (t : triangle ArithR) (p : pnt), is_ghost t = false -> area2 (tv1 t) (tv2 t) (tv3 t) <> 0 ->
  exists pl k, tri_as_polyline t = Ok (Some pl) /\ poly_contains pl p = Ok (Some k) /\
    (k = Boundary <-> touches_side p (te1 t) \/ touches_side p (te2 t) \/ touches_side p (te3 t)) /\
    (k = Inside -> inside_triangle (tv1 t) (tv2 t) (tv3 t) p) /\
    (inside_triangle (tv1 t) (tv2 t) (tv3 t) p -> k = Inside \/ k = Boundary) /\
    (k = Outside -> outside_triangle (tv1 t) (tv2 t) (tv3 t) p) /\
    (outside_triangle (tv1 t) (tv2 t) (tv3 t) p -> k = Outside \/ k = Boundary).
Proof. exact triangle_contains. Qed.
Print Assumptions C09_triangle.

Example C09_hypotheses : let t := Tri (at_ 0 0) (at_ 2 4) (at_ 5 1) in
  is_ghost t = false /\ area2 (tv1 t) (tv2 t) (tv3 t) <> 0 /\ inside_triangle (tv1 t) (tv2 t) (tv3 t) (at_ 2 2) /\
  outside_triangle (tv1 t) (tv2 t) (tv3 t) (at_ 2 5).
Proof. exact case_triangle. Qed.

(** C10 *)
Theorem C10_any_start : forall (A : Arith) (l1 l2 : list (vertex A)) v,
  poly_contains (Poly (l1 ++ l2) false) v = poly_contains (Poly (l2 ++ l1) false) v.
Proof. exact @contains_rotate. Qed.
Print Assumptions C10_any_start.

Theorem C10_any_direction : forall (l : list pnt) (v : pnt),
  poly_contains (Poly (rev l) false) v = poly_contains (Poly l false) v.
Proof. exact contains_reverse. Qed.
Print Assumptions C10_any_direction.

Example C10_cases : kite = [at_ 0 0; at_ 4 (-1)] ++ [at_ 8 0; at_ 4 2] /\ rev kite <> kite.
Proof. exact case_rotations. Qed.

(** C11 *)
Theorem C11_quality : forall a b c : pnt, vghost a || vghost b || vghost c = false -> 0 < area2 a b c ->
  forall o : pnt, d2 o a = d2 o b -> d2 o a = d2 o c ->
  exists q : R, quality (Tri a b c) = Some q /\ q = dist o a / shortest a b c /\ / sqrt 3 <= q.
Proof. exact quality_spec. Qed.
Print Assumptions C11_quality.

Theorem C11_rotation : forall a b c : pnt, area2 a b c <> 0 -> quality (Tri b c a) = quality (Tri a b c).
Proof. exact quality_rotate. Qed.
Print Assumptions C11_rotation.

Theorem C11_ghost : forall t : triangle ArithR, is_ghost t = true -> quality t = None.
Proof. exact quality_ghost. Qed.
Print Assumptions C11_ghost.

Example C11_hypotheses : let a := at_ 1 0 in let b := at_ 0 1 in let c := at_ (-1) 0 in let o := at_ 0 0 in
  vghost a || vghost b || vghost c = false /\ 0 < area2 a b c /\ d2 o a = d2 o b /\ d2 o a = d2 o c /\
  is_ghost (Tri a b ghost_vertex) = true.
Proof. exact case_quality. Qed.

(** C12 *)
Theorem C12_triangle_area : forall t : triangle ArithR, is_ghost t = false ->
  exists x : R, tri_area t = Some x /\ x = area2 (tv1 t) (tv2 t) (tv3 t) / 2 /\
    (0 < x <-> 0 < area2 (tv1 t) (tv2 t) (tv3 t)).
Proof. exact tri_area_spec. Qed.
Print Assumptions C12_triangle_area.

Theorem C12_polygon_area : forall l : list pnt, (area_segments (polygon_sides l) : R) = - shoelace (polygon_sides l).
Proof. exact area_polygon. Qed.
Print Assumptions C12_polygon_area.

Theorem C12_rotation : forall l1 l2 : list pnt,
  (area_segments (polygon_sides (l1 ++ l2)) : R) = area_segments (polygon_sides (l2 ++ l1)).
Proof. exact area_rotate. Qed.
Print Assumptions C12_rotation.

Theorem C12_reversal : forall l : list pnt,
  (area_segments (polygon_sides (rev l)) : R) = - (area_segments (polygon_sides l) : R).
Proof. exact area_reverse. Qed.
Print Assumptions C12_reversal.

Theorem C12_triangle_sides : forall a b c : pnt,
  (area_segments [(a, b); (b, c); (c, a)] : R) = - (area_triangle a b c : R).
Proof. exact area_sides_triangle. Qed.
Print Assumptions C12_triangle_sides.

Example C12_cases : shoelace (polygon_sides kite) = 12 /\ is_ghost (Tri (at_ 0 0) (at_ 4 (-1)) (at_ 8 0)) = false.
Proof. exact case_area. Qed.

(** C13 *)
Theorem C13_angle : forall a b c : pnt,
  exists th : R, angle a b c = Some th /\ 0 <= th <= 2 * PI /\
    (d2 a b <> 0 -> d2 c b <> 0 -> cos th * (dist a b * dist c b) = dotp b a b c).
Proof. exact angle_spec. Qed.
Print Assumptions C13_angle.

Theorem C13_side : forall a b c : pnt,
  exists th : R, angle a b c = Some th /\ (area2 a b c < - eps -> PI <= th) /\ (- eps <= area2 a b c -> th <= PI).
Proof. exact angle_side. Qed.
Print Assumptions C13_side.

Example C13_hypotheses : d2 (at_ 1 0) (at_ 0 0) <> 0 /\ d2 (at_ 0 2) (at_ 0 0) <> 0 /\
  area2 (at_ 1 0) (at_ 0 0) (at_ 0 2) < - eps /\ - eps <= area2 (at_ 0 2) (at_ 0 0) (at_ 1 0).
Proof. exact case_angle. Qed.

(** C14 *)
Theorem C14_midpoint : forall a b : pnt,
  (vghost a = false -> vghost b = false -> half_point a b (midpoint a b) /\ vghost (midpoint a b) = false) /\
  (vghost a = true \/ vghost b = true -> vghost (midpoint a b) = true).
Proof. exact midpoint_spec. Qed.
Print Assumptions C14_midpoint.

Theorem C14_edge_midpoint : forall e : edge ArithR,
  half_point (fst e) (snd e) (edge_midpoint e) /\ vghost (edge_midpoint e) = false.
Proof. exact edge_midpoint_spec. Qed.
Print Assumptions C14_edge_midpoint.

Example C14_hypotheses : vghost (at_ 1 2) = false /\ vghost (ghost_vertex (A:=ArithR)) = true.
Proof. exact case_midpoint. Qed.

(** C17 *)
Theorem C17_lexicographic : forall a b : pnt, constructed a -> constructed b ->
  (vcmp a b = Lt <-> lex_lt a b) /\ (vcmp a b = Gt <-> lex_lt b a) /\ (vcmp a b = Eq <-> coincide a b).
Proof. exact vcmp_spec. Qed.
Print Assumptions C17_lexicographic.

Theorem C17_total_order : forall a b c : pnt, constructed a -> constructed b -> constructed c ->
  vcmp a a = Eq /\ vcmp b a = CompOpp (vcmp a b) /\
  (vcmp a b <> Gt -> vcmp b c <> Gt -> vcmp a c <> Gt).
Proof. exact vcmp_order. Qed.
Print Assumptions C17_total_order.

Example C17_hypotheses : constructed (at_ 3 4) /\ constructed (ghost_vertex (A:=ArithR)) /\ lex_lt (at_ 3 4) (at_ 3 5).
Proof. exact case_order. Qed.

(** C22 *)
Theorem C22_crossings : forall p1 p2 : polyline ArithR, pverts p1 <> [] -> pverts p2 <> [] ->
  exists l, intersection_vertices p1 p2 = Ok l /\ NoDup l /\
  (forall v, In v l -> exists a b c d q, In (a, b) (sides_of p1) /\ In (c, d) (sides_of p2) /\ close q v /\
     near_box eps a b q /\ near_box eps c d q /\ - eps <= area2 a b q <= eps /\ - eps <= area2 c d q <= eps) /\
  (forall a b c d p, In (a, b) (sides_of p1) -> In (c, d) (sides_of p2) -> on_segment a b p -> on_segment c d p ->
     exists v, In v l /\ (crossp a b c d <> 0 -> close p v)).
Proof. exact intersection_vertices_spec. Qed.
Print Assumptions C22_crossings.

Example C22_hypotheses : let p1 := Poly kite false in let p2 := Poly [at_ 6 (-5); at_ 6 5] true in
  pverts p1 <> [] /\ pverts p2 <> [] /\ In (at_ 8 0, at_ 4 2) (sides_of p1) /\ In (at_ 6 (-5), at_ 6 5) (sides_of p2) /\
  on_segment (at_ 8 0) (at_ 4 2) (at_ 6 1) /\ on_segment (at_ 6 (-5)) (at_ 6 5) (at_ 6 1) /\
  crossp (at_ 8 0) (at_ 4 2) (at_ 6 (-5)) (at_ 6 5) <> 0.
Proof. exact case_crossing. Qed.

(** C25 *)
Theorem C25_edge_contains : forall (e : edge ArithR) (v : pnt),
  edge_contains e v = true <-> near_box 0 (fst e) (snd e) v /\ - eps <= area2 (fst e) (snd e) v <= eps.
Proof. exact edge_contains_spec. Qed.
Print Assumptions C25_edge_contains.

Theorem C25_ends_and_reversal : forall e : edge ArithR,
  edge_contains e (fst e) = true /\ edge_contains e (snd e) = true /\
  (forall p, on_segment (fst e) (snd e) p -> edge_contains e p = true) /\
  forall v, edge_contains e v = edge_contains (snd e, fst e) v.
Proof. exact edge_contains_ends. Qed.
Print Assumptions C25_ends_and_reversal.

Example C25_cases : near_box 0 (at_ 8 0) (at_ 4 2) (at_ 6 1) /\ area2 (at_ 8 0) (at_ 4 2) (at_ 6 1) = 0.
Proof. exact case_edge_contains. Qed.

(** C47: what a tiling by midpoints is, in lengths and positions. *)
Theorem C47_dyadic_pieces : forall (e : edge ArithR) l, tiling e l -> forall x, In x l ->
  exists k j, (j < 2 ^ k)%nat /\
    at_ratio (INR j / 2 ^ k) (fst e) (snd e) (fst x) /\ at_ratio ((INR j + 1) / 2 ^ k) (fst e) (snd e) (snd x) /\
    seg_length x = seg_length e / 2 ^ k.
Proof. exact tiling_lengths. Qed.
Print Assumptions C47_dyadic_pieces.

Theorem C47_total_length : forall (e : edge ArithR) l, tiling e l -> total (map seg_length l) = seg_length e.
Proof. exact tiling_total. Qed.
Print Assumptions C47_total_length.

Example C47_exact_hypotheses : let e := (at_ 0 0, at_ 4 0) in let m := edge_midpoint e in let m' := edge_midpoint (m, at_ 4 0) in
  tiling e [(at_ 0 0, m); (m, m'); (m', at_ 4 0)].
Proof. exact case_tiling. Qed.

(** C49: the side condition of C49_rejected_centre. *)
Theorem C49_no_self_encircling : forall a b c : pnt, continence a b c c <> Inside.
Proof. exact no_self_encircling. Qed.
Print Assumptions C49_no_self_encircling.

(** C57 *)
Theorem C57_circle : forall (a : action ArithR) (r : R) rest (c : R * R) (n : nat),
  a_scalars a = r :: rest -> a_points a = [c] ->
  (rest = [] /\ n = 100%nat \/ exists x, hd_error rest = Some x /\ INR n - / 2 <= x < INR n + / 2) -> (3 <= n)%nat ->
  exists pts, parse_circle a = Ok (Some (Poly pts false)) /\ length pts = n /\
    (forall v, In v pts -> vghost v = false /\ d2 v (V (A:=ArithR) (fst c) (snd c) false) = r * r) /\
    (forall u v, In (u, v) (polygon_sides pts) -> d2 u v = 2 * (r * r) * (1 - cos (2 * PI / INR n))).
Proof. exact parse_circle_spec. Qed.
Print Assumptions C57_circle.

Example C57_hypotheses : let a := Act (A:=ArithR) EmptyString EmptyString [2; 5 / 2] [(1, 1)] [] in
  a_scalars a = 2 :: [5 / 2] /\ a_points a = [(1, 1)] /\
  (exists x, hd_error [5 / 2] = Some x /\ INR 3 - / 2 <= x < INR 3 + / 2) /\ (3 <= 3)%nat.
Proof. exact case_circle_action. Qed.
