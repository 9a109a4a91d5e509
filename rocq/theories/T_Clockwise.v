(** T_Clockwise.v — outlines given clockwise (C125). *)

From Coq Require Import String Reals List Bool ZArith Permutation.
From Verif Require Import Base Arith Geometry Elements Polyline Procedures Refine Triangulator Interface ArithR Spec SpecI SpecM SpecR SpecD SpecP SpecC SpecE SpecT SpecX SpecN
  P_F3 P_L5 P_Cw1 P_Cw2 P_Cw3.
Import ListNotations.
Local Open Scope R_scope.

Theorem C125_boundary_takes_the_inside_out : forall (H : HashOrder) p S (tr : mesh) h, delaunay S tr -> resolved S -> (exists t, In t (tris tr) /\ solid_over S t) ->
  NoDup h -> (forall w, In w h -> In w S) -> 0 < shoelace (polygon_sides h) -> (forall a b, In (a, b) (polygon_sides h) -> free_side S a b) ->
  exists n0 tr', (forall fuel, (n0 <= fuel)%nat -> boundary_include H fuel p tr (Poly (rev h) false) [] = Ok tr') /\ hollowed h tr tr'.
Proof. exact boundary_hollow. Qed.
Print Assumptions C125_boundary_takes_the_inside_out.

Example C125_case_boundary : exists tr : mesh, delaunay five tr /\ resolved five /\ (exists t, In t (tris tr) /\ solid_over five t) /\
  NoDup cut_out /\ (forall w, In w cut_out -> In w five) /\ 0 < shoelace (polygon_sides cut_out) /\ (forall a b, In (a, b) (polygon_sides cut_out) -> free_side five a b) /\
  (exists q, in_region tr q /\ winding q (polygon_sides cut_out) = 0%Z /\ ~ on_polygon cut_out q) /\
  exists q, in_region tr q /\ winding q (polygon_sides cut_out) = 1%Z /\ ~ on_polygon cut_out q.
Proof. exact case_cut_out. Qed.

Theorem C125_convex_clockwise : forall (H : HashOrder) p (t : triangulator ArithR) h, only_polygon t (rev h) -> NoDup h -> resolved h -> (3 <= length h)%nat ->
  (forall a b w, In (a, b) (polygon_sides h) -> In w h -> w <> a -> w <> b -> 0 < area2 a b w) ->
  exists n0 t', (forall fuel, (n0 <= fuel)%nat -> triangulate H fuel p t = Ok t') /\ emptied h (t_trn t').
Proof. exact clockwise_triangulates. Qed.
Print Assumptions C125_convex_clockwise.

Example C125_case_convex : only_polygon (TR trn_new (Poly (rev four) false) [] [] []) (rev four) /\ NoDup four /\ resolved four /\ (3 <= List.length four)%nat /\
  (forall a b w, In (a, b) (polygon_sides four) -> In w four -> w <> a -> w <> b -> 0 < area2 a b w).
Proof. exact case_turned_alone. Qed.

Theorem C125_program_writes_no_triangle : forall h (H : HashOrder) p (inp : input ArithR), convex_polygon h -> resolved h -> polygon_job inp (rev h) [] ->
  (forall a b w m, In (a, b) (polygon_sides h) -> In w h -> half_point a b m -> d2 a b / 4 - eps <= d2 m w) ->
  exists n0 coords, (forall fuel, (n0 <= fuel)%nat -> run_main H fuel p inp = Ok (Some (coords, []))) /\
    exists order, Permutation order h /\ coords = map (fun v : pnt => (X v, Y v)) order.
Proof. exact clockwise_program. Qed.
Print Assumptions C125_program_writes_no_triangle.

Example C125_case_program : convex_polygon four /\ resolved four /\ polygon_job turned_square (rev four) [] /\
  (forall a b w m, In (a, b) (polygon_sides four) -> In w four -> half_point a b m -> d2 a b / 4 - eps <= d2 m w).
Proof. exact case_turned. Qed.
