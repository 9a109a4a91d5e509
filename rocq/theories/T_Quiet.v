(** T_Quiet.v — the whole program in binary64 on a convex polygon (C139). *)

From Coq Require Import String Reals List ZArith Bool Permutation.
From Verif Require Import Base Arith ArithR ArithF Geometry Elements Polyline Procedures Refine Triangulator Interface Spec SpecI SpecM SpecR SpecD SpecP SpecF Samples
  P_Polygon3 P_Z11 P_Z12.
Import ListNotations.
Local Open Scope R_scope.

(** C139: the corners are doubles on a small grid, the polygon is convex, no four
    corners are on a circle, no corner is inside the circle over a side, and no
    triangle of corners misses the targets.  What is written is the Delaunay
    triangulation of the polygon, exactly. *)
Theorem C139_program : forall k (l : list (vertex ArithF)) (l' : list pnt), fine_spacing k -> Forall2 (fine_reads k) l l' -> NoDup l' -> no_four_on_a_circle l' -> (3 <= length l')%nat ->
  (forall a b w, In (a, b) (polygon_sides l') -> In w l' -> w <> a -> w <> b -> 0 < area2 a b w) ->
  forall (H : HashOrder) p (inp : input ArithF) n t prm, parse H n (1%nat :: p) inp = Ok (Some (t, prm)) -> only_polygon t l ->
  (forall a b w m, In (a, b) (polygon_sides l') -> In w l' -> half_point a b m -> d2 a b / 4 <= d2 m w) ->
  (forall a b c, In a l -> In b l -> In c l -> orientation a b c = CCW -> ~ misses prm (Tri a b c)) ->
  exists n0 coords triples M order vec ts, (forall fuel, (n0 <= fuel)%nat -> run_main H fuel p inp = Ok (Some (coords, triples))) /\ fills l' M /\
    coords = map (fun v => (vx v, vy v)) order /\ Permutation order l /\ Permutation vec l /\ Forall2 (names vec) ts triples /\ NoDup ts /\
    (forall x, In x ts -> exists y, solid_in M y /\ tri_reads x y) /\ (forall y, solid_in M y -> exists x, In x ts /\ tri_reads x y) /\ (length triples + 2 = length l)%nat.
Proof. exact float_program. Qed.
Print Assumptions C139_program.

Example C139_case : exists t, parse (A:=ArithF) ho_id 30 [1%nat] kite_job = Ok (Some (t, RP (A:=ArithF) None (fpz 10))) /\ only_polygon t [pt 0 0; pt 4 0; pt 7 5; pt 1 3] /\
  fine_spacing 0 /\ Forall2 (fine_reads 0) [pt 0 0; pt 4 0; pt 7 5; pt 1 3] kite /\ NoDup kite /\ no_four_on_a_circle kite /\ (3 <= length kite)%nat /\
  (forall a b w, In (a, b) (polygon_sides kite) -> In w kite -> w <> a -> w <> b -> 0 < area2 a b w) /\
  (forall a b w m, In (a, b) (polygon_sides kite) -> In w kite -> half_point a b m -> d2 a b / 4 <= d2 m w) /\
  (forall a b c, In a [pt 0 0; pt 4 0; pt 7 5; pt 1 3] -> In b [pt 0 0; pt 4 0; pt 7 5; pt 1 3] -> In c [pt 0 0; pt 4 0; pt 7 5; pt 1 3] -> orientation a b c = CCW -> ~ misses (RP (A:=ArithF) None (fpz 10)) (Tri a b c)).
Proof. exact case_kite_job. Qed.

(** The triangles do not depend on the order in which the hash sets are visited. *)
Theorem C139_same : forall k (l : list (vertex ArithF)) (l' : list pnt), fine_spacing k -> Forall2 (fine_reads k) l l' -> NoDup l' -> no_four_on_a_circle l' -> (3 <= length l')%nat ->
  (forall a b w, In (a, b) (polygon_sides l') -> In w l' -> w <> a -> w <> b -> 0 < area2 a b w) ->
  forall (H H' : HashOrder) fuel fuel' p p' (t t' u u' : triangulator ArithF), only_polygon t l -> only_polygon u l ->
  triangulate H fuel p t = Ok t' -> triangulate H' fuel' p' u = Ok u' ->
  forall x, In x (tris (t_trn t')) -> exists y, In y (tris (t_trn u')) /\ exists a b c, x = Tri a b c /\ (y = Tri a b c \/ y = Tri b c a \/ y = Tri c a b).
Proof. exact float_same. Qed.
Print Assumptions C139_same.

(** Two fillings of a polygon by Delaunay triangles are one and the same. *)
Theorem C139_one_filling : forall l (M M' : mesh), no_four_on_a_circle l -> fills l M -> fills l M' -> forall x, solid_in M x -> exists y, solid_in M' y /\ same_triangle x y.
Proof. exact fills_match. Qed.
Print Assumptions C139_one_filling.

(** A polygon that is not convex. *)
Example C139_case_filling : no_four_on_a_circle dart /\ exists M : mesh, fills dart M.
Proof. exact case_dart_filled. Qed.
