(** T_Gabriel.v — the whole program in binary64 on polygons that need not be convex (C142). *)

From Coq Require Import String Reals List ZArith Bool Permutation.
From Verif Require Import Base Arith ArithR ArithF Geometry Elements Polyline Procedures Refine Triangulator Interface Spec SpecI SpecM SpecR SpecD SpecP SpecF Samples
  P_RX P_Refuted P_Z16.
Import ListNotations.
Local Open Scope R_scope.

(** C142: the other corners are outside the circle over each side.  Nothing is asked
    about the sides not meeting: that follows. *)
Theorem C142_simple : forall l, (forall a b w m, In (a, b) (polygon_sides l) -> In w l -> w <> a -> w <> b -> half_point a b m -> d2 a b / 4 < d2 m w) ->
  forall a b c d, In (a, b) (polygon_sides l) -> In (c, d) (polygon_sides l) -> a <> c -> a <> d -> b <> c -> b <> d -> ~ exists p, on_segment a b p /\ on_segment c d p.
Proof. exact clear_simple. Qed.
Print Assumptions C142_simple.

(** The input is accepted and the polygon triangulated, in every hash order.  If each
    corner is a corner of a triangle of the mesh, what is written is the Delaunay
    triangulation that fills the polygon. *)
Theorem C142_program : forall k (l : list (vertex ArithF)) (l' : list pnt), fine_spacing k -> Forall2 (fine_reads k) l l' -> NoDup l' -> no_four_on_a_circle l' -> (3 <= length l')%nat ->
  0 < shoelace (polygon_sides l') -> (forall a b w m, In (a, b) (polygon_sides l') -> In w l' -> w <> a -> w <> b -> half_point a b m -> d2 a b / 4 < d2 m w) ->
  forall (H : HashOrder) p (inp : input ArithF) a, i_actions inp = [a] -> a_intent a = "include"%string -> a_geometry a = "polyline"%string -> map (fun q => mkv (fst q) (snd q)) (a_points a) = l ->
  (forall a b c, In a l -> In b l -> In c l -> orientation a b c = CCW -> ~ misses (RP (i_max_area inp) (i_quality inp)) (Tri a b c)) ->
  exists n1 t t', only_polygon t l /\ (forall fuel, (n1 <= fuel)%nat -> parse H fuel (1%nat :: p) inp = Ok (Some (t, RP (i_max_area inp) (i_quality inp))) /\ triangulate H fuel (2%nat :: p) t = Ok t') /\
    ((forall w, In w l -> exists u, In u (tris (t_trn t')) /\ is_ghost u = false /\ corner_of w u) ->
     exists n0 coords triples M order vec ts, (forall fuel, (n0 <= fuel)%nat -> run_main H fuel p inp = Ok (Some (coords, triples))) /\ fills l' M /\
       coords = map (fun v => (vx v, vy v)) order /\ Permutation order l /\ Permutation vec l /\ Forall2 (names vec) ts triples /\ NoDup ts /\
       (forall x, In x ts -> exists y, solid_in M y /\ tri_reads x y) /\ (forall y, solid_in M y -> exists x, In x ts /\ tri_reads x y)).
Proof. exact clear_program. Qed.
Print Assumptions C142_program.

(** The triangles do not depend on the hash order. *)
Theorem C142_same : forall k (l : list (vertex ArithF)) (l' : list pnt), fine_spacing k -> Forall2 (fine_reads k) l l' -> NoDup l' -> no_four_on_a_circle l' ->
  0 < shoelace (polygon_sides l') -> (forall a b w m, In (a, b) (polygon_sides l') -> In w l' -> w <> a -> w <> b -> half_point a b m -> d2 a b / 4 < d2 m w) ->
  forall (H H' : HashOrder) fuel fuel' p p' (t t' u u' : triangulator ArithF), only_polygon t l -> only_polygon u l ->
  triangulate H fuel p t = Ok t' -> triangulate H' fuel' p' u = Ok u' ->
  (forall w, In w l -> exists x, In x (tris (t_trn t')) /\ is_ghost x = false /\ corner_of w x) -> (forall w, In w l -> exists x, In x (tris (t_trn u')) /\ is_ghost x = false /\ corner_of w x) ->
  forall x, In x (tris (t_trn t')) -> exists y, In y (tris (t_trn u')) /\ exists a b c, x = Tri a b c /\ (y = Tri a b c \/ y = Tri b c a \/ y = Tri c a b).
Proof. exact clear_same. Qed.
Print Assumptions C142_same.

(** A pentagon with a notch: it is not convex. *)
Example C142_case : fine_spacing 0 /\ Forall2 (fine_reads 0) notchF notch /\ NoDup notch /\ no_four_on_a_circle notch /\ (3 <= length notch)%nat /\ 0 < shoelace (polygon_sides notch) /\
  (forall a b w m, In (a, b) (polygon_sides notch) -> In w notch -> w <> a -> w <> b -> half_point a b m -> d2 a b / 4 < d2 m w) /\
  (exists a b w, In (a, b) (polygon_sides notch) /\ In w notch /\ area2 a b w < 0).
Proof. exact case_notch. Qed.
Example C142_case_input : exists a, i_actions notch_job = [a] /\ a_intent a = "include"%string /\ a_geometry a = "polyline"%string /\ map (fun q => mkv (fst q) (snd q)) (a_points a) = notchF /\
  (forall a b c, In a notchF -> In b notchF -> In c notchF -> orientation a b c = CCW -> ~ misses (RP (i_max_area notch_job) (i_quality notch_job)) (Tri a b c)) /\
  forall t, only_polygon t notchF -> t_trn t = trn_new -> (exists t', triangulate ho_id 60 [2%nat] t = Ok t' /\ forall w, In w notchF -> exists u, In u (tris (t_trn t')) /\ is_ghost u = false /\ corner_of w u) /\
    (exists t', triangulate ho_rev 60 [2%nat] t = Ok t' /\ forall w, In w notchF -> exists u, In u (tris (t_trn t')) /\ is_ghost u = false /\ corner_of w u).
Proof. exact case_notch_job. Qed.
