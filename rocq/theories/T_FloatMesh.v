(** T_FloatMesh.v — meshes built in binary64 (the arithmetic the crate really
    uses) over points of a small grid. *)

From Coq Require Import Reals List ZArith Bool.
From Verif Require Import Base Arith ArithR ArithF Geometry Elements Polyline Procedures Triangulator Spec SpecR SpecD SpecP SpecF Samples P_D8 P_Polygon3 P_Y3 P_Y4 P_Y7.
Import ListNotations.
Local Open Scope R_scope.

(** C110 *)
Theorem C110_insertion : forall k, fine_spacing k -> forall (H : HashOrder) p S S' tr M vs vs', Forall2 (fine_reads k) S S' -> Forall2 (fine_reads k) vs vs' ->
  NoDup (vs' ++ S') -> no_four_on_a_circle (vs' ++ S') -> stands_for S tr M -> delaunay S' M ->
  exists n0 tr2 M2 inc del ins ins', (forall fuel, (n0 <= fuel)%nat -> vertices_include H fuel p tr vs [] None [] = Ok (tr2, inc, del)) /\
    Forall2 (fine_reads k) ins ins' /\ NoDup ins /\ incl ins vs /\ stands_for (ins ++ S) tr2 M2 /\ delaunay (ins' ++ S') M2 /\
    ((exists w, In w vs' /\ ~ all_on_a_line (w :: S')) -> ins <> []).
Proof. exact float_insertion. Qed.
Print Assumptions C110_insertion.

Theorem C110_start : forall k (a b : vertex ArithF) (a' b' : pnt), fine_spacing k -> fine_reads k a a' -> fine_reads k b b' -> a' <> b' ->
  stands_for [a; b] (from_initial_segment a b) (from_initial_segment a' b').
Proof. exact float_initial. Qed.
Print Assumptions C110_start.

Theorem C110_one : forall k, fine_spacing k -> forall (H : HashOrder) p S S' tr M v v', Forall2 (fine_reads k) S S' -> fine_reads k v v' ->
  NoDup (v' :: S') -> no_four_on_a_circle (v' :: S') -> ~ all_on_a_line (v' :: S') -> stands_for S tr M -> delaunay S' M ->
  exists n0 tr2 M2 inc del, (forall fuel, (n0 <= fuel)%nat -> vertices_include H fuel p tr [v] [] None [] = Ok (tr2, inc, del)) /\
    stands_for (v :: S) tr2 M2 /\ delaunay (v' :: S') M2.
Proof. exact float_one. Qed.
Print Assumptions C110_one.

Theorem C110_one_by_one : forall k, fine_spacing k -> forall (H : HashOrder) vs vs' p S S' tr M, Forall2 (fine_reads k) S S' -> Forall2 (fine_reads k) vs vs' ->
  NoDup (vs' ++ S') -> no_four_on_a_circle (vs' ++ S') -> (vs' <> [] -> ~ all_on_a_line (hd ghost_vertex vs' :: S')) -> stands_for S tr M -> delaunay S' M ->
  exists n0 tr2 M2, (forall fuel, (n0 <= fuel)%nat -> include_each H fuel p tr vs = Ok tr2) /\ stands_for (vs ++ S) tr2 M2 /\ delaunay (vs' ++ S') M2.
Proof. exact float_each. Qed.
Print Assumptions C110_one_by_one.

Example C110_case : fine_spacing 0 /\ Forall2 (fine_reads 0) [pt 0 0; pt 4 0] [pA; pB] /\ Forall2 (fine_reads 0) [pt 1 3; pt 2 1; pt 7 5] [pC; pE; pF] /\
  NoDup ([pC; pE; pF] ++ [pA; pB]) /\ no_four_on_a_circle ([pC; pE; pF] ++ [pA; pB]) /\ ~ all_on_a_line (hd ghost_vertex [pC; pE; pF] :: [pA; pB]) /\
  stands_for [pt 0 0; pt 4 0] (from_initial_segment (pt 0 0) (pt 4 0)) (from_initial_segment pA pB) /\ delaunay [pA; pB] (from_initial_segment pA pB).
Proof. exact case_float_mesh. Qed.

(** C111 *)
Theorem C111_convex : forall k, fine_spacing k -> forall (H : HashOrder) p (t : triangulator ArithF) l l', only_polygon t l -> Forall2 (fine_reads k) l l' ->
  NoDup l' -> no_four_on_a_circle l' -> (3 <= length l')%nat ->
  (forall a b w, In (a, b) (polygon_sides l') -> In w l' -> w <> a -> w <> b -> 0 < area2 a b w) ->
  exists n0 t' M, (forall fuel, (n0 <= fuel)%nat -> triangulate H fuel p t = Ok t') /\ reads_as l (t_trn t') M /\ fills l' M.
Proof. exact float_convex. Qed.
Print Assumptions C111_convex.

Example C111_case : fine_spacing 0 /\ only_polygon kiteF [pt 0 0; pt 4 0; pt 7 5; pt 1 3] /\ Forall2 (fine_reads 0) [pt 0 0; pt 4 0; pt 7 5; pt 1 3] kite /\
  NoDup kite /\ no_four_on_a_circle kite /\ (3 <= length kite)%nat /\
  (forall a b w, In (a, b) (polygon_sides kite) -> In w kite -> w <> a -> w <> b -> 0 < area2 a b w).
Proof. exact case_float_kite. Qed.

Theorem C111_any : forall k, fine_spacing k -> forall (H : HashOrder) p (t : triangulator ArithF) l l', only_polygon t l -> Forall2 (fine_reads k) l l' ->
  NoDup l' -> no_four_on_a_circle l' -> 0 < shoelace (polygon_sides l') -> (forall a b, In (a, b) (polygon_sides l') -> free_side l' a b) ->
  exists n0 t', (forall fuel, (n0 <= fuel)%nat -> triangulate H fuel p t = Ok t') /\
    ((forall w, In w l -> exists u, In u (tris (t_trn t')) /\ is_ghost u = false /\ corner_of w u) -> exists M, reads_as l (t_trn t') M /\ fills l' M).
Proof. exact float_free. Qed.
Print Assumptions C111_any.

Example C111_any_case : only_polygon dartF [pt 0 0; pt 4 0; pt 2 1; pt 1 3] /\ Forall2 (fine_reads 0) [pt 0 0; pt 4 0; pt 2 1; pt 1 3] dart /\
  NoDup dart /\ no_four_on_a_circle dart /\ 0 < shoelace (polygon_sides dart) /\ (forall a b, In (a, b) (polygon_sides dart) -> free_side dart a b) /\
  match triangulate ho_id 100 [] dartF with
  | Ok t' => forallb (fun w => existsb (fun u => negb (is_ghost u) && (if vdec (A:=ArithF) w (tv1 u) then true else if vdec (A:=ArithF) w (tv2 u) then true else if vdec (A:=ArithF) w (tv3 u) then true else false)) (tris (t_trn t'))) [pt 0 0; pt 4 0; pt 2 1; pt 1 3]
  | _ => false
  end = true.
Proof. exact case_float_dart. Qed.
