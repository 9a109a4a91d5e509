(** T_Count.v — the number of triangles (C123). *)

From Coq Require Import String Reals List Bool ZArith Permutation.
From Verif Require Import Base Arith Geometry Elements Polyline Procedures Refine Triangulator Interface ArithR ArithF Samples Spec SpecI SpecM SpecR SpecD SpecP SpecC SpecE SpecF SpecT SpecX
  P_RX P_D8 P_F3 P_L5 P_X3 P_Y4 P_Count1 P_Count2 P_Count3.
Import ListNotations.
Local Open Scope R_scope.

(** C123: outer faces included. *)
Theorem C123_mesh : forall S (tr : mesh), delaunay S tr -> resolved S -> NoDup S -> (length (tris tr) + 2 = 2 * length S)%nat.
Proof. exact mesh_count. Qed.
Print Assumptions C123_mesh.

Theorem C123_insertion : forall (H : HashOrder) fuel p S (tr : mesh) vs tr' inc del, delaunay S tr -> resolved (vs ++ S) ->
  vertices_include H fuel p tr vs [] None [] = Ok (tr', inc, del) -> (length (tris tr') + 2 = 2 * length (trn_vertices tr'))%nat.
Proof. exact insertion_count. Qed.
Print Assumptions C123_insertion.

Example C123_case_insertion : delaunay [pA; pB] (from_initial_segment pA pB) /\ resolved ([pC; pE; pF] ++ [pA; pB]) /\ grid [pA; pB; pC; pE; pF] /\ pA <> pB /\
  exists n0 x, vertices_include ho_id n0 [] (from_initial_segment pA pB) [pC; pE; pF] [] None [] = Ok x.
Proof. exact case_insertion. Qed.

(** The same in doubles. *)
Theorem C123_doubles : forall k S S' (tr : triangulation ArithF) (M : mesh), fine_spacing k -> Forall2 (fine_reads k) S S' -> NoDup S' -> stands_for S tr M -> delaunay S' M ->
  (length (tris tr) + 2 = 2 * length S)%nat.
Proof. exact float_count. Qed.
Print Assumptions C123_doubles.

Example C123_case_doubles : fine_spacing 0 /\ Forall2 (fine_reads 0) [pt 0 0; pt 4 0] [pA; pB] /\ Forall2 (fine_reads 0) [pt 1 3; pt 2 1; pt 7 5] [pC; pE; pF] /\
  NoDup ([pC; pE; pF] ++ [pA; pB]) /\ no_four_on_a_circle ([pC; pE; pF] ++ [pA; pB]) /\ ~ all_on_a_line (hd ghost_vertex [pC; pE; pF] :: [pA; pB]) /\
  stands_for [pt 0 0; pt 4 0] (from_initial_segment (pt 0 0) (pt 4 0)) (from_initial_segment pA pB) /\ delaunay [pA; pB] (from_initial_segment pA pB).
Proof. exact case_float_mesh. Qed.

(** In a convex polygon: [B] are the points on its sides. *)
Theorem C123_polygon : forall l S (tr : mesh), convex_polygon l -> framed l S tr -> resolved S ->
  forall n B, NoDup n -> (forall w, In w n <-> In w S) -> NoDup B -> (forall w, In w B <-> In w S /\ on_polygon l w) ->
  (length (filter (fun t => negb (is_ghost t)) (tris tr)) + 2 + length B = 2 * length n)%nat.
Proof. exact solid_count. Qed.
Print Assumptions C123_polygon.

Theorem C123_written : forall l S (tr : mesh), convex_polygon l -> framed l S tr -> resolved S ->
  forall (H : HashOrder) p coords triples, output H p tr = Ok (coords, triples) ->
  forall B, NoDup B -> (forall w, In w B <-> In w S /\ on_polygon l w) -> (length triples + 2 + length B = 2 * length coords)%nat.
Proof. exact written_count. Qed.
Print Assumptions C123_written.

(** A square and a point inside it. *)
Example C123_case_polygon : convex_polygon four /\ resolved five /\ NoDup five /\ (exists tr : mesh, framed four five tr) /\ NoDup four /\ forall w, In w four <-> In w five /\ on_polygon four w.
Proof. exact case_five_count. Qed.

(** The whole program; [sound_attempt] as in C106. *)
Theorem C123_program : forall l, convex_polygon l -> forall (H : HashOrder) p (inp : input ArithR) vs, polygon_job inp l vs -> resolved (vs ++ l) -> (forall w, In w vs -> deep l w) ->
  exists n0 t t', (forall fuel, (n0 <= fuel)%nat -> parse H fuel (1%nat :: p) inp = Ok (Some (t, RP (i_max_area inp) (i_quality inp))) /\ triangulate H fuel (2%nat :: p) t = Ok t') /\
    ((forall fuel a, In a (refine_attempts H fuel (3%nat :: p) t' (RP (i_max_area inp) (i_quality inp))) -> sound_attempt l a) ->
     exists n1 coords triples, (forall fuel, (n1 <= fuel)%nat -> run_main H fuel p inp = Ok (Some (coords, triples))) /\
       forall B, NoDup B -> (forall w : pnt, In w B <-> vghost w = false /\ In (X w, Y w) coords /\ on_polygon l w) -> (length triples + 2 + length B = 2 * length coords)%nat).
Proof. exact program_count. Qed.
Print Assumptions C123_program.

Example C123_case_program : polygon_job square_job four [] /\ convex_polygon four /\ resolved ([] ++ four) /\ (forall w, In w [] -> deep four w) /\
  forall (H : HashOrder) p n t t' prm, parse H n (1%nat :: p) square_job = Ok (Some (t, prm)) -> triangulate H n (2%nat :: p) t = Ok t' ->
    prm = four_params /\ (exists x, solid_in (t_trn t') x /\ misses prm x) /\
    forall fuel a, In a (refine_attempts H fuel (3%nat :: p) t' prm) -> sound_attempt four a.
Proof. exact case_job. Qed.

Theorem C123_circle : forall c r n, (3 <= n)%nat -> 0 < r -> 3 * eps * (INR n * INR n) < 4 * r -> eps * (INR n * INR n * INR n) < 32 * (r * r) ->
  forall (H : HashOrder) p (inp : input ArithR), polygon_job inp (circle_ring c r n) [] ->
  / (2 * sin (PI / INR n)) + eps < i_quality inp -> (forall m, i_max_area inp = Some m -> 2 * (r * r) + eps < m) ->
  exists n0 coords triples, (forall fuel, (n0 <= fuel)%nat -> run_main H fuel p inp = Ok (Some (coords, triples))) /\ length coords = n /\ length triples = (n - 2)%nat.
Proof. exact circle_count. Qed.
Print Assumptions C123_circle.

Example C123_case_circle : 3 * eps * (INR 100 * INR 100) < 4 * (19 / 20) /\ eps * (INR 100 * INR 100 * INR 100) < 32 * (19 / 20 * (19 / 20)) /\
  polygon_job disc_job (circle_ring (0, 0) (19 / 20) 100) [] /\ / (2 * sin (PI / INR 100)) + eps < i_quality disc_job.
Proof. exact case_disc. Qed.
