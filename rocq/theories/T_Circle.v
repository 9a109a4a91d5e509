(** T_Circle.v — refinement with nothing to do; circles (C121, C122). *)

From Coq Require Import String Reals List Bool ZArith Permutation.
From Verif Require Import Base Arith Geometry Elements Polyline Procedures Refine Triangulator Interface ArithR Spec SpecI SpecM SpecR SpecD SpecP SpecC SpecE SpecT SpecX P_RX P_X1 P_X3.
Import ListNotations.
Local Open Scope R_scope.

(** C121 *)
Theorem C121_at_rest : forall (A : Arith) (H : HashOrder) fuel p (t : triangulator A) (prm : refine_params A), (1 <= fuel)%nat ->
  pverts (t_boundary t) <> [] -> (forall h, In h (t_holes t) -> pverts h <> []) ->
  (forall e v, constraint_on t e -> In v (trn_vertices (t_trn t)) -> edge_encroach e v <> Inside) ->
  (forall x, In x (tris (t_trn t)) -> is_ghost x = false -> ~ misses prm x) ->
  exists cs, refine H fuel p t prm = Ok (t, cs) /\ forall e, In e cs <-> constraint_on t e.
Proof. exact @refine_rests. Qed.
Print Assumptions C121_at_rest.

Example C121_case : exists (t : triangulator ArithR) (prm : refine_params ArithR), pverts (t_boundary t) <> [] /\ (forall h, In h (t_holes t) -> pverts h <> []) /\
  (forall e v, constraint_on t e -> In v (trn_vertices (t_trn t)) -> edge_encroach e v <> Inside) /\
  (forall x, In x (tris (t_trn t)) -> is_ghost x = false -> ~ misses prm x) /\ exists x, solid_in (t_trn t) x.
Proof. exact case_rest. Qed.

(** C122 *)
Theorem C122_circle_polygon : forall c r n, (3 <= n)%nat -> 0 < r -> 3 * eps * (INR n * INR n) < 4 * r -> eps * (INR n * INR n * INR n) < 32 * (r * r) ->
  convex_polygon (circle_ring c r n) /\ resolved (circle_ring c r n).
Proof. exact circle_polygon. Qed.
Print Assumptions C122_circle_polygon.

Theorem C122_circle_program : forall c r n, (3 <= n)%nat -> 0 < r -> 3 * eps * (INR n * INR n) < 4 * r -> eps * (INR n * INR n * INR n) < 32 * (r * r) ->
  forall (H : HashOrder) p (inp : input ArithR), polygon_job inp (circle_ring c r n) [] ->
  / (2 * sin (PI / INR n)) + eps < i_quality inp -> (forall m, i_max_area inp = Some m -> 2 * (r * r) + eps < m) ->
  exists n0 coords triples, (forall fuel, (n0 <= fuel)%nat -> run_main H fuel p inp = Ok (Some (coords, triples))) /\
    exists (tr : mesh) order vec ts, framed (circle_ring c r n) (circle_ring c r n) tr /\
      (forall q, in_region tr q <-> winding q (polygon_sides (circle_ring c r n)) = 1%Z \/ on_polygon (circle_ring c r n) q) /\
      coords = map (fun v : pnt => (X v, Y v)) order /\ Permutation order (circle_ring c r n) /\ Permutation vec (circle_ring c r n) /\
      Forall2 (names vec) ts triples /\ NoDup ts /\ (forall x, In x ts <-> solid_in tr x).
Proof. exact circle_program. Qed.
Print Assumptions C122_circle_program.

(** A circle of radius 19/20 with the 100 points it has by default. *)
Example C122_case : 3 * eps * (INR 100 * INR 100) < 4 * (19 / 20) /\ eps * (INR 100 * INR 100 * INR 100) < 32 * (19 / 20 * (19 / 20)) /\
  polygon_job disc_job (circle_ring (0, 0) (19 / 20) 100) [] /\ / (2 * sin (PI / INR 100)) + eps < i_quality disc_job.
Proof. exact case_disc. Qed.
