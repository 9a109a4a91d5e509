(** T_Program.v — the whole program, from the input to the lists it writes (C106). *)

From Coq Require Import String Reals List ZArith Permutation.
From Verif Require Import Base Arith Geometry Elements Polyline Procedures Refine Triangulator Interface ArithR Spec SpecI SpecM SpecR SpecD SpecP SpecC SpecE SpecT P_RX P_F3 P_L4 P_L5.
Import ListNotations.
Local Open Scope R_scope.

(** C106 *)
Theorem C106_input_accepted : forall (H : HashOrder) (l vs : list pnt) (inp : input ArithR), polygon_job inp l vs -> convex_polygon l -> resolved (vs ++ l) -> (forall w, In w vs -> deep l w) ->
  forall p, exists n t ws, (forall fuel, (n <= fuel)%nat -> parse H fuel p inp = Ok (Some (t, RP (i_max_area inp) (i_quality inp)))) /\
    polygon_with t l ws /\ NoDup ws /\ forall w, In w ws <-> In w vs.
Proof. exact job_parse. Qed.
Print Assumptions C106_input_accepted.

(** [vec] is the order behind the index triples, [order] that of the coordinates
    (C52). *)
Theorem C106_whole_program : forall l, convex_polygon l -> exists N, forall (H : HashOrder) p (inp : input ArithR) vs, polygon_job inp l vs -> resolved (vs ++ l) -> (forall w, In w vs -> deep l w) ->
  exists n0 t t', (forall fuel, (n0 <= fuel)%nat -> parse H fuel (1%nat :: p) inp = Ok (Some (t, RP (i_max_area inp) (i_quality inp))) /\ triangulate H fuel (2%nat :: p) t = Ok t') /\
    ((forall fuel a, In a (refine_attempts H fuel (3%nat :: p) t' (RP (i_max_area inp) (i_quality inp))) -> sound_attempt l a) ->
     exists n1 coords triples, (forall fuel, (n1 <= fuel)%nat -> run_main H fuel p inp = Ok (Some (coords, triples))) /\ (length coords <= N)%nat /\
       exists S (tr : mesh) order vec ts, framed l S tr /\ resolved S /\ (vs <> [] -> exists w, In w vs /\ In w S) /\
         (forall q, in_region tr q <-> winding q (polygon_sides l) = 1%Z \/ on_polygon l q) /\
         (forall e, part l S e -> exists u, solid_in tr u /\ side_of e u) /\
         (forall x, solid_in tr x -> misses (RP (i_max_area inp) (i_quality inp)) x ->
            exists fuel tr1, In (Centre tr1 x) (refine_attempts H fuel (3%nat :: p) t' (RP (i_max_area inp) (i_quality inp))) /\ turned_down l tr1 x) /\
         coords = map (fun v : pnt => (X v, Y v)) order /\ NoDup coords /\ (forall w, In w order <-> In w S) /\ Permutation vec order /\
         Forall2 (names vec) ts triples /\ NoDup ts /\ (forall x, In x ts <-> solid_in tr x)).
Proof. exact whole_run. Qed.
Print Assumptions C106_whole_program.

(** A square of side 8 whose triangles may have an area of at most 25: the two
    triangles it starts with are too large, and all that is tried is sound, for
    every hash order. *)
Example C106_case : polygon_job square_job four [] /\ convex_polygon four /\ resolved ([] ++ four) /\ (forall w, In w [] -> deep four w) /\
  forall (H : HashOrder) p n t t' prm, parse H n (1%nat :: p) square_job = Ok (Some (t, prm)) -> triangulate H n (2%nat :: p) t = Ok t' ->
    prm = four_params /\ (exists x, solid_in (t_trn t') x /\ misses prm x) /\
    forall fuel a, In a (refine_attempts H fuel (3%nat :: p) t' prm) -> sound_attempt four a.
Proof. exact case_job. Qed.

(** A hexagon with a vertex in it, for all targets. *)
Example C106_case_vertices : forall m r, polygon_job (hexagon_job m r) hexagon [at_ 2 3] /\ convex_polygon hexagon /\ resolved ([at_ 2 3] ++ hexagon) /\ (forall w, In w [at_ 2 3] -> deep hexagon w).
Proof. exact case_hexagon_job. Qed.
