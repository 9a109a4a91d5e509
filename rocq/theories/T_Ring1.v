(** T_Ring1.v — inputs without an include, and inputs of one ring with constraints (C147). *)

From Coq Require Import String List ZArith.
From Verif Require Import Base Arith ArithF Geometry Elements Polyline Refine Triangulator Interface Spec SpecI Samples P_Reject P_Ring1.
Import ListNotations.
Local Open Scope list_scope.
Local Open Scope nat_scope.

(** C147: an input whose actions all have a meaning but that includes nothing is
    answered with an error. *)
Theorem C147_no_include : forall (A : Arith) (H : HashOrder) fuel p (inp : input A) fs, Forall2 (means fuel) (i_actions inp) fs -> flat_map included fs = [] ->
  parse H fuel p inp = Ok None.
Proof. exact @no_include. Qed.
Print Assumptions C147_no_include.

(** One ring and any vertices: an error when a vertex is not strictly inside the
    ring, else a triangulator over the ring with these vertices. *)
Theorem C147_ring : forall (A : Arith) (H : HashOrder) fuel p (inp : input A) fs pl, 0 < fuel -> Forall2 (means fuel) (i_actions inp) fs ->
  flat_map included fs = [pl] -> flat_map removed fs = [] -> (forall f, In f fs -> segments_of f = []) ->
  let asked v := exists f, In f fs /\ In v (vertices_of f) in
  exists o, parse H fuel p inp = Ok o /\ match o with
  | None => exists v, asked v /\ poly_contains pl v <> Ok (Some Inside)
  | Some (t, prm) => prm = RP (i_max_area inp) (i_quality inp) /\ t_trn t = trn_new /\ t_boundary t = pl /\ t_holes t = [] /\ t_segments t = [] /\
      (forall v, In v (t_vertices t) <-> asked v) /\ forall v, asked v -> poly_contains pl v = Ok (Some Inside)
  end.
Proof. exact @one_ring. Qed.
Print Assumptions C147_ring.

(** With segments too: never a panic, and an error only when a segment or a vertex
    is not inside the ring. *)
Theorem C147_constraints : forall (A : Arith) (H : HashOrder) fuel p (inp : input A) fs pl, Forall2 (means fuel) (i_actions inp) fs ->
  flat_map included fs = [pl] -> flat_map removed fs = [] ->
  let asked v := exists f, In f fs /\ In v (vertices_of f) in let wanted s := exists f, In f fs /\ In s (segments_of f) in
  parse H fuel p inp <> Panic /\ forall o, parse H fuel p inp = Ok o -> match o with
  | None => (exists s, wanted s /\ poly_continence fuel pl (Poly [fst s; snd s] true) <> Ok (Some (Inside, Open))) \/ (exists v, asked v /\ poly_contains pl v <> Ok (Some Inside))
  | Some (t, prm) => prm = RP (i_max_area inp) (i_quality inp) /\ t_boundary t = pl /\ t_holes t = [] /\
      (forall s, wanted s -> poly_continence fuel pl (Poly [fst s; snd s] true) = Ok (Some (Inside, Open))) /\ (forall v, asked v -> poly_contains pl v = Ok (Some Inside))
  end.
Proof. exact @ring_constraints. Qed.
Print Assumptions C147_constraints.

Example C147_case_segment : Forall2 (means 30) (i_actions (square_first one_segment)) segment_effects /\ flat_map included segment_effects = [the_square] /\
  flat_map removed segment_effects = [].
Proof. split; [exact case_segment|]. split; reflexivity. Qed.

(** A square with the vertices (3, 4) and (x, 2): both outcomes occur. *)
Example C147_case : forall x, Forall2 (means 30) (i_actions (square_and x)) (square_effects x) /\ flat_map included (square_effects x) = [the_square] /\
  flat_map removed (square_effects x) = [] /\ forall f, In f (square_effects x) -> segments_of f = [].
Proof. intros x. split; [apply case_means|]. split; [reflexivity|]. split; [reflexivity|]. intros f [<-|[<-|[]]]; reflexivity. Qed.
Example C147_case_outcomes : poly_contains the_square (set_at (A:=ArithF) (point_of 5 2)) = Ok (Some Inside) /\ poly_contains the_square (set_at (A:=ArithF) (point_of 15 2)) <> Ok (Some Inside).
Proof. exact case_inside. Qed.
Example C147_case_no_include : Forall2 (means 30) (i_actions (Inp (A:=ArithF) [two_points 5] None (fpz 1%Z))) [EVertices (map set_at (a_points (two_points 5)))].
Proof. constructor; [apply means_vertices; reflexivity|constructor]. Qed.
