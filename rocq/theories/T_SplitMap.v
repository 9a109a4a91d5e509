(** T_SplitMap.v — what the split maps of refinement say (C117), for every
    arithmetic and every hash order. *)

From Coq Require Import List Bool ZArith.
From Verif Require Import Base Arith Geometry Elements Polyline Procedures Refine Triangulator Spec SpecV P_Base P_V3 ArithF Samples P_Checks.
Import ListNotations.
Local Open Scope nat_scope.

(** C117 *)
Theorem C117_unencroach_map : forall (A : Arith) (H : HashOrder) fuel p (tr : triangulation A) cs bd hs tr' sm inc del,
  unencroach H fuel p tr cs bd hs = Ok (tr', sm, inc, del) ->
  (forall s e, mget edec s sm = Some e ->
     In e cs /\ (exists v, In v (trn_vertices tr) /\ edge_encroach e v = Inside) /\ part_of e s) /\
  (forall e v, In e cs -> In v (trn_vertices tr) -> edge_encroach e v = Inside ->
     exists new, cut_into e new /\ forall s, In s new -> exists e', mget edec s sm = Some e').
Proof. exact @unencroach_map. Qed.
Print Assumptions C117_unencroach_map.

Definition low_mesh : triangulation ArithF := from_initial_segment (pt 0 0) (pt 16 0).
Example C117_unencroach_case : exists r,
  (let! (tr, _, _) := vertices_include ho_id 60 [] low_mesh [pt 8 20; pt 7 1] [] None [] in
   unencroach ho_id 60 [] tr [(pt 0 0, pt 16 0)] None []) = Ok r /\
  (let '(_, sm, _, _) := r in Nat.ltb 1 (length sm)) = true.
Proof. apply okb_ok. vm_compute. reflexivity. Qed.

Theorem C117_split_map : forall (A : Arith) (H : HashOrder) fuel p prm (tr : triangulation A) cs bd hs tr' cs' sm,
  split_irregular H fuel p prm tr cs bd hs = Ok (tr', cs', sm) ->
  (forall s, In s cs' -> In s cs \/ exists e, mget edec s sm = Some e) /\
  (forall s e, mget edec s sm = Some e -> In s cs' /\ comes_from cs e /\ part_of e s).
Proof. exact @split_map_tracks. Qed.
Print Assumptions C117_split_map.

Definition long_strip : triangulator ArithF := triangulator_new (Poly [pt 0 0; pt 4 0; pt 4 2; pt 0 2] false).
Example C117_split_case : exists r,
  (let! t := triangulate ho_id 40 [] long_strip in
   let! cs := refine_constraints t in
   split_irregular ho_id 40 [] (RP (A:=ArithF) (Some (fpz 3)) (fpz 2)) (t_trn t) cs (Some (t_boundary t)) (t_holes t)) = Ok r /\
  (let '(_, _, sm) := r in Nat.ltb 1 (length sm)) = true.
Proof. apply okb_ok. vm_compute. reflexivity. Qed.
