(** T_Made.v — meshes and what is written, for all inputs (C138). *)

From Coq Require Import String List ZArith Bool.
From Verif Require Import Base Arith Geometry Elements Polyline Procedures Refine Triangulator Interface Spec ArithF Samples P_Refuted P_Made.
Import ListNotations.

(** C138: whatever is asked for, the meshes are made by including triangles and
    removing them, and nothing is written twice. *)
Theorem C138_triangulate : forall (A : Arith) (H : HashOrder) fuel p (t t' : triangulator A),
  triangulate H fuel p t = Ok t' -> exists h, t_trn t' = run_history h trn_new.
Proof. exact @triangulate_made. Qed.
Print Assumptions C138_triangulate.

Theorem C138_refine : forall (A : Arith) (H : HashOrder) fuel p (t t' : triangulator A) prm cs,
  refine H fuel p t prm = Ok (t', cs) -> exists h, t_trn t' = run_history h (t_trn t).
Proof. exact @refine_made. Qed.
Print Assumptions C138_refine.

Theorem C138_neighbours : forall (A : Arith) (H : HashOrder) fuel p (t t' t'' : triangulator A) q fuel' prm cs,
  triangulate H fuel p t = Ok t' -> refine H fuel' q t' prm = Ok (t'', cs) ->
  NoDup (tris (t_trn t'')) /\ (forall e x, adj_get e (t_trn t'') = Some x -> In x (tris (t_trn t'')) /\ side_of e x).
Proof. exact @run_made. Qed.
Print Assumptions C138_neighbours.

Theorem C138_written : forall (A : Arith) (H : HashOrder) fuel p (inp : input A) coords triples,
  run_main H fuel p inp = Ok (Some (coords, triples)) -> NoDup coords /\ NoDup triples.
Proof. exact @written_once. Qed.
Print Assumptions C138_written.

Example C138_case :
  match run_main (A:=ArithF) ho_rev 60 [] (Inp [act_of "include" [(0, 0); (4, 0); (7, 5); (1, 3)]%Z] None (fpz 10)) with
  | Ok (Some (c, ts)) => Nat.eqb (List.length c) 4 && Nat.eqb (List.length ts) 2
  | _ => false
  end = true.
Proof. vm_compute. reflexivity. Qed.
