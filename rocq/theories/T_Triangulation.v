(** T_Triangulation.v — properties of the triangulation structure (C26, C27, C28). *)

From Coq Require Import List ZArith.
From Verif Require Import Base Arith Geometry Elements Spec P_Trn P_Trn2 ArithF Samples.
Import ListNotations.

(** C26 *)
Theorem C26_adjacency_sound : forall (A : Arith) (h : list (tri_op (A:=A))) e t,
  adj_get e (run_history h trn_new) = Some t ->
  In t (tris (run_history h trn_new)) /\ side_of e t.
Proof. exact @history_adjacency_sound. Qed.
Print Assumptions C26_adjacency_sound.

Theorem C26_triangles : forall (A : Arith) (h : list (tri_op (A:=A))) t,
  NoDup (tris (run_history h trn_new)) /\
  (In t (tris (run_history h trn_new)) <-> present h (fun _ => False) t).
Proof. exact @history_triangles. Qed.
Print Assumptions C26_triangles.

Example C26_hypotheses :
  match adj_get (pt 1 0, pt 0 0) (run_history sample_history trn_new) with Some _ => true | None => false end = true.
Proof. vm_compute. reflexivity. Qed.

(** C27 *)
Theorem C27_vertices : forall (A : Arith) (tr : triangulation A) v,
  In v (trn_vertices tr) <-> vghost v = false /\ exists t, In t (tris tr) /\ corner_of v t.
Proof. exact @trn_vertices_In. Qed.
Print Assumptions C27_vertices.

Theorem C27_edges : forall (A : Arith) (tr : triangulation A) e,
  In e (trn_edges tr) <-> exists t, In t (tris tr) /\ side_of e t.
Proof. exact @trn_edges_In. Qed.
Print Assumptions C27_edges.

Theorem C27_no_repetition : forall (A : Arith) (tr : triangulation A),
  NoDup (trn_vertices tr) /\ NoDup (trn_edges tr).
Proof. exact @trn_lists_NoDup. Qed.
Print Assumptions C27_no_repetition.

Theorem C27_include : forall (A : Arith) (t : triangle A) tr t',
  (In t' (tris (fst (include_triangle t tr))) <-> t' = t \/ In t' (tris tr)) /\
  (snd (include_triangle t tr) = true <-> ~ In t (tris tr)).
Proof. exact @include_exact. Qed.
Print Assumptions C27_include.

Theorem C27_remove : forall (A : Arith) (t : triangle A) tr t',
  (In t' (tris (fst (remove_triangle t tr))) <-> In t' (tris tr) /\ t' <> t) /\
  (snd (remove_triangle t tr) = true <-> In t (tris tr)).
Proof. exact @remove_exact. Qed.
Print Assumptions C27_remove.

(** C28: complete as long as no two present triangles share an oriented side... *)
Theorem C28_adjacency_complete : forall (A : Arith) (h : list (tri_op (A:=A))) e t,
  exclusive_history h (fun _ => False) ->
  In t (tris (run_history h trn_new)) -> side_of e t ->
  adj_get e (run_history h trn_new) = Some t.
Proof. exact @history_adjacency_complete. Qed.
Print Assumptions C28_adjacency_complete.

Example C28_hypotheses : exclusive_history sample_history (fun _ => False).
Proof. exact sample_exclusive. Qed.

(** ... but not for arbitrary histories. *)
Theorem C28_arbitrary_refuted : exists (h : list (tri_op (A:=ArithF))) e t,
  In t (tris (run_history h trn_new)) /\ side_of e t /\ adj_get e (run_history h trn_new) <> Some t.
Proof. exact adjacency_incomplete. Qed.
Print Assumptions C28_arbitrary_refuted.
