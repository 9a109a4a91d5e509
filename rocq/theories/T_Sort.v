(** T_Sort.v — what does hold of Vertex::sort (C16; what does not is in T_Refuted). *)

From Coq Require Import Reals List Permutation Sorted.
From Verif Require Import Base Arith ArithR Geometry Spec SpecR Samples P_RX P_Sort.
Import ListNotations.
Local Open Scope R_scope.

Theorem C16_keeps : forall (A : Arith) (l r : list (vertex A)), vertex_sort l = Ok r -> Permutation l r.
Proof. exact @sort_keeps. Qed.
Print Assumptions C16_keeps.

Theorem C16_returns : forall l : list pnt, exists r, vertex_sort l = Ok r.
Proof. exact sort_returns. Qed.
Print Assumptions C16_returns.

(** In a column the order is right. *)
Theorem C16_column : forall l : list pnt, (forall v w, In v l -> In w l -> X v = X w) ->
  exists r, vertex_sort l = Ok r /\ Permutation l r /\ StronglySorted (fun a b => Y a <= Y b) r.
Proof. exact sort_column. Qed.
Print Assumptions C16_column.

Example C16_case : let l := [at_ 2 5; at_ 2 1; at_ 2 3] in forall v w, In v l -> In w l -> X v = X w.
Proof. exact case_column. Qed.
