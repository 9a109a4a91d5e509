(** T_See.v — C131: what vertex insertion can reach within a boundary and past holes. *)

From Coq Require Import List ZArith Bool.
From Verif Require Import Base Arith Geometry Elements Polyline Procedures Spec SpecZ ArithF Samples P_See.
Import ListNotations.
Local Open Scope nat_scope.
Local Open Scope list_scope.

(** C131 *)
Theorem C131_removed_was_seen : forall (A : Arith) (H : HashOrder) bd hs n p (tr : triangulation A) vs cs tr' inc del, vertices_include H n p tr vs cs bd hs = Ok (tr', inc, del) ->
  forall t, In t del -> exists v k, In v vs /\ (in_circle t v \/ on_rim t v) /\ sees_past_one k bd hs t v.
Proof. exact @removed_reached. Qed.
Print Assumptions C131_removed_was_seen.

Theorem C131_blind_changes_nothing : forall (A : Arith) (H : HashOrder) bd hs n p (tr : triangulation A) vs cs tr' inc del, vertices_include H n p tr vs cs bd hs = Ok (tr', inc, del) ->
  (forall t v, In t (tris tr) -> In v vs -> ~ (in_circle t v /\ sees_past_one n bd hs t v)) -> tr' = tr /\ inc = [] /\ del = [].
Proof. exact @blind_changes_nothing. Qed.
Print Assumptions C131_blind_changes_nothing.

Theorem C131_alone_goes_in : forall (A : Arith) (H : HashOrder) bd hs n p (tr : triangulation A) v cs tr' inc del, vertices_include H n p tr [v] cs bd hs = Ok (tr', inc, del) -> ~ In v (trn_vertices tr) ->
  (exists t, In t (tris tr) /\ in_circle t v /\ sees_past_all n bd hs t v) -> exists t, In t inc /\ corner_of v t.
Proof. exact @alone_inserted. Qed.
Print Assumptions C131_alone_goes_in.

Theorem C131_alone_one_hole : forall (A : Arith) (H : HashOrder) bd hs n p (tr : triangulation A) v cs tr' inc del, vertices_include H n p tr [v] cs bd hs = Ok (tr', inc, del) -> ~ In v (trn_vertices tr) -> length hs <= 1 ->
  ((exists t, In t inc /\ corner_of v t) <-> exists t, In t (tris tr) /\ in_circle t v /\ sees_past_all n bd hs t v).
Proof. exact @alone_iff. Qed.
Print Assumptions C131_alone_one_hole.

(** The same vertex without a hole, where it goes in, and with a hole over the
    whole mesh, where it does not. *)
Example C131_hypotheses : ~ In see_vertex (trn_vertices see_mesh) /\
  (exists tr' inc del, vertices_include ho_id 60 [] see_mesh [see_vertex] [] (Some see_square) [] = Ok (tr', inc, del) /\ inc <> []) /\
  (exists tr' inc del, vertices_include ho_id 60 [] see_mesh [see_vertex] [] (Some see_square) [see_hole] = Ok (tr', inc, del) /\ inc = []).
Proof. exact (check_see_ok _ _ _ _ see_checked). Qed.
