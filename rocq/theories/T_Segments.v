(** T_Segments.v — what inserting a segment touches; what arranging and
    decomposing edges cover. *)

From Coq Require Import Reals List ZArith Bool.
From Verif Require Import Base Arith Geometry Elements Polyline Procedures ArithR ArithF Spec SpecR SpecD SpecS P_Poly P_RX P_H1 P_V1 Samples.
Import ListNotations.

(** C94 *)
Theorem C94_segment_touches_what_gives_way : forall (A : Arith) (H : HashOrder) fuel p (tr : triangulation A) s cs tr',
  segment_include H fuel p tr s cs = Ok tr' ->
  exists new, (forall t, In t (tris tr') <-> (In t (tris tr) /\ ~ gives_way fuel cs s t) \/ In t new) /\
    forall t, In t new -> is_ghost t = false /\
      forall w, corner_of w t -> w = fst s \/ w = snd s \/ exists t0, In t0 (tris tr) /\ gives_way fuel cs s t0 /\ corner_of w t0.
Proof. exact @segment_touches. Qed.
Print Assumptions C94_segment_touches_what_gives_way.

(** Four points and a segment across; then a second segment beside the first. *)
Example C94_hypotheses : exists o,
  (let! (tr, _, _) := vertices_include ho_rev 60 [1] (from_initial_segment (pt 0 0) (pt 4 0)) [pt 4 5; pt 0 4] [] None [] in
   let! tr1 := segment_include ho_rev 60 [2] tr (pt 1 1, pt 3 2) [] in
   let! tr2 := segment_include ho_rev 60 [3] tr1 (pt 1 2, pt 2 3) [(pt 1 1, pt 3 2)] in Ok (tr, tr1, tr2)) = Ok o /\
  (let '(tr, tr1, tr2) := o in
   (length (tris tr) =? 6)%nat && hmem edec (pt 1 1, pt 3 2) (trn_edges tr1) && hmem edec (pt 1 1, pt 3 2) (trn_edges tr2) && hmem edec (pt 1 2, pt 2 3) (trn_edges tr2)) = true.
Proof. apply okb_ok. vm_compute. reflexivity. Qed.

Theorem C94_missing_sides : forall (A : Arith) (H : HashOrder) fuel p (segs cs : list (edge A)) (tr tr' : triangulation A), insert_missing H fuel p segs cs tr = Ok tr' ->
  (forall s, In s segs -> In s (trn_edges tr')) /\
  (forall t, In t (tris tr) -> ~ In t (tris tr') -> exists f s, In s segs /\ gives_way f cs s t) /\
  (forall t, In t (tris tr') -> ~ In t (tris tr) -> is_ghost t = false /\
     forall w, corner_of w t -> (exists s, In s segs /\ (w = fst s \/ w = snd s)) \/ exists t0, In t0 (tris tr) /\ corner_of w t0).
Proof. exact @missing_touches. Qed.
Print Assumptions C94_missing_sides.

(** Two missing segments, the second beside a constraint. *)
Example C94_missing_case : exists o,
  (let! (tr, _, _) := vertices_include ho_rev 60 [1] (from_initial_segment (pt 0 0) (pt 4 0)) [pt 4 5; pt 0 4] [] None [] in
   let! tr1 := insert_missing ho_rev 60 [2] [(pt 1 1, pt 3 2); (pt 1 2, pt 2 3)] [(pt 1 1, pt 3 2)] tr in Ok (tr, tr1)) = Ok o /\
  (let '(tr, tr1) := o in
   negb (hmem edec (pt 1 1, pt 3 2) (trn_edges tr)) && hmem edec (pt 1 1, pt 3 2) (trn_edges tr1) && hmem edec (pt 1 2, pt 2 3) (trn_edges tr1)) = true.
Proof. apply okb_ok. vm_compute. reflexivity. Qed.

(** C95 *)
Theorem C95_arrange_covers_the_same_points : forall (H : HashOrder) fuel p (edges r : list (edge ArithR)), NoDup edges -> (length edges < fuel)%nat -> resolved (ends_of edges) ->
  edge_arrange H fuel p edges = Ok r ->
  forall q, (exists e, In e r /\ on_segment (fst e) (snd e) q) <-> exists e, In e edges /\ on_segment (fst e) (snd e) q.
Proof. exact arrange_covers. Qed.
Print Assumptions C95_arrange_covers_the_same_points.

Theorem C95_decomposition_covers_the_edge : forall (H : HashOrder) fuel p (base : list (edge ArithR)) e l, resolved (ends_of (e :: base)) -> fst e <> snd e ->
  decompose H fuel p base e = Ok (Some l) ->
  (forall s, In s l -> In s base) /\ chain_from (fst e) (snd e) l /\ forall q, on_segment (fst e) (snd e) q <-> exists s, In s l /\ on_segment (fst s) (snd s) q.
Proof. exact decompose_covers. Qed.
Print Assumptions C95_decomposition_covers_the_edge.

Example C95_case : let a := at_ 0 0 in let b := at_ 1 0 in let c := at_ 2 0 in let d := at_ 2 5 in let es := [(a, b); (b, c); (c, d)] in
  NoDup es /\ resolved (ends_of ((a, c) :: es)) /\ a <> c /\ decompose ho_id 3 [] es (a, c) = Ok (Some [(a, b); (b, c)]).
Proof. exact case_edges. Qed.
