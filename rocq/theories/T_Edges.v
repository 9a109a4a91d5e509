(** T_Edges.v — how many edges are drawn (C137). *)

From Coq Require Import Reals List Bool ZArith.
From Verif Require Import Base Arith Geometry Elements Polyline Procedures Refine Triangulator Interface ArithR Spec SpecI SpecM SpecR SpecD SpecP SpecC SpecE P_RX P_F3 P_Angle2 P_Count3 P_Count4.
Import ListNotations.

(** C137: in every arithmetic, for triangles that are sewn together: a side belongs
    to one triangle, and on the other side of it there is another one. *)
Theorem C137_balance : forall (A : Arith) (H : HashOrder) (tr : triangulation A), NoDup (tris tr) ->
  (forall t, In t (tris tr) -> is_ghost t = true -> exists a b, t = Tri a b ghost_vertex /\ vghost a = false /\ vghost b = false) ->
  (forall t, In t (tris tr) -> is_ghost t = false -> tv1 t <> tv2 t /\ tv2 t <> tv3 t /\ tv3 t <> tv1 t) ->
  (forall t t' e, In t (tris tr) -> In t' (tris tr) -> side_of e t -> side_of e t' -> t = t') ->
  (forall t e, In t (tris tr) -> side_of e t -> exists t', In t' (tris tr) /\ side_of (flip e) t') ->
  (forall a b, In (Tri a b ghost_vertex) (tris tr) -> ~ In (Tri b a ghost_vertex) (tris tr)) ->
  forall p, 2 * length (glium_edge_list H p tr) = 3 * length (filter (fun t => negb (is_ghost t)) (tris tr)) + length (filter is_ghost (tris tr)).
Proof. exact @edges_balance. Qed.
Print Assumptions C137_balance.

Example C137_case_balance : exists tr : mesh, length (filter is_ghost (tris tr)) = 4 /\ NoDup (tris tr) /\
  (forall t, In t (tris tr) -> is_ghost t = true -> exists a b, t = Tri a b ghost_vertex /\ vghost a = false /\ vghost b = false) /\
  (forall t, In t (tris tr) -> is_ghost t = false -> tv1 t <> tv2 t /\ tv2 t <> tv3 t /\ tv3 t <> tv1 t) /\
  (forall t t' e, In t (tris tr) -> In t' (tris tr) -> side_of e t -> side_of e t' -> t = t') /\
  (forall t e, In t (tris tr) -> side_of e t -> exists t', In t' (tris tr) /\ side_of (flip e) t') /\
  (forall a b, In (Tri a b ghost_vertex) (tris tr) -> ~ In (Tri b a ghost_vertex) (tris tr)).
Proof. exact case_sewn. Qed.

(** In a convex polygon; [B] are the points on its sides, as in C123. *)
Theorem C137_polygon : forall l S (tr : mesh), convex_polygon l -> framed l S tr -> resolved S ->
  forall (H : HashOrder) p n B, NoDup n -> (forall w, In w n <-> In w S) -> NoDup B -> (forall w, In w B <-> In w S /\ on_polygon l w) ->
  length (glium_edge_list H p tr) + 3 + length B = 3 * length n.
Proof. exact edge_count. Qed.
Print Assumptions C137_polygon.

Theorem C137_drawn : forall l S (tr : mesh), convex_polygon l -> framed l S tr -> resolved S ->
  forall (H : HashOrder) F32 (cast : T ArithR -> F32) p B, NoDup B -> (forall w, In w B <-> In w S /\ on_polygon l w) ->
  length (glium_edges H cast p tr) + 6 + 2 * length B = 6 * length (trn_vertices tr).
Proof. exact drawn_count. Qed.
Print Assumptions C137_drawn.

(** A square and a point inside it. *)
Example C137_case_polygon : convex_polygon four /\ resolved five /\ NoDup five /\ (exists tr : mesh, framed four five tr) /\ NoDup four /\ forall w, In w four <-> In w five /\ on_polygon four w.
Proof. exact case_five_count. Qed.

(** What is drawn after a refinement. *)
Theorem C137_refined : forall (H : HashOrder) fuel p (t : triangulator ArithR) prm l S, convex_polygon l ->
  t_boundary t = Poly l false -> t_holes t = [] -> t_segments t = [] ->
  framed l S (t_trn t) -> resolved S -> (forall a b, In (a, b) (polygon_sides l) -> piece l S (a, b)) ->
  (forall a, In a (refine_attempts H fuel p t prm) -> sound_attempt l a) ->
  forall t' cs, refine H fuel p t prm = Ok (t', cs) ->
  forall F32 (cast : T ArithR -> F32) p' B, NoDup B -> (forall w, In w B <-> In w (trn_vertices (t_trn t')) /\ on_polygon l w) ->
    length (glium_edges H cast p' (t_trn t')) + 6 + 2 * length B = 6 * length (trn_vertices (t_trn t')).
Proof. exact refined_drawn. Qed.
Print Assumptions C137_refined.

Example C137_case_refined : exists t : triangulator ArithR, t_boundary t = Poly four false /\ t_holes t = [] /\ t_segments t = [] /\ convex_polygon four /\ framed four four (t_trn t) /\ resolved four /\
  (forall a b, In (a, b) (polygon_sides four) -> piece four four (a, b)) /\
  (forall x, solid_in (t_trn t) x -> misses four_params x) /\
  forall (H : HashOrder) fuel p a, In a (refine_attempts H fuel p t four_params) -> sound_attempt four a.
Proof. exact case_square. Qed.
