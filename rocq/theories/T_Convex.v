(** T_Convex.v — refinement of a mesh of a convex polygon. *)

From Coq Require Import Reals List ZArith.
From Verif Require Import Base Arith Geometry Elements Polyline Procedures Refine Triangulator ArithR Spec SpecM SpecR SpecD SpecP SpecC SpecE P_F1 P_F2 P_F3 P_G6 P_L4.
Import ListNotations.
Local Open Scope R_scope.

(** C88 *)
Theorem C88_side_parts_are_edges : forall l S (tr : mesh) e, convex_polygon l -> framed l S tr -> resolved S -> part l S e -> exists t, solid_in tr t /\ side_of e t.
Proof. exact part_solid. Qed.
Print Assumptions C88_side_parts_are_edges.

Theorem C88_middle_of_a_side : forall l (H : HashOrder), convex_polygon l ->
  forall S (tr : mesh) s R fuel p, stage l S tr (s :: R) -> resolved (edge_midpoint s :: S) -> placed l (edge_midpoint s) ->
    split_segment H fuel p tr s (s :: R) (Some (Poly l false)) [] <> Panic /\
    forall h1 h2 tr' inc del, split_segment H fuel p tr s (s :: R) (Some (Poly l false)) [] = Ok (h1, h2, (tr', inc, del)) ->
      stage l (edge_midpoint s :: S) tr' (h2 :: h1 :: R) /\ reports tr tr' inc del /\ h1 = (fst s, edge_midpoint s) /\ h2 = (edge_midpoint s, snd s).
Proof. exact middle_step. Qed.
Print Assumptions C88_middle_of_a_side.

Example C88_case : convex_polygon four /\ exists (tr : mesh) s R, stage four four tr (s :: R) /\ resolved (edge_midpoint s :: four) /\ placed four (edge_midpoint s).
Proof. exact (conj four_convex case_side). Qed.

(** C89 *)
Theorem C89_centre_of_a_triangle : forall l (H : HashOrder), convex_polygon l ->
  forall S (tr : mesh) t o K fuel p, stage l S tr K -> resolved (o :: S) -> solid_in tr t -> tri_circumcenter t = Some o -> deep l o ->
    try_circumcenter H fuel p tr t K (Some (Poly l false)) [] <> Panic /\
    (forall tr' inc del, try_circumcenter H fuel p tr t K (Some (Poly l false)) [] = Ok (tr', inl (inc, del)) ->
      stage l (o :: S) tr' K /\ reports tr tr' inc del /\ In t del /\
      forall e, part l S e -> (forall w, In w S -> ~ inside_diameter (fst e) (snd e) w) -> edge_encroach e o <> Inside) /\
    (forall tr' enc, try_circumcenter H fuel p tr t K (Some (Poly l false)) [] = Ok (tr', inr enc) ->
      stage l S tr' K /\ (forall x, In x (tris tr') <-> In x (tris tr)) /\ enc <> [] /\ NoDup enc /\
      (forall e, In e enc -> part l S e /\ inside_diameter (fst e) (snd e) o) /\
      forall e, part l S e -> (forall w, In w S -> ~ inside_diameter (fst e) (snd e) w) -> edge_encroach e o = Inside -> In e enc).
Proof. exact centre_tried. Qed.
Print Assumptions C89_centre_of_a_triangle.

Example C89_case : exists (tr : mesh) K t o, stage four four tr K /\ resolved (o :: four) /\ solid_in tr t /\ tri_circumcenter t = Some o /\ deep four o.
Proof. exact case_centre. Qed.

(** C90 *)
Theorem C90_unencroach_keeps_the_parts : forall l (H : HashOrder), convex_polygon l ->
  forall fuel p (tr : mesh) S K, stage l S tr K ->
    (forall a, In a (unencroach_attempts H (Some (Poly l false)) [] fuel p tr K) -> sound_attempt l a) ->
    unencroach H fuel p tr K (Some (Poly l false)) [] <> Panic /\
    forall tr' sm inc del, unencroach H fuel p tr K (Some (Poly l false)) [] = Ok (tr', sm, inc, del) ->
      exists S', stage l S' tr' (replace_split sm K) /\ (forall w, In w S -> In w S').
Proof. exact unencroach_parts. Qed.
Print Assumptions C90_unencroach_keeps_the_parts.

(** A vertex close to the lower side of a square: that side is split, once. *)
Example C90_case : convex_polygon four /\ exists tr : mesh, stage four five tr (polygon_sides four) /\ edge_encroach (tA, tB) tP = Inside /\
  forall (H : HashOrder) fuel p a, In a (unencroach_attempts H (Some (Poly four false)) [] fuel p tr (polygon_sides four)) -> a = Middle tr tM /\ sound_attempt four a.
Proof. exact case_five. Qed.

(** C91 *)
Theorem C91_refined_convex_polygon : forall (H : HashOrder) fuel p (t : triangulator ArithR) prm l S, convex_polygon l ->
  t_boundary t = Poly l false -> t_holes t = [] -> t_segments t = [] ->
  framed l S (t_trn t) -> resolved S -> (forall a b, In (a, b) (polygon_sides l) -> piece l S (a, b)) ->
  (forall a, In a (refine_attempts H fuel p t prm) -> sound_attempt l a) ->
  refine H fuel p t prm <> Panic /\
  forall t' cs, refine H fuel p t prm = Ok (t', cs) ->
    exists S', framed l S' (t_trn t') /\ resolved S' /\ (forall w, In w S -> In w S') /\
      (forall q, in_region (t_trn t') q <-> forall a b, In (a, b) (polygon_sides l) -> 0 <= area2 a b q) /\
      (forall e, part l S' e -> exists u, solid_in (t_trn t') u /\ side_of e u) /\
      forall x, solid_in (t_trn t') x -> misses prm x -> exists tr1, In (Centre tr1 x) (refine_attempts H fuel p t prm) /\ turned_down l tr1 x.
Proof. exact refine_convex. Qed.
Print Assumptions C91_refined_convex_polygon.

(** Both triangles of the square miss the area asked for. *)
Example C91_case : exists t : triangulator ArithR, t_boundary t = Poly four false /\ t_holes t = [] /\ t_segments t = [] /\ convex_polygon four /\ framed four four (t_trn t) /\ resolved four /\
  (forall a b, In (a, b) (polygon_sides four) -> piece four four (a, b)) /\
  (forall x, solid_in (t_trn t) x -> misses four_params x) /\
  forall (H : HashOrder) fuel p a, In a (refine_attempts H fuel p t four_params) -> sound_attempt four a.
Proof. exact case_square. Qed.

(** C92 *)
Theorem C92_convex_polygon_end_to_end : forall (H : HashOrder) p (t : triangulator ArithR) l vs, polygon_with t l vs ->
  convex_polygon l -> NoDup vs -> resolved (vs ++ l) -> (forall w, In w vs -> deep l w) ->
  exists n0 t' ins, (forall fuel, (n0 <= fuel)%nat -> triangulate H fuel p t = Ok t') /\ (forall w, In w ins -> In w vs) /\ (vs <> [] -> ins <> []) /\
    forall prm fuel q, (forall a, In a (refine_attempts H fuel q t' prm) -> sound_attempt l a) ->
      refine H fuel q t' prm <> Panic /\
      forall t'' cs, refine H fuel q t' prm = Ok (t'', cs) ->
        exists S', framed l S' (t_trn t'') /\ resolved S' /\ (forall w, In w (ins ++ l) -> In w S') /\
          (forall z, in_region (t_trn t'') z <-> winding z (polygon_sides l) = 1%Z \/ on_polygon l z) /\
          (forall e, part l S' e -> exists u, solid_in (t_trn t'') u /\ side_of e u) /\
          forall x, solid_in (t_trn t'') x -> misses prm x -> exists tr1, In (Centre tr1 x) (refine_attempts H fuel q t' prm) /\ turned_down l tr1 x.
Proof. exact convex_refines. Qed.
Print Assumptions C92_convex_polygon_end_to_end.

Example C92_case : only_polygon square_input four /\ polygon_with square_input four [] /\ convex_polygon four /\ resolved ([] ++ four) /\ 0 < shoelace (polygon_sides four) /\
  exists n t', (forall fuel, (n <= fuel)%nat -> triangulate ho_id fuel [] square_input = Ok t') /\ (forall w, In w four -> exists u, solid_in (t_trn t') u /\ corner_of w u) /\
  forall (H : HashOrder) fuel p a, In a (refine_attempts H fuel p t' four_params) -> sound_attempt four a.
Proof. exact case_square_whole. Qed.

(** C93 *)
Theorem C93_middle_of_a_side_ends : forall l (H : HashOrder), convex_polygon l ->
  forall S (tr : mesh) s R p, stage l S tr (s :: R) -> resolved (edge_midpoint s :: S) -> placed l (edge_midpoint s) ->
    exists n r, forall fuel, (n <= fuel)%nat -> split_segment H fuel p tr s (s :: R) (Some (Poly l false)) [] = Ok r.
Proof. exact split_ends. Qed.
Print Assumptions C93_middle_of_a_side_ends.

Theorem C93_centre_of_a_triangle_ends : forall l (H : HashOrder), convex_polygon l ->
  forall S (tr : mesh) t o K p, stage l S tr K -> resolved (o :: S) -> solid_in tr t -> tri_circumcenter t = Some o -> deep l o ->
    exists n r, forall fuel, (n <= fuel)%nat -> try_circumcenter H fuel p tr t K (Some (Poly l false)) [] = Ok r.
Proof. exact centre_ends. Qed.
Print Assumptions C93_centre_of_a_triangle_ends.

(** The bound on the number of vertices depends on the polygon only. *)
Theorem C93_refinement_of_a_convex_polygon_ends : forall l, convex_polygon l -> exists N, forall (H : HashOrder) p (t : triangulator ArithR) prm S,
  t_boundary t = Poly l false -> t_holes t = [] -> t_segments t = [] ->
  framed l S (t_trn t) -> resolved S -> (forall a b, In (a, b) (polygon_sides l) -> piece l S (a, b)) ->
  (forall fuel a, In a (refine_attempts H fuel p t prm) -> sound_attempt l a) ->
  exists n t' cs, (forall fuel, (n <= fuel)%nat -> refine H fuel p t prm = Ok (t', cs)) /\ (length (trn_vertices (t_trn t')) <= N)%nat.
Proof. exact refine_ends. Qed.
Print Assumptions C93_refinement_of_a_convex_polygon_ends.

Theorem C93_convex_polygon_end_to_end : forall l, convex_polygon l -> exists N,
  forall (H : HashOrder) p (t : triangulator ArithR) vs, polygon_with t l vs -> NoDup vs -> resolved (vs ++ l) -> (forall w, In w vs -> deep l w) ->
  exists n0 t', (forall fuel, (n0 <= fuel)%nat -> triangulate H fuel p t = Ok t') /\
    forall prm q, (forall fuel a, In a (refine_attempts H fuel q t' prm) -> sound_attempt l a) ->
      exists n1 t'' cs, (forall fuel, (n1 <= fuel)%nat -> refine H fuel q t' prm = Ok (t'', cs)) /\ (length (trn_vertices (t_trn t'')) <= N)%nat.
Proof. exact convex_refines_ends. Qed.
Print Assumptions C93_convex_polygon_end_to_end.

(** The cases of C88, C89, C91 and C92 meet these hypotheses as well: there the
    attempts are sound for every fuel. *)
Example C93_case : exists t : triangulator ArithR, t_boundary t = Poly four false /\ t_holes t = [] /\ t_segments t = [] /\ convex_polygon four /\ framed four four (t_trn t) /\ resolved four /\
  (forall a b, In (a, b) (polygon_sides four) -> piece four four (a, b)) /\
  (forall x, solid_in (t_trn t) x -> misses four_params x) /\
  forall (H : HashOrder) fuel p a, In a (refine_attempts H fuel p t four_params) -> sound_attempt four a.
Proof. exact case_square. Qed.
Example C93_case_end_to_end : only_polygon square_input four /\ polygon_with square_input four [] /\ convex_polygon four /\ resolved ([] ++ four) /\ 0 < shoelace (polygon_sides four) /\
  exists n t', (forall fuel, (n <= fuel)%nat -> triangulate ho_id fuel [] square_input = Ok t') /\ (forall w, In w four -> exists u, solid_in (t_trn t') u /\ corner_of w u) /\
  forall (H : HashOrder) fuel p a, In a (refine_attempts H fuel p t' four_params) -> sound_attempt four a.
Proof. exact case_square_whole. Qed.
