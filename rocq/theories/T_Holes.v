(** T_Holes.v — cutting a hole out of a convex polygon. *)

From Coq Require Import Reals List ZArith Bool.
From Verif Require Import Base Arith Geometry Elements Polyline Procedures Triangulator ArithR ArithF Spec SpecR SpecD SpecP SpecC SpecE SpecJ P_RX P_C9 P_D8 P_Polygon3 P_C8 P_J2 P_J3 P_L4 Samples.
Import ListNotations.
Local Open Scope R_scope.

(** C98 *)
Theorem C98_hole_cut_out : forall (H : HashOrder) p l S (tr : mesh) h, convex_polygon l -> constrained_delaunay S (polygon_sides l) tr -> (forall w, In w l -> In w S) ->
  (forall w, In w S -> corner_or_deep l w) -> NoDup h -> resolved (h ++ S) -> (forall w, In w h -> deep l w) -> 0 < shoelace (polygon_sides h) ->
  (forall a b, In (a, b) (polygon_sides h) -> free_side (h ++ S) a b) -> (forall w, In w S -> In w h \/ winding w (polygon_sides h) = 0%Z) ->
  exists n0 tr1 inc del, (forall fuel, (n0 <= fuel)%nat -> vertices_include H fuel (1%nat :: p) tr h (polygon_sides l) None [] = Ok (tr1, inc, del)) /\
    ((forall w, In w h -> In w (trn_vertices tr1)) ->
     exists n1 tr' S', (forall fuel, (n1 <= fuel)%nat -> hole_include H fuel p tr (Poly h false) (polygon_sides l) = Ok tr') /\
       (forall w, In w S' <-> In w S \/ In w h) /\ holed l h S' tr').
Proof. exact hole_cut_out. Qed.
Print Assumptions C98_hole_cut_out.

(** All the corners of the hole are vertices already: nothing can be left out. *)
Theorem C98_hole_between_vertices : forall (H : HashOrder) p l S (tr : mesh) h, convex_polygon l -> constrained_delaunay S (polygon_sides l) tr -> (forall w, In w l -> In w S) ->
  (forall w, In w S -> corner_or_deep l w) -> NoDup h -> resolved S -> (forall w, In w h -> In w S) -> (forall w, In w h -> deep l w) -> 0 < shoelace (polygon_sides h) ->
  (forall a b, In (a, b) (polygon_sides h) -> free_side S a b) -> (forall w, In w S -> In w h \/ winding w (polygon_sides h) = 0%Z) ->
  exists n1 tr', (forall fuel, (n1 <= fuel)%nat -> hole_include H fuel p tr (Poly h false) (polygon_sides l) = Ok tr') /\ holed l h S tr'.
Proof. exact hole_cut_present. Qed.
Print Assumptions C98_hole_between_vertices.

(** All but one. *)
Theorem C98_hole_with_one_new_corner : forall (H : HashOrder) p l S (tr : mesh) h v, convex_polygon l -> constrained_delaunay S (polygon_sides l) tr -> (forall w, In w l -> In w S) ->
  (forall w, In w S -> corner_or_deep l w) -> NoDup h -> resolved (h ++ S) -> (forall w, In w h -> deep l w) -> 0 < shoelace (polygon_sides h) ->
  (forall a b, In (a, b) (polygon_sides h) -> free_side (h ++ S) a b) -> (forall w, In w S -> In w h \/ winding w (polygon_sides h) = 0%Z) ->
  In v h -> ~ In v S -> (forall w, In w h -> w = v \/ In w S) ->
  exists n1 tr' S', (forall fuel, (n1 <= fuel)%nat -> hole_include H fuel p tr (Poly h false) (polygon_sides l) = Ok tr') /\
    (forall w, In w S' <-> In w S \/ In w h) /\ holed l h S' tr'.
Proof. exact hole_cut_one. Qed.
Print Assumptions C98_hole_with_one_new_corner.

(** C99 *)
Theorem C99_polygon_with_hole : forall (H : HashOrder) n p (t0 t0' t : triangulator ArithR) l h,
  only_polygon t0 l -> triangulate H n p t0 = Ok t0' -> polygon_hole t l h -> convex_polygon l -> NoDup h -> resolved (h ++ l) ->
  0 < shoelace (polygon_sides h) -> (forall w, In w h -> deep l w) -> (forall a b, In (a, b) (polygon_sides h) -> free_side (h ++ l) a b) ->
  exists n0 tr1 inc del, (forall fuel, (n0 <= fuel)%nat -> vertices_include H fuel (1%nat :: 1%nat :: 2%nat :: p) (t_trn t0') h (polygon_sides l) None [] = Ok (tr1, inc, del)) /\
    ((forall w, In w h -> In w (trn_vertices tr1)) ->
     exists n1 t' S, (forall fuel, (n1 <= fuel)%nat -> triangulate H fuel p t = Ok t') /\ (forall w, In w S <-> In w l \/ In w h) /\ holed l h S (t_trn t')).
Proof. exact convex_with_hole. Qed.
Print Assumptions C99_polygon_with_hole.

(** A quadrilateral with a triangular hole.  It meets the hypotheses of C99 and,
    with meshes that have three or two corners of the hole, those of C98. *)
Example C98_C99_case : convex_polygon kite /\ NoDup gap /\ resolved (gap ++ kite) /\ (forall w, In w gap -> deep kite w) /\ 0 < shoelace (polygon_sides kite) /\ 0 < shoelace (polygon_sides gap) /\
  (forall a b, In (a, b) (polygon_sides gap) -> free_side (gap ++ kite) a b) /\ (forall w, In w (gap ++ kite) -> In w gap \/ winding w (polygon_sides gap) = 0%Z) /\
  polygon_hole (TR trn_new (Poly kite false) [Poly gap false] [] []) kite gap /\
  only_polygon kite_input kite /\ (exists n t', triangulate ho_id n [] kite_input = Ok t' /\ (forall w, In w kite -> exists u, solid_in (t_trn t') u /\ corner_of w u)) /\
  exists tr : mesh, constrained_delaunay (gap ++ kite) (polygon_sides kite) tr /\ ((forall w, In w kite -> In w (gap ++ kite)) /\ (forall w, In w (gap ++ kite) -> corner_or_deep kite w)) /\
  exists tr2 : mesh, constrained_delaunay (pG :: pJ :: kite) (polygon_sides kite) tr2 /\ (forall w, In w kite -> In w (pG :: pJ :: kite)) /\ (forall w, In w (pG :: pJ :: kite) -> corner_or_deep kite w) /\
    ~ In pE (pG :: pJ :: kite).
Proof. exact case_gap. Qed.

(** The same input in binary64: no corner of the hole is left out, for three hash
    orders. *)
Example C99_no_corner_left_out : forallb (fun H : HashOrder =>
  okb (let! t0 := triangulate H 60 [] (triangulator_new (A:=ArithF) (Poly [pt 0 0; pt 4 0; pt 7 5; pt 1 3] false)) in
       let! (tr1, _, _) := vertices_include H 60 [1; 1; 2]%nat (t_trn t0) [pt 2 1; pt 3 2; pt 2 2] (trn_edges (t_trn t0)) None [] in Ok tr1)
    (fun tr1 => forallb (fun w => hmem vdec w (trn_vertices tr1)) [pt 2 1; pt 3 2; pt 2 2])) [ho_id; ho_rev; ho_seed 1] = true.
Proof. vm_compute. reflexivity. Qed.
