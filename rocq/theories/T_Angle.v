(** T_Angle.v — the angles of triangles and of refined meshes (C135). *)

From Coq Require Import Reals List Bool ZArith.
From Verif Require Import Base Arith Geometry Elements Polyline Procedures Refine Triangulator ArithR Spec SpecM SpecR SpecD SpecP SpecC SpecE P_RX P_F3 P_Angle P_Angle2.
Import ListNotations.
Local Open Scope R_scope.

(** C135 *)
Theorem C135_sum : forall a b c : pnt, 0 < area2 a b c ->
  exists al be ga : R, angle c a b = Some al /\ angle a b c = Some be /\ angle b c a = Some ga /\ 0 < al /\ 0 < be /\ 0 < ga /\ al + be + ga = PI.
Proof. exact angle_sum. Qed.
Print Assumptions C135_sum.

(** The quality tells the smallest angle. *)
Theorem C135_quality : forall (a b c : pnt) (q : R), vghost a || vghost b || vghost c = false -> 0 < area2 a b c -> quality (Tri a b c) = Some q ->
  exists al be ga : R, angle c a b = Some al /\ angle a b c = Some be /\ angle b c a = Some ga /\ al + be + ga = PI /\
    (forall th, In th [al; be; ga] -> asin (/ (2 * q)) <= th <= PI - 2 * asin (/ (2 * q))) /\ In (asin (/ (2 * q))) [al; be; ga].
Proof. exact quality_angles. Qed.
Print Assumptions C135_quality.

Example C135_case : let a := at_ 1 0 in let b := at_ 0 1 in let c := at_ (-1) 0 in
  vghost a || vghost b || vghost c = false /\ 0 < area2 a b c /\ exists q : R, quality (Tri a b c) = Some q.
Proof. exact case_angles. Qed.

(** A refinement leaves no angle smaller than its target allows, and no larger
    triangle, where no circumcentre was turned down. *)
Theorem C135_refined : forall (H : HashOrder) fuel p (t : triangulator ArithR) prm l S, convex_polygon l ->
  t_boundary t = Poly l false -> t_holes t = [] -> t_segments t = [] ->
  framed l S (t_trn t) -> resolved S -> (forall a b, In (a, b) (polygon_sides l) -> piece l S (a, b)) ->
  (forall a, In a (refine_attempts H fuel p t prm) -> sound_attempt l a) ->
  forall t' cs, refine H fuel p t prm = Ok (t', cs) -> forall a b c, solid_in (t_trn t') (Tri a b c) ->
    (exists tr1, In (Centre tr1 (Tri a b c)) (refine_attempts H fuel p t prm) /\ turned_down l tr1 (Tri a b c)) \/
    ((forall m, max_area prm = Some m -> area2 a b c / 2 < m) /\
     exists al be ga : R, angle c a b = Some al /\ angle a b c = Some be /\ angle b c a = Some ga /\
       forall th, In th [al; be; ga] -> asin (/ (2 * quality_ratio prm)) <= th <= PI - 2 * asin (/ (2 * quality_ratio prm))).
Proof. exact refined_angles. Qed.
Print Assumptions C135_refined.

Example C135_case_refined : exists t : triangulator ArithR, t_boundary t = Poly four false /\ t_holes t = [] /\ t_segments t = [] /\ convex_polygon four /\ framed four four (t_trn t) /\ resolved four /\
  (forall a b, In (a, b) (polygon_sides four) -> piece four four (a, b)) /\
  (forall x, solid_in (t_trn t) x -> misses four_params x) /\
  forall (H : HashOrder) fuel p a, In a (refine_attempts H fuel p t four_params) -> sound_attempt four a.
Proof. exact case_square. Qed.
