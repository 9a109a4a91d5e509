(** T_FillIff.v — which polygons are filled, over exact real arithmetic with the
    tolerances of the code (C128). *)

From Coq Require Import Reals List ZArith.
From Verif Require Import Base Arith Geometry Elements Polyline Procedures Triangulator ArithR Spec SpecR SpecD SpecP P_RX P_D8 P_Polygon3 P_Ff1.
Import ListNotations.
Local Open Scope R_scope.

(** C128 *)
Theorem C128_filled_iff : forall (H : HashOrder) fuel p (t t' : triangulator ArithR) l, only_polygon t l -> NoDup l -> resolved l -> no_four_on_a_circle l ->
  0 < shoelace (polygon_sides l) -> triangulate H fuel p t = Ok t' ->
  (fills l (t_trn t') <->
   (forall a b, In (a, b) (polygon_sides l) -> free_side l a b) /\ (forall w, In w l -> exists u, solid_in (t_trn t') u /\ corner_of w u)).
Proof. exact filled_iff. Qed.
Print Assumptions C128_filled_iff.

Theorem C128_blocked_side : forall l a b, no_four_on_a_circle l -> In (a, b) (polygon_sides l) -> ~ free_side l a b -> forall tr : mesh, ~ fills l tr.
Proof. exact blocked_unfilled. Qed.
Print Assumptions C128_blocked_side.

Example C128_case : only_polygon dart_input dart /\ NoDup dart /\ resolved dart /\ no_four_on_a_circle dart /\ 0 < shoelace (polygon_sides dart) /\
  exists n0 t', triangulate ho_id n0 [] dart_input = Ok t' /\ fills dart (t_trn t').
Proof. exact case_iff. Qed.
Example C128_blocked_case : NoDup pinched /\ no_four_on_a_circle pinched /\ 0 < shoelace (polygon_sides pinched) /\
  In (at_ 0 0, at_ 10 0) (polygon_sides pinched) /\ ~ free_side pinched (at_ 0 0) (at_ 10 0).
Proof. exact case_pinched. Qed.
