(** T_Input.v — the holes of a domain (C103), what parsing an input yields (C104)
    and two more accessors (C60). *)

From Coq Require Import String List Bool ZArith Reals.
From Verif Require Import Base Arith Geometry Elements Polyline Procedures Refine Triangulator Interface Spec SpecI SpecL SpecR
  P_Base P_L1 ArithF ArithR Samples.
Import ListNotations.
Local Open Scope string_scope.
Local Open Scope list_scope.
Local Open Scope nat_scope.

(** C103 *)
Theorem C103_domain_holes : forall (A : Arith) (H : HashOrder) fuel p (b : polyline A) rs hs,
  domain_holes H fuel p b rs = Ok hs -> hole_set H fuel b rs hs.
Proof. exact @domain_holes_spec. Qed.
Print Assumptions C103_domain_holes.

Definition sq (x y : Z) : polyline ArithF := Poly [pt x y; pt (x + 2) y; pt (x + 2) (y + 2); pt x (y + 2)] false.
(** Two removals that cross each other, one apart from them, one outside. *)
Example C103_case : exists hs, domain_holes ho_id 60 [] big_square [sq 1 1; sq 2 2; sq 6 6; sq 12 1] = Ok hs /\
  Nat.leb 2 (length hs) = true.
Proof. apply okb_ok. vm_compute. reflexivity. Qed.

(** C104 *)
Theorem C104_parse : forall (A : Arith) (H : HashOrder) fuel p (inp : input A) r, parse H fuel p inp = Ok r ->
  match r with
  | Some (t, prm) => prm = RP (i_max_area inp) (i_quality inp) /\
      exists fs b hs, Forall2 (means fuel) (i_actions inp) fs /\ domain_of H fuel fs b hs /\
        holds fuel t b hs (flat_map segments_of fs) (flat_map vertices_of fs)
  | None =>
      (exists a, In a (i_actions inp) /\ forall f, ~ means fuel a f) \/
      (exists fs, Forall2 (means fuel) (i_actions inp) fs /\
         domain_boundary H fuel (1 :: p) (flat_map included fs) (flat_map removed fs) = Ok None) \/
      (exists fs b hs, Forall2 (means fuel) (i_actions inp) fs /\ domain_of H fuel fs b hs /\
         unfit fuel b hs (flat_map segments_of fs) (flat_map vertices_of fs))
  end.
Proof. exact @parse_spec. Qed.
Print Assumptions C104_parse.

Definition in_square : action ArithF :=
  Act (A:=ArithF) "include" "polyline" [] [point_of 0 0; point_of 10 0; point_of 10 10; point_of 0 10] [].
Definition in_hole : action ArithF :=
  Act (A:=ArithF) "remove" "polyline" [] [point_of 4 4; point_of 6 4; point_of 4 6] [].
Definition in_segments : action ArithF :=
  Act (A:=ArithF) "constraint" "segments" [] [point_of 1 1; point_of 1 8; point_of 2 2] [[0; 1]; [1; 2]].
Definition in_vertices : action ArithF := Act (A:=ArithF) "constraint" "vertices" [] [point_of 8 8; point_of 2 7] [].
Definition out_vertices : action ArithF := Act (A:=ArithF) "constraint" "vertices" [] [point_of 18 8] [].
Example C104_accepted : exists o, parse ho_id 60 [] (Inp (A:=ArithF) [in_square; in_hole; in_segments; in_vertices] None (fpz 1%Z)) = Ok o /\
  match o with
  | Some (t, _) => Nat.eqb (length (t_holes t)) 1 && Nat.eqb (length (t_segments t)) 2 && Nat.eqb (length (t_vertices t)) 2
  | None => false
  end = true.
Proof. apply okb_ok. vm_compute. reflexivity. Qed.
Example C104_refused : exists o, parse ho_id 60 [] (Inp (A:=ArithF) [in_square; in_hole; out_vertices] None (fpz 1%Z)) = Ok o /\
  match o with Some _ => false | None => true end = true.
Proof. apply okb_ok. vm_compute. reflexivity. Qed.

(** C60 *)
Theorem C60_edge_length : forall e : edge ArithR, (edge_length e : R) = dist (fst e) (snd e).
Proof. exact edge_length_dist. Qed.
Print Assumptions C60_edge_length.

Theorem C60_triangle_equality : forall (A : Arith) (t u : triangle A), teqb t u = true <->
  exists u', rotated u u' /\ veqb (tv1 t) (tv1 u') = true /\ veqb (tv2 t) (tv2 u') = true /\ veqb (tv3 t) (tv3 u') = true.
Proof. exact @teqb_rotated. Qed.
Print Assumptions C60_triangle_equality.
