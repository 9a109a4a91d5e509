(** P_RX.v — the concrete cases shown beside the theorems of T_Geometry.v. *)

From Coq Require Import Reals List ZArith Lra Lia Bool String.
From Verif Require Import Base Arith Geometry Elements Polyline Procedures Refine Triangulator Interface ArithR Spec SpecR
  P_R1 P_R2 P_R3 P_R4 P_Contains P_R5 P_R6.
Import ListNotations.
Local Open Scope R_scope.

Definition at_ (x y : R) : pnt := V (A:=ArithR) x y false.
(** A quadrilateral with corners above and below its middle. *)
Definition kite : list pnt := [at_ 0 0; at_ 4 (-1); at_ 8 0; at_ 4 2].

Lemma X_at : forall x y, X (at_ x y) = x. Proof. reflexivity. Qed.
Lemma Y_at : forall x y, Y (at_ x y) = y. Proof. reflexivity. Qed.
Lemma eps_small : eps < / 1000.
Proof.
  unfold eps. assert (P : 0 < IZR (2 ^ 99)) by (apply IZR_lt; reflexivity).
  assert (Q : 1000 * IZR 6338253001141147 < IZR (2 ^ 99)) by (rewrite <- mult_IZR; apply IZR_lt; reflexivity).
  apply (Rmult_lt_reg_r (IZR (2 ^ 99))); [exact P|].
  replace (IZR 6338253001141147 / IZR (2 ^ 99) * IZR (2 ^ 99)) with (IZR 6338253001141147) by (field; lra). lra.
Qed.
Ltac coords := repeat rewrite ?X_at, ?Y_at.
Ltac geo := unfold area2, d2, dotp, crossp, half_point, at_ratio, moved, coincide, lex_lt in *; coords; pose proof eps_pos; pose proof eps_small; lra.

Lemma case_orientation : orientation (at_ 0 0) (at_ 1 0) (at_ 0 1) = CCW /\ orientation (at_ 0 0) (at_ 0 1) (at_ 1 0) = CW /\
  orientation (at_ 0 0) (at_ 1 1) (at_ 2 2) = Colinear /\ moved 3 4 (at_ 0 0) (at_ 3 4).
Proof.
  split; [apply orientation_spec; geo|]. split; [apply orientation_spec; geo|]. split; [apply orientation_spec; geo|].
  unfold moved. coords. lra.
Qed.

Lemma case_circle : let a := at_ 1 0 in let b := at_ 0 1 in let c := at_ (-1) 0 in let o := at_ 0 0 in
  d2 o a = d2 o b /\ d2 o a = d2 o c /\ 0 < area2 a b c /\ is_ghost (Tri a b c) = false /\ is_ghost (Tri a b ghost_vertex) = true.
Proof. cbv zeta. split; [geo|]. split; [geo|]. split; [geo|]. split; reflexivity. Qed.

Lemma case_circumcenter : area2 (at_ 0 0) (at_ 1 1) (at_ 2 2) = 0 /\ area2 (at_ 0 0) (at_ 3 1) (at_ 1 2) <> 0.
Proof. split; geo. Qed.

Lemma case_encroach : half_point (at_ 0 0) (at_ 4 2) (at_ 2 1) /\ 4 * eps < d2 (at_ 0 0) (at_ 4 2).
Proof. split; geo. Qed.

Lemma seg_at : forall a b p t, 0 <= t <= 1 -> at_ratio t a b p -> on_segment a b p.
Proof. intros a b p t Ht Hr. exists t. split; assumption. Qed.

Lemma case_intersection : exists p, intersection (at_ 0 0) (at_ 2 2) (at_ 0 2) (at_ 2 0) = Some p /\ coincide (at_ 1 1) p.
Proof.
  destruct (intersection_complete (at_ 0 0) (at_ 2 2) (at_ 0 2) (at_ 2 0) (at_ 1 1)) as (q & Hq & Hc).
  - apply (seg_at _ _ _ (/ 2)); [lra|geo].
  - apply (seg_at _ _ _ (/ 2)); [lra|geo].
  - exists q. split; [exact Hq|]. apply Hc. geo.
Qed.

Lemma case_shared : on_segment (at_ 0 0) (at_ 4 4) (at_ 1 1) /\ on_segment (at_ 0 2) (at_ 2 0) (at_ 1 1) /\
  on_segment (at_ 1 1) (at_ 1 1) (at_ 1 1) /\ crossp (at_ 0 0) (at_ 4 4) (at_ 0 2) (at_ 2 0) <> 0.
Proof.
  split; [apply (seg_at _ _ _ (/ 4)); [lra|geo]|]. split; [apply (seg_at _ _ _ (/ 2)); [lra|geo]|].
  split; [apply (seg_at _ _ _ 0); [lra|geo]|]. geo.
Qed.

Lemma case_boxes : in_box (BB (A:=ArithR) 0 0 2 3) (at_ 1 3) /\ ~ in_box (BB (A:=ArithR) 0 0 2 3) (at_ 1 4) /\
  box_le (BB (A:=ArithR) 0 0 1 1) (BB (A:=ArithR) 0 0 2 3).
Proof. unfold in_box, box_le. cbn [bx0 by0 bx1 by1]. coords. lra. Qed.

Ltac rdec := repeat match goal with
  | |- context [Rle_dec ?a ?b] => destruct (Rle_dec a b); try (exfalso; lra)
  | |- context [Rlt_dec ?a ?b] => destruct (Rlt_dec a b); try (exfalso; lra)
  end.
Lemma case_kite : kite <> [] /\ winding (at_ 4 1) (polygon_sides kite) = 1%Z /\ winding (at_ 4 3) (polygon_sides kite) = 0%Z /\
  In (at_ 8 0, at_ 4 2) (polygon_sides kite) /\ on_segment (at_ 8 0) (at_ 4 2) (at_ 6 1).
Proof.
  split; [discriminate|]. unfold winding, kite. cbn [polygon_sides path_sides app map fold_right]. unfold ray_crossing, area2. coords.
  split; [rdec; reflexivity|]. split; [rdec; reflexivity|]. split; [right; right; left; reflexivity|].
  apply (seg_at _ _ _ (/ 2)); [lra|geo].
Qed.

Lemma case_triangle : let t := Tri (at_ 0 0) (at_ 2 4) (at_ 5 1) in
  is_ghost t = false /\ area2 (tv1 t) (tv2 t) (tv3 t) <> 0 /\ inside_triangle (tv1 t) (tv2 t) (tv3 t) (at_ 2 2) /\
  outside_triangle (tv1 t) (tv2 t) (tv3 t) (at_ 2 5).
Proof. cbn [tv1 tv2 tv3]. unfold inside_triangle, outside_triangle. split; [reflexivity|]. split; [geo|]. split; geo. Qed.

Lemma case_rotations : kite = [at_ 0 0; at_ 4 (-1)] ++ [at_ 8 0; at_ 4 2] /\ rev kite <> kite.
Proof.
  split; [reflexivity|]. unfold kite. cbn [rev app]. intros E. injection E as E1. lra.
Qed.

Lemma case_quality : let a := at_ 1 0 in let b := at_ 0 1 in let c := at_ (-1) 0 in let o := at_ 0 0 in
  vghost a || vghost b || vghost c = false /\ 0 < area2 a b c /\ d2 o a = d2 o b /\ d2 o a = d2 o c /\
  is_ghost (Tri a b ghost_vertex) = true.
Proof. cbv zeta. split; [reflexivity|]. split; [geo|]. split; [geo|]. split; [geo|]. reflexivity. Qed.

Lemma case_area : shoelace (polygon_sides kite) = 12 /\ is_ghost (Tri (at_ 0 0) (at_ 4 (-1)) (at_ 8 0)) = false.
Proof.
  split; [|reflexivity]. unfold shoelace, kite, total. cbn [polygon_sides path_sides app map fold_right fst snd]. coords. lra.
Qed.

Lemma case_angle : d2 (at_ 1 0) (at_ 0 0) <> 0 /\ d2 (at_ 0 2) (at_ 0 0) <> 0 /\
  area2 (at_ 1 0) (at_ 0 0) (at_ 0 2) < - eps /\ - eps <= area2 (at_ 0 2) (at_ 0 0) (at_ 1 0).
Proof. split; [geo|]. split; [geo|]. split; geo. Qed.

Lemma case_midpoint : vghost (at_ 1 2) = false /\ vghost (ghost_vertex (A:=ArithR)) = true.
Proof. split; reflexivity. Qed.

Lemma case_order : constructed (at_ 3 4) /\ constructed (ghost_vertex (A:=ArithR)) /\ lex_lt (at_ 3 4) (at_ 3 5).
Proof. split; [discriminate|]. split; [intros _; split; reflexivity|]. geo. Qed.

Lemma case_crossing : let p1 := Poly kite false in let p2 := Poly [at_ 6 (-5); at_ 6 5] true in
  pverts p1 <> [] /\ pverts p2 <> [] /\ In (at_ 8 0, at_ 4 2) (sides_of p1) /\ In (at_ 6 (-5), at_ 6 5) (sides_of p2) /\
  on_segment (at_ 8 0) (at_ 4 2) (at_ 6 1) /\ on_segment (at_ 6 (-5)) (at_ 6 5) (at_ 6 1) /\
  crossp (at_ 8 0) (at_ 4 2) (at_ 6 (-5)) (at_ 6 5) <> 0.
Proof.
  cbv zeta. split; [discriminate|]. split; [discriminate|]. split; [right; right; left; reflexivity|]. split; [left; reflexivity|].
  split; [apply (seg_at _ _ _ (/ 2)); [lra|geo]|]. split; [apply (seg_at _ _ _ (6 / 10)); [lra|geo]|]. geo.
Qed.

Lemma case_edge_contains : near_box 0 (at_ 8 0) (at_ 4 2) (at_ 6 1) /\ area2 (at_ 8 0) (at_ 4 2) (at_ 6 1) = 0.
Proof. apply on_segment_box. apply (seg_at _ _ _ (/ 2)); [lra|geo]. Qed.

Lemma case_tiling : let e := (at_ 0 0, at_ 4 0) in let m := edge_midpoint e in let m' := edge_midpoint (m, at_ 4 0) in
  tiling e [(at_ 0 0, m); (m, m'); (m', at_ 4 0)].
Proof.
  intros e m m'. apply (tile_halves (at_ 0 0) (at_ 4 0) m [_] [_; _]); [reflexivity|apply tile_whole|].
  apply (tile_halves m (at_ 4 0) m' [_] [_]); [reflexivity|apply tile_whole|apply tile_whole].
Qed.

Lemma case_circle_action : let a := Act (A:=ArithR) EmptyString EmptyString [2; 5 / 2] [(1, 1)] [] in
  a_scalars a = 2 :: [5 / 2] /\ a_points a = [(1, 1)] /\
  (exists x, hd_error [5 / 2] = Some x /\ INR 3 - / 2 <= x < INR 3 + / 2) /\ (3 <= 3)%nat.
Proof.
  cbv zeta. split; [reflexivity|]. split; [reflexivity|]. split; [|lia]. exists (5 / 2). split; [reflexivity|].
  replace (INR 3) with 3 by (cbn; ring). lra.
Qed.
