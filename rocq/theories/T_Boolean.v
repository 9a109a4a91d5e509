(** T_Boolean.v — what the intersection, the subtraction and the union of two
    polygons that cross surround. *)

From Coq Require Import Reals List ZArith Bool.
From Verif Require Import Base Arith Geometry Elements Polyline Procedures ArithR ArithF Spec SpecR SpecD SpecM SpecK P_Poly P_K6 P_K7 P_K9 P_KA Samples.
Import ListNotations.
Local Open Scope R_scope.

(** C100 *)
Theorem C100_intersection_surrounds_common_points : forall H Z l1 l2 fuel p, (3 <= length l1)%nat -> (3 <= length l2)%nat ->
  laid_out Z (polygon_sides l1) (polygon_sides l2) -> no_counter Z (polygon_sides l1 ++ polygon_sides l2) ->
  middles_clear Z (polygon_sides l1) (polygon_sides l2) -> middles_clear Z (polygon_sides l2) (polygon_sides l1) ->
  filled_once l1 -> filled_once l2 -> (room (length Z) <= fuel)%nat ->
  exists pls u, poly_intersection H fuel p (Poly l1 false) (Poly l2 false) = Ok (pls, u) /\ (forall pl, In pl pls -> proper_closed pl) /\
    forall q, (forall s, In s (polygon_sides l1 ++ polygon_sides l2) -> ~ on_segment (fst s) (snd s) q) ->
      winding_all q pls = (winding q (polygon_sides l1) * winding q (polygon_sides l2))%Z.
Proof. exact intersection_surrounds. Qed.
Print Assumptions C100_intersection_surrounds_common_points.

(** The squares [0,2]² and [1,3]²: the hypotheses hold, and there is a point
    that both surround. *)
Example C100_hypotheses : exists Z, laid_out Z (polygon_sides (rectangle 0 0 2 2)) (polygon_sides (rectangle 1 1 3 3)) /\
  no_counter Z (polygon_sides (rectangle 0 0 2 2) ++ polygon_sides (rectangle 1 1 3 3)) /\ no_counter Z (polygon_sides (rectangle 0 0 2 2) ++ polygon_sides (rev (rectangle 1 1 3 3))) /\
  middles_clear Z (polygon_sides (rectangle 0 0 2 2)) (polygon_sides (rectangle 1 1 3 3)) /\ middles_clear Z (polygon_sides (rectangle 1 1 3 3)) (polygon_sides (rectangle 0 0 2 2)) /\
  filled_once (rectangle 0 0 2 2) /\ filled_once (rectangle 1 1 3 3) /\
  (exists q, (forall s, In s (polygon_sides (rectangle 0 0 2 2) ++ polygon_sides (rectangle 1 1 3 3)) -> ~ on_segment (fst s) (snd s) q) /\
    (winding q (polygon_sides (rectangle 0 0 2 2)) * winding q (polygon_sides (rectangle 1 1 3 3)) = 1)%Z).
Proof. exact squares_laid. Qed.

(** Polygons on a grid: all the conditions are exact, without the tolerance. *)
Theorem C100_on_a_grid : forall l1 l2, grid_polygon l1 -> grid_polygon l2 -> cross_only l1 l2 ->
  forall H fuel p, no_turning_back (polygon_sides l1 ++ polygon_sides l2) -> (room (length l1 + length l2 + 2 * length l1 * length l2) <= fuel)%nat ->
  exists pls u, poly_intersection H fuel p (Poly l1 false) (Poly l2 false) = Ok (pls, u) /\ (forall pl, In pl pls -> proper_closed pl) /\
    forall q, (forall s, In s (polygon_sides l1 ++ polygon_sides l2) -> ~ on_segment (fst s) (snd s) q) ->
      winding_all q pls = (winding q (polygon_sides l1) * winding q (polygon_sides l2))%Z.
Proof. exact grid_intersection. Qed.
Print Assumptions C100_on_a_grid.

Theorem C100_rectangles : forall H i j k l i' j' k' l' fuel p, (i < k)%Z -> (j < l)%Z -> (i' < k')%Z -> (j' < l')%Z ->
  (forall a b, In a [i; k] -> In b [i'; k'] -> a <> b) -> (forall a b, In a [j; l] -> In b [j'; l'] -> a <> b) -> (room 40 <= fuel)%nat ->
  exists pls u, poly_intersection H fuel p (Poly (rectangle i j k l) false) (Poly (rectangle i' j' k' l') false) = Ok (pls, u) /\
    forall q, (forall s, In s (polygon_sides (rectangle i j k l) ++ polygon_sides (rectangle i' j' k' l')) -> ~ on_segment (fst s) (snd s) q) ->
      (winding_all q pls = 1%Z <-> (IZR i < X q < IZR k /\ IZR j < Y q < IZR l) /\ (IZR i' < X q < IZR k' /\ IZR j' < Y q < IZR l')) /\
      (winding_all q pls = 0%Z <-> ~ ((IZR i < X q < IZR k /\ IZR j < Y q < IZR l) /\ (IZR i' < X q < IZR k' /\ IZR j' < Y q < IZR l'))).
Proof. exact rectangles_intersection. Qed.
Print Assumptions C100_rectangles.

Example C100_grid_hypotheses : grid_polygon (rectangle 0 0 2 2) /\ grid_polygon (rectangle 1 1 3 3) /\ cross_only (rectangle 0 0 2 2) (rectangle 1 1 3 3) /\
  no_turning_back (polygon_sides (rectangle 0 0 2 2) ++ polygon_sides (rectangle 1 1 3 3)) /\ no_turning_back (polygon_sides (rectangle 0 0 2 2) ++ polygon_sides (rev (rectangle 1 1 3 3))) /\
  boxes_meet (Poly (rectangle 0 0 2 2) false) (Poly (rectangle 1 1 3 3) false) /\
  (exists v, In v (rectangle 1 1 3 3) /\ poly_contains (Poly (rectangle 0 0 2 2) false) v <> Ok (Some Inside)).
Proof. exact squares_case. Qed.

(** C101 *)
Theorem C101_subtraction_surrounds_the_difference : forall H Z l1 l2 fuel p, (3 <= length l1)%nat -> (3 <= length l2)%nat ->
  laid_out Z (polygon_sides l1) (polygon_sides l2) -> no_counter Z (polygon_sides l1 ++ polygon_sides (rev l2)) ->
  middles_clear Z (polygon_sides l1) (polygon_sides l2) -> middles_clear Z (polygon_sides l2) (polygon_sides l1) ->
  filled_once l1 -> filled_once l2 -> boxes_meet (Poly l1 false) (Poly l2 false) ->
  (exists v, In v l2 /\ poly_contains (Poly l1 false) v <> Ok (Some Inside)) -> (room (length Z) <= fuel)%nat ->
  exists pls u, poly_subtraction H fuel p (Poly l1 false) (Poly l2 false) = Ok (pls, u) /\ (forall pl, In pl pls -> proper_closed pl) /\
    forall q, (forall s, In s (polygon_sides l1 ++ polygon_sides l2) -> ~ on_segment (fst s) (snd s) q) ->
      winding_all q pls = (winding q (polygon_sides l1) * (1 - winding q (polygon_sides l2)))%Z.
Proof. exact subtraction_surrounds. Qed.
Print Assumptions C101_subtraction_surrounds_the_difference.

Theorem C101_on_a_grid : forall l1 l2, grid_polygon l1 -> grid_polygon l2 -> cross_only l1 l2 ->
  forall H fuel p, no_turning_back (polygon_sides l1 ++ polygon_sides (rev l2)) -> boxes_meet (Poly l1 false) (Poly l2 false) ->
  (exists v, In v l2 /\ poly_contains (Poly l1 false) v <> Ok (Some Inside)) -> (room (length l1 + length l2 + 2 * length l1 * length l2) <= fuel)%nat ->
  exists pls u, poly_subtraction H fuel p (Poly l1 false) (Poly l2 false) = Ok (pls, u) /\ (forall pl, In pl pls -> proper_closed pl) /\
    forall q, (forall s, In s (polygon_sides l1 ++ polygon_sides l2) -> ~ on_segment (fst s) (snd s) q) ->
      winding_all q pls = (winding q (polygon_sides l1) * (1 - winding q (polygon_sides l2)))%Z.
Proof. exact grid_subtraction. Qed.
Print Assumptions C101_on_a_grid.

Example C101_hypotheses : boxes_meet (Poly (rectangle 0 0 2 2) false) (Poly (rectangle 1 1 3 3) false) /\
  (exists v, In v (rectangle 1 1 3 3) /\ poly_contains (Poly (rectangle 0 0 2 2) false) v <> Ok (Some Inside)) /\
  exists Z, laid_out Z (polygon_sides (rectangle 0 0 2 2)) (polygon_sides (rectangle 1 1 3 3)) /\ no_counter Z (polygon_sides (rectangle 0 0 2 2) ++ polygon_sides (rev (rectangle 1 1 3 3))).
Proof.
  destruct squares_case as (_ & _ & _ & _ & _ & A & B). destruct squares_laid as (Z & C & _ & D & _). eauto 6.
Qed.

(** C102 *)
Theorem C102_union_surrounds_all_points : forall H Z l1 l2 fuel p, (3 <= length l1)%nat -> (3 <= length l2)%nat ->
  laid_out Z (polygon_sides l1) (polygon_sides l2) -> 
  middles_clear Z (polygon_sides l1) (polygon_sides l2) -> middles_clear Z (polygon_sides l2) (polygon_sides l1) ->
  filled_once l1 -> filled_once l2 -> boxes_meet (Poly l1 false) (Poly l2 false) -> (room (length Z) <= fuel)%nat ->
  exists rings : list (list pnt), (forall l, In l rings -> (3 <= length l)%nat) /\
    (forall q, (forall s, In s (polygon_sides l1 ++ polygon_sides l2) -> ~ on_segment (fst s) (snd s) q) ->
      winding_all q (rings_of rings) =
        (winding q (polygon_sides l1) + winding q (polygon_sides l2) - winding q (polygon_sides l1) * winding q (polygon_sides l2))%Z) /\
    match poly_union H fuel p (Poly l1 false) (Poly l2 false) with
    | Ok (Some (pl, u)) => popened pl = false /\ 0 < shoelace (polygon_sides (pverts pl)) /\
        (exists before after, rings = before ++ pverts pl :: after /\ forall l s, In l (before ++ after) -> In s (polygon_sides l) -> In s u) /\
        ((forall e, In e u -> poly_contains (Poly l1 false) (midpoint (fst e) (snd e)) = Ok (Some Inside) \/
            poly_contains (Poly l2 false) (midpoint (fst e) (snd e)) = Ok (Some Inside)) ->
          forall q, (forall s, In s (polygon_sides l1 ++ polygon_sides l2) -> ~ on_segment (fst s) (snd s) q) ->
            winding q (polygon_sides (pverts pl)) =
              (winding q (polygon_sides l1) + winding q (polygon_sides l2) - winding q (polygon_sides l1) * winding q (polygon_sides l2))%Z)
    | Ok None => forall l, In l rings -> shoelace (polygon_sides l) < 0
    | Panic => exists l, In l rings /\ shoelace (polygon_sides l) = 0
    | NoFuel => False
    end.
Proof. exact union_all. Qed.
Print Assumptions C102_union_surrounds_all_points.

(** A run: two squares have an outline of eight corners, and all that is left
    over lies inside of one of them. *)
Example C102_run : exists o, poly_union ho_rev 60 [] square1 square2 = Ok o /\
  match o with
  | Some (pl, u) => (length (pverts pl) =? 8)%nat && (length u =? 4)%nat && forallb (fun e =>
      match poly_contains square1 (midpoint (fst e) (snd e)), poly_contains square2 (midpoint (fst e) (snd e)) with
      | Ok (Some Inside), _ | _, Ok (Some Inside) => true | _, _ => false end) u
  | None => false
  end = true.
Proof. apply okb_ok. vm_compute. reflexivity. Qed.
