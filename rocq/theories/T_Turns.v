(** T_Turns.v — the turns that the results of boolean operations take (C114) and
    how they cancel segments (C115). *)

From Coq Require Import Reals List ZArith Bool Lia.
From Verif Require Import Base Arith Geometry Elements Polyline ArithR ArithF Spec SpecR SpecD SpecM SpecK SpecU P_Poly P_K6 P_K7 P_K9 P_KA P_V1 P_V2 T_Boolean Samples.
Import ListNotations.

(** C114 *)
Theorem C114_intersection_turns_least : forall (H : HashOrder) fuel p p1 p2 pls u, poly_intersection (A:=ArithR) H fuel p p1 p2 = Ok (pls, u) ->
  exists rings, pls = map (fun r => Poly (map fst r) false) rings /\ smallest_turns rings.
Proof. exact intersection_turns. Qed.
Print Assumptions C114_intersection_turns_least.

Theorem C114_subtraction_turns_least : forall (H : HashOrder) fuel p p1 p2 pls u, poly_subtraction (A:=ArithR) H fuel p p1 p2 = Ok (pls, u) ->
  exists rings, pls = map (fun r => Poly (map fst r) false) rings /\ smallest_turns rings.
Proof. exact subtraction_turns. Qed.
Print Assumptions C114_subtraction_turns_least.

Theorem C114_union_turns_most : forall (H : HashOrder) fuel p p1 p2 pl u, poly_union (A:=ArithR) H fuel p p1 p2 = Ok (Some (pl, u)) ->
  exists r, pl = Poly (map fst r) false /\ largest_turns r.
Proof. exact union_turns. Qed.
Print Assumptions C114_union_turns_most.

(** Two overlapping squares have an intersection; and in a run on doubles a
    polygon that touches itself in a point is cut out of a square in two
    triangles: at the point the smaller angle is taken. *)
Example C114_hypotheses : exists pls u, poly_intersection ho_rev (room 40) [] (Poly (rectangle 0 0 2 2) false) (Poly (rectangle 1 1 3 3) false) = Ok (pls, u).
Proof.
  destruct (C100_rectangles ho_rev 0 0 2 2 1 1 3 3 (room 40) []) as (pls & u & E & _); try lia; [..|eauto].
  1-2: intros a b [<-|[<-|[]]] [<-|[<-|[]]]; lia.
Qed.
Example C114_run : exists o, poly_intersection ho_rev 100 [] (Poly [pt 0 0; pt 6 0; pt 6 4; pt 0 4] false) (Poly [pt 1 1; pt 3 2; pt 5 1; pt 5 3; pt 3 2; pt 1 3] false) = Ok o /\
  (Nat.eqb (length (fst o)) 2 && forallb (fun pl => Nat.eqb (length (pverts pl)) 3) (fst o))%bool = true.
Proof. apply okb_ok. vm_compute. reflexivity. Qed.
Example C114_union_run : exists o, poly_union ho_rev 100 [] (Poly [pt 1 1; pt 3 2; pt 5 1; pt 5 3; pt 3 2; pt 1 3] false) (Poly [pt 4 0; pt 6 0; pt 6 4; pt 4 4] false) = Ok o /\
  match o with Some (pl, _) => Nat.eqb (length (pverts pl)) 10 | None => false end = true.
Proof. apply okb_ok. vm_compute. reflexivity. Qed.

(** C115 *)
Theorem C115_intersection_cancels : forall (A : Arith) (H : HashOrder) fuel p (p1 p2 : polyline A) pls u, poly_intersection H fuel p p1 p2 = Ok (pls, u) ->
  popened p1 = false -> popened p2 = false -> boxes_meet p1 p2 ->
  exists s1 s2 split r chains,
    into_edges p1 = Ok s1 /\ into_edges p2 = Ok s2 /\ split_intersections fuel (s1 ++ s2) = Ok split /\ settles p1 p2 split r /\
    pls = map (fun c => Poly (map fst c) false) chains /\
    (forall s, In s (concat chains) -> In s r /\ ~ beyond p1 p2 (midpoint (fst s) (snd s))) /\
    (forall s, In s r -> In s (concat chains) \/ In s u) /\
    forall s s', In s (concat chains) -> In s' (concat chains) -> s <> s' -> ~ cancels p1 p2 s s' \/ ~ cancels p1 p2 s' s.
Proof. exact @intersection_cancels. Qed.
Print Assumptions C115_intersection_cancels.

Theorem C115_subtraction_cancels : forall (A : Arith) (H : HashOrder) fuel p (p1 p2 : polyline A) pls u, poly_subtraction H fuel p p1 p2 = Ok (pls, u) ->
  popened p1 = false -> popened p2 = false -> boxes_meet p1 p2 -> poly_continence fuel p1 p2 <> Ok (Some (Inside, Open)) ->
  exists s1 s2 split r chains,
    into_edges p1 = Ok s1 /\ into_edges (Poly (rev (pverts p2)) false) = Ok s2 /\ split_intersections fuel (s1 ++ s2) = Ok split /\ settles p1 p2 split r /\
    pls = map (fun c => Poly (map fst c) false) chains /\
    (forall s, In s (concat chains) -> In s r /\
       poly_contains p1 (midpoint (fst s) (snd s)) <> Ok (Some Outside) /\ poly_contains p2 (midpoint (fst s) (snd s)) <> Ok (Some Inside)) /\
    (forall s, In s r -> In s (concat chains) \/ In s u) /\
    forall s s', In s (concat chains) -> In s' (concat chains) -> s <> s' -> ~ cancels p1 p2 s s' \/ ~ cancels p1 p2 s' s.
Proof. exact @subtraction_cancels. Qed.
Print Assumptions C115_subtraction_cancels.

(** A square and a C that has a side along the square's, the other way: two
    rectangles are cut out. *)
Example C115_case : exists o, poly_intersection ho_rev 100 [] (Poly [pt 0 0; pt 5 0; pt 5 4; pt 0 4; pt 0 3; pt 4 3; pt 4 1; pt 0 1] false) (Poly [pt 0 0; pt 4 0; pt 4 4; pt 0 4] false) = Ok o /\
  (Nat.eqb (length (fst o)) 2 && forallb (fun pl => Nat.eqb (length (pverts pl)) 4) (fst o))%bool = true.
Proof. apply okb_ok. vm_compute. reflexivity. Qed.
