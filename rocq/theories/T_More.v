(** T_More.v — outlines, corners, Boolean operations, and what triangulation and
    refinement do as a whole (C70–C76). *)

From Coq Require Import List Permutation Arith Bool ZArith Reals.
From Verif Require Import Base Arith Geometry Elements Polyline Procedures Refine Triangulator ArithR ArithF
  Spec SpecR SpecM P_Base P_Trn P_Checks P_Checks2 P_Hull P_Worked P_Stages P_Bool P_Nest Samples.
Import ListNotations.
Local Open Scope nat_scope.

(** C70 *)
Theorem C70_outline : forall (A : Arith) (H : HashOrder) p (ts : list (triangle A)) e,
  In e (hull_edges H p ts) <-> some_side ts e /\ (flip e = e \/ ~ some_side ts (flip e)).
Proof. exact @hull_edges_spec. Qed.
Print Assumptions C70_outline.

Example C70_hypotheses :
  let ts := [Tri (A:=ArithF) (pt 0 0) (pt 1 0) (pt 1 1); Tri (A:=ArithF) (pt 0 0) (pt 1 1) (pt 0 1)] in
  edges_eqb (hull_edges ho_rev [] ts) [] = false /\ Nat.eqb (length (hull_edges ho_id [] ts)) 4 = true.
Proof. split; vm_compute; reflexivity. Qed.

(** C71 *)
Theorem C71_closed : forall (A : Arith) (l : list (vertex A)) q d, minified_noncolinear (Poly l false) = Ok q ->
  exists ks, increasing ks /\ (forall i, In i ks <-> i < length l /\ turns_at l d i) /\
    pverts q = map (fun i => nth i l d) ks /\ popened q = false /\ 3 <= length ks.
Proof. exact @minified_closed. Qed.
Print Assumptions C71_closed.

Theorem C71_opened : forall (A : Arith) (l : list (vertex A)) q d, minified_noncolinear (Poly l true) = Ok q ->
  exists ks, increasing ks /\ (forall i, In i ks <-> turns_within l d i) /\
    pverts q = [hd d l] ++ map (fun i => nth i l d) ks ++ [last l d] /\ popened q = false /\ 1 <= length ks.
Proof. exact @minified_opened. Qed.
Print Assumptions C71_opened.

Theorem C71_panics : forall (A : Arith) (l : list (vertex A)) d, l <> [] ->
  (minified_noncolinear (Poly l false) = Panic <->
   exists ks, increasing ks /\ (forall i, In i ks <-> i < length l /\ turns_at l d i) /\ length ks < 3).
Proof. exact @minified_closed_panics. Qed.
Print Assumptions C71_panics.

Example C71_hypotheses :
  (exists q, minified_noncolinear (Poly [pt 0 0; pt 1 0; pt 2 0; pt 2 2; pt 1 2; pt 0 1] false) = Ok q /\ Nat.eqb (length (pverts q)) 5 = true) /\
  (exists q, minified_noncolinear (Poly [pt 0 0; pt 1 0; pt 2 0; pt 2 2] true) = Ok q /\ Nat.eqb (length (pverts q)) 3 = true) /\
  match minified_noncolinear (Poly [pt 0 0; pt 1 0; pt 2 0] false) with Panic => true | _ => false end = true.
Proof. split; [|split]; [apply okb_ok|apply okb_ok|]; vm_compute; reflexivity. Qed.

(** C72 *)
Theorem C72_triangle_split : forall (A : Arith) (H : HashOrder) fuel p prm (tr : triangulation A) cs bd hs tr' cs' sm,
  adj_sound tr -> split_irregular H fuel p prm tr cs bd hs = Ok (tr', cs', sm) ->
  exists tried gone, refining H prm bd hs (tris tr) tr cs tried gone tr' cs' /\
    forall t, In t (tris tr') -> is_ghost t = false -> misses prm t -> In t tried \/ In t gone.
Proof. exact @split_irregular_tries. Qed.
Print Assumptions C72_triangle_split.

Theorem C72_refine : forall (A : Arith) (H : HashOrder) fuel p (t t' : triangulator A) prm cs', adj_sound (t_trn t) ->
  refine H fuel p t prm = Ok (t', cs') ->
  exists cs sm i d tr1 tried gone cs2,
    (forall e, In e cs <-> fixed_edge t e) /\
    unencroach H fuel (1 :: p) (t_trn t) cs (Some (t_boundary t)) (t_holes t) = Ok (tr1, sm, i, d) /\
    refining H prm (Some (t_boundary t)) (t_holes t) (tris tr1) tr1 (replace_split sm cs) tried gone (t_trn t') cs2 /\
    adj_sound tr1 /\
    forall x, In x (tris (t_trn t')) -> is_ghost x = false -> misses prm x -> In x tried \/ In x gone.
Proof. exact @refine_tries. Qed.
Print Assumptions C72_refine.

Definition plain : triangulator ArithF := triangulator_new (Poly [pt 0 0; pt 4 0; pt 4 4; pt 0 4] false).
Example C72_hypotheses : exists t1, triangulate ho_id 40 [] plain = Ok t1 /\
  adj_soundb (t_trn t1) && okb (refine ho_id 40 [] t1 (RP (A:=ArithF) (Some (fpz 5)) (fpz 2)))
    (fun r => Nat.ltb (length (tris (t_trn t1))) (length (tris (t_trn (fst r))))) = true.
Proof. apply okb_ok. vm_compute. reflexivity. Qed.

(** C73 *)
Theorem C73_fixed_edges_stay : forall (A : Arith) (H : HashOrder) fuel p (t t' : triangulator A), triangulate H fuel p t = Ok t' ->
  exists q tr3 vs cs inc del,
    vertices_include H fuel q tr3 vs cs (Some (t_boundary t)) (t_holes t) = Ok (t_trn t', inc, del) /\
    Permutation (t_vertices t) vs /\
    ((forall u w, (given t u \/ u = ghost_vertex) -> (given t w \/ w = ghost_vertex) -> veqb u w = true -> u = w) ->
     forall e, fixed_edge t e \/ fixed_edge t (flip e) -> some_side (tris tr3) e -> some_side (tris (t_trn t')) e).
Proof. exact @triangulate_keeps_fixed. Qed.
Print Assumptions C73_fixed_edges_stay.

(** C74 *)
Theorem C74_no_new_vertex : forall (A : Arith) (H : HashOrder) fuel p (t t' : triangulator A), triangulate H fuel p t = Ok t' ->
  adj_sound (t_trn t') /\
  forall x w, In x (tris (t_trn t')) -> corner_of w x -> given t w \/ w = ghost_vertex.
Proof. exact @triangulate_no_new_vertex. Qed.
Print Assumptions C74_no_new_vertex.

Definition spotted : triangulator ArithF := with_vertices domain0 [pt 3 4; pt 7 6].
Example C73_C74_hypotheses :
  (forall u w, (given spotted u \/ u = ghost_vertex) -> (given spotted w \/ w = ghost_vertex) -> veqb u w = true -> u = w) /\
  exists t1, triangulate ho_rev 60 [] spotted = Ok t1 /\
    Nat.ltb 5 (length (tris (t_trn t1))) && existsb (fun x => hmem edec (pt 0 0, pt 10 0) (inner_edges x)) (tris (t_trn t1)) = true.
Proof. split; [apply given_list_ok; vm_compute; reflexivity|apply okb_ok; vm_compute; reflexivity]. Qed.

(** C75 *)
Theorem C75_intersection : forall (A : Arith) (H : HashOrder) fuel p (p1 p2 : polyline A) pls u,
  poly_intersection H fuel p p1 p2 = Ok (pls, u) ->
  popened p1 = true \/ popened p2 = true \/ boxes_meet p1 p2 ->
  exists s1 s2 split chains,
    into_edges p1 = Ok s1 /\ into_edges p2 = Ok s2 /\ split_intersections fuel (s1 ++ s2) = Ok split /\
    pls = map (fun c => Poly (map fst c) false) chains /\
    (popened p1 = true \/ popened p2 = true -> chains = []) /\
    (forall c, In c chains -> ring c) /\ NoDup (concat chains) /\
    (forall s, In s (concat chains) -> trimmed split s /\
       poly_contains p1 (midpoint (fst s) (snd s)) <> Ok (Some Outside) /\
       poly_contains p2 (midpoint (fst s) (snd s)) <> Ok (Some Outside)) /\
    (forall s, In s u -> trimmed split s) /\
    (forall s, In s split -> In s (concat chains) \/ In s u).
Proof. exact @poly_intersection_spec. Qed.
Print Assumptions C75_intersection.

Theorem C75_intersection_far : forall (A : Arith) (H : HashOrder) fuel p (p1 p2 : polyline A) r,
  poly_intersection H fuel p p1 p2 = Ok r ->
  popened p1 = false -> popened p2 = false -> ~ boxes_meet p1 p2 -> r = ([], []).
Proof. exact @poly_intersection_far. Qed.
Print Assumptions C75_intersection_far.

Theorem C75_subtraction : forall (A : Arith) (H : HashOrder) fuel p (p1 p2 : polyline A) pls u,
  poly_subtraction H fuel p p1 p2 = Ok (pls, u) ->
  exists s1 s2 split chains,
    into_edges p1 = Ok s1 /\ into_edges (Poly (rev (pverts p2)) (popened p2)) = Ok s2 /\
    split_intersections fuel (s1 ++ s2) = Ok split /\
    pls = map (fun c => Poly (map fst c) false) chains /\
    (popened p1 = true \/ popened p2 = true \/ ~ boxes_meet p1 p2 \/
       poly_continence fuel p1 p2 = Ok (Some (Inside, Open)) -> chains = []) /\
    (forall c, In c chains -> ring c) /\ NoDup (concat chains) /\
    (forall s, In s (concat chains) -> trimmed split s /\
       poly_contains p1 (midpoint (fst s) (snd s)) <> Ok (Some Outside) /\
       poly_contains p2 (midpoint (fst s) (snd s)) <> Ok (Some Inside)) /\
    (forall s, In s u -> trimmed split s) /\
    (forall s, In s split -> In s (concat chains) \/ In s u).
Proof. exact @poly_subtraction_spec. Qed.
Print Assumptions C75_subtraction.

Example C75_hypotheses :
  boxes_meet square1 square2 /\
  (exists r, poly_intersection ho_rev 60 [] square1 square2 = Ok r /\ Nat.eqb (length (fst r)) 1 = true) /\
  (exists r, poly_subtraction ho_rev 60 [] square1 square2 = Ok r /\ Nat.eqb (length (fst r)) 1 = true) /\
  (exists r, poly_intersection ho_rev 60 [] square1 far_square = Ok r /\ negb (boxes_meetb square1 far_square) = true).
Proof.
  split; [apply boxes_meetb_ok; vm_compute; reflexivity|].
  split; [|split]; [apply okb_ok|apply okb_ok|apply (okb_ok _ _ (fun _ => negb (boxes_meetb square1 far_square)))]; vm_compute; reflexivity.
Qed.

(** C76 *)
Theorem C76_intersection_nested : forall (A : Arith) (H : HashOrder) (p1 p2 inner outer : polyline A) ei eo fuel p,
  (p1 = inner /\ p2 = outer) \/ (p1 = outer /\ p2 = inner) -> nested inner outer ei eo -> boxes_meet p1 p2 -> apart (pverts inner) ->
  S (S (length ei + length eo)) < fuel ->
  exists l u, poly_intersection H fuel p p1 p2 = Ok ([Poly l false], u) /\ rotation (pverts inner) l /\
    forall s, In s u <-> In s eo.
Proof. exact @intersection_nested. Qed.
Print Assumptions C76_intersection_nested.

Theorem C76_union_nested : forall (A : Arith) (H : HashOrder) (p1 p2 inner outer : polyline A) ei eo fuel p,
  (p1 = inner /\ p2 = outer) \/ (p1 = outer /\ p2 = inner) -> nested inner outer ei eo -> boxes_meet p1 p2 -> apart (pverts outer) ->
  (forall l es, rotation (pverts outer) l -> into_edges (Poly l false) = Ok es -> flt (area_segments es) c0 = true) ->
  S (S (length ei + length eo)) < fuel ->
  exists l u, poly_union H fuel p p1 p2 = Ok (Some (Poly l false, u)) /\ rotation (pverts outer) l /\
    forall s, In s u <-> In s ei.
Proof. exact @union_nested. Qed.
Print Assumptions C76_union_nested.

Theorem C76_union_nested_exact : forall (H : HashOrder) (p1 p2 inner outer : polyline ArithR) ei eo fuel p,
  (p1 = inner /\ p2 = outer) \/ (p1 = outer /\ p2 = inner) -> nested inner outer ei eo -> boxes_meet p1 p2 -> apart (pverts outer) ->
  (area_segments eo < 0)%R -> S (S (length ei + length eo)) < fuel ->
  exists l u, poly_union H fuel p p1 p2 = Ok (Some (Poly l false, u)) /\ rotation (pverts outer) l /\
    forall s, In s u <-> In s ei.
Proof. exact union_nested_exact. Qed.
Print Assumptions C76_union_nested_exact.

Example C76_hypotheses :
  let ei := [(pt 4 4, pt 6 4); (pt 6 4, pt 6 6); (pt 6 6, pt 4 6); (pt 4 6, pt 4 4)] in
  let eo := [(pt 0 0, pt 10 0); (pt 10 0, pt 10 10); (pt 10 10, pt 0 10); (pt 0 10, pt 0 0)] in
  nested small_hole big_square ei eo /\ boxes_meet small_hole big_square /\ boxes_meet big_square small_hole /\
  apart (pverts small_hole) /\ apart (pverts big_square) /\
  (forall l es, rotation (pverts big_square) l -> into_edges (Poly l false) = Ok es -> flt (area_segments es) c0 = true).
Proof.
  cbv zeta. split; [apply nestedb_ok; [reflexivity|reflexivity|reflexivity|reflexivity|vm_compute; reflexivity]|].
  split; [apply boxes_meetb_ok; vm_compute; reflexivity|]. split; [apply boxes_meetb_ok; vm_compute; reflexivity|].
  split; [apply apartb_ok; vm_compute; reflexivity|]. split; [apply apartb_ok; vm_compute; reflexivity|].
  apply turns_leftb_ok. vm_compute. reflexivity.
Qed.
