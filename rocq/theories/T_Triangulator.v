(** T_Triangulator.v — properties of the public Triangulator (C38-C41, C43, C59, C65). *)

From Coq Require Import List ZArith.
From Verif Require Import Base Arith Geometry Elements Polyline Procedures Refine Triangulator
  Spec P_Triangulator P_Tri2 ArithF Samples.
Import ListNotations.
Local Open Scope nat_scope.

(** C38 *)
Theorem C38_insert_vertices : forall (A : Arith) (H : HashOrder) p (t : triangulator A) vs t' r,
  insert_vertices H p t vs = Ok (t', r) ->
  match r with
  | RErr bad => t' = t /\ bad <> [] /\ forall v, In v bad <-> In v vs /\ ~ vertex_admissible t v
  | RFine => same_domain t t' /\ forall v, In v vs -> vertex_admissible t v
  end.
Proof. exact @insert_vertices_spec. Qed.
Print Assumptions C38_insert_vertices.

Theorem C38_insert_vertices_answers : forall (A : Arith) (H : HashOrder) p (t : triangulator A) vs,
  proper (t_boundary t) -> (forall h, In h (t_holes t) -> proper h) ->
  exists t' r, insert_vertices H p t vs = Ok (t', r).
Proof. exact @insert_vertices_answers. Qed.
Print Assumptions C38_insert_vertices_answers.

Definition fine {E} (x : triangulator ArithF * result E) : bool :=
  match snd x with RFine => true | RErr _ => false end.

Example C38_hypotheses :
  (exists x, insert_vertices ho_rev [] domain1 [pt 1 1; pt 8 2] = Ok x /\ fine x = true) /\
  (exists x, insert_vertices ho_rev [] domain1 [pt 1 1; pt 5 5] = Ok x /\ negb (fine x) = true) /\
  proper (t_boundary domain1) /\ (forall h, In h (t_holes domain1) -> proper h).
Proof.
  split; [apply okb_ok; vm_compute; reflexivity|]. split; [apply okb_ok; vm_compute; reflexivity|].
  split; [left; reflexivity|]. intros h [<-|[]]. left; reflexivity.
Qed.

(** C39 *)
Theorem C39_insert_segments : forall (A : Arith) (H : HashOrder) fuel p (t : triangulator A) ss t' r,
  insert_segments H fuel p t ss = Ok (t', r) ->
  match r with
  | RErr bad => t' = t /\ bad <> [] /\ forall s, In s bad <-> In s ss /\ ~ segment_admissible fuel t s
  | RFine => same_domain t t' /\ forall s, In s ss -> segment_admissible fuel t s
  end.
Proof. exact @insert_segments_spec. Qed.
Print Assumptions C39_insert_segments.

Example C39_hypotheses :
  (exists x, insert_segments ho_rev 60 [] domain2 [(pt 1 1, pt 3 8); (pt 1 8, pt 8 8)] = Ok x /\ fine x = true) /\
  (exists x, insert_segments ho_rev 60 [] domain2 [(pt 1 1, pt 8 8)] = Ok x /\ negb (fine x) = true).
Proof. split; apply okb_ok; vm_compute; reflexivity. Qed.

(** C40 *)
Theorem C40_insert_hole : forall (A : Arith) fuel (t : triangulator A) h t' r,
  proper (t_boundary t) -> (forall h', In h' (t_holes t) -> proper h') ->
  insert_hole fuel t h = Ok (t', r) ->
  match r with
  | RErr cv => t' = t /\ cv <> [] /\ ~ hole_admissible fuel t h /\
      ((exists v, clash fuel t h v) -> forall v, In v cv <-> clash fuel t h v) /\
      ((forall v, ~ clash fuel t h v) -> forall v, In v cv <-> segment_clash fuel t h v)
  | RFine => hole_admissible fuel t h /\ same_set (t_holes t') (h :: t_holes t) /\
      t_boundary t' = t_boundary t /\ t_trn t' = t_trn t /\
      t_vertices t' = t_vertices t /\ t_segments t' = t_segments t
  end.
Proof. exact @insert_hole_spec. Qed.
Print Assumptions C40_insert_hole.

Example C40_hypotheses :
  (exists x, insert_hole 60 domain2 (Poly [pt 7 7; pt 8 7; pt 8 8] false) = Ok x /\ fine x = true) /\
  (exists x, insert_hole 60 domain2 (Poly [pt 5 5; pt 8 7; pt 8 8] false) = Ok x /\ negb (fine x) = true) /\
  proper (t_boundary domain2) /\ (forall h, In h (t_holes domain2) -> proper h).
Proof.
  split; [apply okb_ok; vm_compute; reflexivity|]. split; [apply okb_ok; vm_compute; reflexivity|].
  split; [left; reflexivity|]. intros h [<-|[]]. left; reflexivity.
Qed.

(** C41 *)
Theorem C41_inserted_vertices_kept : forall (A : Arith) (H : HashOrder) p (t : triangulator A) vs t',
  insert_vertices H p t vs = Ok (t', RFine) ->
  (forall v, In v vs -> In v (t_vertices t') \/ endpoint (t_segments t') v \/ near_endpoint (t_segments t') v) /\
  (forall v, In v (t_vertices t) -> In v (t_vertices t')) /\
  (forall v, endpoint (t_segments t) v -> endpoint (t_segments t') v) /\
  (forall a b, linked (t_segments t) a b -> linked (t_segments t') a b) /\
  (forall v, In v (t_vertices t') -> In v (t_vertices t) \/ In v vs) /\
  (forall v, endpoint (t_segments t') v -> endpoint (t_segments t) v \/ In v vs).
Proof. exact @insert_vertices_kept. Qed.
Print Assumptions C41_inserted_vertices_kept.

Example C41_hypotheses :
  exists x, insert_vertices ho_rev [] domain2 [pt 1 5; pt 1 2; pt 8 2] = Ok x /\
    (fine x && Nat.eqb (length (t_segments (fst x))) 2 && Nat.eqb (length (t_vertices (fst x))) 3)%bool = true.
Proof. apply okb_ok. vm_compute. reflexivity. Qed.

(** C65 *)
Theorem C65_inserted_segments_kept : forall (A : Arith) (H : HashOrder) fuel p (t : triangulator A) ss t',
  insert_segments H fuel p t ss = Ok (t', RFine) ->
  (forall s, In s ss \/ In s (t_segments t) -> linked_near (t_segments t') (fst s) (snd s)) /\
  (forall v, In v (t_vertices t') -> In v (t_vertices t)).
Proof. exact @insert_segments_kept. Qed.
Print Assumptions C65_inserted_segments_kept.

(** C43 *)
Theorem C43_triangulate_frame : forall (A : Arith) (H : HashOrder) fuel p (t t' : triangulator A),
  triangulate H fuel p t = Ok t' ->
  t_boundary t' = t_boundary t /\ t_holes t' = t_holes t /\
  t_vertices t' = t_vertices t /\ t_segments t' = t_segments t.
Proof. exact @triangulate_frame. Qed.
Print Assumptions C43_triangulate_frame.

Theorem C43_triangulate_fresh : forall (A : Arith) (H : HashOrder) fuel p (t : triangulator A) tr,
  triangulate H fuel p (with_triangulation t tr) = triangulate H fuel p t.
Proof. exact @triangulate_fresh. Qed.
Print Assumptions C43_triangulate_fresh.

Theorem C43_refine_frame : forall (A : Arith) (H : HashOrder) fuel p (t t' : triangulator A) prm cs,
  refine H fuel p t prm = Ok (t', cs) ->
  t_boundary t' = t_boundary t /\ t_holes t' = t_holes t /\
  t_vertices t' = t_vertices t /\ t_segments t' = t_segments t.
Proof. exact @refine_frame. Qed.
Print Assumptions C43_refine_frame.

Example C43_hypotheses :
  exists x, (let! t := triangulate ho_id 100 [] (with_vertices domain0 [pt 3 4]) in
             refine ho_id 100 [] t (RP (A:=ArithF) None (fpz 2))) = Ok x /\
    Nat.ltb 4 (length (tris (t_trn (fst x)))) = true.
Proof. apply okb_ok. vm_compute. reflexivity. Qed.

(** C59 *)
Theorem C59_absorption : forall (A : Arith) (H : HashOrder) fuel p aux (vs : list (vertex A)),
  2 * length vs + length aux < fuel ->
  exists vs' acc, absorb_loop H fuel p aux vs [] = Ok (vs', acc) /\
  (forall v, In v vs' -> In v vs) /\
  (forall s v, In s acc -> In v vs' -> edge_contains s v = false) /\
  (forall s, In s aux -> linked acc (fst s) (snd s)) /\
  (forall v, endpoint acc v -> endpoint aux v \/ In v vs) /\
  (forall v, In v vs -> In v vs' \/ near_endpoint acc v).
Proof. exact @absorb_terminates. Qed.
Print Assumptions C59_absorption.

Example C59_hypotheses : 2 * length [pt 1 1; pt 2 2; pt 3 0] + length [(pt 0 0, pt 3 3)] < 8.
Proof. repeat constructor. Qed.
