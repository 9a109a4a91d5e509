(** T_Vertices.v — inserting vertices (C29 to C32, C66), boundaries (C36) and
    holes (C37), for every arithmetic and every hash order. *)

From Coq Require Import List ZArith Permutation.
From Verif Require Import Base Arith Geometry Elements Polyline Procedures Spec P_Base P_Vertices P_Flood ArithF Samples P_Checks.
Import ListNotations.
Local Open Scope nat_scope.

(** The data of the examples: a first segment, four points, one constraint. *)
Definition start_mesh : triangulation ArithF := from_initial_segment (pt 0 0) (pt 10 0).
Definition new_points : list (vertex ArithF) := [pt 9 9; pt 1 8; pt 4 3; pt 7 1].
Definition one_constraint : list (edge ArithF) := [(pt 10 0, pt 9 9)].
Definition sample_run := vertices_include ho_rev 60 [] start_mesh new_points one_constraint None [].
Example start_mesh_sound : adj_sound start_mesh.
Proof. exact (initial_sound (pt 0 0) (pt 10 0)). Qed.
Example sample_run_returns :
  okb sample_run (fun r => let '(tr, inc, del) := r in
    Nat.ltb 4 (length (filter (fun t => negb (is_ghost t)) (tris tr))) && Nat.ltb 2 (length del))%bool = true.
Proof. vm_compute. reflexivity. Qed.

(** C29: sides in the constraint set survive ... *)
Theorem C29_constrained_sides_survive : forall (A : Arith) (H : HashOrder) fuel p (tr : triangulation A) vs cs bd hs tr' inc del,
  adj_sound tr ->
  (forall u w, known tr vs u -> known tr vs w -> veqb u w = true -> u = w) ->
  vertices_include H fuel p tr vs cs bd hs = Ok (tr', inc, del) ->
  (forall c, constrained cs c -> (exists t, In t (tris tr) /\ side_of c t) ->
     exists t, In t (tris tr') /\ side_of c t) /\
  (forall t, In t del -> exists v, In v vs /\ carved cs v t).
Proof. exact @include_constrained. Qed.
Print Assumptions C29_constrained_sides_survive.

Example C29_hypotheses :
  adj_sound start_mesh /\
  (forall u w, known start_mesh new_points u -> known start_mesh new_points w -> veqb u w = true -> u = w) /\
  exists r, sample_run = Ok r.
Proof.
  split; [exact start_mesh_sound|]. split; [apply separatedb_ok; vm_compute; reflexivity|].
  destruct (okb_ok _ _ _ sample_run_returns) as (r & E & _). exists r. exact E.
Qed.

(** C30 *)
Theorem C30_no_vertex_invented : forall (A : Arith) (H : HashOrder) fuel p (tr : triangulation A) vs cs bd hs tr' inc del,
  adj_sound tr -> vertices_include H fuel p tr vs cs bd hs = Ok (tr', inc, del) ->
  forall t w, In t (tris tr') -> corner_of w t ->
  (exists t0, In t0 (tris tr) /\ corner_of w t0) \/ In w vs.
Proof. exact @include_corners. Qed.
Print Assumptions C30_no_vertex_invented.

(** C31 *)
Theorem C31_reinsertion : forall (A : Arith) (H : HashOrder) fuel p (tr : triangulation A) vs cs bd hs,
  0 < fuel -> (forall v, In v vs -> In v (trn_vertices tr)) ->
  vertices_include H fuel p tr vs cs bd hs = Ok (tr, [], []).
Proof. exact @include_present. Qed.
Print Assumptions C31_reinsertion.

Example C31_hypotheses : okb sample_run (fun r => let '(tr, _, _) := r in
  forallb (fun v => hmem vdec v (trn_vertices tr)) new_points) = true.
Proof. vm_compute. reflexivity. Qed.

(** C32: splitting off the conflicts of one triangle ... *)
Theorem C32_split : forall (A : Arith) (H : HashOrder) fuel p (t : triangle A) vs bd hs conf rest,
  split_conflicts H fuel p t vs bd hs = Ok (conf, rest) ->
  Permutation vs (conf ++ rest) /\ (forall v, In v conf -> encircles t v = Inside).
Proof. exact @split_conflicts_spec. Qed.
Print Assumptions C32_split.

(** ... distributing over all triangles ... *)
Theorem C32_distribute : forall (A : Arith) (H : HashOrder) fuel (ts : list (triangle A)) p cm vs bd hs cm' rest,
  distribute_all H fuel p ts cm vs bd hs = Ok (cm', rest) -> fair cm ->
  fair cm' /\ Permutation (listed cm ++ vs) (listed cm' ++ rest) /\
  (forall t, In t (map fst cm') -> In t (map fst cm) \/ In t ts).
Proof. exact @distribute_all_spec. Qed.
Print Assumptions C32_distribute.

(** ... distributing by walking from a triangle ... *)
Theorem C32_walk : forall (A : Arith) (H : HashOrder) fuel p (tr : triangulation A) vis pen cm vs bd hs cm' rest,
  flood_distribute H fuel p tr vis pen cm vs bd hs = Ok (cm', rest) -> fair cm ->
  fair cm' /\ Permutation (listed cm ++ vs) (listed cm' ++ rest).
Proof. exact @flood_distribute_spec. Qed.
Print Assumptions C32_walk.

Example C32_hypotheses : fair (A:=ArithF) [] /\
  okb (split_conflicts ho_id 20 [] (Tri (pt 0 0) (pt 4 0) (pt 0 4)) [pt 1 1; pt 9 9; pt 3 3] None [])
      (fun r => Nat.eqb (length (fst r)) 2) = true /\
  okb (distribute_all ho_id 20 [] (tris start_mesh) [] new_points None [])
      (fun r => Nat.eqb (length (listed (fst r))) 4) = true /\
  okb (flood_distribute ho_id 20 [] start_mesh [] (tris start_mesh) [] new_points None [])
      (fun r => Nat.eqb (length (listed (fst r))) 4) = true.
Proof. split; [exact fair_nil|]. split; [|split]; vm_compute; reflexivity. Qed.

(** ... and a whole insertion: every requested new vertex is either a corner of
    a reported new triangle or dropped, and counted once. *)
Theorem C32_whole_run : forall (A : Arith) (H : HashOrder) fuel p (tr : triangulation A) vs cs bd hs tr' inc del,
  vertices_include H fuel p tr vs cs bd hs = Ok (tr', inc, del) ->
  exists inserted dropped,
    Permutation (filter (fun v => negb (hmem vdec v (trn_vertices tr))) vs) (inserted ++ dropped) /\
    (forall v, In v inserted -> exists t, In t inc /\ corner_of v t) /\
    (forall t, In t inc -> exists v, In v inserted /\ corner_of v t).
Proof. exact @include_accounts. Qed.
Print Assumptions C32_whole_run.

(** C66 *)
Theorem C66_reported_changes : forall (A : Arith) (H : HashOrder) fuel p (tr : triangulation A) vs cs bd hs tr' inc del,
  adj_sound tr -> vertices_include H fuel p tr vs cs bd hs = Ok (tr', inc, del) ->
  adj_sound tr' /\
  (forall t, In t (tris tr') -> In t (tris tr) \/ In t inc) /\
  (forall t, In t (tris tr) \/ In t inc -> In t (tris tr') \/ In t del) /\
  (forall t, In t del -> In t (tris tr) \/ In t inc).
Proof. exact @include_reported. Qed.
Print Assumptions C66_reported_changes.

(** C36: [tr1] is the mesh after the boundary vertices went in. *)
Theorem C36_boundary : forall (A : Arith) (H : HashOrder) fuel p (tr : triangulation A) b cs tr',
  adj_sound tr -> boundary_include H fuel p tr b cs = Ok tr' ->
  exists es tr1 inc del,
    into_edges b = Ok es /\
    vertices_include H fuel (1 :: p) tr (pverts b) cs None [] = Ok (tr1, inc, del) /\
    adj_sound tr1 /\
    (forall e, In e es -> In (Tri (snd e) (fst e) ghost_vertex) (tris tr')) /\
    (adj_complete tr1 -> forall t, In t (tris tr') <->
       (In t (tris tr1) /\ ~ swept (fun t => In t (tris tr1)) (map flip es) (map flip es) t) \/
       exists e, In e es /\ t = Tri (snd e) (fst e) ghost_vertex).
Proof. exact @boundary_include_spec. Qed.
Print Assumptions C36_boundary.

Theorem C36_boundary_terminates : forall (A : Arith) (H : HashOrder) fuel p (tr : triangulation A) b cs es tr1 inc del,
  adj_sound tr -> into_edges b = Ok es ->
  vertices_include H fuel (1 :: p) tr (pverts b) cs None [] = Ok (tr1, inc, del) ->
  4 * length (tris tr1) < fuel ->
  exists tr', boundary_include H fuel p tr b cs = Ok tr'.
Proof. exact @boundary_include_total. Qed.
Print Assumptions C36_boundary_terminates.

Definition sample_boundary : polyline ArithF := Poly [pt 0 0; pt 10 0; pt 9 9; pt 4 3; pt 1 8] false.
Example C36_hypotheses : exists tr1 inc del tr',
  vertices_include ho_id 60 [1] start_mesh (pverts sample_boundary) [] None [] = Ok (tr1, inc, del) /\
  adj_complete tr1 /\ 4 * length (tris tr1) < 60 /\
  boundary_include ho_id 60 [] start_mesh sample_boundary [] = Ok tr'.
Proof.
  assert (E1 : okb (vertices_include ho_id 60 [1] start_mesh (pverts sample_boundary) [] None [])
    (fun r => let '(tr1, _, _) := r in (adj_completeb tr1 && Nat.ltb (4 * length (tris tr1)) 60)%bool) = true)
    by (vm_compute; reflexivity).
  assert (E2 : okb (boundary_include ho_id 60 [] start_mesh sample_boundary []) (fun _ => true) = true)
    by (vm_compute; reflexivity).
  destruct (okb_ok _ _ _ E1) as ([[tr1 inc] del] & H1 & Hb). destruct (okb_ok _ _ _ E2) as (tr' & H2 & _).
  apply andb_prop in Hb. destruct Hb as [Ha Hb]. exists tr1, inc, del, tr'.
  split; [exact H1|]. split; [apply adj_completeb_ok, Ha|]. split; [apply Nat.ltb_lt, Hb|exact H2].
Qed.

(** C37: [tr2] is the mesh once the hole vertices and missing hole sides are in.
    The exact description needs [tr2] to be well formed, no ghost triangle
    touching the hole, and the hole sides to close off a region. *)
Theorem C37_hole : forall (A : Arith) (H : HashOrder) fuel p (tr : triangulation A) h cs tr',
  adj_sound tr -> hole_include H fuel p tr h cs = Ok tr' ->
  exists es tr1 inc del tr2,
    into_edges h = Ok es /\
    vertices_include H fuel (1 :: p) tr (pverts h) cs None [] = Ok (tr1, inc, del) /\
    insert_missing H fuel (2 :: p) (hset edec es) (hset edec (cs ++ hset edec es)) tr1 = Ok tr2 /\
    adj_sound tr2 /\
    (forall e, In e es -> exists t, In t (tris tr2) /\ side_of e t) /\
    let Sw := swept (fun t => In t (tris tr2)) es es in
    (adj_complete tr2 ->
     (forall e, In e es -> fst e <> ghost_vertex /\ snd e <> ghost_vertex) ->
     (forall e t, In e es -> In t (tris tr2) ->
        ~ side_of (snd e, ghost_vertex) t /\ ~ side_of (ghost_vertex, fst e) t) ->
     (forall e t, In e es -> Sw t -> ~ side_of (flip e) t) ->
     (forall t, Sw t -> ~ corner_of ghost_vertex t) ->
     forall t, In t (tris tr') <->
       (In t (tris tr2) /\ ~ Sw t) \/
       exists e, In e es /\ t = Tri (fst e) (snd e) ghost_vertex).
Proof. exact @hole_include_spec. Qed.
Print Assumptions C37_hole.

Theorem C37_hole_terminates : forall (A : Arith) (H : HashOrder) fuel p (tr : triangulation A) h cs es tr1 inc del tr2,
  adj_sound tr -> into_edges h = Ok es ->
  vertices_include H fuel (1 :: p) tr (pverts h) cs None [] = Ok (tr1, inc, del) ->
  insert_missing H fuel (2 :: p) (hset edec es) (hset edec (cs ++ hset edec es)) tr1 = Ok tr2 ->
  7 * length es + 4 * length (tris tr2) < fuel ->
  exists tr', hole_include H fuel p tr h cs = Ok tr'.
Proof. exact @hole_include_total. Qed.
Print Assumptions C37_hole_terminates.

(** A square mesh and a triangular hole in it. *)
Definition hole_mesh := vertices_include ho_id 90 [] start_mesh [pt 10 11; pt 0 10; pt 2 3] [] None [].
Definition sample_hole : polyline ArithF := Poly [pt 4 4; pt 7 4; pt 6 7] false.
Example C37_hypotheses : exists tr inc0 del0 es tr1 inc del tr2 tr',
  hole_mesh = Ok (tr, inc0, del0) /\ adj_sound tr /\
  into_edges sample_hole = Ok es /\
  vertices_include ho_id 90 [1] tr (pverts sample_hole) [] None [] = Ok (tr1, inc, del) /\
  insert_missing ho_id 90 [2] (hset edec es) (hset edec ([] ++ hset edec es)) tr1 = Ok tr2 /\
  hole_include ho_id 90 [] tr sample_hole [] = Ok tr' /\
  7 * length es + 4 * length (tris tr2) < 90 /\ hole_conditions tr2 es.
Proof. apply (hole_steps_ok ho_id 90 [] hole_mesh sample_hole []). vm_compute. reflexivity. Qed.
