(** Triangulator.v — model of src/planar/triangulator.rs. *)

From Coq Require Import List Bool Arith.
From Verif Require Import Base Arith Geometry Elements Polyline Procedures Refine.
Import ListNotations.

Section Triangulator.
  Context {A : Arith} (H : HashOrder).
  Notation F := (T A).
  Notation vertex := (vertex A).
  Notation edge := (edge A).
  Notation triangle := (triangle A).
  Notation triangulation := (triangulation A).
  Notation polyline := (polyline A).

  (** src/planar/triangulator.rs:11-17 *)
  Record triangulator : Type := TR {
    t_trn : triangulation;
    t_boundary : polyline;
    t_holes : list polyline;
    t_vertices : list vertex;
    t_segments : list edge
  }.

  (** src/planar/triangulator.rs:20-28 *)
  Definition triangulator_new (b : polyline) : triangulator := TR trn_new b [] [] [].

  Definition with_vertices (t : triangulator) (vs : list vertex) : triangulator :=
    TR (t_trn t) (t_boundary t) (t_holes t) vs (t_segments t).
  Definition with_segments (t : triangulator) (ss : list edge) : triangulator :=
    TR (t_trn t) (t_boundary t) (t_holes t) (t_vertices t) ss.
  Definition with_holes (t : triangulator) (hs : list polyline) : triangulator :=
    TR (t_trn t) (t_boundary t) hs (t_vertices t) (t_segments t).
  Definition with_triangulation (t : triangulator) (tr : triangulation) : triangulator :=
    TR tr (t_boundary t) (t_holes t) (t_vertices t) (t_segments t).

  (** [p.contains(v) == Some(c)] *)
  Definition contains_is (p : polyline) (v : vertex) (c : cont) : res bool :=
    let! o := poly_contains p v in
    Ok (match o with Some c' => cont_eqb c' c | None => false end).

  (** src/planar/triangulator.rs:48-60: is this vertex rejected? *)
  Definition vertex_rejected (t : triangulator) (v : vertex) : res bool :=
    let! inside := contains_is (t_boundary t) v Inside in
    if negb inside then Ok true
    else
      let! bad := filterM (fun h => let! o := contains_is h v Outside in Ok (negb o)) (t_holes t) in
      Ok (match bad with [] => false | _ => true end).

  (** src/planar/triangulator.rs:70-92: the loop over a snapshot of the segments;
      [None] when the vertex should still be inserted as a free vertex. *)
  Fixpoint place_vertex (v : vertex) (snapshot segments : list edge) : option (list edge) :=
    match snapshot with
    | [] => None
    | s :: snapshot' =>
        if veqb (ev1 s) v || veqb (ev2 s) v then Some segments
        else if edge_contains s v
        then Some (hadd edec (v, ev2 s) (hadd edec (ev1 s, v) (hdel edec s segments)))
        else place_vertex v snapshot' segments
    end.

  (** src/planar/triangulator.rs:68-96 *)
  Fixpoint place_vertices (p : path) (vs : list vertex) (t : triangulator) : triangulator :=
    match vs with
    | [] => t
    | v :: vs' =>
        let t' :=
          match place_vertex v (ho H (1 :: p) _ (t_segments t)) (t_segments t) with
          | Some ss => with_segments t ss
          | None => with_vertices t (hadd vdec v (t_vertices t))
          end in
        place_vertices (0 :: p) vs' t'
    end.

  (** src/planar/triangulator.rs:37-99; the argument is a set. *)
  Definition insert_vertices (p : path) (t : triangulator) (vs : list vertex)
    : res (triangulator * result (list vertex)) :=
    match vs with
    | [] => Ok (t, RFine)
    | _ =>
        let! bad := filterM (vertex_rejected t) vs in
        match bad with
        | [] => Ok (place_vertices (2 :: p) (ho H (1 :: p) _ vs) t, RFine)
        | _ => Ok (t, RErr bad)
        end
    end.

  (** src/planar/triangulator.rs:117-136: is this segment rejected? *)
  Definition segment_rejected (fuel : nat) (t : triangulator) (s : edge) : res bool :=
    let! sp := unwrap (new_opened [ev1 s; ev2 s]) in
    let! c := poly_continence fuel (t_boundary t) sp in
    if negb (continence_is c Inside Open) then Ok true
    else
      let! bad := filterM (fun h =>
        let! c := poly_continence fuel h sp in Ok (negb (continence_is c Outside Open))) (t_holes t) in
      Ok (match bad with [] => false | _ => true end).

  (** src/planar/triangulator.rs:148-167: the loop over a snapshot of the free
      vertices.  Returns the remaining free vertices and the two parts of the
      segment when a vertex splits it (second pushed part first). *)
  Fixpoint absorb_vertices (s : edge) (snapshot vs : list vertex) : list vertex * option (list edge) :=
    match snapshot with
    | [] => (vs, None)
    | v :: snapshot' =>
        let vs1 := if veqb (ev1 s) v || veqb (ev2 s) v then hdel vdec v vs else vs in
        if edge_contains s v
        then (hdel vdec v vs1, Some [(v, ev2 s); (ev1 s, v)])
        else absorb_vertices s snapshot' vs1
    end.

  (** src/planar/triangulator.rs:145-171; [aux] is the stack, top first. *)
  Fixpoint absorb_loop (fuel : nat) (p : path) (aux : list edge) (vs : list vertex) (acc : list edge)
    : res (list vertex * list edge) :=
    match fuel with
    | O => NoFuel
    | S fuel' =>
        match aux with
        | [] => Ok (vs, acc)
        | s :: aux' =>
            match absorb_vertices s (ho H (1 :: p) _ vs) vs with
            | (vs', Some parts) => absorb_loop fuel' (0 :: p) (parts ++ aux') vs' acc
            | (vs', None) => absorb_loop fuel' (0 :: p) aux' vs' (hadd edec s acc)
            end
        end
    end.

  (** src/planar/triangulator.rs:107-194; the argument is a set. *)
  Definition insert_segments (fuel : nat) (p : path) (t : triangulator) (ss : list edge)
    : res (triangulator * result (list edge)) :=
    match ss with
    | [] => Ok (t, RFine)
    | _ =>
        let! bad := filterM (segment_rejected fuel t) ss in
        match bad with
        | _ :: _ => Ok (t, RErr bad)
        | [] =>
            let! (vs, fresh) := absorb_loop fuel (2 :: p) (rev (ho H (1 :: p) _ ss)) (t_vertices t) [] in
            let! split := split_intersections fuel
              (ho H (3 :: p) _ fresh ++ ho H (4 :: p) _ (t_segments t)) in
            Ok (with_segments (with_vertices t vs) (hset edec split), RFine)
        end
    end.

  (** src/planar/triangulator.rs:205-227 *)
  Definition hole_conflicts (fuel : nat) (t : triangulator) (h : polyline) : res (list vertex) :=
    let! c := poly_continence fuel (t_boundary t) h in
    let cv0 := if continence_is c Inside Open then [] else hset vdec (pverts (t_boundary t)) in
    foldM (fun cv h' =>
      let! c := poly_continence fuel h' h in
      Ok (if continence_is c Outside Open then cv else hset vdec (cv ++ pverts h')))
      cv0 (t_holes t).

  (** src/planar/triangulator.rs:233-242 *)
  Definition hole_segment_conflicts (fuel : nat) (t : triangulator) (h : polyline) : res (list vertex) :=
    foldM (fun cv s =>
      let! sp := unwrap (new_opened [ev1 s; ev2 s]) in
      let! c := poly_continence fuel h sp in
      Ok (if continence_is c Outside Open then cv else hadd vdec (ev2 s) (hadd vdec (ev1 s) cv)))
      [] (t_segments t).

  (** src/planar/triangulator.rs:202-250 *)
  Definition insert_hole (fuel : nat) (t : triangulator) (h : polyline)
    : res (triangulator * result (list vertex)) :=
    let! cv := hole_conflicts fuel t h in
    match cv with
    | _ :: _ => Ok (t, RErr cv)
    | [] =>
        let! cv2 := hole_segment_conflicts fuel t h in
        match cv2 with
        | _ :: _ => Ok (t, RErr cv2)
        | [] => Ok (with_holes t (hadd pdec h (t_holes t)), RFine)
        end
    end.

  (** src/planar/triangulator.rs:257-264 *)
  Definition all_edges (ps : list polyline) : res (list edge) :=
    foldM (fun acc h => let! es := into_edges h in Ok (acc ++ es)) [] ps.
  Definition refine_constraints (t : triangulator) : res (list edge) :=
    let! hes := all_edges (t_holes t) in
    let! bes := into_edges (t_boundary t) in
    Ok (hset edec (hes ++ bes ++ t_segments t)).

  (** src/planar/triangulator.rs:274-285 (= 295-306) *)
  Definition replace_split (sm : list (edge * edge)) (constraints : list edge) : list edge :=
    let removed := hset edec (map snd sm) in
    hset edec (filter (fun s => negb (hmem edec s removed) && negb (hmem edec (opposite s) removed))
                 constraints ++ map fst sm).

  (** src/planar/triangulator.rs:256-309.  The constraint set computed by lines
      295-306 is returned too (the crate drops it). *)
  Definition refine (fuel : nat) (p : path) (t : triangulator) (prm : refine_params A)
    : res (triangulator * list edge) :=
    let! cstr := refine_constraints t in
    let! (tr1, sm, _, _) := unencroach H fuel (1 :: p) (t_trn t) cstr (Some (t_boundary t)) (t_holes t) in
    let cons1 := replace_split sm cstr in
    let! (tr2, _, sm2) := split_irregular H fuel (2 :: p) prm tr1 cons1 (Some (t_boundary t)) (t_holes t) in
    Ok (with_triangulation t tr2, replace_split sm2 cons1).

  (** src/planar/triangulator.rs:332-340 *)
  Fixpoint include_holes (fuel : nat) (p : path) (hs : list polyline) (tr : triangulation)
    (cstr : list edge) : res (triangulation * list edge) :=
    match hs with
    | [] => Ok (tr, cstr)
    | h :: hs' =>
        let! tr' := hole_include H fuel (1 :: p) tr h cstr in
        let! es := into_edges h in
        include_holes fuel (0 :: p) hs' tr' (hset edec (cstr ++ es))
    end.

  (** src/planar/triangulator.rs:343-350 *)
  Fixpoint include_segments (fuel : nat) (p : path) (ss : list edge) (tr : triangulation)
    (cstr : list edge) : res (triangulation * list edge) :=
    match ss with
    | [] => Ok (tr, cstr)
    | s :: ss' =>
        let! tr' := segment_include H fuel (1 :: p) tr s cstr in
        include_segments fuel (0 :: p) ss' tr' (hadd edec s cstr)
    end.

  (** src/planar/triangulator.rs:314-364 *)
  Definition triangulate (fuel : nat) (p : path) (t : triangulator) : res triangulator :=
    let! v1 := unwrap (nth_error (pverts (t_boundary t)) 0) in
    let! v2 := unwrap (nth_error (pverts (t_boundary t)) 1) in
    let tr0 := from_initial_segment v1 v2 in
    let! tr1 := boundary_include H fuel (1 :: p) tr0 (t_boundary t) [] in
    let! bes := into_edges (t_boundary t) in
    let! (tr2, cons2) := include_holes fuel (2 :: p) (ho H (3 :: p) _ (t_holes t)) tr1 (hset edec bes) in
    let! (tr3, cons3) := include_segments fuel (4 :: p) (ho H (5 :: p) _ (t_segments t)) tr2 cons2 in
    let! (tr4, _, _) := vertices_include H fuel (6 :: p) tr3 (ho H (7 :: p) _ (t_vertices t)) cons3
                          (Some (t_boundary t)) (t_holes t) in
    Ok (with_triangulation t tr4).
End Triangulator.

Arguments triangulator A : clear implicits.
