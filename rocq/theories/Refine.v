(** Refine.v — model of src/planar/refine_procedures/*.rs. *)

From Coq Require Import List Bool Arith.
From Verif Require Import Base Arith Geometry Elements Polyline Procedures.
Import ListNotations.
Local Open Scope f64_scope.

Section Refine.
  Context {A : Arith} (H : HashOrder).
  Notation F := (T A).
  Notation vertex := (vertex A).
  Notation edge := (edge A).
  Notation triangle := (triangle A).
  Notation triangulation := (triangulation A).
  Notation polyline := (polyline A).

  (** ** encroachment.rs *)

  (** src/planar/refine_procedures/encroachment.rs:181-211.  The halves, the new
      triangulation, the included and the removed triangles. *)
  Definition split_segment (fuel : nat) (p : path) (tr : triangulation) (seg : edge)
    (constraints : list edge) (boundary : option polyline) (holes : list polyline)
    : res (edge * edge * (triangulation * list triangle * list triangle)) :=
    let constraints' :=
      filter (fun e => negb (eeqb e seg) && negb (eeqb e (opposite seg))) constraints in
    let m := edge_midpoint seg in
    let! r := vertices_include H fuel p tr [m] constraints' boundary holes in
    Ok ((ev1 seg, m), (m, ev2 seg), r).

  (** src/planar/refine_procedures/encroachment.rs:163-173.  The map has one entry
      per encroached segment ([segments] is a set). *)
  Definition distribute_encroachments (segments : list edge) (vs : list vertex)
    (m : list (edge * list vertex)) : list (edge * list vertex) :=
    fold_left (fun m e =>
      match filter (fun v => cont_eqb (edge_encroach e v) Inside) vs with
      | [] => m
      | enc => mset edec e enc m
      end) segments m.

  (** src/planar/refine_procedures/encroachment.rs:91-149.  [vs] is the set of
      encroaching vertices (an in/out parameter), [pending] the stack, top first. *)
  Fixpoint unencroach_loop (fuel : nat) (p : path) (constraints : list edge)
    (boundary : option polyline) (holes : list polyline)
    (pending : list edge) (tr : triangulation) (vs : list vertex)
    (new_edges : list edge) (inc del : list triangle)
    : res (triangulation * list vertex * list edge * list triangle * list triangle) :=
    match fuel with
    | O => NoFuel
    | S fuel' =>
        match pending with
        | [] => Ok (tr, vs, new_edges, inc, del)
        | e :: pending' =>
            let! (h1, h2, (tr', new_ts, old_ts)) :=
              split_segment fuel' (1 :: p) tr e constraints boundary holes in
            let inc' := hset tdec (filter (fun t => negb (hmem tdec t old_ts)) (inc ++ new_ts)) in
            let del' := hset tdec (del ++ old_ts) in
            let enc1 v := cont_eqb (edge_encroach h1 v) Inside in
            let enc2 v := cont_eqb (edge_encroach h2 v) Inside in
            let vs' := filter (fun v => enc1 v || enc2 v) vs in
            let b1 := existsb enc1 vs in
            let b2 := existsb enc2 vs in
            let pending1 := if b1 then h1 :: pending' else pending' in
            let new1 := if b1 then new_edges else hadd edec h1 new_edges in
            let pending2 := if b2 then h2 :: pending1 else pending1 in
            let new2 := if b2 then new1 else hadd edec h2 new1 in
            unencroach_loop fuel' (0 :: p) constraints boundary holes pending2 tr' vs' new2 inc' del'
        end
    end.

  (** src/planar/refine_procedures/encroachment.rs:71-152 *)
  Definition unencroach_segment (fuel : nat) (p : path) (tr : triangulation) (e : edge)
    (vs : list vertex) (constraints : list edge) (boundary : option polyline) (holes : list polyline)
    : res (triangulation * list vertex * list edge * list triangle * list triangle) :=
    unencroach_loop fuel p constraints boundary holes [e] tr vs [] [] [].

  (** src/planar/refine_procedures/encroachment.rs:33-62 (the filter of line 53 is
      as in the source: it keeps the triangles that are in [old_triangles]). *)
  Fixpoint unencroach_all (fuel : nat) (p : path) (constraints : list edge)
    (boundary : option polyline) (holes : list polyline)
    (em : list (edge * list vertex)) (tr : triangulation) (sm : list (edge * edge))
    (inc del : list triangle)
    : res (triangulation * list (edge * edge) * list triangle * list triangle) :=
    match fuel with
    | O => NoFuel
    | S fuel' =>
        match ho H (1 :: p) _ (map fst em) with
        | [] => Ok (tr, sm, inc, del)
        | e :: _ =>
            let! vs := unwrap (mget edec e em) in
            let! (tr', _, new_edges, new_ts, old_ts) :=
              unencroach_segment fuel' (2 :: p) tr e vs constraints boundary holes in
            let sm' := fold_left (fun m s => mset edec s e m) new_edges sm in
            let inc' := hset tdec (filter (fun t => hmem tdec t old_ts) (inc ++ new_ts)) in
            let del' := hset tdec (del ++ old_ts) in
            unencroach_all fuel' (0 :: p) constraints boundary holes (mdel edec e em) tr' sm' inc' del'
        end
    end.

  (** src/planar/refine_procedures/encroachment.rs:11-65 *)
  Definition unencroach (fuel : nat) (p : path) (tr : triangulation) (constraints : list edge)
    (boundary : option polyline) (holes : list polyline)
    : res (triangulation * list (edge * edge) * list triangle * list triangle) :=
    let em := distribute_encroachments constraints (trn_vertices tr) [] in
    unencroach_all fuel p constraints boundary holes em tr [] [] [].

  (** ** triangle_split.rs *)

  (** src/planar/refine_params.rs *)
  Record refine_params : Type := RP { max_area : option F; quality_ratio : F }.

  (** src/planar/refine_procedures/triangle_split.rs:15-25 *)
  Definition is_irregular (prm : refine_params) (t : triangle) : res bool :=
    let! q := unwrap (quality t) in
    Ok (aeq q (quality_ratio prm) || (q >=? quality_ratio prm)).

  (** src/planar/refine_procedures/triangle_split.rs:30-41 *)
  Definition is_large (prm : refine_params) (t : triangle) : res bool :=
    let! a := unwrap (tri_area t) in
    Ok (match max_area prm with
        | Some m => aeq a m || (a >=? m)
        | None => false
        end).

  (** src/planar/refine_procedures/triangle_split.rs:181-229.  [inl] is [Ok],
      [inr] is [Err]. *)
  Definition try_circumcenter (fuel : nat) (p : path) (tr : triangulation) (t : triangle)
    (constraints : list edge) (boundary : option polyline) (holes : list polyline)
    : res (triangulation * (list triangle * list triangle + list edge)) :=
    let! cc := unwrap (tri_circumcenter t) in
    let! (cm, _) := distribute_over_triangulation H fuel (1 :: p) tr t [cc] boundary holes in
    let! s := solve_conflicts H fuel (2 :: p) tr cm [] constraints boundary holes in
    let! opp := foldM (fun acc t' => let! e := unwrap (opposite_edge t' cc) in Ok (acc ++ [e]))
                  [] (ss_inc s) in
    let enc := hset edec (filter (fun e =>
                 (hmem edec e constraints || hmem edec (opposite e) constraints)
                 && cont_eqb (edge_encroach e cc) Inside) opp) in
    match enc with
    | [] => Ok (ss_tr s, inl (ss_inc s, ss_del s))
    | _ =>
        let tr1 := fold_left (fun tr t => rem_tri t tr) (ho H (3 :: p) _ (ss_inc s)) (ss_tr s) in
        let tr2 := fold_left (fun tr t => incl_tri t tr) (ho H (4 :: p) _ (ss_del s)) tr1 in
        Ok (tr2, inr enc)
    end.

  (** src/planar/refine_procedures/triangle_split.rs:113-122 (= 152-161) *)
  Definition enqueue (prm : refine_params) (q : list triangle * list triangle) (t : triangle)
    : res (list triangle * list triangle) :=
    let '(irr, lrg) := q in
    if is_ghost t then Ok q
    else
      let! i := is_irregular prm t in
      if i then Ok (hadd tdec t irr, lrg)
      else
        let! l := is_large prm t in
        if l then Ok (irr, hadd tdec t lrg) else Ok q.

  (** src/planar/refine_procedures/triangle_split.rs:113-126 (= 152-165) *)
  Definition update_queues (prm : refine_params) (q : list triangle * list triangle)
    (inc del : list triangle) : res (list triangle * list triangle) :=
    let! (irr, lrg) := foldM (enqueue prm) q inc in
    Ok (fold_left (fun s t => hdel tdec t s) del irr, fold_left (fun s t => hdel tdec t s) del lrg).

  (** src/planar/refine_procedures/triangle_split.rs:134-166, one encroached edge.
      State: triangulation, circumcenter set, constraints, split map, queues. *)
  Definition split_encroached (fuel : nat) (prm : refine_params)
    (boundary : option polyline) (holes : list polyline)
    : path -> edge ->
      triangulation * list vertex * list edge * list (edge * edge) * (list triangle * list triangle) ->
      res (triangulation * list vertex * list edge * list (edge * edge) * (list triangle * list triangle)) :=
    fun p e '(tr, vs, cstr, sm, q) =>
      let! (tr', vs', new_edges, inc, del) :=
        unencroach_segment fuel p tr e vs cstr boundary holes in
      let cstr' := fold_left (fun c s => hadd edec s c) new_edges (hdel edec e cstr) in
      let sm' := fold_left (fun m s => mset edec s e m) new_edges (mdel edec e sm) in
      let! q' := update_queues prm q inc del in
      Ok (tr', vs', cstr', sm', q').

  Fixpoint split_encroached_all (fuel : nat) (p : path) (prm : refine_params)
    (boundary : option polyline) (holes : list polyline) (es : list edge)
    (st : triangulation * list vertex * list edge * list (edge * edge) * (list triangle * list triangle))
    : res (triangulation * list vertex * list edge * list (edge * edge) * (list triangle * list triangle)) :=
    match es with
    | [] => Ok st
    | e :: es' =>
        let! st' := split_encroached fuel prm boundary holes (1 :: p) e st in
        split_encroached_all fuel (0 :: p) prm boundary holes es' st'
    end.

  (** src/planar/refine_procedures/triangle_split.rs:80-169 *)
  Fixpoint split_loop_irregular (fuel : nat) (p : path) (prm : refine_params)
    (boundary : option polyline) (holes : list polyline)
    (tr : triangulation) (cstr : list edge) (sm : list (edge * edge))
    (irr lrg : list triangle) : res (triangulation * list edge * list (edge * edge)) :=
    match fuel with
    | O => NoFuel
    | S fuel' =>
        let next :=
          match ho H (1 :: p) _ irr with
          | t :: _ => Some (t, hdel tdec t irr, lrg)
          | [] => match ho H (2 :: p) _ lrg with
                  | t :: _ => Some (t, irr, hdel tdec t lrg)
                  | [] => None
                  end
          end in
        match next with
        | None => Ok (tr, cstr, sm)
        | Some (t, irr', lrg') =>
            let! (tr', r) := try_circumcenter fuel' (3 :: p) tr t cstr boundary holes in
            match r with
            | inl (inc, del) =>
                let! (irr'', lrg'') := update_queues prm (irr', lrg') inc del in
                split_loop_irregular fuel' (0 :: p) prm boundary holes tr' cstr sm irr'' lrg''
            | inr enc =>
                let! cc := unwrap (tri_circumcenter t) in
                let! (tr'', _, cstr', sm', (irr'', lrg'')) :=
                  split_encroached_all fuel' (4 :: p) prm boundary holes (ho H (5 :: p) _ enc)
                    (tr', [cc], cstr, sm, (irr', lrg')) in
                split_loop_irregular fuel' (0 :: p) prm boundary holes tr'' cstr' sm' irr'' lrg''
            end
        end
    end.

  (** src/planar/refine_procedures/triangle_split.rs:49-171.  The set of critical
      triangles (58-64) is only the union of the two queues.  The final local
      constraint set is returned as well (the crate drops it). *)
  Definition split_irregular (fuel : nat) (p : path) (prm : refine_params) (tr : triangulation)
    (constraints : list edge) (boundary : option polyline) (holes : list polyline)
    : res (triangulation * list edge * list (edge * edge)) :=
    let solid := filter (fun t => negb (is_ghost t)) (tris tr) in
    let! irr := filterM (is_irregular prm) solid in
    let! lrg := filterM (is_large prm) solid in
    split_loop_irregular fuel p prm boundary holes tr constraints [] irr lrg.
End Refine.

Arguments refine_params A : clear implicits.
