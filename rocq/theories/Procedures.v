(** Procedures.v — model of src/planar/triangulation_procedures/*.rs: insertion
    of vertices, boundary, holes and segments into a triangulation. *)

From Coq Require Import List Bool Arith.
From Verif Require Import Base Arith Geometry Elements Polyline.
Import ListNotations.

Section Procedures.
  Context {A : Arith} (H : HashOrder).
  Notation F := (T A).
  Notation vertex := (vertex A).
  Notation edge := (edge A).
  Notation triangle := (triangle A).
  Notation triangulation := (triangulation A).
  Notation polyline := (polyline A).

  (** HashMap<Rc<Triangle>, Vec<Rc<Vertex>>> *)
  Definition conflict_map : Type := list (triangle * list vertex).

  (** ** vertices.rs *)

  (** src/planar/triangulation_procedures/vertices.rs:273-284 *)
  Definition may_insert_line (t : triangle) (v : vertex) : res polyline :=
    if is_ghost t then unwrap (new_closed [tv1 t; tv2 t; v])
    else unwrap (new_opened [tri_center t; v]).

  (** src/planar/triangulation_procedures/vertices.rs:289-295 *)
  Definition inside_boundary (fuel : nat) (boundary : option polyline) (p2 : polyline) : res bool :=
    match boundary with
    | None => Ok true
    | Some b =>
        let! o := poly_continence fuel b p2 in
        Ok (match o with Some (c, _) => negb (cont_eqb c Outside) | None => false end)
    end.

  (** src/planar/triangulation_procedures/vertices.rs:297-303: the flag is
      overwritten in each round, as in the source. *)
  Definition outside_holes (fuel : nat) (p : path) (holes : list polyline) (p2 : polyline) : res bool :=
    foldM (fun _ hole =>
      let! o := poly_continence fuel hole p2 in
      Ok (match o with Some (c, _) => negb (cont_eqb c Inside) | None => false end))
      true (ho H p _ holes).

  (** src/planar/triangulation_procedures/vertices.rs:267-306 *)
  Definition may_insert_triangle (fuel : nat) (p : path) (t : triangle) (v : vertex)
    (boundary : option polyline) (holes : list polyline) : res bool :=
    let! p2 := may_insert_line t v in
    let! i := inside_boundary fuel boundary p2 in
    let! o := outside_holes fuel p holes p2 in
    Ok (i && o).

  (** src/planar/triangulation_procedures/vertices.rs:204-216: splits the pending
      vertices into those put in conflict with [t] and the others, both in their
      original order ([remove(0)] / [push] cycles through the whole Vec once). *)
  Fixpoint split_conflicts (fuel : nat) (p : path) (t : triangle) (vs : list vertex)
    (boundary : option polyline) (holes : list polyline) : res (list vertex * list vertex) :=
    match vs with
    | [] => Ok ([], [])
    | v :: vs' =>
        let! may := may_insert_triangle fuel (1 :: p) t v boundary holes in
        let! (conf, rest) := split_conflicts fuel (0 :: p) t vs' boundary holes in
        Ok (if cont_eqb (encircles t v) Inside && may then (v :: conf, rest) else (conf, v :: rest))
    end.

  (** src/planar/triangulation_procedures/vertices.rs:217-225 *)
  Definition add_conflicts (t : triangle) (conf : list vertex) (cm : conflict_map) : conflict_map :=
    match conf with
    | [] => cm
    | _ => match mget tdec t cm with
           | Some old => mset tdec t (old ++ conf) cm
           | None => mset tdec t conf cm
           end
    end.

  (** src/planar/triangulation_procedures/vertices.rs:195-226 *)
  Definition distribute_conflicts (fuel : nat) (p : path) (t : triangle) (cm : conflict_map)
    (vs : list vertex) (boundary : option polyline) (holes : list polyline)
    : res (conflict_map * list vertex) :=
    let! (conf, rest) := split_conflicts fuel p t vs boundary holes in
    Ok (add_conflicts t conf cm, rest).

  (** The mutable state of [solve_conflicts]. *)
  Record solve_state : Type := SS {
    ss_tr : triangulation;
    ss_cm : conflict_map;
    ss_rem : list vertex;        (* remaining_vertices *)
    ss_inc : list triangle;      (* included_triangles *)
    ss_del : list triangle       (* removed_triangles *)
  }.

  (** src/planar/triangulation_procedures/vertices.rs:112-117 *)
  Definition is_conflicting (t : triangle) (v : vertex) : bool :=
    cont_eqb (encircles t v) Inside || (is_ghost t && edge_contains (tv1 t, tv2 t) v).

  (** src/planar/triangulation_procedures/vertices.rs:125-126 *)
  Definition is_constrained (constraints : list edge) (e : edge) : bool :=
    hmem edec (opposite e) constraints || hmem edec e constraints.

  (** src/planar/triangulation_procedures/vertices.rs:153-162: the pushes, top of
      the stack first. *)
  Definition next_cavities (t : triangle) (e_out : edge) (pending : list edge) : list edge :=
    if eeqb e_out (te1 t) then te3 t :: te2 t :: pending
    else if eeqb e_out (te2 t) then te3 t :: te1 t :: pending
    else te2 t :: te1 t :: pending.

  (** src/planar/triangulation_procedures/vertices.rs:165-172 *)
  Definition new_triangle (e : edge) (v : vertex) : triangle :=
    if vghost (ev1 e) then Tri (ev2 e) v (ev1 e)
    else if vghost (ev2 e) then Tri v (ev1 e) (ev2 e)
    else Tri (ev1 e) (ev2 e) v.

  (** src/planar/triangulation_procedures/vertices.rs:101-184, the inner loop;
      [pending] is the stack, top first. *)
  Fixpoint cavity_loop (fuel : nat) (p : path) (constraints : list edge)
    (boundary : option polyline) (holes : list polyline) (v : vertex)
    (pending : list edge) (s : solve_state) : res solve_state :=
    match fuel with
    | O => NoFuel
    | S fuel' =>
        match pending with
        | [] => Ok s
        | e :: pending' =>
            let e_out := opposite e in
            let! outer := unwrap (adj_get e_out (ss_tr s)) in
            let! may := may_insert_triangle fuel' (1 :: p) outer v boundary holes in
            if is_conflicting outer v && negb (is_constrained constraints e) && may then
              let rem' := match mget tdec outer (ss_cm s) with
                          | Some vs => ss_rem s ++ vs
                          | None => ss_rem s
                          end in
              cavity_loop fuel' (0 :: p) constraints boundary holes v
                (next_cavities outer e_out pending')
                (SS (rem_tri outer (ss_tr s)) (mdel tdec outer (ss_cm s)) rem'
                    (ss_inc s) (hadd tdec outer (ss_del s)))
            else
              let t := new_triangle e v in
              let! (cm', rem') := distribute_conflicts fuel' (2 :: p) t (ss_cm s) (ss_rem s) boundary holes in
              cavity_loop fuel' (0 :: p) constraints boundary holes v pending'
                (SS (incl_tri t (ss_tr s)) cm' rem' (hadd tdec t (ss_inc s)) (ss_del s))
        end
    end.

  (** src/planar/triangulation_procedures/vertices.rs:65-185, the outer loop.
      [conflicting_vertices.pop()] takes the last one. *)
  Fixpoint solve_loop (fuel : nat) (p : path) (constraints : list edge)
    (boundary : option polyline) (holes : list polyline) (s : solve_state) : res solve_state :=
    match fuel with
    | O => NoFuel
    | S fuel' =>
        match ho H (1 :: p) _ (map fst (ss_cm s)) with
        | [] => Ok s
        | t :: _ =>
            let! vs := unwrap (mget tdec t (ss_cm s)) in
            let! v := unwrap (hd_error (rev vs)) in
            let! s' := cavity_loop fuel' (2 :: p) constraints boundary holes v
                [te3 t; te2 t; te1 t]
                (SS (rem_tri t (ss_tr s)) (mdel tdec t (ss_cm s)) (ss_rem s ++ removelast vs)
                    (ss_inc s) (hadd tdec t (ss_del s))) in
            solve_loop fuel' (0 :: p) constraints boundary holes s'
        end
    end.

  (** src/planar/triangulation_procedures/vertices.rs:54-188.  Returns the new
      triangulation and the included and removed triangles; the caller's
      [conflict_map] ends up empty and the leftover [remaining_vertices] are
      returned too (callers drop them). *)
  Definition solve_conflicts (fuel : nat) (p : path) (tr : triangulation) (cm : conflict_map)
    (rem : list vertex) (constraints : list edge) (boundary : option polyline)
    (holes : list polyline) : res solve_state :=
    solve_loop fuel p constraints boundary holes (SS tr cm rem [] []).

  (** src/planar/triangulation_procedures/vertices.rs:26-37 *)
  Fixpoint distribute_all (fuel : nat) (p : path) (ts : list triangle) (cm : conflict_map)
    (vs : list vertex) (boundary : option polyline) (holes : list polyline)
    : res (conflict_map * list vertex) :=
    match ts with
    | [] => Ok (cm, vs)
    | t :: ts' =>
        match vs with
        | [] => Ok (cm, vs)
        | _ =>
            let! (cm', vs') := distribute_conflicts fuel (1 :: p) t cm vs boundary holes in
            distribute_all fuel (0 :: p) ts' cm' vs' boundary holes
        end
    end.

  (** src/planar/triangulation_procedures/vertices.rs:11-47, [vertices::include]:
      new triangulation, included triangles, removed triangles. *)
  Definition vertices_include (fuel : nat) (p : path) (tr : triangulation) (vs : list vertex)
    (constraints : list edge) (boundary : option polyline) (holes : list polyline)
    : res (triangulation * list triangle * list triangle) :=
    let existing := trn_vertices tr in
    let vs' := filter (fun v => negb (hmem vdec v existing)) vs in
    let! (cm, rem) := distribute_all fuel (2 :: p) (ho H (1 :: p) _ (tris tr)) [] vs' boundary holes in
    let! s := solve_conflicts fuel (3 :: p) tr cm rem constraints boundary holes in
    Ok (ss_tr s, ss_inc s, ss_del s).

  (** src/planar/triangulation_procedures/vertices.rs:251-258: neighbours of one
      triangle, pushed on the stack (top first). *)
  Fixpoint visit_neighbours (tr : triangulation) (es : list edge)
    (visited pending : list triangle) : list triangle * list triangle :=
    match es with
    | [] => (visited, pending)
    | e :: es' =>
        match adj_get e tr with
        | Some t =>
            if negb (hmem tdec t visited) && negb (is_ghost t)
            then visit_neighbours tr es' (hadd tdec t visited) (t :: pending)
            else visit_neighbours tr es' visited pending
        | None => visit_neighbours tr es' visited pending
        end
    end.

  (** src/planar/triangulation_procedures/vertices.rs:248-261 *)
  Fixpoint flood_distribute (fuel : nat) (p : path) (tr : triangulation)
    (visited pending : list triangle) (cm : conflict_map) (vs : list vertex)
    (boundary : option polyline) (holes : list polyline) : res (conflict_map * list vertex) :=
    match fuel with
    | O => NoFuel
    | S fuel' =>
        match pending, vs with
        | [], _ => Ok (cm, vs)
        | _, [] => Ok (cm, vs)
        | t :: pending', _ =>
            let '(visited', pending'') := visit_neighbours tr (outer_edges t) visited pending' in
            let! (cm', vs') := distribute_conflicts fuel' (1 :: p) t cm vs boundary holes in
            flood_distribute fuel' (0 :: p) tr visited' pending'' cm' vs' boundary holes
        end
    end.

  (** src/planar/triangulation_procedures/vertices.rs:228-262.  Only ever called
      with [Some(initial_triangle)]. *)
  Definition distribute_over_triangulation (fuel : nat) (p : path) (tr : triangulation)
    (initial : triangle) (vs : list vertex)
    (boundary : option polyline) (holes : list polyline) : res (conflict_map * list vertex) :=
    flood_distribute fuel p tr [initial] [initial] [] vs boundary holes.

  (** ** boundary.rs and hole.rs *)

  (** src/planar/triangulation_procedures/boundary.rs:62-71 (= 83-92, hole.rs:79-88):
      pushes of the opposites of the edges that are not frontier segments. *)
  Definition push_opposites (frontier : list edge) (t : triangle) (pending : list edge) : list edge :=
    fold_left (fun st e => if hmem edec e frontier then st else opposite e :: st)
      (inner_edges t) pending.

  (** src/planar/triangulation_procedures/boundary.rs:55-73 *)
  Fixpoint remove_behind (frontier es : list edge) (tr : triangulation) (pending : list edge)
    : triangulation * list edge :=
    match es with
    | [] => (tr, pending)
    | e :: es' =>
        match adj_get e tr with
        | Some t => remove_behind frontier es' (rem_tri t tr) (push_opposites frontier t pending)
        | None => remove_behind frontier es' tr pending
        end
    end.

  (** src/planar/triangulation_procedures/boundary.rs:75-94 (with [frontier] the
      boundary segments) and hole.rs:98-110 (with [frontier = []]): flood fill. *)
  Fixpoint flood_fill (fuel : nat) (frontier pending : list edge) (tr : triangulation)
    : res triangulation :=
    match fuel with
    | O => NoFuel
    | S fuel' =>
        match pending with
        | [] => Ok tr
        | e :: pending' =>
            match adj_get e tr with
            | Some t => flood_fill fuel' frontier (push_opposites frontier t pending') (rem_tri t tr)
            | None => flood_fill fuel' frontier pending' tr
            end
        end
    end.

  (** src/planar/triangulation_procedures/boundary.rs:96-103 *)
  Definition ghost_on (e : edge) : triangle := Tri (ev1 e) (ev2 e) ghost_vertex.
  Definition include_ghosts (es : list edge) (tr : triangulation) : triangulation :=
    fold_left (fun tr e => incl_tri (ghost_on e) tr) es tr.

  (** src/planar/triangulation_procedures/boundary.rs:14-104, [boundary::include]. *)
  Definition boundary_include (fuel : nat) (p : path) (tr : triangulation) (boundary : polyline)
    (constraints : list edge) : res triangulation :=
    let! es := into_edges boundary in
    let segs := hset edec (map opposite es) in
    let! (tr1, _, _) := vertices_include fuel (1 :: p) tr (pverts boundary) constraints None [] in
    let '(tr2, pending) := remove_behind segs (ho H (2 :: p) _ segs) tr1 [] in
    let! tr3 := flood_fill fuel segs pending tr2 in
    Ok (include_ghosts (ho H (3 :: p) _ segs) tr3).

  (** ** segment.rs *)

  (** src/planar/triangulation_procedures/segment.rs:26-37 *)
  Definition conflicts_segment (fuel : nat) (seg : edge) (t : triangle) : res bool :=
    let! o1 := tri_as_polyline t in
    let! pl := unwrap o1 in
    let! o2 := edge_as_polyline seg in
    let! sp := unwrap o2 in
    let! c := poly_continence fuel pl sp in
    let contains_segment := negb (continence_is c Outside Open) in
    let conflicts_v1 := negb (cont_eqb (encircles t (ev1 seg)) Outside) in
    let conflicts_v2 := negb (cont_eqb (encircles t (ev2 seg)) Outside) in
    Ok (conflicts_v1 || conflicts_v2 || contains_segment).

  (** src/planar/triangulation_procedures/segment.rs:38-58 *)
  Definition segment_screened (constraints : list edge) (seg : edge) (t : triangle) : bool :=
    existsb (fun e =>
      orient_eqb (orientation (ev1 e) (ev2 e) (ev1 seg)) CCW
      || orient_eqb (orientation (ev1 e) (ev2 e) (ev2 seg)) CCW)
      (filter (fun e => hmem edec e constraints || hmem edec (opposite e) constraints)
        (outer_edges t)).

  (** src/planar/triangulation_procedures/segment.rs:22-60 *)
  Definition segment_conflicts (fuel : nat) (tr : triangulation) (seg : edge)
    (constraints : list edge) : res (list triangle) :=
    let! ts := filterM (conflicts_segment fuel seg) (filter (fun t => negb (is_ghost t)) (tris tr)) in
    Ok (filter (fun t => negb (segment_screened constraints seg t)) ts).

  (** src/planar/triangulation_procedures/segment.rs:17-126, [segment::include].
      The loops of lines 72-74 and 123-125 run in hash order. *)
  Definition segment_include (fuel : nat) (p : path) (tr : triangulation) (seg : edge)
    (constraints : list edge) : res triangulation :=
    let! conflicting := segment_conflicts fuel tr seg constraints in
    let tr1 := fold_left (fun tr t => rem_tri t tr) (ho H (1 :: p) _ conflicting) tr in
    let! oh := triangles_hull H fuel (2 :: p) conflicting in
    let! hull := unwrap oh in
    let cvs := ho H (3 :: p) _ (hset vdec (flat_map tverts conflicting)) in
    let st0 := from_initial_segment (ev1 seg) (ev2 seg) in
    let! st1 := boundary_include fuel (4 :: p) st0 hull [seg] in
    let! (st2, _, _) := vertices_include fuel (5 :: p) st1 cvs [seg] (Some hull) [] in
    let solid := filter (fun t => negb (is_ghost t)) (tris st2) in
    Ok (fold_left (fun tr t => incl_tri t tr) (ho H (6 :: p) _ solid) tr1).

  (** src/planar/triangulation_procedures/hole.rs:51-66: insertion of the missing
      hole segments. *)
  Fixpoint insert_missing (fuel : nat) (p : path) (segs constraints : list edge) (tr : triangulation)
    : res triangulation :=
    match fuel with
    | O => NoFuel
    | S fuel' =>
        let existing := trn_edges tr in
        match find (fun e => negb (hmem edec e existing)) (ho H (1 :: p) _ segs) with
        | None => Ok tr
        | Some e =>
            let! tr' := segment_include fuel' (2 :: p) tr e constraints in
            insert_missing fuel' (0 :: p) segs constraints tr'
        end
    end.

  (** src/planar/triangulation_procedures/hole.rs:72-96 *)
  Fixpoint open_hole (frontier es : list edge) (tr : triangulation) (pending : list edge)
    : triangulation * list edge :=
    match es with
    | [] => (tr, pending)
    | e :: es' =>
        match adj_get e tr with
        | Some t =>
            open_hole frontier es' (incl_tri (ghost_on e) (rem_tri t tr)) (push_opposites frontier t pending)
        | None => open_hole frontier es' (incl_tri (ghost_on e) tr) pending
        end
    end.

  (** src/planar/triangulation_procedures/hole.rs:11-111, [hole::include]. *)
  Definition hole_include (fuel : nat) (p : path) (tr : triangulation) (hole : polyline)
    (constraints : list edge) : res triangulation :=
    let! es := into_edges hole in
    let segs := hset edec es in
    let! (tr1, _, _) := vertices_include fuel (1 :: p) tr (pverts hole) constraints None [] in
    let constraints' := hset edec (constraints ++ segs) in
    let! tr2 := insert_missing fuel (2 :: p) segs constraints' tr1 in
    let '(tr3, pending) := open_hole segs (ho H (3 :: p) _ segs) tr2 [] in
    flood_fill fuel [] pending tr3.
End Procedures.
