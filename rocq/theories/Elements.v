(** Elements.v — model of src/elements/edge.rs, src/elements/triangle.rs and
    src/planar/triangulation.rs. *)

From Coq Require Import List Bool Arith.
From Verif Require Import Base Arith Geometry.
Import ListNotations.
Local Open Scope f64_scope.

Section Elements.
  Context {A : Arith} (H : HashOrder).
  Notation F := (T A).
  Notation vertex := (vertex A).

  (** ** edge.rs *)

  (** src/elements/edge.rs:16-20.  [Edge] and the tuple [(Rc<Vertex>, Rc<Vertex>)]
      have the same fields, the same equality and the same hash input, so one
      type stands for both. *)
  Definition edge : Type := (vertex * vertex)%type.
  Definition ev1 (e : edge) : vertex := fst e.
  Definition ev2 (e : edge) : vertex := snd e.

  (** Hash key identity of edges (derived [Hash], src/elements/edge.rs:16). *)
  Definition edec (a b : edge) : {a = b} + {a <> b}.
  Proof. decide equality; apply vdec. Defined.

  (** src/elements/edge.rs:22-27, [==] on edges: oriented. *)
  Definition eeqb (a b : edge) : bool := veqb (ev1 a) (ev1 b) && veqb (ev2 a) (ev2 b).

  (** src/elements/edge.rs:45-50 *)
  Definition opposite (e : edge) : edge := (ev2 e, ev1 e).

  (** src/elements/edge.rs:52-54 *)
  Definition edge_length (e : edge) : F := distance (ev1 e) (ev2 e).

  (** src/elements/edge.rs:56-58 *)
  Definition edge_encroach (e : edge) (v : vertex) : cont := encroach (ev1 e) (ev2 e) v.

  (** src/elements/edge.rs:60-70 *)
  Definition edge_midpoint (e : edge) : vertex :=
    mkv ((vx (ev1 e) + vx (ev2 e)) / c2) ((vy (ev1 e) + vy (ev2 e)) / c2).

  (** src/elements/edge.rs:93-107, [Edge::from_vertices]: consecutive vertices,
      the last one wraps around to the first. *)
  Fixpoint edges_wrap (first : vertex) (l : list vertex) : list edge :=
    match l with
    | [] => []
    | [v] => [(v, first)]
    | v :: ((w :: _) as l') => (v, w) :: edges_wrap first l'
    end.
  Definition edges_from_vertices (l : list vertex) : list edge :=
    match l with
    | [] => []
    | v :: _ => edges_wrap v l
    end.

  (** src/elements/edge.rs:72-91, [Edge::from_coordinates]. *)
  Definition edges_from_coordinates (l : list F) : res (list edge) :=
    if Nat.even (length l) then
      let! vs := vertices_from_coordinates l in Ok (edges_from_vertices vs)
    else Panic.

  (** src/elements/edge.rs:109-121, [into_vertex_pairs]/[from_vertex_pairs] are
      the identity in this representation. *)

  (** src/elements/edge.rs:123-136, [Edge::contains]; the bounding box of two
      vertices always exists. *)
  Definition edge_contains (e : edge) (v : vertex) : bool :=
    match bbox_from_vertices [ev1 e; ev2 e] with
    | None => false
    | Some b =>
        if negb (bbox_contains b v) then false
        else orient_eqb (orientation (ev1 e) (ev2 e) v) Colinear
    end.

  (** *** Edge::arrange *)

  (** A multimap vertex -> set of vertices (HashMap<_, RefCell<HashSet<_>>>). *)
  Definition vmap : Type := list (vertex * list vertex).

  (** src/elements/edge.rs:316-325 and 326-335. *)
  Definition vmap_insert (k v : vertex) (m : vmap) : vmap :=
    match mget vdec k m with
    | Some s => mset vdec k (hadd vdec v s) m
    | None => mset vdec k [v] m
    end.

  (** src/elements/edge.rs:301-339, [Edge::into_hashmap]. *)
  Definition into_hashmap (p : path) (base : list edge) : vmap * vmap :=
    fold_left (fun '(ht, th) e =>
      (vmap_insert (ev1 e) (ev2 e) ht, vmap_insert (ev2 e) (ev1 e) th))
      (ho H (0 :: p) _ base) ([], []).

  (** src/elements/edge.rs:147-151 and 154-158: removes [v] from the set of [k],
      dropping the entry when the set becomes empty. *)
  Definition vmap_remove (k v : vertex) (m : vmap) : res vmap :=
    let! s := unwrap (mget vdec k m) in
    let s' := hdel vdec v s in
    Ok (match s' with [] => mdel vdec k m | _ => mset vdec k s' m end).

  (** src/elements/edge.rs:142-159, [remove_edge]. *)
  Definition remove_edge (ht th : vmap) (head tail : vertex) : res (vmap * vmap) :=
    let! ht' := vmap_remove head tail ht in
    let! th' := vmap_remove tail head th in
    Ok (ht', th').

  (** src/elements/edge.rs:187-193 / 221-225: first candidate that continues the
      segment [a -> b] straight on. *)
  Definition straight (a b : vertex) (c : vertex) : bool :=
    orient_eqb (orientation a b c) Colinear && (dot a b b c >? c0).

  (** src/elements/edge.rs:175-247, the extension loop; returns the extended
      segment and the maps. *)
  Fixpoint arrange_extend (fuel : nat) (p : path) (ht th : vmap) (head tail : vertex)
    : res (edge * (vmap * vmap)) :=
    match fuel with
    | O => NoFuel
    | S fuel' =>
        let tails := match mget vdec tail ht with Some s => ho H (1 :: p) _ s | None => [] end in
        match find (straight head tail) tails with
        | Some t =>
            let! (ht', th') := remove_edge ht th tail t in
            arrange_extend fuel' (0 :: p) ht' th' head t
        | None =>
            let heads := match mget vdec head th with Some s => ho H (2 :: p) _ s | None => [] end in
            match find (straight tail head) heads with
            | Some h =>
                let! (th', ht') := remove_edge th ht head h in
                arrange_extend fuel' (0 :: p) ht' th' h tail
            | None => Ok ((head, tail), (ht, th))
            end
        end
    end.

  (** src/elements/edge.rs:163-248, the outer loop. *)
  Fixpoint arrange_loop (fuel : nat) (p : path) (ht th : vmap) (acc : list edge)
    : res (list edge) :=
    match fuel with
    | O => NoFuel
    | S fuel' =>
        match ho H (1 :: p) _ ht with
        | [] => Ok acc
        | (head, tails) :: _ =>
            let! tail := unwrap (hd_error (ho H (2 :: p) _ tails)) in
            let! (ht1, th1) := remove_edge ht th head tail in
            let! (e, (ht2, th2)) := arrange_extend fuel' (3 :: p) ht1 th1 head tail in
            arrange_loop fuel' (0 :: p) ht2 th2 (hadd edec e acc)
        end
    end.

  (** src/elements/edge.rs:141-251, [Edge::arrange]. *)
  Definition edge_arrange (fuel : nat) (p : path) (edges : list edge) : res (list edge) :=
    let '(ht, th) := into_hashmap (0 :: p) edges in
    arrange_loop fuel (1 :: p) ht th [].

  (** *** Edge::decompose *)

  (** src/elements/edge.rs:262-275, the filter. *)
  Definition decompose_filter (e : edge) (pe : edge) : bool :=
    match intersection (ev1 pe) (ev2 pe) (ev1 e) (ev2 e) with
    | None => false
    | Some _ =>
        if parallel (ev1 pe) (ev2 pe) (ev1 e) (ev2 e)
        then dot (ev1 pe) (ev2 pe) (ev1 e) (ev2 e) >? c0
        else false
    end.

  (** src/elements/edge.rs:285-295, the walk. *)
  Fixpoint decompose_walk (fuel : nat) (m : list (vertex * vertex)) (tail last : vertex)
    (acc : list edge) : res (option (list edge)) :=
    match fuel with
    | O => NoFuel
    | S fuel' =>
        if veqb last tail then Ok (Some acc)
        else match mget vdec last m with
             | Some t => decompose_walk fuel' m tail t (acc ++ [(last, t)])
             | None => Ok None
             end
    end.

  (** src/elements/edge.rs:259-296, [Edge::decompose]. *)
  Definition decompose (fuel : nat) (p : path) (base : list edge) (e : edge)
    : res (option (list edge)) :=
    let m := mcollect vdec (filter (decompose_filter e) (ho H p _ base)) in
    decompose_walk fuel m (ev2 e) (ev1 e) [].

  (** ** triangle.rs *)

  (** src/elements/triangle.rs:10-15 *)
  Record triangle : Type := Tri { tv1 : vertex; tv2 : vertex; tv3 : vertex }.

  (** Hash key identity of triangles (derived [Hash], ordered triple). *)
  Definition tdec (a b : triangle) : {a = b} + {a <> b}.
  Proof. decide equality; apply vdec. Defined.

  (** src/elements/triangle.rs:17-23, [==] on triangles: equal up to rotation. *)
  Definition teqb (a b : triangle) : bool :=
    (veqb (tv1 a) (tv1 b) && veqb (tv2 a) (tv2 b) && veqb (tv3 a) (tv3 b))
    || (veqb (tv1 a) (tv2 b) && veqb (tv2 a) (tv3 b) && veqb (tv3 a) (tv1 b))
    || (veqb (tv1 a) (tv3 b) && veqb (tv2 a) (tv1 b) && veqb (tv3 a) (tv2 b)).

  (** src/elements/triangle.rs:42-49 *)
  Definition is_ghost (t : triangle) : bool := vghost (tv1 t) || vghost (tv2 t) || vghost (tv3 t).

  (** src/elements/triangle.rs:51-56 *)
  Definition tri_area (t : triangle) : option F :=
    if is_ghost t then None else Some (area_triangle (tv1 t) (tv2 t) (tv3 t)).

  (** src/elements/triangle.rs:58-76 *)
  Definition encircles (t : triangle) (v : vertex) : cont :=
    if negb (is_ghost t) then continence (tv1 t) (tv2 t) (tv3 t) v
    else match orientation (tv1 t) (tv2 t) v with
         | CCW => Inside
         | CW => Outside
         | Colinear => Boundary
         end.

  (** src/elements/triangle.rs:82-87 *)
  Definition tri_circumcenter (t : triangle) : option vertex :=
    if is_ghost t then None else circumcenter (tv1 t) (tv2 t) (tv3 t).

  (** src/elements/triangle.rs:89-117; the [area().unwrap()] of line 108 is
      reached only for non-ghost triangles, whose area is [Some]. *)
  Definition quality (t : triangle) : option F :=
    if is_ghost t then None
    else
      let a := distance (tv1 t) (tv2 t) in
      let b := distance (tv2 t) (tv3 t) in
      let c := distance (tv3 t) (tv1 t) in
      let area := area_triangle (tv1 t) (tv2 t) (tv3 t) in
      if (a <=? b) && (a <=? c) then Some (b * c / (c4 * area))
      else if b <=? c then Some (a * c / (c4 * area))
      else Some (a * b / (c4 * area)).

  (** src/elements/triangle.rs:119-125 *)
  Definition te1 (t : triangle) : edge := (tv1 t, tv2 t).
  Definition te2 (t : triangle) : edge := (tv2 t, tv3 t).
  Definition te3 (t : triangle) : edge := (tv3 t, tv1 t).
  Definition inner_edges (t : triangle) : list edge := [te1 t; te2 t; te3 t].

  (** src/elements/triangle.rs:127-133 *)
  Definition outer_edges (t : triangle) : list edge :=
    [(tv2 t, tv1 t); (tv3 t, tv2 t); (tv1 t, tv3 t)].

  (** src/elements/triangle.rs:135-147 *)
  Definition tri_center (t : triangle) : vertex :=
    if is_ghost t
    then mkv ((vx (tv1 t) + vx (tv2 t)) / c2) ((vy (tv1 t) + vy (tv2 t)) / c2)
    else mkv ((vx (tv1 t) + vx (tv2 t) + vx (tv3 t)) / c3)
             ((vy (tv1 t) + vy (tv2 t) + vy (tv3 t)) / c3).

  (** src/elements/triangle.rs:149-160 *)
  Definition opposite_vertex (t : triangle) (e : edge) : option vertex :=
    if eeqb e (te1 t) then Some (tv3 t)
    else if eeqb e (te2 t) then Some (tv1 t)
    else if eeqb e (te3 t) then Some (tv2 t)
    else None.

  (** src/elements/triangle.rs:162-172 *)
  Definition opposite_edge (t : triangle) (v : vertex) : option edge :=
    if veqb v (tv1 t) then Some (tv2 t, tv3 t)
    else if veqb v (tv2 t) then Some (tv3 t, tv1 t)
    else if veqb v (tv3 t) then Some (tv1 t, tv2 t)
    else None.

  (** ** triangulation.rs *)

  (** src/planar/triangulation.rs:8-11 *)
  Record triangulation : Type := Trn {
    tris : list triangle;                 (* HashSet<Rc<Triangle>> *)
    adj : list (edge * triangle)          (* HashMap<Rc<Edge>, Rc<Triangle>> *)
  }.

  (** src/planar/triangulation.rs:31-36 *)
  Definition trn_new : triangulation := Trn [] [].

  (** src/planar/triangulation.rs:50-59.  The boolean returned by the crate is
      ignored by every caller but kept here. *)
  Definition include_triangle (t : triangle) (tr : triangulation) : triangulation * bool :=
    if hmem tdec t (tris tr) then (tr, false)
    else
      let adj1 := mset edec (te1 t) t (adj tr) in
      let adj2 := mset edec (te2 t) t adj1 in
      let adj3 := mset edec (te3 t) t adj2 in
      (Trn (hadd tdec t (tris tr)) adj3, true).

  (** src/planar/triangulation.rs:61-70 *)
  Definition remove_triangle (t : triangle) (tr : triangulation) : triangulation * bool :=
    if negb (hmem tdec t (tris tr)) then (tr, false)
    else
      let adj1 := mdel edec (te1 t) (adj tr) in
      let adj2 := mdel edec (te2 t) adj1 in
      let adj3 := mdel edec (te3 t) adj2 in
      (Trn (hdel tdec t (tris tr)) adj3, true).

  Definition incl_tri (t : triangle) (tr : triangulation) : triangulation := fst (include_triangle t tr).
  Definition rem_tri (t : triangle) (tr : triangulation) : triangulation := fst (remove_triangle t tr).

  (** [triangulation.adjacency.get(e)] *)
  Definition adj_get (e : edge) (tr : triangulation) : option triangle := mget edec e (adj tr).

  (** src/planar/triangulation.rs:38-48 *)
  Definition from_initial_segment (v1 v2 : vertex) : triangulation :=
    let t1 := Tri v1 v2 ghost_vertex in
    let t2 := Tri v2 v1 ghost_vertex in
    incl_tri t2 (incl_tri t1 trn_new).

  (** The three corners of a triangle, in the order the crate lists them. *)
  Definition tverts (t : triangle) : list vertex := [tv1 t; tv2 t; tv3 t].

  (** src/planar/triangulation.rs:72-79 *)
  Definition trn_vertices (tr : triangulation) : list vertex :=
    hset vdec (filter (fun v => negb (vghost v)) (flat_map tverts (tris tr))).

  (** src/planar/triangulation.rs:81-90 *)
  Definition trn_edges (tr : triangulation) : list edge :=
    hset edec (flat_map inner_edges (tris tr)).
End Elements.

Arguments edge A : clear implicits.
Arguments triangle A : clear implicits.
Arguments triangulation A : clear implicits.
