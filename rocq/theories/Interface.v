(** Interface.v — model of the command line front end: src/triangulator_interface,
    src/json_serializar/models/{action,input,output}.rs (after deserialisation)
    and src/glium_interface/vertex.rs. *)

From Coq Require Import String List Bool Arith.
From Verif Require Import Base Arith Geometry Elements Polyline Procedures Refine Triangulator.
Import ListNotations.
Local Open Scope string_scope.
Local Open Scope list_scope.
Local Open Scope f64_scope.

Section Interface.
  Context {A : Arith} (H : HashOrder).
  Notation F := (T A).
  Notation vertex := (vertex A).
  Notation edge := (edge A).
  Notation triangle := (triangle A).
  Notation triangulation := (triangulation A).
  Notation polyline := (polyline A).
  Notation triangulator := (triangulator A).

  (** src/json_serializar/models/point.rs:7-13; [z] is never read. *)
  Definition point : Type := (F * F)%type.

  (** src/json_serializar/models/action.rs:8-38 *)
  Record action : Type := Act {
    a_intent : string;
    a_geometry : string;
    a_scalars : list F;
    a_points : list point;
    a_assemble : list (list nat)
  }.

  (** src/json_serializar/models/input.rs:12-24, 36-39; id, name and date are only
      copied to the output and left out. *)
  Record input : Type := Inp { i_actions : list action; i_max_area : option F; i_quality : F }.

  (** src/triangulator_interface/interpreter/polyline_parser.rs:31-33 *)
  Definition point_to_vertex (q : point) : vertex := mkv (fst q) (snd q).

  (** src/triangulator_interface/interpreter/vertices_parser.rs:7-16 *)
  Definition parse_vertices (a : action) : list vertex :=
    hset vdec (map point_to_vertex (a_points a)).

  (** src/triangulator_interface/interpreter/segments_parser.rs:12-26.  [None] in
      [Ok] is [Err(())]. *)
  Fixpoint parse_assemble (pts : list point) (sets : list (list nat)) (acc : list edge)
    : res (option (list edge)) :=
    match sets with
    | [] => Ok (Some acc)
    | (i :: j :: _) :: sets' =>
        let! p1 := unwrap (nth_error pts i) in
        let! p2 := unwrap (nth_error pts j) in
        parse_assemble pts sets' (hadd edec (point_to_vertex p1, point_to_vertex p2) acc)
    | _ => Ok None
    end.

  (** src/triangulator_interface/interpreter/segments_parser.rs:35-46 *)
  Fixpoint pair_points (pts : list point) : list edge :=
    match pts with
    | p1 :: p2 :: pts' => (point_to_vertex p1, point_to_vertex p2) :: pair_points pts'
    | _ => []
    end.

  (** src/triangulator_interface/interpreter/segments_parser.rs:7-48 *)
  Definition parse_segments (a : action) : res (option (list edge)) :=
    match a_assemble a with
    | _ :: _ => parse_assemble (a_points a) (a_assemble a) []
    | [] =>
        if Nat.even (length (a_points a)) then Ok (Some (hset edec (pair_points (a_points a))))
        else Ok None
    end.

  (** src/triangulator_interface/interpreter/polyline_parser.rs:6-29 *)
  Definition parse_polyline (fuel : nat) (a : action) : res (option polyline) :=
    match map point_to_vertex (a_points a) with
    | [] => Ok None
    | vs =>
        let! segments := vertex_pairs vs false in
        let! split := split_intersections fuel segments in
        if Nat.ltb (length segments) (length split) then Ok None
        else let! pl := unwrap (new_closed vs) in Ok (Some pl)
    end.

  (** src/triangulator_interface/interpreter/circle_parser.rs:31-39 *)
  Definition circle_point (radius ang : F) (center : point) : vertex :=
    mkv (fst center + radius * fcos ang) (snd center + radius * fsin ang).

  (** src/triangulator_interface/interpreter/circle_parser.rs:19-24 *)
  Definition circle_points (radius : F) (center : point) (resolution : nat) : list vertex :=
    let dphi := fpi * c2 / fofnat resolution in
    map (fun i => circle_point radius (dphi * fofnat i) center) (seq 0 resolution).

  (** src/triangulator_interface/interpreter/circle_parser.rs:8-29 *)
  Definition parse_circle (a : action) : res (option polyline) :=
    match a_scalars a, a_points a with
    | radius :: rest, [center] =>
        let resolution := match rest with v :: _ => fround_usize v | [] => 100 end in
        let! pl := unwrap (new_closed (circle_points radius center resolution)) in
        Ok (Some pl)
    | _, _ => Ok None
    end.

  (** The accumulators of src/triangulator_interface/interpreter/mod.rs:29-32. *)
  Record domains : Type := Dom {
    d_includes : list polyline;
    d_removes : list polyline;
    d_segments : list edge;
    d_vertices : list vertex
  }.

  (** src/triangulator_interface/interpreter/mod.rs:38-46 (= 52-60) *)
  Definition add_domain (intent : string) (pl : polyline) (d : domains) : option domains :=
    if String.eqb intent "include" then
      Some (Dom (d_includes d ++ [pl]) (d_removes d) (d_segments d) (d_vertices d))
    else if String.eqb intent "remove" then
      Some (Dom (d_includes d) (d_removes d ++ [pl]) (d_segments d) (d_vertices d))
    else None.

  (** src/triangulator_interface/interpreter/mod.rs:35-95, one action. *)
  Definition parse_action (fuel : nat) (d : domains) (a : action) : res (option domains) :=
    if String.eqb (a_geometry a) "polyline" then
      let! o := parse_polyline fuel a in
      Ok (match o with Some pl => add_domain (a_intent a) pl d | None => None end)
    else if String.eqb (a_geometry a) "circle" then
      let! o := parse_circle a in
      Ok (match o with Some pl => add_domain (a_intent a) pl d | None => None end)
    else if String.eqb (a_geometry a) "segments" then
      let! o := parse_segments a in
      Ok (match o with
          | Some es =>
              if String.eqb (a_intent a) "constraint" then
                Some (Dom (d_includes d) (d_removes d) (hset edec (d_segments d ++ es)) (d_vertices d))
              else None
          | None => None
          end)
    else if String.eqb (a_geometry a) "vertices" then
      Ok (if String.eqb (a_intent a) "constraint" then
            Some (Dom (d_includes d) (d_removes d) (d_segments d)
                      (hset vdec (d_vertices d ++ parse_vertices a)))
          else None)
    else Ok None.

  (** src/triangulator_interface/interpreter/mod.rs:34-96 *)
  Fixpoint parse_actions (fuel : nat) (acts : list action) (d : domains) : res (option domains) :=
    match acts with
    | [] => Ok (Some d)
    | a :: acts' =>
        let! o := parse_action fuel d a in
        match o with
        | Some d' => parse_actions fuel acts' d'
        | None => Ok None
        end
    end.

  (** src/triangulator_interface/interpreter/mod.rs:17-107 with
      refine_params_parser.rs:5-10. *)
  Definition interpret (fuel : nat) (inp : input) : res (option (domains * refine_params A)) :=
    let! o := parse_actions fuel (i_actions inp) (Dom [] [] [] []) in
    Ok (match o with
        | Some d => Some (d, RP (i_max_area inp) (i_quality inp))
        | None => None
        end).

  (** ** domain_evaluator.rs *)

  (** src/triangulator_interface/domain_evaluator.rs:30-36: the first include (in
      hash order) that can be united with the boundary. *)
  Fixpoint unite_one (fuel : nat) (p : path) (b : polyline) (cands incs : list polyline)
    : res (polyline * list polyline) :=
    match cands with
    | [] => Ok (b, incs)
    | c :: cands' =>
        let! o := poly_union H fuel (1 :: p) b c in
        match o with
        | Some (u, _) => Ok (u, hdel pdec c incs)
        | None => unite_one fuel (0 :: p) b cands' incs
        end
    end.

  (** src/triangulator_interface/domain_evaluator.rs:29-37, [n] rounds. *)
  Fixpoint unite_all (fuel : nat) (p : path) (n : nat) (b : polyline) (incs : list polyline)
    : res (polyline * list polyline) :=
    match n with
    | O => Ok (b, incs)
    | S n' =>
        let! (b', incs') := unite_one fuel (2 :: p) b (ho H (1 :: p) _ incs) incs in
        unite_all fuel (0 :: p) n' b' incs'
    end.

  (** src/triangulator_interface/domain_evaluator.rs:43-55; [None] is [Err]. *)
  Fixpoint subtract_all (fuel : nat) (p : path) (b : polyline) (removes unused : list polyline)
    : res (option (polyline * list polyline)) :=
    match removes with
    | [] => Ok (Some (b, unused))
    | r :: removes' =>
        let! (ps, _) := poly_subtraction H fuel (1 :: p) b r in
        match ps with
        | [] => subtract_all fuel (0 :: p) b removes' (unused ++ [r])
        | [b'] => subtract_all fuel (0 :: p) b' removes' unused
        | _ => Ok None
        end
    end.

  (** src/triangulator_interface/domain_evaluator.rs:15-58 *)
  Definition domain_boundary (fuel : nat) (p : path) (includes removes : list polyline)
    : res (option (polyline * list polyline)) :=
    match ho H (1 :: p) _ (hset pdec includes) with
    | [] => Ok None
    | b :: _ =>
        let incs := hdel pdec b (hset pdec includes) in
        let! (b', incs') := unite_all fuel (2 :: p) (length incs) b incs in
        match incs' with
        | _ :: _ => Ok None
        | [] => subtract_all fuel (3 :: p) b' removes []
        end
    end.

  (** src/triangulator_interface/domain_evaluator.rs:83-89: unite the removal with
      the first existing hole (in hash order) that allows it. *)
  Fixpoint merge_hole (fuel : nat) (p : path) (r : polyline) (cands holes : list polyline)
    : res (list polyline * list polyline) :=
    match cands with
    | [] => Ok (holes, [])
    | h :: cands' =>
        let! o := poly_union H fuel (1 :: p) h r in
        match o with
        | Some (u, _) => Ok (hdel pdec h holes, [u])
        | None => merge_hole fuel (0 :: p) r cands' holes
        end
    end.

  (** src/triangulator_interface/domain_evaluator.rs:74-92.  [removes] is the Vec
      used as a stack, top first. *)
  Fixpoint holes_loop (fuel : nat) (p : path) (b : polyline) (removes holes : list polyline)
    : res (list polyline) :=
    match fuel with
    | O => NoFuel
    | S fuel' =>
        match removes with
        | [] => Ok holes
        | r :: removes' =>
            let! c := poly_continence fuel' b r in
            if negb (continence_is c Inside Open) then holes_loop fuel' (0 :: p) b removes' holes
            else
              let! (holes', pushed) := merge_hole fuel' (2 :: p) r (ho H (1 :: p) _ holes) holes in
              holes_loop fuel' (0 :: p) b (pushed ++ removes') (hadd pdec r holes')
        end
    end.

  (** src/triangulator_interface/domain_evaluator.rs:64-95 *)
  Definition domain_holes (fuel : nat) (p : path) (b : polyline) (removes : list polyline)
    : res (list polyline) :=
    holes_loop fuel p b (rev removes) [].

  (** ** mod.rs *)

  (** src/triangulator_interface/mod.rs:42-47; [None] is [Err(())]. *)
  Fixpoint insert_holes (fuel : nat) (hs : list polyline) (t : triangulator) : res (option triangulator) :=
    match hs with
    | [] => Ok (Some t)
    | h :: hs' =>
        let! (t', r) := insert_hole fuel t h in
        match r with
        | RFine => insert_holes fuel hs' t'
        | RErr _ => Ok None
        end
    end.

  (** src/triangulator_interface/mod.rs:14-60 *)
  Definition parse (fuel : nat) (p : path) (inp : input) : res (option (triangulator * refine_params A)) :=
    let! o := interpret fuel inp in
    match o with
    | None => Ok None
    | Some (d, prm) =>
        let! ob := domain_boundary fuel (1 :: p) (d_includes d) (d_removes d) in
        match ob with
        | None => Ok None
        | Some (b, unused) =>
            let! hs := domain_holes fuel (2 :: p) b unused in
            let! o1 := insert_holes fuel (ho H (3 :: p) _ hs) (triangulator_new b) in
            match o1 with
            | None => Ok None
            | Some t1 =>
                let! (t2, r2) := insert_segments H fuel (4 :: p) t1 (d_segments d) in
                match r2 with
                | RErr _ => Ok None
                | RFine =>
                    let! (t3, r3) := insert_vertices H (5 :: p) t2 (d_vertices d) in
                    match r3 with
                    | RErr _ => Ok None
                    | RFine => Ok (Some (t3, prm))
                    end
                end
            end
        end
    end.

  (** ** output.rs *)

  (** src/json_serializar/models/output.rs:54-93: coordinates and index triples.
      The coordinates list the keys of [vertices_map] in that map's own order. *)
  Definition output (p : path) (tr : triangulation) : res (list point * list (nat * nat * nat)) :=
    let vertices_vec := ho H (1 :: p) _ (trn_vertices tr) in
    let vertices_map := mcollect vdec (combine vertices_vec (seq 0 (length vertices_vec))) in
    let coordinates := map (fun v => (vx v, vy v)) (ho H (2 :: p) _ (map fst vertices_map)) in
    let! triangles := foldM (fun acc t =>
        let! i1 := unwrap (mget vdec (tv1 t) vertices_map) in
        let! i2 := unwrap (mget vdec (tv2 t) vertices_map) in
        let! i3 := unwrap (mget vdec (tv3 t) vertices_map) in
        Ok (acc ++ [(i1, i2, i3)]))
      [] (filter (fun t => negb (is_ghost t)) (ho H (3 :: p) _ (tris tr))) in
    Ok (coordinates, triangles).

  (** src/main.rs:40-55: parse, triangulate, refine, output.  [None] is the panic
      of line 44 reported as a parse failure. *)
  Definition run_main (fuel : nat) (p : path) (inp : input)
    : res (option (list point * list (nat * nat * nat))) :=
    let! o := parse fuel (1 :: p) inp in
    match o with
    | None => Ok None
    | Some (t, prm) =>
        let! t1 := triangulate H fuel (2 :: p) t in
        let! (t2, _) := refine H fuel (3 :: p) t1 prm in
        let! out := output (4 :: p) (t_trn t2) in
        Ok (Some out)
    end.

  (** ** glium vertex lists; [as f32] is an arbitrary cast. *)
  Section Glium.
    Context {F32 : Type} (cast : F -> F32).
    Definition gpos (v : vertex) : F32 * F32 := (cast (vx v), cast (vy v)).

    (** src/glium_interface/vertex.rs:18-28 *)
    Fixpoint glium_from_coordinates (l : list F32) : res (list (F32 * F32)) :=
      match l with
      | [] => Ok []
      | x :: y :: l' => let! r := glium_from_coordinates l' in Ok ((x, y) :: r)
      | [_] => Panic
      end.

    (** src/glium_interface/vertex.rs:30-41 *)
    Definition glium_triangles (p : path) (tr : triangulation) : list (F32 * F32) :=
      map gpos (flat_map tverts (filter (fun t => negb (is_ghost t)) (ho H p _ (tris tr)))).

    (** src/glium_interface/vertex.rs:55-60, [aux] is the stack, top first. *)
    Definition clean_edges (aux : list edge) : list edge :=
      fold_left (fun clean e =>
        if negb (hmem edec e clean) && negb (hmem edec (opposite e) clean)
        then hadd edec e clean else clean) aux [].

    (** src/glium_interface/vertex.rs:43-70 *)
    Definition glium_edge_list (p : path) (tr : triangulation) : list edge :=
      clean_edges (rev (flat_map inner_edges
        (filter (fun t => negb (is_ghost t)) (ho H p _ (tris tr))))).
    Definition glium_edges (p : path) (tr : triangulation) : list (F32 * F32) :=
      map gpos (flat_map (fun e => [ev1 e; ev2 e]) (ho H (2 :: p) _ (glium_edge_list (1 :: p) tr))).
  End Glium.
End Interface.

Arguments action A : clear implicits.
Arguments input A : clear implicits.
Arguments domains A : clear implicits.
