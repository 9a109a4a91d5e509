(** Polyline.v — model of src/elements/polyline.rs. *)

From Coq Require Import List Bool Arith ZArith.
From Verif Require Import Base Arith Geometry Elements.
Import ListNotations.
Local Open Scope f64_scope.

Section Polyline.
  Context {A : Arith} (H : HashOrder).
  Notation F := (T A).
  Notation vertex := (vertex A).
  Notation edge := (edge A).
  Notation triangle := (triangle A).

  (** src/elements/polyline.rs:16-20 *)
  Record polyline : Type := Poly { pverts : list vertex; popened : bool }.

  (** Hash key identity of polylines (derived [Hash]). *)
  Definition pdec (a b : polyline) : {a = b} + {a <> b}.
  Proof. decide equality; [apply bool_dec | apply (list_eq_dec vdec)]. Defined.

  (** src/elements/polyline.rs:35-44 *)
  Definition new_closed (l : list vertex) : option polyline :=
    if Nat.ltb (length l) 3 then None else Some (Poly l false).

  (** src/elements/polyline.rs:46-55 *)
  Definition new_opened (l : list vertex) : option polyline :=
    if Nat.ltb (length l) 2 then None else Some (Poly l true).

  (** src/elements/polyline.rs:60-67 *)
  Definition poly_head (p : polyline) : res (option vertex) :=
    if negb (popened p) then Ok None
    else let! v := unwrap (hd_error (pverts p)) in Ok (Some v).

  (** src/elements/polyline.rs:72-80 *)
  Definition poly_tail (p : polyline) : res (option vertex) :=
    if negb (popened p) then Ok None
    else let! v := unwrap (hd_error (rev (pverts p))) in Ok (Some v).

  (** src/elements/polyline.rs:82-84 *)
  Definition poly_bbox (p : polyline) : option (bbox A) := bbox_from_vertices (pverts p).

  (** src/elements/polyline.rs:840-845, the indexed loop over consecutive
      vertices. *)
  Fixpoint consecutive (l : list vertex) : list edge :=
    match l with
    | v :: ((w :: _) as l') => (v, w) :: consecutive l'
    | _ => []
    end.

  (** src/elements/polyline.rs:837-855, [vertex_pairs]; [len() - 1] underflows on
      an empty list. *)
  Definition vertex_pairs (l : list vertex) (opened : bool) : res (list edge) :=
    match l with
    | [] => Panic
    | v :: _ =>
        Ok (if opened then consecutive l else consecutive l ++ [(last l v, v)])
    end.

  Definition poly_pairs (p : polyline) : res (list edge) := vertex_pairs (pverts p) (popened p).

  (** src/elements/polyline.rs:799-804 *)
  Definition into_edges (p : polyline) : res (list edge) := poly_pairs p.

  (** src/elements/polyline.rs:98-108, the walk of [Polyline::arrange].  The next
      vertex is compared with the head by [==]. *)
  Fixpoint arrange_walk (fuel : nat) (m : list (vertex * vertex)) (head tail : vertex)
    (acc : list vertex) : res (list vertex) :=
    match fuel with
    | O => NoFuel
    | S fuel' =>
        match mget vdec tail m with
        | Some next =>
            if veqb next head then Ok acc
            else arrange_walk fuel' m head next (acc ++ [next])
        | None => Ok acc
        end
    end.

  (** src/elements/polyline.rs:86-115, [Polyline::arrange]. *)
  Definition poly_arrange (fuel : nat) (p : path) (edges : list edge) : res (option polyline) :=
    let m := mcollect vdec (ho H (0 :: p) _ edges) in
    let! head := unwrap (hd_error (ho H (1 :: p) _ (map fst m))) in
    let! vs := arrange_walk fuel m head head [head] in
    if Nat.eqb (length vs) (length edges)
    then let! pl := unwrap (new_closed vs) in Ok (Some pl)
    else Ok None.

  (** src/elements/polyline.rs:129-137 *)
  Fixpoint noncolinear_middles (l : list vertex) : list vertex :=
    match l with
    | v1 :: ((v2 :: ((v3 :: _) as l3)) as l2) =>
        if negb (orient_eqb (orientation v1 v2 v3) Colinear)
        then v2 :: noncolinear_middles l2
        else noncolinear_middles l2
    | _ => []
    end.

  (** src/elements/polyline.rs:117-145, [minified_noncolinear]: the result is
      built by [new_closed] even for an opened polyline. *)
  Definition minified_noncolinear (p : polyline) : res polyline :=
    let! head := unwrap (hd_error (pverts p)) in
    let tail := last (pverts p) head in
    let possible := if popened p then pverts p else [tail] ++ pverts p ++ [head] in
    let minified := noncolinear_middles possible in
    unwrap (new_closed (if popened p then [head] ++ minified ++ [tail] else minified)).

  (** src/elements/polyline.rs:156-197, the loop of [contains]: [None] when it
      returned [Boundary] early, otherwise the parity ([isize], here [Z]). *)
  Fixpoint contains_loop (v : vertex) (segs : list edge) (parity : Z) : option Z :=
    match segs with
    | [] => Some parity
    | (v1, v2) :: segs' =>
        if vx v1 =? vx v2 then
          let points_to_vertex := vx v1 =? vx v in
          let in_vertical_interval :=
            ((vy v1 <=? vy v) && (vy v <=? vy v2)) || ((vy v2 <=? vy v) && (vy v <=? vy v1)) in
          if points_to_vertex && in_vertical_interval then None
          else contains_loop v segs' parity
        else if ((vx v1 <? vx v) && (vx v2 <? vx v)) || ((vx v1 >? vx v) && (vx v2 >? vx v))
        then contains_loop v segs' parity
        else
          let touches := (vx v1 =? vx v) || (vx v2 =? vx v) in
          match orientation v1 v2 v with
          | Colinear => None
          | CCW => contains_loop v segs' (parity + (if touches then 1 else 2))%Z
          | CW => contains_loop v segs' (parity - (if touches then 1 else 2))%Z
          end
    end.

  (** src/elements/polyline.rs:147-203, [Polyline::contains]. *)
  Definition poly_contains (p : polyline) (v : vertex) : res (option cont) :=
    if popened p then Ok None
    else
      let! segs := poly_pairs p in
      match contains_loop v segs 0%Z with
      | None => Ok (Some Boundary)
      | Some parity => Ok (Some (if Z.eqb parity 0 then Outside else Inside))
      end.

  (** [p.contains(v).unwrap()] *)
  Definition contains_unwrap (p : polyline) (v : vertex) : res cont :=
    let! o := poly_contains p v in unwrap o.

  (** [p.contains(v).unwrap() == Continence::Outside] *)
  Definition is_outside (p : polyline) (v : vertex) : res bool :=
    let! c := contains_unwrap p v in Ok (cont_eqb c Outside).

  (** Rust's short-circuiting [||] and [&&] on fallible operands. *)
  Definition orM (a b : res bool) : res bool := let! x := a in if x then Ok true else b.
  Definition andM (a b : res bool) : res bool := let! x := a in if x then b else Ok false.

  (** ** split_intersections *)

  (** src/elements/polyline.rs:865-873, the conflict test of two segments. *)
  Definition crosses (s1 s2 : edge) : bool :=
    let (v1, v2) := s1 in
    let (v3, v4) := s2 in
    match intersection v1 v2 v3 v4 with
    | None => false
    | Some _ =>
        negb (veqb v1 v3) && negb (veqb v1 v4) && negb (veqb v2 v3) && negb (veqb v2 v4)
        && negb (parallel v1 v2 v3 v4)
    end.

  (** [Vec::position] followed by [Vec::remove]: first match and the rest. *)
  Fixpoint extract {X} (f : X -> bool) (l : list X) : option (X * list X) :=
    match l with
    | [] => None
    | x :: l' =>
        if f x then Some (x, l')
        else match extract f l' with
             | Some (y, r) => Some (y, x :: r)
             | None => None
             end
    end.

  (** src/elements/polyline.rs:863-894.  [aux] is the Vec used as a stack, top
      first; [done] is [splited_segments]. *)
  Fixpoint split_loop (fuel : nat) (aux done : list edge) : res (list edge) :=
    match fuel with
    | O => NoFuel
    | S fuel' =>
        match aux with
        | [] => Ok done
        | (v1, v2) :: aux' =>
            match extract (crosses (v1, v2)) done with
            | Some ((v3, v4), done') =>
                let! iv := unwrap (intersection v1 v2 v3 v4) in
                let push (c : bool) (s : edge) (l : list edge) := if c then s :: l else l in
                let aux1 := push (negb (veqb v3 iv)) (v3, iv) aux' in
                let aux2 := push (negb (veqb v4 iv)) (iv, v4) aux1 in
                let aux3 := push (negb (veqb v1 iv)) (v1, iv) aux2 in
                let aux4 := push (negb (veqb v2 iv)) (iv, v2) aux3 in
                split_loop fuel' aux4 done'
            | None => split_loop fuel' aux' (done ++ [(v1, v2)])
            end
        end
    end.

  (** src/elements/polyline.rs:857-897, [split_intersections]. *)
  Definition split_intersections (fuel : nat) (segs : list edge) : res (list edge) :=
    split_loop fuel (rev segs) [].

  (** src/elements/polyline.rs:899-910, [segments_orientation]. *)
  Definition segments_orientation (l : list edge) : res orient :=
    let area := area_segments l in
    if area <? c0 then Ok CCW
    else if area >? c0 then Ok CW
    else Panic.

  (** ** continence *)

  (** src/elements/polyline.rs:708-728, the loop over the critical vertices of p2;
      [None] inside [Ok] is the early [return None]. *)
  Fixpoint continence_loop1 (p1 : polyline) (vs : list vertex)
    (pc : option cont) (pb : binc) : res (option (option cont * binc)) :=
    match vs with
    | [] => Ok (Some (pc, pb))
    | v :: vs' =>
        let! c := contains_unwrap p1 v in
        if cont_eqb c Boundary then continence_loop1 p1 vs' pc Closed
        else match pc with
             | None => continence_loop1 p1 vs' (Some c) pb
             | Some c' =>
                 if cont_eqb c' c then continence_loop1 p1 vs' pc pb else Ok None
             end
    end.

  (** src/elements/polyline.rs:737-746, the loop over the split edges; the
      boolean tells whether it ran to the end. *)
  Fixpoint continence_loop2 (p1 : polyline) (es : list edge) (pc : option cont) : res bool :=
    match es with
    | [] => Ok true
    | e :: es' =>
        let! c := contains_unwrap p1 (edge_midpoint e) in
        if cont_eqb c Boundary then continence_loop2 p1 es' pc
        else match pc with
             | Some c' => if cont_eqb c' c then continence_loop2 p1 es' pc else Ok false
             | None => Ok false
             end
    end.

  (** src/elements/polyline.rs:700-752, [Polyline::continence]. *)
  Definition poly_continence (fuel : nat) (p1 p2 : polyline) : res (option (cont * binc)) :=
    if popened p1 then Ok None
    else
      let! es2 := into_edges p2 in
      let critical := flat_map (fun e => [edge_midpoint e; ev1 e]) es2 in
      let! r := continence_loop1 p1 critical None Open in
      match r with
      | None => Ok None
      | Some (pc, pb) =>
          let! p1_pairs := poly_pairs p1 in
          let! p2_pairs := poly_pairs p2 in
          let! split := split_intersections fuel (p1_pairs ++ p2_pairs) in
          let! fine := continence_loop2 p1 split pc in
          if negb fine then Ok None
          else match pc, pb with
               | None, Closed => Ok (Some (Boundary, Closed))
               | _, _ => let! c := unwrap pc in Ok (Some (c, pb))
               end
      end.

  (** [== Some((c, b))] on the result of [continence]. *)
  Definition continence_is (o : option (cont * binc)) (c : cont) (b : binc) : bool :=
    match o with
    | Some (c', b') => cont_eqb c' c && binc_eqb b' b
    | None => false
    end.

  (** ** intersection_vertices *)

  (** src/elements/polyline.rs:767-791 *)
  Definition snap (v1 v2 v3 v4 iv : vertex) : vertex :=
    if veqb iv v1 then v1
    else if veqb iv v2 then v2
    else if veqb iv v3 then v3
    else if veqb iv v4 then v4
    else iv.

  (** src/elements/polyline.rs:757-797, [intersection_vertices]. *)
  Definition intersection_vertices (p1 p2 : polyline) : res (list vertex) :=
    let! b1 := unwrap (poly_bbox p1) in
    let! b2 := unwrap (poly_bbox p2) in
    match bbox_intersection b1 b2 with
    | None => Ok []
    | Some _ =>
        let! s1 := poly_pairs p1 in
        let! s2 := poly_pairs p2 in
        Ok (hset vdec (flat_map (fun '(v1, v2) =>
              flat_map (fun '(v3, v4) =>
                match intersection v1 v2 v3 v4 with
                | Some iv => [snap v1 v2 v3 v4 iv]
                | None => []
                end) s2) s1))
    end.

  (** ** Boolean operations *)

  (** Lines 242-262 (= 553-573) of src/elements/polyline.rs: do the segments
      [(v1,v2)] and [(v3,v4)] overlap in opposite directions? *)
  Definition opposed (p1 p2 : polyline) (v1 v2 : vertex) (s : edge) : res bool :=
    let (v3, v4) := s in
    match intersection v1 v2 v3 v4 with
    | None => Ok false
    | Some _ =>
        let is_parallel := parallel v1 v2 v3 v4 in
        let have_opposite_directions := dot v1 v2 v3 v4 <? c0 in
        let is_polyline_continuation := veqb v1 v4 || veqb v2 v3 in
        let! out :=
          orM (is_outside p1 v1) (orM (is_outside p2 v1)
          (orM (is_outside p1 v2) (orM (is_outside p2 v2)
          (orM (is_outside p1 v3) (orM (is_outside p2 v3)
          (orM (is_outside p1 v4) (is_outside p2 v4))))))) in
        Ok (is_parallel && have_opposite_directions && (is_polyline_continuation || out))
    end.

  Fixpoint extractM {X} (f : X -> res bool) (l : list X) : res (option (X * list X)) :=
    match l with
    | [] => Ok None
    | x :: l' =>
        let! b := f x in
        if b then Ok (Some (x, l'))
        else
          let! r := extractM f l' in
          Ok (match r with Some (y, r') => Some (y, x :: r') | None => None end)
    end.

  (** Lines 240-291 (= 551-602): removes pairs of colinear opposed segments.
      [poss] is the Vec used as a stack, top first. *)
  Fixpoint cancel_loop (fuel : nat) (p1 p2 : polyline) (poss read unused : list edge)
    : res (list edge * list edge) :=
    match fuel with
    | O => NoFuel
    | S fuel' =>
        match poss with
        | [] => Ok (read, unused)
        | (v1, v2) :: poss' =>
            let! r := extractM (opposed p1 p2 v1 v2) read in
            match r with
            | None => cancel_loop fuel' p1 p2 poss' (read ++ [(v1, v2)]) unused
            | Some ((v3, v4), read') =>
                let unused' := hadd edec (v3, v4) (hadd edec (v1, v2) unused) in
                let! c1 :=
                  andM (Ok (negb (veqb v2 v3)))
                  (orM (Ok (veqb v1 v4))
                  (orM (is_outside p1 v1) (orM (is_outside p2 v1)
                  (orM (is_outside p1 v4) (is_outside p2 v4))))) in
                let! c2 :=
                  andM (Ok (negb (veqb v1 v4)))
                  (orM (Ok (veqb v2 v3))
                  (orM (is_outside p1 v2) (orM (is_outside p2 v2)
                  (orM (is_outside p1 v3) (is_outside p2 v3))))) in
                let poss1 := if c1 then (v3, v2) :: poss' else poss' in
                let poss2 := if c2 then (v1, v4) :: poss1 else poss1 in
                cancel_loop fuel' p1 p2 poss2 read' unused'
            end
        end
    end.

  (** Lines 240, 239: the first popped segment goes straight to [read_segments]. *)
  Definition cancel_opposed (fuel : nat) (p1 p2 : polyline) (split : list edge)
    : res (list edge * list edge) :=
    match rev split with
    | [] => Panic
    | s :: poss => cancel_loop fuel p1 p2 poss [s] []
    end.

  (** Lines 296-308, 418-430, 607-619: pop every segment and keep it according to
      its midpoint.  [keep] is the operation-specific test. *)
  Fixpoint by_midpoint (keep : vertex -> res bool) (poss : list edge)
    (read unused : list edge) : res (list edge * list edge) :=
    match poss with
    | [] => Ok (read, unused)
    | s :: poss' =>
        let! k := keep (midpoint (ev1 s) (ev2 s)) in
        if k then by_midpoint keep poss' (read ++ [s]) unused
        else by_midpoint keep poss' read (hadd edec s unused)
    end.

  (** src/elements/polyline.rs:300-301 *)
  Definition keep_intersection (p1 p2 : polyline) (m : vertex) : res bool :=
    andM (let! b := is_outside p1 m in Ok (negb b)) (let! b := is_outside p2 m in Ok (negb b)).
  (** src/elements/polyline.rs:422-423 *)
  Definition keep_union (p1 p2 : polyline) (m : vertex) : res bool :=
    orM (is_outside p1 m) (is_outside p2 m).
  (** src/elements/polyline.rs:611-614 (both calls are evaluated) *)
  Definition keep_subtraction (p1 p2 : polyline) (m : vertex) : res bool :=
    let! c1 := contains_unwrap p1 m in
    let! c2 := contains_unwrap p2 m in
    Ok (negb (cont_eqb c1 Outside) && negb (cont_eqb c2 Inside)).

  (** Lines 328-335 (= 451-456, 638-645): admissible continuations of [(v1,v2)]. *)
  Definition continues (v1 v2 : vertex) (s : edge) : bool :=
    let (v3, v4) := s in
    if veqb v1 v3 || veqb v1 v4 || veqb v2 v4 then false else veqb v2 v3.

  (** Lines 365-370 / 493-498 / 675-680 followed by [.first()]: the first element
      of a stable sort by angle ([desc] for the union).  [partial_cmp().unwrap()]
      panics on a NaN angle as soon as there are two candidates. *)
  Definition ang (v1 v2 : vertex) (s : edge) : F :=
    match angle v1 v2 (ev2 s) with Some a => a | None => c0 end.
  Definition before (desc : bool) (v1 v2 : vertex) (a b : edge) : bool :=
    if desc then ang v1 v2 b <? ang v1 v2 a else ang v1 v2 a <? ang v1 v2 b.
  Definition first_by_angle (desc : bool) (v1 v2 : vertex) (l : list edge) : res edge :=
    match l with
    | [] => Panic
    | s :: l' =>
        let isnan s := negb (ang v1 v2 s =? ang v1 v2 s) in
        if (negb (match l' with [] => true | _ => false end)) && existsb isnan l then Panic
        else Ok (fold_left (fun best s => if before desc v1 v2 s best then s else best) l' s)
    end.

  (** The inner [loop] of lines 320-379 (= 444-508, 631-689): extends [chain]
      (last segment first) until no admissible continuation is left.  The
      candidates are listed in hash order. *)
  Fixpoint chain_loop (fuel : nat) (p : path) (desc : bool) (chain poss : list edge)
    : res (list edge * list edge) :=
    match fuel with
    | O => NoFuel
    | S fuel' =>
        match chain with
        | [] => Panic
        | (v1, v2) :: _ =>
            match filter (continues v1 v2) (ho H (1 :: p) _ poss) with
            | [] => Ok (chain, poss)
            | nexts =>
                let! s := first_by_angle desc v1 v2 nexts in
                chain_loop fuel' (0 :: p) desc (s :: chain) (hdel edec s poss)
            end
        end
    end.

  (** Lines 341-348 (= 462-469, 651-658): is the chain (last segment first) a
      closed polyline? *)
  Definition chain_closed (chain : list edge) : bool :=
    Nat.ltb 2 (length chain) &&
    match chain, rev chain with
    | (_, last_v2) :: _, (head_v3, _) :: _ => veqb last_v2 head_v3
    | _, _ => false
    end.

  (** Lines 313-380 (= 624-690): builds polylines until no segment is left. *)
  Fixpoint build_loop (fuel : nat) (p : path) (poss unused : list edge) (acc : list polyline)
    : res (list polyline * list edge) :=
    match fuel with
    | O => NoFuel
    | S fuel' =>
        match ho H (1 :: p) _ poss with
        | [] => Ok (acc, unused)
        | h :: _ =>
            let! (chain, poss') := chain_loop fuel' (2 :: p) false [h] (hdel edec h poss) in
            if chain_closed chain then
              let! pl := unwrap (new_closed (map ev1 (rev chain))) in
              build_loop fuel' (0 :: p) poss' unused (acc ++ [pl])
            else
              build_loop fuel' (0 :: p) poss' (fold_left (fun u s => hadd edec s u) (rev chain) unused) acc
        end
    end.

  (** src/elements/polyline.rs:210-383, [Polyline::intersection]. *)
  Definition poly_intersection (fuel : nat) (p : path) (p1 p2 : polyline)
    : res (list polyline * list edge) :=
    let! s1 := poly_pairs p1 in
    let! s2 := poly_pairs p2 in
    let! split := split_intersections fuel (s1 ++ s2) in
    if popened p1 || popened p2 then Ok ([], hset edec split)
    else
      let! b1 := unwrap (poly_bbox p1) in
      let! b2 := unwrap (poly_bbox p2) in
      match bbox_intersection b1 b2 with
      | None => Ok ([], [])
      | Some _ =>
          let! (read, unused) := cancel_opposed fuel p1 p2 split in
          let! (read', unused') := by_midpoint (keep_intersection p1 p2) (rev read) [] unused in
          build_loop fuel p (hset edec read') unused' []
      end.

  (** src/elements/polyline.rs:435-509, the loop of [union]: returns at the first
      closed counterclockwise chain. *)
  Fixpoint union_loop (fuel : nat) (p : path) (poss unused : list edge)
    : res (option (polyline * list edge)) :=
    match fuel with
    | O => NoFuel
    | S fuel' =>
        match ho H (1 :: p) _ poss with
        | [] => Ok None
        | h :: _ =>
            let! (chain, poss') := chain_loop fuel' (2 :: p) true [h] (hdel edec h poss) in
            let! ccw :=
              if chain_closed chain
              then let! o := segments_orientation (rev chain) in Ok (orient_eqb o CCW)
              else Ok false in
            if ccw then
              let! pl := unwrap (new_closed (map ev1 (rev chain))) in
              Ok (Some (pl, hset edec (poss' ++ unused)))
            else union_loop fuel' (0 :: p) poss' (hset edec (unused ++ rev chain))
        end
    end.

  (** src/elements/polyline.rs:391-511, [Polyline::union]. *)
  Definition poly_union (fuel : nat) (p : path) (p1 p2 : polyline)
    : res (option (polyline * list edge)) :=
    if popened p1 || popened p2 then Ok None
    else
      let! b1 := unwrap (poly_bbox p1) in
      let! b2 := unwrap (poly_bbox p2) in
      match bbox_intersection b1 b2 with
      | None => Ok None
      | Some _ =>
          let! s1 := poly_pairs p1 in
          let! s2 := poly_pairs p2 in
          let! split := split_intersections fuel (s1 ++ s2) in
          let! (read, unused) := by_midpoint (keep_union p1 p2) (rev split) [] [] in
          union_loop fuel p (hset edec read) unused
      end.

  (** src/elements/polyline.rs:518-692, [Polyline::subtraction]. *)
  Definition poly_subtraction (fuel : nat) (p : path) (p1 p2 : polyline)
    : res (list polyline * list edge) :=
    let! s1 := poly_pairs p1 in
    let! s2 := vertex_pairs (rev (pverts p2)) (popened p2) in
    let! split := split_intersections fuel (s1 ++ s2) in
    let! b1 := unwrap (poly_bbox p1) in
    let! b2 := unwrap (poly_bbox p2) in
    let no_intersection_area :=
      match bbox_intersection b1 b2 with None => true | Some _ => false end in
    let! c := poly_continence fuel p1 p2 in
    if popened p1 || popened p2 || no_intersection_area || continence_is c Inside Open
    then Ok ([], hset edec split)
    else
      let! (read, unused) := cancel_opposed fuel p1 p2 split in
      let! (read', unused') := by_midpoint (keep_subtraction p1 p2) (rev read) [] unused in
      build_loop fuel p (hset edec read') unused' [].

  (** ** triangles_hull *)

  (** src/elements/polyline.rs:820-830: the pairing loop.  The next segment is
      the first of the set in hash order. *)
  Fixpoint hull_loop (aux : list edge) (m : list (edge * edge)) : list (edge * edge) :=
    match aux with
    | [] => m
    | s :: aux' =>
        match mget edec s m with
        | Some _ => hull_loop aux' (mdel edec s m)
        | None => hull_loop aux' (mset edec (opposite s) s m)
        end
    end.

  (** src/elements/polyline.rs:811-834, [Polyline::triangles_hull]. *)
  Definition hull_edges (p : path) (ts : list triangle) : list edge :=
    hset edec (map snd (hull_loop (ho H p _ (hset edec (flat_map inner_edges ts))) [])).
  Definition triangles_hull (fuel : nat) (p : path) (ts : list triangle) : res (option polyline) :=
    poly_arrange fuel (1 :: p) (hull_edges (0 :: p) ts).

  (** src/elements/triangle.rs:174-186, [Triangle::as_polyline]. *)
  Definition tri_as_polyline (t : triangle) : res (option polyline) :=
    if is_ghost t then Ok None
    else let! pl := unwrap (new_closed [tv1 t; tv2 t; tv3 t]) in Ok (Some pl).

  (** src/elements/edge.rs:344-349, [Edge::as_polyline]. *)
  Definition edge_as_polyline (e : edge) : res (option polyline) :=
    if vghost (ev1 e) || vghost (ev2 e) then Ok None
    else let! pl := unwrap (new_opened [ev1 e; ev2 e]) in Ok (Some pl).
End Polyline.

Arguments polyline A : clear implicits.
