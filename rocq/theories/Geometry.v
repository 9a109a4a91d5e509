(** Geometry.v — model of src/elements/vertex.rs, src/elements/bounding_box.rs
    and src/properties/*.rs. *)

From Coq Require Import List Bool Arith.
From Verif Require Import Base Arith.
Import ListNotations.
Local Open Scope f64_scope.

Section Geometry.
  Context {A : Arith}.
  Notation F := (T A).

  (** ** vertex.rs *)

  (** src/elements/vertex.rs:12-16.  [Rc<Vertex>] and [&Vertex] are the value
      itself: the crate never compares pointers and never mutates a vertex. *)
  Record vertex : Type := V { vx : F; vy : F; vghost : bool }.

  (** Hash key identity, src/elements/vertex.rs:18-32: exact x, exact y, flag. *)
  Definition vdec (a b : vertex) : {a = b} + {a <> b}.
  Proof.
    decide equality; try apply same; apply bool_dec.
  Defined.

  (** src/elements/vertex.rs:34-44, [PartialEq::eq] ([==]). *)
  Definition veqb (a b : vertex) : bool :=
    if vghost a && vghost b then true
    else Bool.eqb (vghost a) (vghost b) && aeq (vx a) (vx b) && aeq (vy a) (vy b).

  (** src/elements/vertex.rs:48-68, [Ord::cmp]. *)
  Definition vcmp (a b : vertex) : comparison :=
    if vghost a && vghost b then Eq
    else if vx a >? vx b then Gt
    else if vx a <? vx b then Lt
    else if vy a >? vy b then Gt
    else if vy a <? vy b then Lt
    else Eq.

  (** src/elements/vertex.rs:86-92, [Vertex::new]. *)
  Definition mkv (x y : F) : vertex := V x y false.

  (** src/elements/vertex.rs:94-100, [Vertex::new_ghost]. *)
  Definition ghost_vertex : vertex := V c0 c0 true.

  (** src/elements/vertex.rs:102-120, [Vertex::from_coordinates].  The parity
      test and the indexed loop become one recursion over pairs. *)
  Fixpoint pair_up (l : list F) : list vertex :=
    match l with
    | x :: y :: l' => mkv x y :: pair_up l'
    | _ => []
    end.
  Definition vertices_from_coordinates (l : list F) : res (list vertex) :=
    if Nat.even (length l) then Ok (pair_up l) else Panic.

  (** f64::partial_cmp; [None] when either side is NaN. *)
  Definition pcmp (a b : F) : option comparison :=
    if a <? b then Some Lt
    else if a =? b then Some Eq
    else if b <? a then Some Gt
    else None.

  (** src/elements/vertex.rs:123-126, the comparator of [Vertex::sort], as it is
      written: the second arm compares [v1.x] with [v2.y]. *)
  Definition sort_cmp (a b : vertex) : res comparison :=
    match pcmp (vx a) (vx b) with
    | Some Eq => unwrap (pcmp (vy a) (vy b))
    | _ => unwrap (pcmp (vx a) (vy b))
    end.

  (** src/elements/vertex.rs:122-127, [Vertex::sort].  std's [sort_by] on at
      most 20 elements is this insertion sort (from the right, stable); longer
      inputs use a merge sort that is not modelled. *)
  Fixpoint sort_insert (x : vertex) (l : list vertex) : res (list vertex) :=
    match l with
    | [] => Ok [x]
    | y :: l' =>
        let! c := sort_cmp y x in
        match c with
        | Lt => let! r := sort_insert x l' in Ok (y :: r)
        | _ => Ok (x :: y :: l')
        end
    end.
  Fixpoint vertex_sort (l : list vertex) : res (list vertex) :=
    match l with
    | [] => Ok []
    | x :: l' => let! r := vertex_sort l' in sort_insert x r
    end.

  (** ** bounding_box.rs *)

  (** src/elements/bounding_box.rs:5-8.  [origin]/[destin] are always built by
      [Vertex::new], so only their coordinates are kept. *)
  Record bbox : Type := BB { bx0 : F; by0 : F; bx1 : F; by1 : F }.

  (** src/elements/bounding_box.rs:104-109 *)
  Definition fmin (a b : F) : F := if a <? b then a else b.
  (** src/elements/bounding_box.rs:111-116 *)
  Definition fmax (a b : F) : F := if a >? b then a else b.

  (** src/elements/bounding_box.rs:29-34, one round of the loop. *)
  Definition bbox_step (b : bbox) (v : vertex) : bbox :=
    BB (fmin (bx0 b) (vx v)) (fmin (by0 b) (vy v))
       (fmax (bx1 b) (vx v)) (fmax (by1 b) (vy v)).

  (** src/elements/bounding_box.rs:19-40, [BoundingBox::from_vertices]. *)
  Definition bbox_from_vertices (l : list vertex) : option bbox :=
    match l with
    | [] => None
    | v :: _ => Some (fold_left bbox_step l (BB (vx v) (vy v) (vx v) (vy v)))
    end.

  (** src/elements/bounding_box.rs:42-47, [BoundingBox::contains]. *)
  Definition bbox_contains (b : bbox) (v : vertex) : bool :=
    let x_intersection := (vx v <=? bx1 b) && (vx v >=? bx0 b) in
    let y_intersection := (vy v <=? by1 b) && (vy v >=? by0 b) in
    x_intersection && y_intersection.

  (** src/elements/bounding_box.rs:49-66, [BoundingBox::intersection]. *)
  Definition bbox_intersection (b1 b2 : bbox) : option bbox :=
    let lower_x := fmax (bx0 b1) (bx0 b2) in
    let upper_x := fmin (bx1 b1) (bx1 b2) in
    let lower_y := fmax (by0 b1) (by0 b2) in
    let upper_y := fmin (by1 b1) (by1 b2) in
    if (lower_x <=? upper_x) && (lower_y <=? upper_y)
    then Some (BB lower_x lower_y upper_x upper_y)
    else None.

  (** src/elements/bounding_box.rs:68-78, [BoundingBox::union]. *)
  Definition bbox_union (b1 b2 : bbox) : bbox :=
    BB (fmin (bx0 b1) (bx0 b2)) (fmin (by0 b1) (by0 b2))
       (fmax (bx1 b1) (bx1 b2)) (fmax (by1 b1) (by1 b2)).

  (** src/elements/bounding_box.rs:80-101, [BoundingBox::union_list]. *)
  Definition bbox_union_list (l : list bbox) : option bbox :=
    match l with
    | [] => None
    | b :: _ => Some (fold_left bbox_union l b)
    end.

  (** ** properties *)

  (** nalgebra [Matrix3::determinant] (closed formula for 3x3). *)
  Definition det3 (m11 m12 m13 m21 m22 m23 m31 m32 m33 : F) : F :=
    let minor1 := m22 * m33 - m32 * m23 in
    let minor2 := m21 * m33 - m31 * m23 in
    let minor3 := m21 * m32 - m31 * m22 in
    m11 * minor1 - m12 * minor2 + m13 * minor3.

  (** nalgebra [Matrix2::determinant]; [is_invertible]/[try_inverse] succeed
      exactly when it is not [0.0]. *)
  Definition det2 (m11 m12 m21 m22 : F) : F := m11 * m22 - m21 * m12.
  Definition invertible2 (m11 m12 m21 m22 : F) : bool :=
    negb (det2 m11 m12 m21 m22 =? c0).

  (** x.powi(2) *)
  Definition sq (x : F) : F := x * x.

  (** src/properties/orientation.rs:9-13 *)
  Inductive orient : Type := CCW | CW | Colinear.
  Definition orient_eqb (a b : orient) : bool :=
    match a, b with
    | CCW, CCW | CW, CW | Colinear, Colinear => true
    | _, _ => false
    end.

  (** src/properties/orientation.rs:19-32 *)
  Definition orientation (a b c : vertex) : orient :=
    let det := det3 (vx a) (vy a) c1 (vx b) (vy b) c1 (vx c) (vy c) c1 in
    if aeq det c0 then Colinear
    else if det >? c0 then CCW else CW.

  (** src/properties/continence.rs:7-12 *)
  Inductive cont : Type := Inside | Outside | Boundary.
  Definition cont_eqb (a b : cont) : bool :=
    match a, b with
    | Inside, Inside | Outside, Outside | Boundary, Boundary => true
    | _, _ => false
    end.

  (** src/properties/continence.rs:14-18 *)
  Inductive binc : Type := Open | Closed.
  Definition binc_eqb (a b : binc) : bool :=
    match a, b with Open, Open | Closed, Closed => true | _, _ => false end.

  (** src/properties/continence.rs:24-42 *)
  Definition continence (a b c d : vertex) : cont :=
    let row v := (vx v, vy v, sq (vx v) + sq (vy v), c1) in
    let det := det4 (row a) (row b) (row c) (row d) in
    if aeq det c0 then Boundary
    else if det >? c0 then Inside else Outside.

  (** src/properties/distance.rs:3-5 *)
  Definition distance (a b : vertex) : F :=
    fsqrt (sq (vx a - vx b) + sq (vy a - vy b)).

  (** src/properties/dot.rs:10-28 *)
  Definition dot (a b c d : vertex) : F :=
    (vx b - vx a) * (vx d - vx c) + (vy b - vy a) * (vy d - vy c).

  (** src/properties/encroachment.rs:4-23 *)
  Definition encroach (v1 v2 v : vertex) : cont :=
    let measure := (vx v - vx v2) * (vx v - vx v1) + (vy v - vy v2) * (vy v - vy v1) in
    if aeq measure c0 then Boundary
    else if measure >? c0 then Outside else Inside.

  (** src/properties/midpoint.rs:3-10 *)
  Definition midpoint (v1 v2 : vertex) : vertex :=
    if vghost v1 || vghost v2 then ghost_vertex
    else mkv ((vx v1 + vx v2) / c2) ((vy v1 + vy v2) / c2).

  (** src/properties/parallel.rs:10-25 *)
  Definition parallel (a b c d : vertex) : bool :=
    negb (invertible2 (- (vy b - vy a)) (vx b - vx a) (- (vy d - vy c)) (vx d - vx c)).

  (** src/properties/area.rs:5-9.  A tuple [(v1, v2)] is a Coq pair. *)
  Definition area_segments (l : list (vertex * vertex)) : F :=
    fold_left (fun acc s =>
      acc + (vx (snd s) - vx (fst s)) * (vy (snd s) + vy (fst s)) / c2) l c0.

  (** src/properties/area.rs:11-23 *)
  Definition area_triangle (v1 v2 v3 : vertex) : F :=
    det3 (vx v1) (vy v1) c1 (vx v2) (vy v2) c1 (vx v3) (vy v3) c1 / c2.

  (** src/properties/circumcenter.rs:4-41.  [try_inverse] of a 2x2 matrix is the
      adjugate divided by the determinant. *)
  Definition circumcenter (v1 v2 v3 : vertex) : option vertex :=
    let a11 := vx v3 - vx v1 in
    let a12 := vy v3 - vy v1 in
    let a21 := vx v2 - vx v1 in
    let a22 := vy v2 - vy v1 in
    if invertible2 a11 a12 a21 a22 then
      let d := det2 a11 a12 a21 a22 in
      let i11 := a22 / d in
      let i12 := - a12 / d in
      let i21 := - a21 / d in
      let i22 := a11 / d in
      let b1 := sq (vx v3) - sq (vx v1) + sq (vy v3) - sq (vy v1) in
      let b2 := sq (vx v2) - sq (vx v1) + sq (vy v2) - sq (vy v1) in
      Some (mkv (fhalf * i11 * b1 + fhalf * i12 * b2)
                (fhalf * i21 * b1 + fhalf * i22 * b2))
    else None.

  (** src/properties/angle.rs:11-24.  Always [Some]; the option is kept because
      the callers compare [Option<f64>] values. *)
  Definition angle (a b c : vertex) : option F :=
    let bax := vx a - vx b in
    let bay := vy a - vy b in
    let bcx := vx c - vx b in
    let bcy := vy c - vy b in
    let cos_theta := (bax * bcx + bay * bcy)
                     / (fsqrt (bax * bax + bay * bay) * fsqrt (bcx * bcx + bcy * bcy)) in
    let theta := facos cos_theta in
    if orient_eqb (orientation a b c) CW then Some (c2 * fpi - theta) else Some theta.

  (** src/properties/intersection.rs:45-58.  Both unwraps are on a bounding box
      of two vertices, which always exists. *)
  Definition intersection_region (v1 v2 v3 v4 : vertex) : option bbox :=
    match bbox_from_vertices [v1; v2], bbox_from_vertices [v3; v4] with
    | Some b1, Some b2 => bbox_intersection b1 b2
    | _, _ => None
    end.

  (** src/properties/intersection.rs:63-120 *)
  Definition intersection_vertex (v1 v2 v3 v4 : vertex) (b : bbox) : option vertex :=
    let x1 := vx v1 in let y1 := vy v1 in
    let x2 := vx v2 in let y2 := vy v2 in
    let x3 := vx v3 in let y3 := vy v3 in
    let x4 := vx v4 in let y4 := vy v4 in
    let a11 := - (y2 - y1) in
    let a12 := x2 - x1 in
    let a21 := - (y4 - y3) in
    let a22 := x4 - x3 in
    let b1 := y1 * (x2 - x1) - x1 * (y2 - y1) in
    let b2 := y3 * (x4 - x3) - x3 * (y4 - y3) in
    if invertible2 a11 a12 a21 a22 then
      let d := det2 a11 a12 a21 a22 in
      let i11 := a22 / d in
      let i12 := - a12 / d in
      let i21 := - a21 / d in
      let i22 := a11 / d in
      Some (mkv (i11 * b1 + i12 * b2) (i21 * b1 + i22 * b2))
    else
      let mx := (bx0 b + bx1 b) / c2 in
      let my := (by0 b + by1 b) / c2 in
      let e0 := a11 * mx + a12 * my - b1 in
      let e1 := a21 * mx + a22 * my - b2 in
      if aeq e0 c0 && aeq e1 c0 then Some (mkv mx my) else None.

  (** src/properties/intersection.rs:18-40 *)
  Definition intersection (v1 v2 v3 v4 : vertex) : option vertex :=
    match intersection_region v1 v2 v3 v4 with
    | None => None
    | Some b =>
        match intersection_vertex v1 v2 v3 v4 b with
        | None => None
        | Some v =>
            let in_interval_x :=
              ((vx v >=? bx0 b) && (vx v <=? bx1 b)) || aeq (bx0 b) (vx v) || aeq (bx1 b) (vx v) in
            let in_interval_y :=
              ((vy v >=? by0 b) && (vy v <=? by1 b)) || aeq (by0 b) (vy v) || aeq (by1 b) (vy v) in
            if in_interval_x && in_interval_y then Some v else None
        end
    end.
End Geometry.

Arguments vertex A : clear implicits.
Arguments bbox A : clear implicits.
