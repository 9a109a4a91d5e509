(** SpecM.v — specification vocabulary for the outline of triangles, the corners
    of a polyline, runs of the refinement loop, and nested polygons. *)

From Coq Require Import List Bool Permutation Arith.
From Verif Require Import Base Arith Geometry Elements Polyline Procedures Refine Triangulator Spec.
Import ListNotations.
Local Open Scope nat_scope.

Section SpecM.
  Context {A : Arith}.
  Notation vertex := (vertex A).
  Notation edge := (edge A).
  Notation triangle := (triangle A).
  Notation triangulation := (triangulation A).
  Notation polyline := (polyline A).

  (** [e] is a side of a triangle of the list. *)
  Definition some_side (ts : list triangle) (e : edge) : Prop := exists t, In t ts /\ side_of e t.

  (** The vertex at position [i] of a circular list of [n] vertices turns. *)
  Definition turns_at (l : list vertex) (d : vertex) (i : nat) : Prop :=
    let n := length l in
    orientation (nth ((i + (n - 1)) mod n) l d) (nth i l d) (nth ((i + 1) mod n) l d) <> Colinear.

  (** The vertex at position [i] turns, and it is not an end of the list. *)
  Definition turns_within (l : list vertex) (d : vertex) (i : nat) : Prop :=
    0 < i /\ i + 1 < length l /\
    orientation (nth (i - 1) l d) (nth i l d) (nth (i + 1) l d) <> Colinear.

  (** Positions in increasing order. *)
  Fixpoint increasing (ks : list nat) : Prop :=
    match ks with
    | i :: ((j :: _) as ks') => i < j /\ increasing ks'
    | _ => True
    end.

  (** The triangle misses the quality or the area target. *)
  Definition misses (prm : refine_params A) (t : triangle) : Prop :=
    (exists q, quality t = Some q /\ (aeq q (quality_ratio prm) = true \/ fle (quality_ratio prm) q = true)) \/
    (exists a m, tri_area t = Some a /\ max_area prm = Some m /\ (aeq a m = true \/ fle m a = true)).

  (** Splitting the encroached segments one after the other: the mesh, the points
      that encroach, the constraints, and the triangles reported as removed. *)
  Inductive split_all (H : HashOrder) (bd : option polyline) (hs : list polyline) :
    list edge -> triangulation -> list vertex -> list edge -> list triangle -> triangulation -> list edge -> Prop :=
  | split_none : forall tr vs cs, split_all H bd hs [] tr vs cs [] tr cs
  | split_one : forall fuel p e es tr vs cs tr1 vs1 cs1 new inc del gone tr2 cs2,
      unencroach_segment H fuel p tr e vs cs bd hs = Ok (tr1, vs1, new, inc, del) ->
      (forall x, In x cs1 <-> (In x cs /\ x <> e) \/ In x new) ->
      split_all H bd hs es tr1 vs1 cs1 gone tr2 cs2 ->
      split_all H bd hs (e :: es) tr vs cs (del ++ gone) tr2 cs2.

  (** A run of refinement from one mesh to another.  [seen]: triangles that have
      been in the mesh before; [tried]: triangles whose centre was tried; [gone]:
      triangles reported as removed, and those that undoing a trial brought. *)
  Inductive refining (H : HashOrder) (prm : refine_params A) (bd : option polyline) (hs : list polyline) :
    list triangle -> triangulation -> list edge -> list triangle -> list triangle ->
    triangulation -> list edge -> Prop :=
  | refining_done : forall seen tr cs, refining H prm bd hs seen tr cs [] [] tr cs
  | refining_accept : forall fuel p seen tr cs t tr1 inc del tried gone tr2 cs2,
      In t seen -> is_ghost t = false -> misses prm t ->
      try_circumcenter H fuel p tr t cs bd hs = Ok (tr1, inl (inc, del)) ->
      refining H prm bd hs (seen ++ tris tr1) tr1 cs tried gone tr2 cs2 ->
      refining H prm bd hs seen tr cs (t :: tried) (del ++ gone) tr2 cs2
  | refining_reject : forall fuel p seen tr cs t cc tr1 enc es back lost tr2 cs2 tried gone tr3 cs3,
      In t seen -> is_ghost t = false -> misses prm t -> tri_circumcenter t = Some cc ->
      try_circumcenter H fuel p tr t cs bd hs = Ok (tr1, inr enc) ->
      (forall x, In x back <-> In x (tris tr1) /\ ~ In x (tris tr)) ->
      Permutation enc es -> split_all H bd hs es tr1 [cc] cs lost tr2 cs2 ->
      refining H prm bd hs (seen ++ tris tr1 ++ tris tr2) tr2 cs2 tried gone tr3 cs3 ->
      refining H prm bd hs seen tr cs (t :: tried) (back ++ lost ++ gone) tr3 cs3.
End SpecM.

Section SpecM2.
  Context {A : Arith}.
  Notation vertex := (vertex A).
  Notation edge := (edge A).
  Notation triangulator := (triangulator A).

  (** The edges a triangulator has to respect: sides of its boundary, sides of
      its holes, and its segments. *)
  Definition fixed_edge (t : triangulator) (e : edge) : Prop :=
    (exists es, into_edges (t_boundary t) = Ok es /\ In e es) \/
    (exists h es, In h (t_holes t) /\ into_edges h = Ok es /\ In e es) \/
    In e (t_segments t).

  (** The vertices a triangulator was given. *)
  Definition given (t : triangulator) (v : vertex) : Prop :=
    In v (pverts (t_boundary t)) \/ (exists h, In h (t_holes t) /\ In v (pverts h)) \/
    (exists s, In s (t_segments t) /\ (v = fst s \/ v = snd s)) \/ In v (t_vertices t).
End SpecM2.

Section SpecM3.
  Context {A : Arith}.
  Notation vertex := (vertex A).
  Notation edge := (edge A).
  Notation polyline := (polyline A).

  (** Segments that follow each other up to [==] and close up, without repetition. *)
  Definition ring (ch : list edge) : Prop :=
    NoDup ch /\ trail ch /\ 3 <= length ch /\ forall d, follows (last ch d) (hd d ch).

  (** Two segments on parallel lines that have a common point and run against
      each other. *)
  Definition against (s s' : edge) : Prop :=
    (exists v, intersection (fst s) (snd s) (fst s') (snd s') = Some v) /\
    parallel (fst s) (snd s) (fst s') (snd s') = true /\
    flt (dot (fst s) (snd s) (fst s') (snd s')) c0 = true.

  (** Segments of a list, and what is left of two that run against each other. *)
  Inductive trimmed (ss : list edge) : edge -> Prop :=
  | trimmed_in : forall s, In s ss -> trimmed ss s
  | trimmed_first : forall s s', trimmed ss s -> trimmed ss s' -> against s s' -> trimmed ss (fst s, snd s')
  | trimmed_second : forall s s', trimmed ss s -> trimmed ss s' -> against s s' -> trimmed ss (fst s', snd s).

  (** No two vertices are [==]. *)
  Definition apart (l : list vertex) : Prop := pairwise (fun u w => veqb u w = false /\ veqb w u = false) l.

  (** The same circular list from another starting point. *)
  Definition rotation (l l' : list vertex) : Prop := exists l1 l2, l = l1 ++ l2 /\ l' = l2 ++ l1.

  (** No two segments cross, and no two run against each other. *)
  Definition calm (ss : list edge) : Prop :=
    forall s s', In s ss -> In s' ss -> ~ crossing s s' /\ ~ against s s'.

  (** Two closed polylines, with sides [ei] and [eo], the first one within the
      second, as far as the public tests can tell. *)
  Definition nested (inner outer : polyline) (ei eo : list edge) : Prop :=
    proper_closed inner /\ proper_closed outer /\ into_edges inner = Ok ei /\ into_edges outer = Ok eo /\
    calm (ei ++ eo) /\
    (forall e, In e ei -> poly_contains inner (midpoint (fst e) (snd e)) <> Ok (Some Outside) /\
                          poly_contains outer (midpoint (fst e) (snd e)) <> Ok (Some Outside)) /\
    (forall e, In e eo -> poly_contains inner (midpoint (fst e) (snd e)) = Ok (Some Outside)).

  (** The bounding boxes meet. *)
  Definition boxes_meet (p1 p2 : polyline) : Prop :=
    exists b1 b2 b, poly_bbox p1 = Some b1 /\ poly_bbox p2 = Some b2 /\ bbox_intersection b1 b2 = Some b.
End SpecM3.
