(** Spec.v — specification vocabulary.

    Statements of theorems use these notions, which are written independently
    of the functions of the model: they are relations on plain data (vertices,
    edges as pairs, triangles as triples, lists). *)

From Coq Require Import List Bool Permutation.
From Verif Require Import Base Arith Geometry Elements.
Import ListNotations.

Section Spec.
  Context {A : Arith}.
  Notation vertex := (vertex A).
  Notation edge := (edge A).
  Notation triangle := (triangle A).
  Notation triangulation := (triangulation A).

  (** [e] is one of the three oriented sides of the triangle. *)
  Inductive side_of : edge -> triangle -> Prop :=
  | side_ab : forall a b c, side_of (a, b) (Tri a b c)
  | side_bc : forall a b c, side_of (b, c) (Tri a b c)
  | side_ca : forall a b c, side_of (c, a) (Tri a b c).

  (** [v] is one of the three corners. *)
  Inductive corner_of : vertex -> triangle -> Prop :=
  | corner_a : forall a b c, corner_of a (Tri a b c)
  | corner_b : forall a b c, corner_of b (Tri a b c)
  | corner_c : forall a b c, corner_of c (Tri a b c).

  (** The same edge in the other direction. *)
  Definition flip (e : edge) : edge := let (a, b) := e in (b, a).

  (** A triangle with a ghost corner. *)
  Definition ghostly (t : triangle) : Prop := exists v, corner_of v t /\ vghost v = true.

  (** Two lists hold the same elements (the meaning of two hash sets being equal). *)
  Definition same_set {X} (l l' : list X) : Prop := forall x, In x l <-> In x l'.

  (** Histories of triangle operations. *)
  Inductive tri_op : Type := OpInclude (t : triangle) | OpRemove (t : triangle).

  (** The set of triangles a history should leave, starting from [s]. *)
  Fixpoint present (h : list tri_op) (s : triangle -> Prop) : triangle -> Prop :=
    match h with
    | [] => s
    | OpInclude t :: h' => present h' (fun x => x = t \/ s x)
    | OpRemove t :: h' => present h' (fun x => x <> t /\ s x)
    end.

  (** No two different triangles of a set share an oriented side. *)
  Definition exclusive (s : triangle -> Prop) : Prop :=
    forall t t' e, s t -> s t' -> side_of e t -> side_of e t' -> t = t'.

  (** A history during which the set is exclusive at every moment. *)
  Fixpoint exclusive_history (h : list tri_op) (s : triangle -> Prop) : Prop :=
    exclusive s /\
    match h with
    | [] => True
    | OpInclude t :: h' => exclusive_history h' (fun x => x = t \/ s x)
    | OpRemove t :: h' => exclusive_history h' (fun x => x <> t /\ s x)
    end.

  (** Running a history on the real structure. *)
  Definition run_op (tr : triangulation) (o : tri_op) : triangulation :=
    match o with
    | OpInclude t => fst (include_triangle t tr)
    | OpRemove t => fst (remove_triangle t tr)
    end.
  Definition run_history (h : list tri_op) (tr : triangulation) : triangulation :=
    fold_left run_op h tr.

  (** Triangles of the set [s] that can be reached by stepping on a triangle with
      a side in [start] and then from triangle to triangle through sides that are
      not in [frontier]. *)
  Inductive swept (s : triangle -> Prop) (start frontier : list edge) : triangle -> Prop :=
  | swept_start : forall e t, In e start -> s t -> side_of e t -> swept s start frontier t
  | swept_next : forall x t t', swept s start frontier t -> side_of x t -> ~ In x frontier ->
      s t' -> side_of (flip x) t' -> swept s start frontier t'.

  (** The adjacency map only mentions present triangles, by their own sides; and
      it knows every side of every present triangle. *)
  Definition adj_sound (tr : triangulation) : Prop :=
    forall e t, adj_get e tr = Some t -> In t (tris tr) /\ side_of e t.
  Definition adj_complete (tr : triangulation) : Prop :=
    forall e t, In t (tris tr) -> side_of e t -> adj_get e tr = Some t.
End Spec.

(** ** Segments and polylines *)
From Verif Require Import Polyline Procedures Refine Triangulator.

Section Spec2.
  Context {A : Arith}.
  Notation vertex := (vertex A).
  Notation edge := (edge A).
  Notation triangle := (triangle A).
  Notation triangulation := (triangulation A).
  Notation polyline := (polyline A).
  Notation triangulator := (triangulator A).

  (** A polyline the public constructors can return. *)
  Definition proper (p : polyline) : Prop :=
    new_closed (pverts p) = Some p \/ new_opened (pverts p) = Some p.
  Definition proper_closed (p : polyline) : Prop := new_closed (pverts p) = Some p.

  (** [b] can be reached from [a] by following segments of the set. *)
  Inductive linked (ss : list edge) : vertex -> vertex -> Prop :=
  | linked_refl : forall a, linked ss a a
  | linked_step : forall a b c, In (a, b) ss -> linked ss b c -> linked ss a c.

  (** [v] is an end of a segment of the set. *)
  Definition endpoint (ss : list edge) (v : vertex) : Prop :=
    exists w, In (v, w) ss \/ In (w, v) ss.

  (** [v] is an end, up to [==], of a segment. *)
  Definition near_endpoint (ss : list edge) (v : vertex) : Prop :=
    exists s, In s ss /\ (veqb (fst s) v = true \/ veqb (snd s) v = true).

  (** [v] is strictly inside the boundary and strictly outside every hole. *)
  Definition vertex_admissible (t : triangulator) (v : vertex) : Prop :=
    poly_contains (t_boundary t) v = Ok (Some Inside) /\
    forall h, In h (t_holes t) -> poly_contains h v = Ok (Some Outside).

  (** The segment is strictly inside the boundary and strictly outside every hole. *)
  Definition segment_admissible (fuel : nat) (t : triangulator) (s : edge) : Prop :=
    let p := Poly [fst s; snd s] true in
    poly_continence fuel (t_boundary t) p = Ok (Some (Inside, Open)) /\
    forall h, In h (t_holes t) -> poly_continence fuel h p = Ok (Some (Outside, Open)).

  (** The segment [s] as a polyline. *)
  Definition as_poly (s : edge) : polyline := Poly [fst s; snd s] true.

  (** Answers of [continence] that make [insert_hole] refuse. *)
  Definition clash (fuel : nat) (t : triangulator) (h : polyline) (v : vertex) : Prop :=
    (poly_continence fuel (t_boundary t) h <> Ok (Some (Inside, Open)) /\ In v (pverts (t_boundary t))) \/
    (exists h', In h' (t_holes t) /\ poly_continence fuel h' h <> Ok (Some (Outside, Open)) /\ In v (pverts h')).
  Definition segment_clash (fuel : nat) (t : triangulator) (h : polyline) (v : vertex) : Prop :=
    exists s, In s (t_segments t) /\ poly_continence fuel h (as_poly s) <> Ok (Some (Outside, Open)) /\
              (v = fst s \/ v = snd s).
  (** The hole is strictly inside the boundary, strictly outside the other holes
      and every segment is strictly outside of it. *)
  Definition hole_admissible (fuel : nat) (t : triangulator) (h : polyline) : Prop :=
    poly_continence fuel (t_boundary t) h = Ok (Some (Inside, Open)) /\
    (forall h', In h' (t_holes t) -> poly_continence fuel h' h = Ok (Some (Outside, Open))) /\
    (forall s, In s (t_segments t) -> poly_continence fuel h (as_poly s) = Ok (Some (Outside, Open))).

  (** The parts of a triangulator that insertion does not own. *)
  Definition same_domain (t t' : triangulator) : Prop :=
    t_boundary t' = t_boundary t /\ t_holes t' = t_holes t /\ t_trn t' = t_trn t.

  (** [b] can be reached from [a] by following segments, where an end may be
      replaced by a vertex that is [==] to it. *)
  Inductive linked_near (ss : list edge) : vertex -> vertex -> Prop :=
  | near_refl : forall a, linked_near ss a a
  | near_step : forall a b c, In (a, b) ss -> linked_near ss b c -> linked_near ss a c
  | near_hop : forall a b c, veqb a b = true \/ veqb b a = true -> linked_near ss b c -> linked_near ss a c.

  (** Two segments with a common point, not parallel, without a common end. *)
  Definition crossing (s s' : edge) : Prop :=
    (exists v, intersection (fst s) (snd s) (fst s') (snd s') = Some v) /\
    veqb (fst s) (fst s') = false /\ veqb (fst s) (snd s') = false /\
    veqb (snd s) (fst s') = false /\ veqb (snd s) (snd s') = false /\
    parallel (fst s) (snd s) (fst s') (snd s') = false.

  (** Later elements of a list are unrelated to earlier ones. *)
  Definition pairwise {X} (Q : X -> X -> Prop) (l : list X) : Prop :=
    forall l1 x l2 y l3, l = l1 ++ x :: l2 ++ y :: l3 -> Q x y.

  (** A list of edges that follow each other exactly, from [a] to [b]. *)
  Inductive chain_from : vertex -> vertex -> list edge -> Prop :=
  | chain_one : forall a b, chain_from a b [(a, b)]
  | chain_cons : forall a b c l, chain_from b c l -> chain_from a c ((a, b) :: l).

  (** Two edges such that the second starts where the first ends, up to [==]. *)
  Definition follows (s s' : edge) : Prop := veqb (snd s) (fst s') = true.

  (** Every element of the list follows the one before. *)
  Fixpoint trail (l : list edge) : Prop :=
    match l with
    | s :: ((s' :: _) as l') => follows s s' /\ trail l'
    | _ => True
    end.

  (** Dyadic subdivision of a segment at midpoints. *)
  Inductive tiling : edge -> list edge -> Prop :=
  | tile_whole : forall e, tiling e [e]
  | tile_halves : forall a b m l1 l2, m = edge_midpoint (a, b) ->
      tiling (a, m) l1 -> tiling (m, b) l2 -> tiling (a, b) (l1 ++ l2).

  (** A list of edges merged one after the other into the edge [(a, b)], each
      new one continuing the merged edge straight on at one of its two ends. *)
  Inductive merged : vertex -> vertex -> list edge -> Prop :=
  | merged_one : forall a b, merged a b [(a, b)]
  | merged_after : forall a b c l, merged a b l ->
      orientation a b c = Colinear -> flt c0 (dot a b b c) = true -> merged a c (l ++ [(b, c)])
  | merged_before : forall a b c l, merged a b l ->
      orientation b a c = Colinear -> flt c0 (dot b a a c) = true -> merged c b ((c, a) :: l).

  (** ** Inserting vertices *)

  (** Corners before, or vertices asked for. *)
  Definition known (tr0 : triangulation) (req : list vertex) (w : vertex) : Prop :=
    (exists t, In t (tris tr0) /\ corner_of w t) \/ In w req.

  (** A constraint holds in both directions. *)
  Definition constrained (cs : list edge) (e : edge) : Prop := In e cs \/ In (flip e) cs.

  (** Triangles that may be removed to make room for [v]: one whose circumcircle
      strictly contains [v], or one that conflicts with [v] across an
      unconstrained side of such a triangle. *)
  Inductive carved (cs : list edge) (v : vertex) : triangle -> Prop :=
  | carved_first : forall t, encircles t v = Inside -> carved cs v t
  | carved_next : forall t t' e, carved cs v t -> side_of e t -> side_of (flip e) t' -> ~ constrained cs e ->
      is_conflicting t' v = true -> carved cs v t'.

  (** A conflict map lists each triangle once, with vertices strictly inside its
      circumcircle. *)
  Definition listed (cm : list (triangle * list vertex)) : list vertex := flat_map snd cm.
  Definition fair (cm : list (triangle * list vertex)) : Prop :=
    NoDup (map fst cm) /\
    forall t l, In (t, l) cm -> l <> [] /\ forall v, In v l -> encircles t v = Inside.
End Spec2.
