(** SpecL.v — the holes of a domain and the result of parsing, stated apart from
    the domain evaluator. *)

From Coq Require Import List.
From Verif Require Import Base Arith Geometry Elements Polyline Refine Triangulator Interface Spec SpecI.
Import ListNotations.

Section SpecL.
  Context {A : Arith} (H : HashOrder).
  Notation vertex := (vertex A).
  Notation edge := (edge A).
  Notation triangle := (triangle A).
  Notation polyline := (polyline A).
  Notation triangulator := (triangulator A).

  (** The same triangle named from another of its corners. *)
  Inductive rotated : triangle -> triangle -> Prop :=
  | rotated_0 : forall a b c, rotated (Tri a b c) (Tri a b c)
  | rotated_1 : forall a b c, rotated (Tri a b c) (Tri b c a)
  | rotated_2 : forall a b c, rotated (Tri a b c) (Tri c a b).

  (** [r] lies strictly inside [b]. *)
  Definition lies_in (fuel : nat) (b r : polyline) : Prop := poly_continence fuel b r = Ok (Some (Inside, Open)).

  (** Two polylines that some call of [union] joins. *)
  Definition joins (x y u : polyline) : Prop := exists fuel p rest, poly_union H fuel p x y = Ok (Some (u, rest)).

  (** [z] is [x] united with other polylines, one after the other. *)
  Inductive grows_into : polyline -> polyline -> Prop :=
  | grows_same : forall x, grows_into x x
  | grows_left : forall x y u z, joins x y u -> grows_into u z -> grows_into x z
  | grows_right : forall x y u z, joins y x u -> grows_into u z -> grows_into x z.

  (** Nothing of a list can be united with anything else of it. *)
  Definition apart (l : list polyline) : Prop := forall x y u, In x l -> In y l -> x <> y -> ~ joins x y u.

  (** The holes kept for a boundary [b] out of the removals [rs]. *)
  Definition hole_set (fuel : nat) (b : polyline) (rs hs : list polyline) : Prop :=
    NoDup hs /\
    (forall h, In h hs -> lies_in fuel b h /\ exists r, In r rs /\ grows_into r h) /\
    (forall r, In r rs -> exists z, grows_into r z /\ (In z hs \/ ~ lies_in fuel b z)) /\
    (NoDup rs -> apart rs -> forall h, In h hs <-> In h rs /\ lies_in fuel b h).

  (** One of two polylines lies strictly outside the other. *)
  Definition disjointly (fuel : nat) (h h' : polyline) : Prop :=
    poly_continence fuel h h' = Ok (Some (Outside, Open)) \/ poly_continence fuel h' h = Ok (Some (Outside, Open)).

  (** A segment, or a vertex, strictly inside a boundary and strictly outside the holes. *)
  Definition segment_fits (fuel : nat) (b : polyline) (hs : list polyline) (s : edge) : Prop :=
    lies_in fuel b (as_poly s) /\ forall h, In h hs -> poly_continence fuel h (as_poly s) = Ok (Some (Outside, Open)).
  Definition vertex_fits (b : polyline) (hs : list polyline) (v : vertex) : Prop :=
    poly_contains b v = Ok (Some Inside) /\ forall h, In h hs -> poly_contains h v = Ok (Some Outside).

  (** What a triangulator made from a boundary, holes, segments and vertices holds. *)
  Definition holds (fuel : nat) (t : triangulator) (b : polyline) (hs : list polyline) (ss : list edge) (vs : list vertex) : Prop :=
    t_boundary t = b /\ t_trn t = trn_new /\ same_set (t_holes t) hs /\
    (forall h h', In h hs -> In h' hs -> h <> h' -> disjointly fuel h h') /\
    (forall s, In s ss -> segment_fits fuel b hs s /\ linked_near (t_segments t) (fst s) (snd s)) /\
    (forall v, In v vs -> vertex_fits b hs v /\
       (In v (t_vertices t) \/ endpoint (t_segments t) v \/ near_endpoint (t_segments t) v)) /\
    (forall v, In v (t_vertices t) -> In v vs).

  (** The first of these that does not fit makes the input unacceptable. *)
  Definition unfit (fuel : nat) (b : polyline) (hs : list polyline) (ss : list edge) (vs : list vertex) : Prop :=
    (exists h h', In h hs /\ In h' hs /\ h <> h' /\ poly_continence fuel h h' <> Ok (Some (Outside, Open))) \/
    (exists s, In s ss /\ ~ segment_fits fuel b hs s) \/
    (exists v, In v vs /\ ~ vertex_fits b hs v).

  (** Boundary and holes asked for by a list of effects. *)
  Definition domain_of (fuel : nat) (fs : list (effect (A:=A))) (b : polyline) (hs : list polyline) : Prop :=
    exists l b0 kept, united H l b0 /\ NoDup l /\ (forall x, In x l <-> In x (flat_map included fs)) /\
      carved_out H b0 (flat_map removed fs) b kept /\ hole_set fuel b kept hs.
End SpecL.
