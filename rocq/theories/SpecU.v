(** SpecU.v — the turns that rings of segments take; segments that cancel. *)

From Coq Require Import Reals List Permutation.
From Verif Require Import Base Arith Geometry Elements Polyline ArithR Spec SpecR SpecM.
Import ListNotations.

(** [t] starts where [s] ends, and neither of them is degenerate nor leads back. *)
Definition could_follow (s t : edge ArithR) : Prop :=
  veqb (snd s) (fst t) = true /\ veqb (fst s) (fst t) = false /\ veqb (fst s) (snd t) = false /\ veqb (snd s) (snd t) = false.

(** Coming from [s], the angle towards the end of [t'] is at least that towards
    the end of [t]. *)
Definition turn_le (s t t' : edge ArithR) : Prop :=
  exists a b : R, angle (fst s) (snd s) (snd t) = Some a /\ angle (fst s) (snd s) (snd t') = Some b /\ (a <= b)%R.

(** Rings in the order in which they were built: after each side comes one that
    could follow it, and none of those taken later in its place would have made
    a smaller angle. *)
Definition smallest_turns (rings : list (list (edge ArithR))) : Prop :=
  forall pre r post l1 s s' l2, rings = pre ++ r :: post -> r = l1 ++ s :: s' :: l2 ->
    could_follow s s' /\ forall t, In t l2 \/ (exists r', In r' post /\ In t r') -> could_follow s t -> turn_le s s' t.
(** One ring: the largest angle. *)
Definition largest_turns (r : list (edge ArithR)) : Prop :=
  forall l1 s s' l2, r = l1 ++ s :: s' :: l2 -> could_follow s s' /\ forall t, In t l2 -> could_follow s t -> turn_le s t s'.

Section Cancel.
  Context {A : Arith}.
  Notation edge := (edge A).
  Variables p1 p2 : polyline A.

  (** A point outside of one of the polygons. *)
  Definition beyond (v : vertex A) : Prop := poly_contains p1 v = Ok (Some Outside) \/ poly_contains p2 v = Ok (Some Outside).

  (** Two segments that run against each other and are joined at an end, or one
      of whose ends is outside. *)
  Definition cancels (s s' : edge) : Prop :=
    against s s' /\ (veqb (fst s) (snd s') = true \/ veqb (snd s) (fst s') = true \/ beyond (fst s) \/ beyond (snd s) \/ beyond (fst s') \/ beyond (snd s')).
  (** What is left over: from the start of the first to the end of the second, and
      from the start of the second to the end of the first. *)
  Definition leaves_first (s s' : edge) : Prop :=
    veqb (fst s) (snd s') = false /\ (veqb (snd s) (fst s') = true \/ beyond (snd s) \/ beyond (fst s')).
  Definition leaves_second (s s' : edge) : Prop :=
    veqb (snd s) (fst s') = false /\ (veqb (fst s) (snd s') = true \/ beyond (fst s) \/ beyond (snd s')).

  (** Pairs are replaced by what they leave until no pair is left, the later one
      of two taken first. *)
  Inductive settles : list edge -> list edge -> Prop :=
  | settled : forall l r, Permutation l r -> ForallOrdPairs (fun s' s => ~ cancels s s') r -> settles l r
  | settle : forall l m s s' l1 l2 r, Permutation l (s :: s' :: m) -> cancels s s' ->
      (leaves_first s s' /\ l1 = [(fst s, snd s')] \/ ~ leaves_first s s' /\ l1 = []) ->
      (leaves_second s s' /\ l2 = [(fst s', snd s)] \/ ~ leaves_second s s' /\ l2 = []) ->
      settles (l1 ++ l2 ++ m) r -> settles l r.
End Cancel.
