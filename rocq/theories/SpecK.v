(** SpecK.v — specification vocabulary for two polygons that cross: when their
    sides are well apart for the tolerance, and how often a point is surrounded. *)

From Coq Require Import Reals List ZArith.
From Verif Require Import Base Arith Geometry Elements Polyline ArithR Spec SpecR SpecD.
Import ListNotations.
Local Open Scope R_scope.

(** [p] is an end of [s]. *)
Definition end_of (s : edge ArithR) (p : pnt) : Prop := coincide p (fst s) \/ coincide p (snd s).

(** A part of a segment, with the same direction. *)
Definition part_of (s : edge ArithR) (u v : pnt) : Prop :=
  exists t t', 0 <= t /\ t < t' /\ t' <= 1 /\ at_ratio t (fst s) (snd s) u /\ at_ratio t' (fst s) (snd s) v.

(** A point where the lines of two segments meet, at most [eps] outside of the
    boxes of both. *)
Definition nearly_meet (s s' : edge ArithR) (p : pnt) : Prop :=
  crossp (fst s) (snd s) (fst s') (snd s') <> 0 /\ on_line (fst s) (snd s) p /\ on_line (fst s') (snd s') p /\
  near_box eps (fst s) (snd s) p /\ near_box eps (fst s') (snd s') p.

(** The segments of one list only share their ends. *)
Record plain_sides (K : list (edge ArithR)) : Prop := {
  ps_once : NoDup K;
  ps_shared : forall s s' p, In s K -> In s' K -> s <> s' ->
    (on_segment (fst s) (snd s) p /\ on_segment (fst s') (snd s') p) \/ nearly_meet s s' p -> end_of s p /\ end_of s' p
}.

(** The sides [K1] and [K2] of two polygons, and a list [Z] that has their
    corners and all points where a side of one meets a side of the other. *)
Record laid_out (Z : list pnt) (K1 K2 : list (edge ArithR)) : Prop := {
  lo_plain : forall z, In z Z -> vghost z = false;
  lo_apart : forall a b, In a Z -> In b Z -> close a b -> a = b;
  lo_ends : forall s, In s (K1 ++ K2) -> In (fst s) Z /\ In (snd s) Z /\ fst s <> snd s;
  lo_first : plain_sides K1;
  lo_second : plain_sides K2;
  (** lines that nearly meet do meet, at a point of [Z] *)
  lo_meet : forall s s' p, In s K1 -> In s' K2 -> nearly_meet s s' p ->
    on_segment (fst s) (snd s) p /\ on_segment (fst s') (snd s') p /\ exists z, In z Z /\ coincide z p;
  (** no side lies along a side of the other polygon *)
  lo_across : forall s s' p, In s K1 -> In s' K2 -> crossp (fst s) (snd s) (fst s') (snd s') = 0 ->
    on_segment (fst s) (snd s) p -> on_segment (fst s') (snd s') p -> end_of s p /\ end_of s' p
}.

(** Parts of parallel sides that run in opposite directions stay apart. *)
Definition no_counter (Z : list pnt) (K : list (edge ArithR)) : Prop :=
  forall s s' u v u' v' p, In s K -> In s' K -> In u Z -> In v Z -> In u' Z -> In v' Z -> part_of s u v -> part_of s' u' v' ->
    crossp u v u' v' = 0 -> dotp u v u' v' < 0 -> near_box eps u v p -> near_box eps u' v' p ->
    - eps <= area2 u v p <= eps -> - eps <= area2 u' v' p <= eps -> False.

(** The middle of a part of a side of [K] that is not on a side of [K'] is not
    taken to be on one. *)
Definition middles_clear (Z : list pnt) (K K' : list (edge ArithR)) : Prop :=
  forall s u v m, In s K -> In u Z -> In v Z -> part_of s u v -> at_ratio (/ 2) u v m ->
    (forall s', In s' K' -> ~ on_segment (fst s') (snd s') m) -> forall s', In s' K' -> ~ touches_side m s'.

(** Every point off the sides is surrounded once, counterclockwise, or not at all. *)
Definition filled_once (l : list pnt) : Prop :=
  forall q, (forall s, In s (polygon_sides l) -> ~ on_segment (fst s) (snd s) q) ->
    winding q (polygon_sides l) = 0%Z \/ winding q (polygon_sides l) = 1%Z.

(** How often [q] is surrounded by some polygons altogether. *)
Definition winding_all (q : pnt) (pls : list (polyline ArithR)) : Z :=
  fold_right Z.add 0%Z (map (fun pl => winding q (polygon_sides (pverts pl))) pls).

(** The sides of rings that are closed polygons. *)
Definition rings_of (ls : list (list pnt)) : list (polyline ArithR) := map (fun l => Poly l false) ls.

(** ** Polygons on a grid *)

(** A corner with whole coordinates. *)
Definition grid_corner (v : pnt) : Prop := vghost v = false /\ exists i j : Z, X v = IZR i /\ Y v = IZR j.

(** A polygon with whole coordinates whose sides are level or upright, meet
    only at their ends, and surround every point at most once. *)
Record grid_polygon (l : list pnt) : Prop := {
  gp_long : (3 <= length l)%nat;
  gp_corners : forall v, In v l -> grid_corner v;
  gp_straight : forall s, In s (polygon_sides l) -> fst s <> snd s /\ (X (fst s) = X (snd s) \/ Y (fst s) = Y (snd s));
  gp_once : NoDup (polygon_sides l);
  gp_shared : forall s s' p, In s (polygon_sides l) -> In s' (polygon_sides l) -> s <> s' ->
    on_segment (fst s) (snd s) p -> on_segment (fst s') (snd s') p -> end_of s p /\ end_of s' p;
  gp_filled : filled_once l
}.

(** Sides of two polygons on a common line only share ends. *)
Definition cross_only (l1 l2 : list pnt) : Prop :=
  forall s s' p, In s (polygon_sides l1) -> In s' (polygon_sides l2) -> crossp (fst s) (snd s) (fst s') (snd s') = 0 ->
    on_segment (fst s) (snd s) p -> on_segment (fst s') (snd s') p -> end_of s p /\ end_of s' p.

(** Segments on a common line that have opposite directions do not meet. *)
Definition no_turning_back (K : list (edge ArithR)) : Prop :=
  forall s s' p, In s K -> In s' K -> crossp (fst s) (snd s) (fst s') (snd s') = 0 -> dotp (fst s) (snd s) (fst s') (snd s') < 0 ->
    on_segment (fst s) (snd s) p -> on_segment (fst s') (snd s') p -> False.

(** Enough room for the loops when [n] points are involved. *)
Definition room (n : nat) : nat := S (2 * (n * n) * (2 * (n * n) + 1) + 2 * (n * n)).

(** A rectangle, counterclockwise. *)
Definition rectangle (i j k l : Z) : list pnt :=
  [V (A:=ArithR) (IZR i) (IZR j) false; V (A:=ArithR) (IZR k) (IZR j) false; V (A:=ArithR) (IZR k) (IZR l) false; V (A:=ArithR) (IZR i) (IZR l) false].
