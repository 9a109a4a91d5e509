(** SpecR.v — plane geometry over the reals, written without reference to the
    functions of the model.  Points are pairs of real coordinates. *)

From Coq Require Import Reals List ZArith.
From Verif Require Import Base Arith Geometry Elements Polyline ArithR.
Import ListNotations.
Local Open Scope R_scope.

Notation pnt := (vertex ArithR).
Definition X (a : pnt) : R := vx a.
Definition Y (a : pnt) : R := vy a.

(** Twice the signed area of the triangle [a b c], positive when
    counterclockwise. *)
Definition area2 (a b c : pnt) : R := (X b - X a) * (Y c - Y a) - (Y b - Y a) * (X c - X a).

(** Squared distance, and distance. *)
Definition d2 (a b : pnt) : R := (X a - X b) * (X a - X b) + (Y a - Y b) * (Y a - Y b).
Definition dist (a b : pnt) : R := sqrt (d2 a b).
Definition seg_length (s : edge ArithR) : R := dist (fst s) (snd s).

(** Scalar product of [ab] and [cd], and the cross product. *)
Definition dotp (a b c d : pnt) : R := (X b - X a) * (X d - X c) + (Y b - Y a) * (Y d - Y c).
Definition crossp (a b c d : pnt) : R := (X b - X a) * (Y d - Y c) - (Y b - Y a) * (X d - X c).

(** Same place (the ghost flag aside). *)
Definition coincide (a b : pnt) : Prop := X a = X b /\ Y a = Y b.

(** [m] divides [ab] in the ratio [t : 1 - t]. *)
Definition at_ratio (t : R) (a b m : pnt) : Prop :=
  X m = X a + t * (X b - X a) /\ Y m = Y a + t * (Y b - Y a).
Definition on_segment (a b p : pnt) : Prop := exists t, 0 <= t <= 1 /\ at_ratio t a b p.
Definition on_line (a b p : pnt) : Prop := area2 a b p = 0.

(** Translation. *)
Definition moved (dx dy : R) (a a' : pnt) : Prop := X a' = X a + dx /\ Y a' = Y a + dy.

(** Axis-parallel boxes. *)
Definition in_box (b : bbox ArithR) (p : pnt) : Prop :=
  (bx0 b : R) <= X p <= (bx1 b : R) /\ (by0 b : R) <= Y p <= (by1 b : R).
Definition box_le (b b' : bbox ArithR) : Prop :=
  (bx0 b' : R) <= (bx0 b : R) /\ (bx1 b : R) <= (bx1 b' : R) /\
  (by0 b' : R) <= (by0 b : R) /\ (by1 b : R) <= (by1 b' : R).
(** Within [e] of the box spanned by two points. *)
Definition near_box (e : R) (a b p : pnt) : Prop :=
  Rmin (X a) (X b) - e <= X p <= Rmax (X a) (X b) + e /\
  Rmin (Y a) (Y b) - e <= Y p <= Rmax (Y a) (Y b) + e.

(** Sum of a list of reals. *)
Definition total (l : list R) : R := fold_right Rplus 0 l.

(** Shoelace area of a closed chain of segments. *)
Definition shoelace (l : list (edge ArithR)) : R :=
  total (map (fun s => (X (fst s) * Y (snd s) - X (snd s) * Y (fst s)) / 2) l).

(** Winding number of a closed chain around [p]: signed number of crossings of
    the half-open ray that goes down from [p]. *)
Definition ray_crossing (p : pnt) (s : edge ArithR) : Z :=
  let (a, b) := s in
  if Rle_dec (X a) (X p) then
    (if Rlt_dec (X p) (X b) then (if Rlt_dec 0 (area2 a b p) then 1 else 0) else 0)%Z
  else
    (if Rle_dec (X b) (X p) then (if Rlt_dec (area2 a b p) 0 then -1 else 0) else 0)%Z.
Definition winding (p : pnt) (l : list (edge ArithR)) : Z := fold_right Z.add 0%Z (map (ray_crossing p) l).

(** The sides of a closed polygon given by its vertices. *)
Fixpoint path_sides (l : list pnt) : list (edge ArithR) :=
  match l with
  | a :: ((b :: _) as l') => (a, b) :: path_sides l'
  | _ => []
  end.
Definition polygon_sides (l : list pnt) : list (edge ArithR) :=
  match l with
  | [] => []
  | a :: _ => path_sides (l ++ [a])
  end.

(** Strictly inside a triangle of either orientation. *)
Definition inside_triangle (a b c p : pnt) : Prop :=
  (0 < area2 a b p /\ 0 < area2 b c p /\ 0 < area2 c a p) \/
  (area2 a b p < 0 /\ area2 b c p < 0 /\ area2 c a p < 0).
(** Strictly outside: on the outer side of a side. *)
Definition outside_triangle (a b c p : pnt) : Prop :=
  (0 < area2 a b c /\ (area2 a b p < 0 \/ area2 b c p < 0 \/ area2 c a p < 0)) \/
  (area2 a b c < 0 /\ (0 < area2 a b p \/ 0 < area2 b c p \/ 0 < area2 c a p)).

(** The opposite turn, the complementary side of a circle. *)
Definition turned (o : orient) : orient := match o with CCW => CW | CW => CCW | Colinear => Colinear end.
Definition swapped (k : cont) : cont := match k with Inside => Outside | Outside => Inside | Boundary => Boundary end.
(** The middle of a segment. *)
Definition half_point (a b m : pnt) : Prop := at_ratio (/ 2) a b m.
(** Lexicographic order of the coordinates. *)
Definition lex_lt (a b : pnt) : Prop := X a < X b \/ (X a = X b /\ Y a < Y b).
(** Vertices the constructors can make: a ghost is at the origin. *)
Definition constructed (a : pnt) : Prop := vghost a = true -> X a = 0 /\ Y a = 0.
(** Length of the shortest side of a triangle. *)
Definition shortest (a b c : pnt) : R := Rmin (dist a b) (Rmin (dist b c) (dist c a)).
(** Within the tolerance in both coordinates. *)
Definition close (a b : pnt) : Prop := - eps <= X a - X b <= eps /\ - eps <= Y a - Y b <= eps.
(** The sides of a polyline, the closing one included when it is closed. *)
Definition sides_of (p : polyline ArithR) : list (edge ArithR) :=
  if popened p then path_sides (pverts p) else polygon_sides (pverts p).
(** [v] is above, below or on the side [s] and within the tolerance of its line. *)
Definition touches_side (v : pnt) (s : edge ArithR) : Prop :=
  let (a, b) := s in
  Rmin (X a) (X b) <= X v <= Rmax (X a) (X b) /\ - eps <= area2 a b v <= eps /\
  (X a = X b -> Rmin (Y a) (Y b) <= Y v <= Rmax (Y a) (Y b)).
