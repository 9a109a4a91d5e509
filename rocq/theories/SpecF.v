(** SpecF.v — which real number a double stands for, and points on a grid whose
    spacing is a power of two. *)

From Coq Require Import Reals ZArith List Floats.SpecFloat.
From Verif Require Import Base Arith ArithR ArithF Geometry Elements Spec SpecR.
Local Open Scope R_scope.

(** [x] is a finite double and its value is [r]. *)
Definition double (x : spec_float) (r : R) : Prop :=
  match x with
  | S754_zero _ => r = 0
  | S754_finite s m e => valid_binary 53 1024 x = true /\ r = IZR (if s then Zneg m else Zpos m) * powerRZ 2 e
  | _ => False
  end.

(** [r] is a multiple of [2^k], by a factor of at most [2^24]. *)
Definition on_grid (k : Z) (r : R) : Prop := exists z, (- 2 ^ 24 <= z <= 2 ^ 24)%Z /\ r = IZR z * powerRZ 2 k.
Definition grid_point (k : Z) (w : vertex ArithR) : Prop := on_grid k (vx w) /\ on_grid k (vy w) /\ vghost w = false.

(** The vertex [v] of doubles stands for the point [w]. *)
Definition reads (v : vertex ArithF) (w : vertex ArithR) : Prop :=
  double (vx v) (vx w) /\ double (vy v) (vy w) /\ vghost v = vghost w.

(** Spacings between 2^-23 and 2^400: nothing is confused by the tolerance
    1e-14, nothing overflows. *)
Definition spacing (k : Z) : Prop := (-23 <= k <= 400)%Z.

(** [v] is made of doubles and stands for the grid point [w]. *)
Definition grid_reads (k : Z) (v : vertex ArithF) (w : vertex ArithR) : Prop := reads v w /\ grid_point k w.

(** On no side of the polygon [l] and surrounded by it, or not surrounded. *)
Definition off_sides (l : list pnt) (w : pnt) : Prop := forall s, In s (polygon_sides l) -> ~ on_segment (fst s) (snd s) w.
Definition strictly_in (l : list pnt) (w : pnt) : Prop := winding w (polygon_sides l) <> 0%Z /\ off_sides l w.
Definition strictly_out (l : list pnt) (w : pnt) : Prop := winding w (polygon_sides l) = 0%Z /\ off_sides l w.
(** Strictly inside the boundary and strictly outside every hole. *)
Definition in_domain (b : list pnt) (hs : list (list pnt)) (w : pnt) : Prop := strictly_in b w /\ forall h, In h hs -> strictly_out h w.

(** Multiples of [2^k] by a factor of at most [2^10], for spacings between 2^-11
    and 2^100. *)
Definition fine_number (k : Z) (r : R) : Prop := exists z, (- 2 ^ 10 <= z <= 2 ^ 10)%Z /\ r = IZR z * powerRZ 2 k.
Definition fine_point (k : Z) (w : vertex ArithR) : Prop := fine_number k (vx w) /\ fine_number k (vy w) /\ vghost w = false.
Definition fine_spacing (k : Z) : Prop := (-11 <= k <= 100)%Z.

(** [v] is made of doubles and stands for the point [w] of the small grid. *)
Definition fine_reads (k : Z) (v : vertex ArithF) (w : vertex ArithR) : Prop := reads v w /\ fine_point k w.

(** A triangle of doubles, corner by corner. *)
Definition tri_reads (t : triangle ArithF) (t' : triangle ArithR) : Prop :=
  reads (tv1 t) (tv1 t') /\ reads (tv2 t) (tv2 t') /\ reads (tv3 t) (tv3 t').
(** A mesh of doubles that stands for a mesh of real points: it is over the
    vertices [S], it has the same triangles, its adjacency map is exact and it
    holds no triangle twice. *)
Record stands_for (S : list (vertex ArithF)) (tr : triangulation ArithF) (M : triangulation ArithR) : Prop := {
  sf_sound : adj_sound tr;
  sf_complete : adj_complete tr;
  sf_nodup : NoDup (tris tr);
  sf_over : forall t w, In t (tris tr) -> corner_of w t -> In w S \/ w = ghost_vertex;
  sf_shows : forall t, In t (tris tr) -> exists t', In t' (tris M) /\ tri_reads t t';
  sf_shown : forall t', In t' (tris M) -> exists t, In t (tris tr) /\ tri_reads t t'
}.

(** The same triangles, and corners among the vertices [S] only. *)
Record reads_as (S : list (vertex ArithF)) (tr : triangulation ArithF) (M : triangulation ArithR) : Prop := {
  ra_over : forall t w, In t (tris tr) -> corner_of w t -> In w S \/ w = ghost_vertex;
  ra_reads : forall t, In t (tris tr) -> exists t', In t' (tris M) /\ tri_reads t t';
  ra_read : forall t', In t' (tris M) -> exists t, In t (tris tr) /\ tri_reads t t'
}.
