(** T_Cross.v — which crossings are seen in binary64, what the reader accepts, and
    the whole program from the input (C140); a crossing that is missed (C141). *)

From Coq Require Import String Reals List ZArith Bool Permutation.
From Verif Require Import Base Arith ArithR ArithF Geometry Elements Polyline Procedures Refine Triangulator Interface Spec SpecI SpecM SpecR SpecD SpecP SpecF Samples
  P_RX P_Polygon3 P_Z11 P_Z12 P_Z14 P_Z15 P_Refuted10.
Import ListNotations.
Local Open Scope R_scope.

(** C140: two segments of doubles on a small grid, not parallel, without a common
    point.  No meeting point is found, whatever the rounding. *)
Theorem C140_apart : forall k, fine_spacing k -> forall (a b c d : vertex ArithF) (a' b' c' d' : pnt), fine_reads k a a' -> fine_reads k b b' -> fine_reads k c c' -> fine_reads k d d' ->
  crossp a' b' c' d' <> 0 -> ~ (exists p, on_segment a' b' p /\ on_segment c' d' p) -> intersection a b c d = None.
Proof. exact apart_double. Qed.
Print Assumptions C140_apart.

Example C140_case_apart : fine_spacing 0 /\ fine_reads 0 (pt 0 0) (at_ 0 0) /\ fine_reads 0 (pt 9 9) (at_ 9 9) /\ fine_reads 0 (pt 5 1) (at_ 5 1) /\ fine_reads 0 (pt 5 4) (at_ 5 4) /\
  crossp (at_ 0 0) (at_ 9 9) (at_ 5 1) (at_ 5 4) <> 0 /\ ~ exists p, on_segment (at_ 0 0) (at_ 9 9) p /\ on_segment (at_ 5 1) (at_ 5 4) p.
Proof. exact case_apart. Qed.

(** The common point, when it is in no row and no column of an end, is found, and
    within a bound of where it is. *)
Theorem C140_meet : forall k, fine_spacing k -> forall (a b c d : vertex ArithF) (a' b' c' d' : pnt), fine_reads k a a' -> fine_reads k b b' -> fine_reads k c c' -> fine_reads k d d' ->
  crossp a' b' c' d' <> 0 -> forall p, on_segment a' b' p -> on_segment c' d' p -> (forall w, In w [a'; b'; c'; d'] -> X p <> X w /\ Y p <> Y w) ->
  exists v tx ty, intersection a b c d = Some v /\ vghost v = false /\ double (vx v) tx /\ double (vy v) ty /\ Rabs (tx - X p) <= powerRZ 2 (k - 17) /\ Rabs (ty - Y p) <= powerRZ 2 (k - 17).
Proof. exact meet_double. Qed.
Print Assumptions C140_meet.

Example C140_case_meet : fine_spacing 0 /\ fine_reads 0 (pt 0 0) (at_ 0 0) /\ fine_reads 0 (pt 12 13) (at_ 12 13) /\ fine_reads 0 (pt 1 4) (at_ 1 4) /\ fine_reads 0 (pt 4 (-1)) (at_ 4 (-1)) /\
  crossp (at_ 0 0) (at_ 12 13) (at_ 1 4) (at_ 4 (-1)) <> 0 /\
  let p := at_ (68 / 33) (221 / 99) in on_segment (at_ 0 0) (at_ 12 13) p /\ on_segment (at_ 1 4) (at_ 4 (-1)) p /\ forall w, In w [at_ 0 0; at_ 12 13; at_ 1 4; at_ 4 (-1)] -> X p <> X w /\ Y p <> Y w.
Proof. exact case_cross. Qed.

(** A polygon whose sides meet only at common ends is read, convex or not. *)
Theorem C140_reader : forall k (l : list (vertex ArithF)) (l' : list pnt), fine_spacing k -> Forall2 (fine_reads k) l l' -> (3 <= length l')%nat ->
  (forall a b c d, In (a, b) (polygon_sides l') -> In (c, d) (polygon_sides l') -> a <> c -> a <> d -> b <> c -> b <> d -> ~ exists p, on_segment a b p /\ on_segment c d p) ->
  forall (H : HashOrder) (inp : input ArithF) a, i_actions inp = [a] -> a_intent a = "include"%string -> a_geometry a = "polyline"%string -> map (fun q => mkv (fst q) (snd q)) (a_points a) = l ->
  exists t, only_polygon t l /\ forall fuel p, (length l < fuel)%nat -> parse H fuel p inp = Ok (Some (t, RP (i_max_area inp) (i_quality inp))).
Proof. exact read_accepts. Qed.
Print Assumptions C140_reader.

Example C140_case_reader : fine_spacing 0 /\ Forall2 (fine_reads 0) [pt 0 0; pt 8 0; pt 2 2; pt 0 8] hook /\ (3 <= length hook)%nat /\
  (forall a b c d, In (a, b) (polygon_sides hook) -> In (c, d) (polygon_sides hook) -> a <> c -> a <> d -> b <> c -> b <> d -> ~ exists p, on_segment a b p /\ on_segment c d p) /\
  exists a b w, In (a, b) (polygon_sides hook) /\ In w hook /\ area2 a b w < 0.
Proof. exact case_hook. Qed.

(** From the input to what is written, with nothing assumed of the reader. *)
Theorem C140_program : forall k (l : list (vertex ArithF)) (l' : list pnt), fine_spacing k -> Forall2 (fine_reads k) l l' -> NoDup l' -> no_four_on_a_circle l' -> (3 <= length l')%nat ->
  (forall a b w, In (a, b) (polygon_sides l') -> In w l' -> w <> a -> w <> b -> 0 < area2 a b w) ->
  (forall a b w m, In (a, b) (polygon_sides l') -> In w l' -> half_point a b m -> d2 a b / 4 <= d2 m w) ->
  forall (H : HashOrder) p (inp : input ArithF) a, i_actions inp = [a] -> a_intent a = "include"%string -> a_geometry a = "polyline"%string -> map (fun q => mkv (fst q) (snd q)) (a_points a) = l ->
  (forall a b c, In a l -> In b l -> In c l -> orientation a b c = CCW -> ~ misses (RP (i_max_area inp) (i_quality inp)) (Tri a b c)) ->
  exists n0 coords triples M order vec ts, (forall fuel, (n0 <= fuel)%nat -> run_main H fuel p inp = Ok (Some (coords, triples))) /\ fills l' M /\
    coords = map (fun v => (vx v, vy v)) order /\ Permutation order l /\ Permutation vec l /\ Forall2 (names vec) ts triples /\ NoDup ts /\
    (forall x, In x ts -> exists y, solid_in M y /\ tri_reads x y) /\ (forall y, solid_in M y -> exists x, In x ts /\ tri_reads x y) /\ (length triples + 2 = length l)%nat.
Proof. exact input_program. Qed.
Print Assumptions C140_program.

(** The rest of the hypotheses holds of this input by C139_case. *)
Example C140_case_program : exists a, i_actions kite_job = [a] /\ a_intent a = "include"%string /\ a_geometry a = "polyline"%string /\ map (fun q => mkv (fst q) (snd q)) (a_points a) = [pt 0 0; pt 4 0; pt 7 5; pt 1 3] /\
  i_max_area kite_job = None /\ i_quality kite_job = fpz 10.
Proof. exact case_input. Qed.

(** C141: "two segments that cross are found to cross".  False in binary64 when one
    of them is vertical and away from the origin: the sides cross inside both, and
    no meeting point is found in either order. *)
Theorem C141_crossing_refuted : exists k (a b c d : vertex ArithF) (a' b' c' d' p : pnt) t s, fine_spacing k /\ fine_reads k a a' /\ fine_reads k b b' /\ fine_reads k c c' /\ fine_reads k d d' /\
  0 < t < 1 /\ at_ratio t a' b' p /\ 0 < s < 1 /\ at_ratio s c' d' p /\ crossp a' b' c' d' <> 0 /\ intersection a b c d = None /\ intersection c d a b = None.
Proof. exact crossing_missed. Qed.
Print Assumptions C141_crossing_refuted.

(** "The reader refuses a polygon that crosses itself."  It is accepted in every
    order of the hash sets, and the program panics on it in one. *)
Theorem C141_reader_refuted : exists k l l' (inp : input ArithF) a s1 s2 p t s, fine_spacing k /\ Forall2 (fine_reads k) l l' /\ NoDup l' /\
  i_actions inp = [a] /\ a_intent a = "include"%string /\ a_geometry a = "polyline"%string /\ map (fun q => mkv (fst q) (snd q)) (a_points a) = l /\
  In s1 (polygon_sides l') /\ In s2 (polygon_sides l') /\ s1 <> s2 /\ 0 < t < 1 /\ at_ratio t (fst s1) (snd s1) p /\ 0 < s < 1 /\ at_ratio s (fst s2) (snd s2) p /\ crossp (fst s1) (snd s1) (fst s2) (snd s2) <> 0 /\
  (forall H fuel q, (length l < fuel)%nat -> exists tr prm, parse H fuel q inp = Ok (Some (tr, prm))) /\
  exists H fuel q, run_main H fuel q inp = Panic.
Proof. exact crossing_read. Qed.
Print Assumptions C141_reader_refuted.
