(** T_Files.v — polygons in binary64, from file to file (C143, C144). *)

From Coq Require Import String Reals List ZArith Bool Permutation.
From Verif Require Import Base Arith ArithR ArithF Geometry Elements Polyline Procedures Refine Triangulator Interface Json Main Spec SpecI SpecM SpecR SpecD SpecP SpecF SpecW SpecMain Samples
  P_RX P_W3 P_Main P_Refuted P_Z12 P_Z16 P_Z17 P_Refuted11.
Import ListNotations.
Local Open Scope R_scope.

(** C143: "a polygon whose other corners are outside the circle over each side is
    meshed".  False: the program writes all its triangles in one order of the hash
    sets and none in another.  This is why C142 asks for the corners to be used. *)
Theorem C143_polygon_meshed_refuted : exists k l l' (inp : input ArithF) a, fine_spacing k /\ Forall2 (fine_reads k) l l' /\ NoDup l' /\ no_four_on_a_circle l' /\ (3 <= length l')%nat /\ 0 < shoelace (polygon_sides l') /\
  (forall a b w m, In (a, b) (polygon_sides l') -> In w l' -> w <> a -> w <> b -> half_point a b m -> d2 a b / 4 < d2 m w) /\
  i_actions inp = [a] /\ a_intent a = "include"%string /\ a_geometry a = "polyline"%string /\ map (fun q => mkv (fst q) (snd q)) (a_points a) = l /\
  (forall a b c, In a l -> In b l -> In c l -> orientation a b c = CCW -> ~ misses (RP (i_max_area inp) (i_quality inp)) (Tri a b c)) /\
  (exists H fuel p coords triples, run_main H fuel p inp = Ok (Some (coords, triples)) /\ length coords = length l /\ length triples = (length l - 2)%nat) /\
  exists H fuel p coords, run_main H fuel p inp = Ok (Some (coords, [])) /\ length coords = length l.
Proof. exact crown_lost. Qed.
Print Assumptions C143_polygon_meshed_refuted.

Local Open Scope string_scope.
Local Open Scope list_scope.

(** C144: the program on files, on a convex polygon that needs no refinement.  The
    file asked for holds the corners, bit by bit, and the Delaunay triangulation. *)
Theorem C144_convex : forall k (l : list (vertex ArithF)) (l' : list pnt), fine_spacing k -> Forall2 (fine_reads k) l l' -> NoDup l' -> no_four_on_a_circle l' -> (3 <= length l')%nat ->
  (forall a b w, In (a, b) (polygon_sides l') -> In w l' -> w <> a -> w <> b -> 0 < area2 a b w) ->
  (forall a b w m, In (a, b) (polygon_sides l') -> In w l' -> half_point a b m -> d2 a b / 4 <= d2 m w) ->
  forall (H : HashOrder) uuid (uuid_read : string -> option uuid) uuid_show F32 (cast : T ArithF -> F32) text_read text_show writable display, (forall u, uuid_read (uuid_show u) = Some u) ->
  forall p id now c (w : world F32) f j (d : document (A:=ArithF) uuid) a, c_output c = Some f -> writable f = true -> (c_show c = true -> display = true) ->
  holds_value (A:=ArithF) text_read w (c_input c) j -> tells_input (A:=ArithF) fpz uuid uuid_read id now j d ->
  (forall fuel out, run_program (A:=ArithF) H fpz sf_finite uuid uuid_read uuid_show fuel p id now j = Ok out -> text_read (text_show out) = Some out) ->
  i_actions (d_input _ d) = [a] -> a_intent a = "include"%string -> a_geometry a = "polyline"%string -> map (fun q => mkv (fst q) (snd q)) (a_points a) = l ->
  (forall a b c, In a l -> In b l -> In c l -> orientation a b c = CCW -> ~ misses (RP (i_max_area (d_input _ d)) (i_quality (d_input _ d))) (Tri a b c)) ->
  exists n0 coords triples M order vec ts,
    (forall fuel, (n0 <= fuel)%nat -> exists w' out, main (A:=ArithF) H fpz sf_finite uuid uuid_read uuid_show cast text_read text_show writable display fuel p id now c w = Finished w' /\
       holds_value (A:=ArithF) text_read w' f out /\ (forall id' now', read_report (A:=ArithF) fpz uuid uuid_read id' now' out = Some (Rep uuid (d_id _ d) (d_name _ d) (d_date _ d) coords triples [])) /\
       (forall g, g <> f -> files w' g = files w g) /\ printed w' = printed w) /\ fills l' M /\
    coords = map (fun v => (vx v, vy v)) order /\ Permutation order l /\ Permutation vec l /\ Forall2 (names vec) ts triples /\ NoDup ts /\
    (forall x, In x ts -> exists y, solid_in M y /\ tri_reads x y) /\ (forall y, solid_in M y -> exists x, In x ts /\ tri_reads x y) /\ (length triples + 2 = length l)%nat.
Proof. exact file_convex. Qed.
Print Assumptions C144_convex.

(** The hypotheses on the polygon hold by C139_case. *)
Example C144_case_convex : exists (j out : json (T ArithF)) (d : document (A:=ArithF) string) a, d_input _ d = kite_job /\
  holds_value (A:=ArithF) (text_of j out) (desk "in") (c_input (Cli "a.json" (Some "b.json") true)) j /\ tells_input (A:=ArithF) fpz string some_id "new" "now" j d /\
  (forall fuel out', run_program (A:=ArithF) ho_id fpz sf_finite string some_id (fun s => s) fuel [] "new" "now" j = Ok out' -> text_of j out ((fun _ => "out") out') = Some out') /\
  i_actions (d_input _ d) = [a] /\ a_intent a = "include" /\ a_geometry a = "polyline" /\ map (fun q => mkv (fst q) (snd q)) (a_points a) = [pt 0 0; pt 4 0; pt 7 5; pt 1 3].
Proof. exact case_file. Qed.

(** The same on a polygon that need not be convex, as in C142. *)
Theorem C144_clear : forall k (l : list (vertex ArithF)) (l' : list pnt), fine_spacing k -> Forall2 (fine_reads k) l l' -> NoDup l' -> no_four_on_a_circle l' -> (3 <= length l')%nat ->
  0 < shoelace (polygon_sides l') -> (forall a b w m, In (a, b) (polygon_sides l') -> In w l' -> w <> a -> w <> b -> half_point a b m -> d2 a b / 4 < d2 m w) ->
  forall (H : HashOrder) uuid (uuid_read : string -> option uuid) uuid_show F32 (cast : T ArithF -> F32) text_read text_show writable display, (forall u, uuid_read (uuid_show u) = Some u) ->
  forall p id now c (w : world F32) f j (d : document (A:=ArithF) uuid) a, c_output c = Some f -> writable f = true -> (c_show c = true -> display = true) ->
  holds_value (A:=ArithF) text_read w (c_input c) j -> tells_input (A:=ArithF) fpz uuid uuid_read id now j d ->
  (forall fuel out, run_program (A:=ArithF) H fpz sf_finite uuid uuid_read uuid_show fuel p id now j = Ok out -> text_read (text_show out) = Some out) ->
  i_actions (d_input _ d) = [a] -> a_intent a = "include"%string -> a_geometry a = "polyline"%string -> map (fun q => mkv (fst q) (snd q)) (a_points a) = l ->
  (forall a b c, In a l -> In b l -> In c l -> orientation a b c = CCW -> ~ misses (RP (i_max_area (d_input _ d)) (i_quality (d_input _ d))) (Tri a b c)) ->
  exists n1 t t', only_polygon t l /\ (forall fuel, (n1 <= fuel)%nat -> parse H fuel (1%nat :: p) (d_input _ d) = Ok (Some (t, RP (i_max_area (d_input _ d)) (i_quality (d_input _ d)))) /\ triangulate H fuel (2%nat :: p) t = Ok t') /\
  ((forall w, In w l -> exists u, In u (tris (t_trn t')) /\ is_ghost u = false /\ corner_of w u) ->
   exists n0 coords triples M order vec ts,
    (forall fuel, (n0 <= fuel)%nat -> exists w' out, main (A:=ArithF) H fpz sf_finite uuid uuid_read uuid_show cast text_read text_show writable display fuel p id now c w = Finished w' /\
       holds_value (A:=ArithF) text_read w' f out /\ (forall id' now', read_report (A:=ArithF) fpz uuid uuid_read id' now' out = Some (Rep uuid (d_id _ d) (d_name _ d) (d_date _ d) coords triples [])) /\
       (forall g, g <> f -> files w' g = files w g) /\ printed w' = printed w) /\ fills l' M /\
    coords = map (fun v => (vx v, vy v)) order /\ Permutation order l /\ Permutation vec l /\ Forall2 (names vec) ts triples /\ NoDup ts /\
    (forall x, In x ts -> exists y, solid_in M y /\ tri_reads x y) /\ (forall y, solid_in M y -> exists x, In x ts /\ tri_reads x y)).
Proof. exact file_clear. Qed.
Print Assumptions C144_clear.

(** The hypotheses on the polygon hold by C142_case. *)
Example C144_case_clear : exists (j out : json (T ArithF)) (d : document (A:=ArithF) string) a, d_input _ d = notch_job /\
  holds_value (A:=ArithF) (text_of j out) (desk "in") (c_input (Cli "a.json" (Some "b.json") true)) j /\ tells_input (A:=ArithF) fpz string some_id "new" "now" j d /\
  (forall fuel out', run_program (A:=ArithF) ho_id fpz sf_finite string some_id (fun s => s) fuel [] "new" "now" j = Ok out' -> text_of j out ((fun _ => "out") out') = Some out') /\
  i_actions (d_input _ d) = [a] /\ a_intent a = "include" /\ a_geometry a = "polyline" /\ map (fun q => mkv (fst q) (snd q)) (a_points a) = notchF /\
  (forall n1 t t', (forall fuel, (n1 <= fuel)%nat -> parse ho_id fuel [1%nat] (d_input _ d) = Ok (Some (t, RP (i_max_area (d_input _ d)) (i_quality (d_input _ d)))) /\ triangulate ho_id fuel [2%nat] t = Ok t') ->
     forall w, In w notchF -> exists u, In u (tris (t_trn t')) /\ is_ghost u = false /\ corner_of w u).
Proof. exact case_file_notch. Qed.
