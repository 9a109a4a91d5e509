(** T_Json.v — the JSON values that go in and come out (C118, C119, C120). *)

From Coq Require Import String Reals List Bool ZArith Permutation.
From Verif Require Import Base Arith Geometry Elements Polyline Procedures Refine Triangulator Interface Json ArithR ArithF Samples Spec SpecI SpecM SpecR SpecD SpecP SpecC SpecE SpecT SpecW SpecY P_RX P_F3 P_L4 P_L5 P_W1 P_W2 P_W3 P_W4.
Import ListNotations.
Local Open Scope string_scope.
Local Open Scope list_scope.

(** C118 *)
Theorem C118_reads_what_it_says : forall (A : Arith) (of_int : Z -> T A) uuid (uuid_read : string -> option uuid) id now j d,
  read_input of_int uuid uuid_read id now j = Some d <-> tells_input of_int uuid uuid_read id now j d.
Proof. exact @input_iff. Qed.
Print Assumptions C118_reads_what_it_says.

(** The order of the fields and fields with other names do not matter, neither to
    what is read nor to what the program does. *)
Theorem C118_same_content : forall (A : Arith) (of_int : Z -> T A) uuid (uuid_read : string -> option uuid) id now j j', same_content j j' ->
  read_input of_int uuid uuid_read id now j = read_input of_int uuid uuid_read id now j'.
Proof. exact @input_respects. Qed.
Print Assumptions C118_same_content.

Theorem C118_same_output : forall (A : Arith) (of_int : Z -> T A) uuid (uuid_read : string -> option uuid) (H : HashOrder) finite uuid_show fuel p id now j j', same_content j j' ->
  run_program H of_int finite uuid uuid_read uuid_show fuel p id now j = run_program H of_int finite uuid uuid_read uuid_show fuel p id now j'.
Proof. exact @program_same. Qed.
Print Assumptions C118_same_output.

(** The same for what the program writes. *)
Theorem C118_output_reads_what_it_says : forall (A : Arith) (of_int : Z -> T A) uuid (uuid_read : string -> option uuid) id now j r,
  read_report of_int uuid uuid_read id now j = Some r <-> tells_report of_int uuid uuid_read id now j r.
Proof. exact @report_iff. Qed.
Print Assumptions C118_output_reads_what_it_says.

Theorem C118_output_same_content : forall (A : Arith) (of_int : Z -> T A) uuid (uuid_read : string -> option uuid) id now j j', same_content j j' ->
  read_report of_int uuid uuid_read id now j = read_report of_int uuid uuid_read id now j'.
Proof. exact @report_respects. Qed.
Print Assumptions C118_output_same_content.

(** An output without triangles is read as one with none. *)
Example C118_case_output : forall (A : Arith) of_int, read_report (A:=A) of_int string some_id "new" "now" (JObj [("coordinates", JArr [jpoint 0 1]); ("name", JStr "one")]) =
  Some (Rep string "new" "one" "now" [(of_int 0%Z, of_int 1%Z)] [] []).
Proof. reflexivity. Qed.

(** An input with only what is needed, its last point given as an array; the
    same in another order, with comments; indices that are negative are refused. *)
Example C118_case : forall (A : Arith) of_int, read_input (A:=A) of_int string some_id "new" "now" jsample =
  Some (Doc string "new" "one" "now" (Inp [Act (A:=A) "include" "polyline" [] [(of_int 0%Z, of_int 0%Z); (of_int 4%Z, of_int 0%Z); (of_int 0%Z, of_int 4%Z)] []] None (of_int 1%Z))).
Proof. exact sample_read. Qed.
Example C118_case_segments : forall (A : Arith) of_int, (exists d, read_input (A:=A) of_int string some_id "new" "now" (jsegments 1) = Some d /\ map (@a_assemble A) (i_actions (d_input _ d)) = [[[0; 1]]]) /\
  read_input (A:=A) of_int string some_id "new" "now" (jsegments (-1)) = None.
Proof. exact segments_read. Qed.
Example C118_case_same : forall F, same_content (F:=F) jsample' jsample.
Proof. exact sample_same. Qed.

(** C119 *)
Theorem C119_input_back : forall (A : Arith) (of_int : Z -> T A) uuid (uuid_read : string -> option uuid) finite uuid_show,
  (forall u, uuid_read (uuid_show u) = Some u) -> finite (of_int 0%Z) = true ->
  forall id now d, finite_input finite (d_input _ d) -> read_input of_int uuid uuid_read id now (write_input of_int finite uuid uuid_show d) = Some d.
Proof. exact @input_back. Qed.
Print Assumptions C119_input_back.

Theorem C119_output_back : forall (A : Arith) (of_int : Z -> T A) uuid (uuid_read : string -> option uuid) finite uuid_show,
  (forall u, uuid_read (uuid_show u) = Some u) -> finite (of_int 0%Z) = true ->
  forall id now r, Forall (finite_point finite) (r_coordinates _ r) -> read_report of_int uuid uuid_read id now (write_report of_int finite uuid uuid_show r) = Some r.
Proof. exact @report_back. Qed.
Print Assumptions C119_output_back.

(** Outputs with coordinates that are not finite cannot be read. *)
Theorem C119_output_lost : forall (A : Arith) (of_int : Z -> T A) uuid (uuid_read : string -> option uuid) finite uuid_show,
  (forall u, uuid_read (uuid_show u) = Some u) ->
  forall id now r r', read_report of_int uuid uuid_read id now (write_report of_int finite uuid uuid_show r) = Some r' -> Forall (finite_point finite) (r_coordinates _ r).
Proof. exact @report_lost. Qed.
Print Assumptions C119_output_lost.

Example C119_case : (forall u, some_id ((fun s => s) u) = Some u) /\ sf_finite (fpz 0) = true /\ Forall (finite_point (A:=ArithF) sf_finite) (r_coordinates (A:=ArithF) string report1) /\
  ~ Forall (finite_point (A:=ArithF) sf_finite) (r_coordinates (A:=ArithF) string report2).
Proof. exact (conj (fun u => eq_refl) (conj eq_refl (conj report1_finite report2_lost))). Qed.

(** C120 *)
Theorem C120_program_output : forall (A : Arith) (of_int : Z -> T A) finite uuid (uuid_read : string -> option uuid) uuid_show,
  (forall u, uuid_read (uuid_show u) = Some u) -> finite (of_int 0%Z) = true ->
  forall (H : HashOrder) fuel p id now j out, run_program H of_int finite uuid uuid_read uuid_show fuel p id now j = Ok out ->
  exists d coords triples, tells_input of_int uuid uuid_read id now j d /\ run_main H fuel p (d_input _ d) = Ok (Some (coords, triples)) /\
    forall id' now' r, read_report of_int uuid uuid_read id' now' out = Some r <->
      Forall (finite_point finite) coords /\ r = Rep uuid (d_id _ d) (d_name _ d) (d_date _ d) coords triples [].
Proof. exact @program_back. Qed.
Print Assumptions C120_program_output.

Theorem C120_program_panics : forall (A : Arith) (of_int : Z -> T A) finite uuid (uuid_read : string -> option uuid) uuid_show (H : HashOrder) fuel p id now j,
  run_program H of_int finite uuid uuid_read uuid_show fuel p id now j = Panic <->
  (forall d, ~ tells_input of_int uuid uuid_read id now j d) \/
  exists d, tells_input of_int uuid uuid_read id now j d /\ (run_main H fuel p (d_input _ d) = Ok None \/ run_main H fuel p (d_input _ d) = Panic).
Proof. exact @program_panics. Qed.
Print Assumptions C120_program_panics.

(** A triangle in doubles, from the value read to the value written. *)
Example C120_case : exists out, run_program (A:=ArithF) ho_id fpz sf_finite string some_id (fun s => s) 60 [] "new" "now" jsample = Ok out /\
  match read_report (A:=ArithF) fpz string some_id "other" "later" out with
  | Some r => (String.eqb (r_id _ r) "new" && String.eqb (r_name _ r) "one" && Nat.eqb (length (r_coordinates _ r)) 3 && Nat.eqb (length (r_triangles _ r)) 1)%bool
  | None => false
  end = true.
Proof. exact sample_runs. Qed.

(** With C106: from the value that tells a convex polygon to the value that
    tells its mesh, in exact arithmetic. *)
Local Open Scope R_scope.
Theorem C120_whole_program : forall l, convex_polygon l -> exists N,
  forall (of_int : Z -> R) (uuid : Type) (uuid_read : string -> option uuid) (uuid_show : uuid -> string), (forall u, uuid_read (uuid_show u) = Some u) ->
  forall (H : HashOrder) p id now j (d : document (A:=ArithR) uuid) vs, tells_input (A:=ArithR) of_int uuid uuid_read id now j d ->
  polygon_job (d_input _ d) l vs -> resolved (vs ++ l) -> (forall w, In w vs -> deep l w) ->
  exists n0 t t', let prm := RP (i_max_area (d_input _ d)) (i_quality (d_input _ d)) in
    (forall fuel, (n0 <= fuel)%nat -> parse H fuel (1%nat :: p) (d_input _ d) = Ok (Some (t, prm)) /\ triangulate H fuel (2%nat :: p) t = Ok t') /\
    ((forall fuel a, In a (refine_attempts H fuel (3%nat :: p) t' prm) -> sound_attempt l a) ->
     exists n1 out coords triples, (forall fuel, (n1 <= fuel)%nat -> run_program (A:=ArithR) H of_int (fun _ => true) uuid uuid_read uuid_show fuel p id now j = Ok out) /\
       (forall id' now', read_report (A:=ArithR) of_int uuid uuid_read id' now' out = Some (Rep uuid (d_id _ d) (d_name _ d) (d_date _ d) coords triples [])) /\ (length coords <= N)%nat /\
       exists S (tr : mesh) order vec ts, framed l S tr /\
         (forall q, in_region tr q <-> winding q (polygon_sides l) = 1%Z \/ on_polygon l q) /\
         coords = map (fun v : pnt => (X v, Y v)) order /\ NoDup coords /\ (forall w, In w order <-> In w S) /\ Permutation vec order /\
         Forall2 (names vec) ts triples /\ NoDup ts /\ (forall x, In x ts <-> solid_in tr x)).
Proof. exact whole_json. Qed.
Print Assumptions C120_whole_program.

(** The square of C106, whose attempts are all sound. *)
Example C120_case_square : tells_input (A:=ArithR) IZR string some_id "new" "later" jsquare (Doc (A:=ArithR) string "id" "square" "now" square_job) /\ polygon_job square_job four [].
Proof. exact (conj jsquare_told square_job_ok). Qed.
