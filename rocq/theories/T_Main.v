(** T_Main.v — the program with its options on a file system (C127). *)

From Coq Require Import String List Bool ZArith.
From Verif Require Import Base Arith Geometry Elements Polyline Procedures Refine Triangulator Interface Json Main ArithF Samples Spec SpecI SpecW SpecMain P_W3 P_Main.
Import ListNotations.
Local Open Scope string_scope.
Local Open Scope list_scope.

Theorem C127_changes_only_what_is_asked : forall (A : Arith) (H : HashOrder) (of_int : Z -> T A) finite uuid (uuid_read : string -> option uuid) uuid_show F32 (cast : T A -> F32) text_read text_show writable display,
  forall fuel p id now c w w', main H of_int finite uuid uuid_read uuid_show cast text_read text_show writable display fuel p id now c w = Finished w' \/ main H of_int finite uuid uuid_read uuid_show cast text_read text_show writable display fuel p id now c w = Panicked w' ->
  (forall f, c_output c <> Some f -> files w' f = files w f) /\ (c_output c <> None -> printed w' = printed w) /\ (c_show c = false -> windows w' = windows w).
Proof. exact @main_frame. Qed.
Print Assumptions C127_changes_only_what_is_asked.

Theorem C127_finishes : forall (A : Arith) (H : HashOrder) (of_int : Z -> T A) finite uuid (uuid_read : string -> option uuid) uuid_show F32 (cast : T A -> F32) text_read text_show writable display,
  forall fuel p id now c w, (exists w', main H of_int finite uuid uuid_read uuid_show cast text_read text_show writable display fuel p id now c w = Finished w') <->
  exists j out, holds_value text_read w (c_input c) j /\ run_program H of_int finite uuid uuid_read uuid_show fuel p id now j = Ok out /\ (forall f, c_output c = Some f -> writable f = true) /\ (c_show c = true -> display = true).
Proof. exact @main_finishes. Qed.
Print Assumptions C127_finishes.

(** The result is the text of the value of C120, in the file or printed; the window
    shows the edges of its mesh (C112). *)
Theorem C127_result : forall (A : Arith) (H : HashOrder) (of_int : Z -> T A) finite uuid (uuid_read : string -> option uuid) uuid_show F32 (cast : T A -> F32) text_read text_show writable display,
  forall fuel p id now c w w', main H of_int finite uuid uuid_read uuid_show cast text_read text_show writable display fuel p id now c w = Finished w' ->
  exists j out tr, holds_value text_read w (c_input c) j /\ run_program H of_int finite uuid uuid_read uuid_show fuel p id now j = Ok out /\ mesh_of H of_int uuid uuid_read fuel p id now j tr /\ result_at c (text_show out) w w' /\
    windows w' = windows w ++ if c_show c then [glium_edges H cast (5 :: p) tr] else [].
Proof. exact @main_result. Qed.
Print Assumptions C127_result.

Theorem C127_panics : forall (A : Arith) (H : HashOrder) (of_int : Z -> T A) finite uuid (uuid_read : string -> option uuid) uuid_show F32 (cast : T A -> F32) text_read text_show writable display,
  forall fuel p id now c w w', main H of_int finite uuid uuid_read uuid_show cast text_read text_show writable display fuel p id now c w = Panicked w' ->
  w' = w /\ ((forall j, ~ holds_value text_read w (c_input c) j) \/ (exists j, holds_value text_read w (c_input c) j /\ run_program H of_int finite uuid uuid_read uuid_show fuel p id now j = Panic) \/ exists f, c_output c = Some f /\ writable f = false) \/
  c_show c = true /\ display = false /\ exists j out, holds_value text_read w (c_input c) j /\ run_program H of_int finite uuid uuid_read uuid_show fuel p id now j = Ok out /\ result_at c (text_show out) w w' /\ windows w' = windows w.
Proof. exact @main_panics. Qed.
Print Assumptions C127_panics.

(** A result written over its input cannot be used as input again. *)
Theorem C127_output_over_input : forall (A : Arith) (H : HashOrder) (of_int : Z -> T A) finite uuid (uuid_read : string -> option uuid) uuid_show F32 (cast : T A -> F32) text_read text_show writable display,
  forall fuel p id now c w w' f, c_input c = f -> c_output c = Some f ->
  (forall j out, holds_value text_read w f j -> run_program H of_int finite uuid uuid_read uuid_show fuel p id now j = Ok out -> text_read (text_show out) = Some out) ->
  main H of_int finite uuid uuid_read uuid_show cast text_read text_show writable display fuel p id now c w = Finished w' ->
  forall fuel' p' id' now' c', c_input c' = f -> main H of_int finite uuid uuid_read uuid_show cast text_read text_show writable display fuel' p' id' now' c' w' = Panicked w'.
Proof. exact @main_over_input. Qed.
Print Assumptions C127_output_over_input.

Theorem C127_file_tells_the_mesh : forall (A : Arith) (H : HashOrder) (of_int : Z -> T A) finite uuid (uuid_read : string -> option uuid) uuid_show F32 (cast : T A -> F32) text_read text_show writable display,
  (forall u, uuid_read (uuid_show u) = Some u) -> finite (of_int 0%Z) = true ->
  forall fuel p id now c w w' f, c_output c = Some f -> (forall j out, holds_value text_read w (c_input c) j -> run_program H of_int finite uuid uuid_read uuid_show fuel p id now j = Ok out -> text_read (text_show out) = Some out) -> main H of_int finite uuid uuid_read uuid_show cast text_read text_show writable display fuel p id now c w = Finished w' ->
  exists j d coords triples, holds_value text_read w (c_input c) j /\ tells_input of_int uuid uuid_read id now j d /\ run_main H fuel p (d_input _ d) = Ok (Some (coords, triples)) /\
    exists out, holds_value text_read w' f out /\ forall id' now' r, read_report of_int uuid uuid_read id' now' out = Some r <->
      Forall (finite_point finite) coords /\ r = Rep uuid (d_id _ d) (d_name _ d) (d_date _ d) coords triples [].
Proof. exact @main_tells. Qed.
Print Assumptions C127_file_tells_the_mesh.

(** A triangle in doubles, written over its input and shown; another file, which is
    not there, for a program without display. *)
Example C127_case : exists out w', run_program (A:=ArithF) ho_id fpz sf_finite string some_id (fun s => s) 60 [] "new" "now" jsample = Ok out /\
  main (A:=ArithF) ho_id fpz sf_finite string some_id (fun s => s) (fun x => x) (one_of out) (fun _ => "out") (fun _ => true) true 60 [] "new" "now" (Cli "a.json" (Some "a.json") true) (desk "in") = Finished w' /\
  (forall j out', holds_value (one_of out) (desk "in") "a.json" j -> run_program (A:=ArithF) ho_id fpz sf_finite string some_id (fun s => s) 60 [] "new" "now" j = Ok out' -> one_of out ((fun _ => "out") out') = Some out') /\
  main (A:=ArithF) ho_id fpz sf_finite string some_id (fun s => s) (fun x => x) (one_of out) (fun _ => "out") (fun _ => true) false 60 [] "new" "now" (Cli "b.json" None true) (desk "in") = Panicked (desk "in").
Proof. exact case_desk. Qed.
