(** T_Reject.v — inputs that are refused and inputs that stop the program (C146). *)

From Coq Require Import String List Arith ZArith.
From Verif Require Import Base Arith ArithF Geometry Elements Polyline Refine Triangulator Interface SpecI SpecRej Samples P_Reject.
Import ListNotations.
Local Open Scope string_scope.
Local Open Scope list_scope.
Local Open Scope nat_scope.

(** C146: an input is answered with an error exactly when the first action without a
    meaning is one of the refused ones ... *)
Theorem C146_refused : forall (A : Arith) fuel (inp : input A), interpret fuel inp = Ok None <-> exists a, stops_at fuel inp a /\ refused fuel a.
Proof. exact @interpret_refused. Qed.
Print Assumptions C146_refused.

(** ... and panics exactly when it is one of the broken ones. *)
Theorem C146_panics : forall (A : Arith) fuel (inp : input A), interpret fuel inp = Panic <-> exists a, stops_at fuel inp a /\ broken fuel a.
Proof. exact @interpret_broken. Qed.
Print Assumptions C146_panics.

(** The interface answers in the same way, and the program gets no further: [Ok None]
    of [run_main] is the panic of src/main.rs:44 on a parse error. *)
Theorem C146_program : forall (A : Arith) (H : HashOrder) fuel p (inp : input A) a, stops_at fuel inp a ->
  (refused fuel a -> parse H fuel p inp = Ok None /\ run_main H fuel p inp = Ok None) /\ (broken fuel a -> parse H fuel p inp = Panic /\ run_main H fuel p inp = Panic).
Proof. exact @run_stops. Qed.
Print Assumptions C146_program.

(** A square, and after it an ellipse or a segment to a point that is not there. *)
Definition an_ellipse : action ArithF := Act (A:=ArithF) "include" "ellipse" [] [point_of 5 5] [].
Definition a_segment : action ArithF := Act (A:=ArithF) "constraint" "segments" [] [point_of 1 1; point_of 2 5] [[0; 1]; [1; 2]].
Example C146_case : forall a, stops_at 30 (square_first a) a.
Proof. exact case_square. Qed.
Example C146_case_refused : refused 30 an_ellipse.
Proof. apply rf_geometry. cbn. intuition discriminate. Qed.
Example C146_case_broken : broken 30 a_segment.
Proof.
  apply (bk_set 30 a_segment [[0; 1]] 1 2 [] []); [reflexivity|reflexivity| |right; cbn; auto].
  intros x [<-|[]]. exists 0, 1, []. cbn. auto.
Qed.
