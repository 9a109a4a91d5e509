(** P_W3.v — the program from one JSON value to another; sample values. *)

From Coq Require Import String Reals List Bool ZArith Permutation Lia.
From Verif Require Import Base Arith Geometry Elements Polyline Procedures Refine Triangulator Interface Json ArithR ArithF Samples Spec SpecI SpecM SpecR SpecD SpecP SpecC SpecE SpecT SpecW P_Base P_RX P_F3 P_L4 P_L5 P_W1 P_W2.
From Coq Require Import SpecFloat.
Import ListNotations.
Local Open Scope string_scope.
Local Open Scope list_scope.

Section Program.
  Context {A : Arith}.
  Notation F := (T A).
  Variables (of_int : Z -> F) (finite : F -> bool) (uuid : Type) (uuid_read : string -> option uuid) (uuid_show : uuid -> string).

  Lemma program_panics : forall (H : HashOrder) fuel p id now j, run_program H of_int finite uuid uuid_read uuid_show fuel p id now j = Panic <->
    (forall d, ~ tells_input of_int uuid uuid_read id now j d) \/
    exists d, tells_input of_int uuid uuid_read id now j d /\ (run_main H fuel p (d_input _ d) = Ok None \/ run_main H fuel p (d_input _ d) = Panic).
  Proof.
    intros H fuel p id now j. unfold run_program. split.
    - destruct (read_input of_int uuid uuid_read id now j) as [d|] eqn:Ed.
      + intros E. right. exists d. split; [apply input_iff, Ed|]. destruct (run_main H fuel p (d_input uuid d)) as [[[c t]|]| |]; cbn in E; [discriminate E|auto|auto|discriminate E].
      + intros _. left. intros d Hd. apply input_iff in Hd. rewrite Ed in Hd. discriminate Hd.
    - intros [Hn|(d & Hd & Hr)].
      + destruct (read_input of_int uuid uuid_read id now j) as [d|] eqn:Ed; [|reflexivity]. exfalso. exact (Hn d (proj1 (input_iff _ _ _ _ _ _ _) Ed)).
      + apply input_iff in Hd. rewrite Hd. destruct Hr as [-> | ->]; reflexivity.
  Qed.

  Lemma program_back : (forall u, uuid_read (uuid_show u) = Some u) -> finite (of_int 0) = true ->
    forall (H : HashOrder) fuel p id now j out, run_program H of_int finite uuid uuid_read uuid_show fuel p id now j = Ok out ->
    exists d coords triples, tells_input of_int uuid uuid_read id now j d /\ run_main H fuel p (d_input _ d) = Ok (Some (coords, triples)) /\
      forall id' now' r, read_report of_int uuid uuid_read id' now' out = Some r <->
        Forall (finite_point finite) coords /\ r = Rep uuid (d_id _ d) (d_name _ d) (d_date _ d) coords triples [].
  Proof.
    intros Hs Hz H fuel p id now j out E. apply program_iff in E. destruct E as (d & c & t & Hd & Er & ->). exists d, c, t. split; [exact Hd|]. split; [exact Er|]. intros id' now' r. split.
    - intros E. assert (Hf := report_lost of_int uuid uuid_read finite uuid_show Hs _ _ _ _ E). cbn [r_coordinates] in Hf. split; [exact Hf|].
      rewrite (report_back of_int uuid uuid_read finite uuid_show Hs Hz) in E by exact Hf. injection E as <-. reflexivity.
    - intros [Hf ->]. apply report_back; assumption.
  Qed.
End Program.

Local Open Scope R_scope.
Lemma whole_json : forall l, convex_polygon l -> exists N,
  forall (of_int : Z -> R) (uuid : Type) (uuid_read : string -> option uuid) (uuid_show : uuid -> string), (forall u, uuid_read (uuid_show u) = Some u) ->
  forall (H : HashOrder) p id now j (d : document (A:=ArithR) uuid) vs, tells_input (A:=ArithR) of_int uuid uuid_read id now j d ->
  polygon_job (d_input _ d) l vs -> resolved (vs ++ l) -> (forall w, In w vs -> deep l w) ->
  exists n0 t t', let prm := RP (i_max_area (d_input _ d)) (i_quality (d_input _ d)) in
    (forall fuel, (n0 <= fuel)%nat -> parse H fuel (1%nat :: p) (d_input _ d) = Ok (Some (t, prm)) /\ triangulate H fuel (2%nat :: p) t = Ok t') /\
    ((forall fuel a, In a (refine_attempts H fuel (3%nat :: p) t' prm) -> sound_attempt l a) ->
     exists n1 out coords triples, (forall fuel, (n1 <= fuel)%nat -> run_program (A:=ArithR) H of_int (fun _ => true) uuid uuid_read uuid_show fuel p id now j = Ok out) /\
       (forall id' now', read_report (A:=ArithR) of_int uuid uuid_read id' now' out = Some (Rep uuid (d_id _ d) (d_name _ d) (d_date _ d) coords triples [])) /\ (length coords <= N)%nat /\
       exists S (tr : mesh) order vec ts, framed l S tr /\
         (forall q, in_region tr q <-> winding q (polygon_sides l) = 1%Z \/ on_polygon l q) /\
         coords = map (fun v : pnt => (X v, Y v)) order /\ NoDup coords /\ (forall w, In w order <-> In w S) /\ Permutation vec order /\
         Forall2 (names vec) ts triples /\ NoDup ts /\ (forall x, In x ts <-> solid_in tr x)).
Proof.
  intros l Hl. destruct (whole_run l Hl) as (N & HN). exists N. intros of_int uuid uuid_read uuid_show Hs H p id now j d vs Hd HJ HR Hdp.
  destruct (HN H p (d_input _ d) vs HJ HR Hdp) as (n0 & t & t' & H0 & H1). exists n0, t, t'. cbv zeta. split; [exact H0|]. intros Ha. destruct (H1 Ha) as (n1 & c & ts & Hrun & Hlen & S & tr & order & vec & tt & F1 & _ & _ & F3 & _ & _ & F6).
  exists n1, (write_report (A:=ArithR) of_int (fun _ => true) uuid uuid_show (Rep uuid (d_id _ d) (d_name _ d) (d_date _ d) c ts [])), c, ts. split; [|split; [|split; [exact Hlen|]]].
  - intros fuel Hf. apply program_iff. exists d, c, ts. split; [exact Hd|]. split; [exact (Hrun fuel Hf)|reflexivity].
  - intros id' now'. apply report_back; [exact Hs|reflexivity|]. cbn [r_coordinates]. apply Forall_forall. intros q _. split; reflexivity.
  - exists S, tr, order, vec, tt. split; [exact F1|]. split; [exact F3|]. exact F6.
Qed.
Local Close Scope R_scope.

(** ** Samples *)

(** Identifiers are strings here. *)
Definition some_id (s : string) : option string := Some s.

Definition jpoint {F} (x y : Z) : json F := JObj [("x", JInt x); ("y", JInt y)].
Definition jtriangle {F} : json F :=
  JObj [("intent", JStr "include"); ("geometry", JStr "polyline"); ("points", JArr [jpoint 0 0; jpoint 4 0; JArr [JInt 0; JInt 4]])].
(** A triangle with what is needed only; in another order, with comments. *)
Definition jsample {F} : json F := JObj [("name", JStr "one"); ("actions", JArr [jtriangle]); ("params", JObj [("quality", JInt 1)])].
Definition jsample' {F} : json F :=
  JObj [("params", JObj [("note", JNull); ("quality", JInt 1)]); ("comment", JStr "draft"); ("comment", JInt 2); ("actions", JArr [jtriangle]); ("name", JStr "one")].
Definition jsegments {F} (k : Z) : json F :=
  JObj [("name", JStr "two"); ("actions", JArr [JObj [("intent", JStr "constraint"); ("geometry", JStr "segments"); ("points", JArr [jpoint 0 0; jpoint 1 1]); ("assemble", JArr [JArr [JInt 0; JInt k]])]]);
        ("params", JObj [("quality", JInt 1); ("max_area", JNull)])].

Lemma sample_read : forall (A : Arith) of_int, read_input (A:=A) of_int string some_id "new" "now" jsample =
  Some (Doc string "new" "one" "now" (Inp [Act (A:=A) "include" "polyline" [] [(of_int 0%Z, of_int 0%Z); (of_int 4%Z, of_int 0%Z); (of_int 0%Z, of_int 4%Z)] []] None (of_int 1%Z))).
Proof. reflexivity. Qed.
Lemma segments_read : forall (A : Arith) of_int, (exists d, read_input (A:=A) of_int string some_id "new" "now" (jsegments 1) = Some d /\ map (@a_assemble A) (i_actions (d_input _ d)) = [[[0; 1]]]) /\
  read_input (A:=A) of_int string some_id "new" "now" (jsegments (-1)) = None.
Proof. intros A of_int. split; [eexists; split; reflexivity|reflexivity]. Qed.
Lemma sample_same : forall F, same_content (F:=F) jsample' jsample.
Proof.
  intros F. unfold jsample', jsample.
  apply same_trans with (JObj (F:=F) [("params", JObj [("quality", JInt 1)]); ("comment", JStr "draft"); ("comment", JInt 2); ("actions", JArr [jtriangle]); ("name", JStr "one")]).
  - apply same_field. apply same_extra. cbn. intuition discriminate.
  - apply same_trans with (JObj (F:=F) [("comment", JStr "draft"); ("comment", JInt 2); ("name", JStr "one"); ("actions", JArr [jtriangle]); ("params", JObj [("quality", JInt 1)])]).
    + apply same_order. change ([("comment", JStr "draft"); ("comment", JInt 2); ("name", JStr (F:=F) "one"); ("actions", JArr [jtriangle]); ("params", JObj [("quality", JInt 1)])])
        with ([("comment", JStr "draft"); ("comment", JInt 2)] ++ [("name", JStr (F:=F) "one"); ("actions", JArr [jtriangle]); ("params", JObj [("quality", JInt 1)])]).
      apply Permutation_trans with ([("comment", JStr (F:=F) "draft"); ("comment", JInt 2); ("actions", JArr [jtriangle]); ("name", JStr "one")] ++ [("params", JObj [("quality", JInt 1)])]).
      * apply (Permutation_app_comm [("params", JObj (F:=F) [("quality", JInt 1)])]).
      * cbn [app]. do 2 apply perm_skip. apply perm_swap.
    + eapply same_trans; [apply same_extra; cbn; intuition discriminate|]. apply same_extra. cbn. intuition discriminate.
Qed.

Definition sf_finite (x : sf) : bool := match x with S754_zero _ | S754_finite _ _ _ => true | _ => false end.
Definition report1 : report (A:=ArithF) string := Rep (A:=ArithF) string "id" "one" "now" [(fpz 0, fpz 0); (fpz 4, fpz 0); (fpz 0, fpz 4)] [(0, 1, 2)] [].
Definition report2 : report (A:=ArithF) string := Rep (A:=ArithF) string "id" "one" "now" [(fpz 0, fpz 0); (fpz 4, S754_nan)] [] [].
Lemma report1_finite : Forall (finite_point (A:=ArithF) sf_finite) (r_coordinates (A:=ArithF) string report1).
Proof. repeat constructor. Qed.
Lemma report2_lost : ~ Forall (finite_point (A:=ArithF) sf_finite) (r_coordinates (A:=ArithF) string report2).
Proof. intros Hf. inversion Hf as [|q l _ Hl]; subst. inversion Hl as [|q' l' [_ Hq] _]; subst. discriminate Hq. Qed.

(** The program on the sample, in doubles: three coordinates and a triangle. *)
Lemma sample_runs : exists out, run_program (A:=ArithF) ho_id fpz sf_finite string some_id (fun s => s) 60 [] "new" "now" jsample = Ok out /\
  match read_report (A:=ArithF) fpz string some_id "other" "later" out with
  | Some r => (String.eqb (r_id _ r) "new" && String.eqb (r_name _ r) "one" && Nat.eqb (length (r_coordinates _ r)) 3 && Nat.eqb (length (r_triangles _ r)) 1)%bool
  | None => false
  end = true.
Proof. apply okb_ok with (f := fun out => match read_report (A:=ArithF) fpz string some_id "other" "later" out with
  | Some r => (String.eqb (r_id _ r) "new" && String.eqb (r_name _ r) "one" && Nat.eqb (length (r_coordinates _ r)) 3 && Nat.eqb (length (r_triangles _ r)) 1)%bool
  | None => false
  end). vm_compute. reflexivity. Qed.

(** The square of C106 as a JSON value. *)
Definition jsquare : json R := write_input (A:=ArithR) (IZR) (fun _ => true) string (fun s => s) (Doc (A:=ArithR) string "id" "square" "now" square_job).
Lemma jsquare_told : tells_input (A:=ArithR) IZR string some_id "new" "later" jsquare (Doc (A:=ArithR) string "id" "square" "now" square_job).
Proof.
  apply input_iff. apply input_back; [reflexivity|reflexivity|]. repeat split; repeat constructor.
Qed.
