(** P_Main.v — what a run of the program does to files, output and windows. *)

From Coq Require Import String List Bool Arith ZArith Lia.
From Verif Require Import Base Arith Geometry Elements Polyline Procedures Refine Triangulator Interface Json Main ArithF Samples Spec SpecI SpecW SpecMain P_Base P_Fuel P_Interface P_W1 P_W2 P_W3.
Import ListNotations.
Local Open Scope string_scope.
Local Open Scope list_scope.

Section Main.
  Context {A : Arith} (H : HashOrder).
  Notation F := (T A).
  Variables (of_int : Z -> F) (finite : F -> bool) (uuid : Type) (uuid_read : string -> option uuid) (uuid_show : uuid -> string).
  Context {F32 : Type} (cast : F -> F32).
  Variables (text_read : string -> option (json F)) (text_show : json F -> string) (writable : string -> bool) (display : bool).
  Notation world := (world F32).
  Notation main := (main H of_int finite uuid uuid_read uuid_show cast text_read text_show writable display).
  Notation holds_value := (holds_value text_read).
  Notation mesh_of := (mesh_of H of_int uuid uuid_read).
  Notation run_program := (run_program H of_int finite uuid uuid_read uuid_show).

  (** What is left when the text [s] is delivered, before any window. *)
  Definition delivered (c : cli) (s : string) (w : world) : world :=
    match c_output c with
    | Some f => World (fun g => if String.eqb g f then Some s else files w g) (printed w) (windows w)
    | None => World (files w) (printed w ++ [s]) (windows w)
    end.
  Definition can_deliver (c : cli) : bool := match c_output c with Some f => writable f | None => true end.

  Lemma main_unfold : forall fuel p id now c w,
    (forall j, ~ holds_value w (c_input c) j) /\ main fuel p id now c w = Panicked w \/
    exists j, holds_value w (c_input c) j /\
      ((run_program fuel p id now j = NoFuel /\ main fuel p id now c w = Unfinished) \/
       (run_program fuel p id now j = Panic /\ main fuel p id now c w = Panicked w) \/
       exists out tr, run_program fuel p id now j = Ok out /\ mesh_of fuel p id now j tr /\
         main fuel p id now c w =
           if can_deliver c then
             let w' := delivered c (text_show out) w in
             if c_show c then
               if display then Finished (World (files w') (printed w') (windows w' ++ [glium_edges H cast (5 :: p) tr])) else Panicked w'
             else Finished w'
           else Panicked w).
  Proof.
    intros fuel p id now c w. unfold Main.main, io_read. unfold SpecMain.holds_value.
    destruct (files w (c_input c)) as [s|] eqn:Ef; [|left; split; [intros j (s & E & _); discriminate E|reflexivity]].
    destruct (text_read s) as [j|] eqn:Et; [|left; split; [intros j (s' & E & E'); injection E as <-; rewrite Et in E'; discriminate E'|reflexivity]].
    right. exists j. split; [exists s; auto|]. unfold Json.run_program, SpecMain.mesh_of.
    destruct (read_input of_int uuid uuid_read id now j) as [d|] eqn:Er; [|right; left; split; reflexivity]. unfold run_main.
    destruct (parse H fuel (1 :: p) (d_input uuid d)) as [o| |] eqn:Ep; cbn [bind]; [|right; left; split; reflexivity|left; split; reflexivity].
    destruct o as [[t prm]|]; [|right; left; split; reflexivity].
    destruct (triangulate H fuel (2 :: p) t) as [t1| |] eqn:E1; cbn [bind]; [|right; left; split; reflexivity|left; split; reflexivity].
    destruct (refine H fuel (3 :: p) t1 prm) as [[t2 cs]| |] eqn:E2; cbn [bind]; [|right; left; split; reflexivity|left; split; reflexivity].
    destruct (output_spec H (4 :: p) (t_trn t2)) as (co & ts & _ & _ & Eo & _). rewrite Eo. cbn [bind].
    right. right. eexists _, (t_trn t2). split; [reflexivity|]. split; [exists d, t, prm, t1, t2, cs; auto|].
    unfold can_deliver, delivered, io_write, show_window. destruct (c_output c) as [f|]; [destruct (writable f)|]; reflexivity.
  Qed.

  (** Nothing but what was asked for changes. *)
  Lemma main_frame : forall fuel p id now c w w', main fuel p id now c w = Finished w' \/ main fuel p id now c w = Panicked w' ->
    (forall f, c_output c <> Some f -> files w' f = files w f) /\ (c_output c <> None -> printed w' = printed w) /\ (c_show c = false -> windows w' = windows w).
  Proof.
    intros fuel p id now c w w' Hm.
    assert (K : forall s, (forall f, c_output c <> Some f -> files (delivered c s w) f = files w f) /\ (c_output c <> None -> printed (delivered c s w) = printed w) /\ windows (delivered c s w) = windows w).
    { intros s. unfold delivered. destruct (c_output c) as [f|]; cbn; (split; [|split; [congruence|reflexivity]]); [|reflexivity].
      intros g Hg. destruct (String.eqb_spec g f) as [->|_]; [congruence|reflexivity]. }
    destruct (main_unfold fuel p id now c w) as [[_ E]|(j & _ & [[_ E]|[[_ E]|(out & tr & _ & _ & E)]])]; rewrite E in Hm.
    1,3: (destruct Hm as [Hm|Hm]; [discriminate Hm|injection Hm as <-; auto]).
    1: destruct Hm as [Hm|Hm]; discriminate Hm.
    cbv zeta in Hm. destruct (K (text_show out)) as (K1 & K2 & K3).
    destruct (can_deliver c); [|destruct Hm as [Hm|Hm]; [discriminate Hm|injection Hm as <-; auto]].
    destruct (c_show c); [destruct display|]; (destruct Hm as [Hm|Hm]; [try discriminate Hm|try discriminate Hm]); injection Hm as <-; cbn; auto.
    split; [exact K1|]. split; [exact K2|]. discriminate.
  Qed.

  Lemma holds_one : forall (w : world) f j j', holds_value w f j -> holds_value w f j' -> j = j'.
  Proof. intros w f j j' (s & E & R) (s' & E' & R'). rewrite E in E'. injection E' as <-. rewrite R in R'. injection R' as <-. reflexivity. Qed.

  Lemma delivered_at : forall c s w, result_at c s w (delivered c s w).
  Proof. intros c s w. unfold result_at, delivered. destruct (c_output c) as [f|]; [|reflexivity]. cbn. rewrite String.eqb_refl. reflexivity. Qed.

  Lemma main_finishes : forall fuel p id now c w, (exists w', main fuel p id now c w = Finished w') <->
    exists j out, holds_value w (c_input c) j /\ run_program fuel p id now j = Ok out /\ (forall f, c_output c = Some f -> writable f = true) /\ (c_show c = true -> display = true).
  Proof.
    intros fuel p id now c w. split.
    - intros (w' & Hm). destruct (main_unfold fuel p id now c w) as [[_ E]|(j & Hj & [[_ E]|[[_ E]|(out & tr & Hr & _ & E)]])]; rewrite E in Hm; try discriminate Hm.
      exists j, out. split; [exact Hj|]. split; [exact Hr|]. cbv zeta in Hm. unfold can_deliver in Hm. destruct (c_output c) as [f|].
      + destruct (writable f) eqn:Ew; [|discriminate Hm]. split; [intros g Eg; injection Eg as <-; exact Ew|]. intros Es. rewrite Es in Hm. destruct display; [reflexivity|discriminate Hm].
      + split; [discriminate|]. intros Es. rewrite Es in Hm. destruct display; [reflexivity|discriminate Hm].
    - intros (j & out & Hj & Hr & Hw & Hs). destruct (main_unfold fuel p id now c w) as [[N _]|(j' & Hj' & [[E' _]|[[E' _]|(out' & tr & Hr' & _ & E)]])]; [destruct (N j Hj)| | |];
        pose proof (holds_one _ _ _ _ Hj Hj') as <-; [rewrite Hr in E'; discriminate E'|rewrite Hr in E'; discriminate E'|].
      rewrite E. cbv zeta. assert (Ec : can_deliver c = true) by (unfold can_deliver; destruct (c_output c) as [f|]; [apply Hw|]; reflexivity). rewrite Ec.
      destruct (c_show c); [rewrite (Hs eq_refl)|]; eauto.
  Qed.

  Lemma main_result : forall fuel p id now c w w', main fuel p id now c w = Finished w' ->
    exists j out tr, holds_value w (c_input c) j /\ run_program fuel p id now j = Ok out /\ mesh_of fuel p id now j tr /\ result_at c (text_show out) w w' /\
      windows w' = windows w ++ if c_show c then [glium_edges H cast (5 :: p) tr] else [].
  Proof.
    intros fuel p id now c w w' Hm.
    destruct (main_unfold fuel p id now c w) as [[_ E]|(j & Hj & [[_ E]|[[_ E]|(out & tr & Hr & Ht & E)]])]; rewrite E in Hm; try discriminate Hm.
    exists j, out, tr. split; [exact Hj|]. split; [exact Hr|]. split; [exact Ht|]. cbv zeta in Hm. pose proof (delivered_at c (text_show out) w) as Hd.
    assert (Hv : windows (delivered c (text_show out) w) = windows w) by (unfold delivered; destruct (c_output c); reflexivity).
    destruct (can_deliver c); [|discriminate Hm]. destruct (c_show c); [destruct display; [|discriminate Hm]|]; injection Hm as <-; (split; [exact Hd|]); cbn [windows]; rewrite Hv; [reflexivity|rewrite app_nil_r; reflexivity].
  Qed.

  (** A panic leaves everything as it was, or the result is there and there is no
      window for it. *)
  Lemma main_panics : forall fuel p id now c w w', main fuel p id now c w = Panicked w' ->
    w' = w /\ ((forall j, ~ holds_value w (c_input c) j) \/ (exists j, holds_value w (c_input c) j /\ run_program fuel p id now j = Panic) \/ exists f, c_output c = Some f /\ writable f = false) \/
    c_show c = true /\ display = false /\ exists j out, holds_value w (c_input c) j /\ run_program fuel p id now j = Ok out /\ result_at c (text_show out) w w' /\ windows w' = windows w.
  Proof.
    intros fuel p id now c w w' Hm.
    destruct (main_unfold fuel p id now c w) as [[N E]|(j & Hj & [[_ E]|[[Hr E]|(out & tr & Hr & Ht & E)]])]; rewrite E in Hm; try discriminate Hm.
    - injection Hm as <-. left. auto.
    - injection Hm as <-. left. split; [reflexivity|]. right. left. exists j. auto.
    - cbv zeta in Hm. pose proof (delivered_at c (text_show out) w) as Hd.
      assert (Hv : windows (delivered c (text_show out) w) = windows w) by (unfold delivered; destruct (c_output c); reflexivity).
      destruct (can_deliver c) eqn:Ec.
      + destruct (c_show c); [|discriminate Hm]. destruct display; [discriminate Hm|]. injection Hm as <-. right. split; [reflexivity|]. split; [reflexivity|]. exists j, out. auto.
      + injection Hm as <-. left. split; [reflexivity|]. right. right. unfold can_deliver in Ec. destruct (c_output c) as [f|]; [exists f; auto|discriminate Ec].
  Qed.

  (** A report is not an input. *)
  Lemma report_no_input : forall id now r, read_input of_int uuid uuid_read id now (write_report of_int finite uuid uuid_show r) = None.
  Proof.
    intros id now r. unfold read_input, write_report, read_struct. cbn. unfold read_uuid. cbn. destruct (uuid_read (uuid_show (r_id uuid r))); reflexivity.
  Qed.

  Lemma main_over_input : forall fuel p id now c w w' f, c_input c = f -> c_output c = Some f ->
    (forall j out, holds_value w f j -> run_program fuel p id now j = Ok out -> text_read (text_show out) = Some out) ->
    main fuel p id now c w = Finished w' ->
    forall fuel' p' id' now' c', c_input c' = f -> main fuel' p' id' now' c' w' = Panicked w'.
  Proof.
    intros fuel p id now c w w' f Ei Eo Hb Hm fuel' p' id' now' c' Ei'.
    destruct (main_result _ _ _ _ _ _ _ Hm) as (j & out & tr & Hj & Hr & _ & Ha & _). unfold result_at in Ha. rewrite Eo in Ha. rewrite Ei in Hj. pose proof (Hb j out Hj Hr) as Eb.
    apply program_iff in Hr. destruct Hr as (d & co & ts & _ & _ & ->).
    unfold Main.main, io_read. rewrite Ei', Ha, Eb, report_no_input. reflexivity.
  Qed.

  (** Whoever reads the file gets the mesh. *)
  Lemma main_tells : (forall u, uuid_read (uuid_show u) = Some u) -> finite (of_int 0%Z) = true ->
    forall fuel p id now c w w' f, c_output c = Some f -> (forall j out, holds_value w (c_input c) j -> run_program fuel p id now j = Ok out -> text_read (text_show out) = Some out) -> main fuel p id now c w = Finished w' ->
    exists j d coords triples, holds_value w (c_input c) j /\ tells_input of_int uuid uuid_read id now j d /\ run_main H fuel p (d_input _ d) = Ok (Some (coords, triples)) /\
      exists out, holds_value w' f out /\ forall id' now' r, read_report of_int uuid uuid_read id' now' out = Some r <->
        Forall (finite_point finite) coords /\ r = Rep uuid (d_id _ d) (d_name _ d) (d_date _ d) coords triples [].
  Proof.
    intros Hu Hz fuel p id now c w w' f Eo Hb Hm. destruct (main_result _ _ _ _ _ _ _ Hm) as (j & out & tr & Hj & Hr & _ & Ha & _). unfold result_at in Ha. rewrite Eo in Ha.
    destruct (program_back of_int finite uuid uuid_read uuid_show Hu Hz H fuel p id now j out Hr) as (d & co & ts & Hd & Hrun & Hback).
    exists j, d, co, ts. split; [exact Hj|]. split; [exact Hd|]. split; [exact Hrun|]. exists out. split; [exists (text_show out); split; [exact Ha|exact (Hb j out Hj Hr)]|exact Hback].
  Qed.
End Main.

(** ** A case *)

(** A run on the triangle of C120, written over its input and shown. *)
Definition desk (s : string) : world (T ArithF) := World (fun f => if String.eqb f "a.json" then Some s else None) [] [].
Definition one_of {F} (out : json F) (s : string) : option (json F) := if String.eqb s "in" then Some jsample else if String.eqb s "out" then Some out else None.
Lemma case_desk : exists out w', run_program (A:=ArithF) ho_id fpz sf_finite string some_id (fun s => s) 60 [] "new" "now" jsample = Ok out /\
  main (A:=ArithF) ho_id fpz sf_finite string some_id (fun s => s) (fun x => x) (one_of out) (fun _ => "out") (fun _ => true) true 60 [] "new" "now" (Cli "a.json" (Some "a.json") true) (desk "in") = Finished w' /\
  (forall j out', holds_value (one_of out) (desk "in") "a.json" j -> run_program (A:=ArithF) ho_id fpz sf_finite string some_id (fun s => s) 60 [] "new" "now" j = Ok out' -> one_of out ((fun _ => "out") out') = Some out') /\
  main (A:=ArithF) ho_id fpz sf_finite string some_id (fun s => s) (fun x => x) (one_of out) (fun _ => "out") (fun _ => true) false 60 [] "new" "now" (Cli "b.json" None true) (desk "in") = Panicked (desk "in").
Proof.
  destruct sample_runs as (out & Ho & _). assert (Hj : holds_value (one_of out) (desk "in") "a.json" jsample) by (exists "in"; split; reflexivity).
  destruct (proj2 (main_finishes (A:=ArithF) ho_id fpz sf_finite string some_id (fun s => s) (fun x => x) (one_of out) (fun _ => "out") (fun _ => true) true 60 [] "new" "now" (Cli "a.json" (Some "a.json") true) (desk "in"))) as (w' & Hw).
  { exists jsample, out. split; [exact Hj|]. split; [exact Ho|]. split; reflexivity. }
  exists out, w'. split; [exact Ho|]. split; [exact Hw|]. split; [|reflexivity].
  intros j out' Hj' Ho'. pose proof (holds_one (A:=ArithF) (one_of out) _ _ _ _ Hj Hj') as <-. rewrite Ho in Ho'. injection Ho' as <-. reflexivity.
Qed.
