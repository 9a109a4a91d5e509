(** P_Refuted8.v — a square with a triangular hole on which the program runs
    forever: the outline of the triangles that give way to a side of the hole
    touches itself, and following it never comes back to where it started. *)

From Coq Require Import String List ZArith Bool Lia.
From Verif Require Import Base Arith Geometry Elements Polyline Procedures Refine Triangulator Interface
  Json Main Spec SpecMain P_Base P_Fuel ArithF Samples P_Refuted P_Refuted3.
Import ListNotations.
Local Open Scope nat_scope.
Local Open Scope list_scope.

(** A run that succeeds with some number of steps has the same result with any
    other, or is out of steps. *)
Lemma settles : forall X (f : nat -> res X), (forall n n', n <= n' -> rle (f n) (f n')) -> forall N x, f N = Ok x -> forall n, f n = NoFuel \/ f n = Ok x.
Proof.
  intros X f Hm N x E n. destruct (Nat.le_ge_cases n N) as [L|L].
  - destruct (Hm n N L) as [Q|Q]; [left; exact Q|right; rewrite Q; exact E].
  - right. destruct (Hm N n L) as [Q|Q]; congruence.
Qed.

Section Stuck.
  Context {A : Arith} (H : HashOrder).
  Notation vertex := (vertex A).
  Notation edge := (edge A).

  (** The vertices reached from [v] in [n] steps. *)
  Fixpoint reach (n : nat) (m : list (vertex * vertex)) (v : vertex) : list vertex :=
    match n with
    | O => []
    | S n' => match mget vdec v m with Some w => w :: reach n' m w | None => [] end
    end.
  Definition inb (v : vertex) (l : list vertex) : bool := if in_dec vdec v l then true else false.
  Definition trapped (m : list (vertex * vertex)) (head : vertex) (l : list vertex) : bool :=
    inb head l && forallb (fun u => match mget vdec u m with Some w => negb (veqb w head) && inb w l | None => false end) l.

  Lemma trapped_walk : forall m head l, trapped m head l = true -> forall n tail acc, In tail l -> arrange_walk n m head tail acc = NoFuel.
  Proof.
    intros m head l Ht. unfold trapped in Ht. apply andb_true_iff in Ht. destruct Ht as [_ Ht]. rewrite forallb_forall in Ht.
    induction n as [|n IH]; intros tail acc Hi; [reflexivity|]. cbn [arrange_walk]. pose proof (Ht tail Hi) as Q. cbv beta in Q.
    destruct (mget vdec tail m) as [w|]; [|discriminate Q]. apply andb_true_iff in Q. destruct Q as [Q1 Q2]. apply negb_true_iff in Q1. rewrite Q1.
    apply IH. unfold inb in Q2. destruct (in_dec vdec w l) as [I|]; [exact I|discriminate Q2].
  Qed.

  Definition arrange_stuck (p : path) (es : list edge) : bool :=
    let m := mcollect vdec (ho H (0 :: p) _ es) in
    match hd_error (ho H (1 :: p) _ (map fst m)) with
    | Some head => trapped m head (head :: reach (length m) m head)
    | None => false
    end.
  Lemma stuck_arrange : forall p es, arrange_stuck p es = true -> forall n, poly_arrange H n p es = NoFuel.
  Proof.
    intros p es C n. unfold arrange_stuck in C. unfold poly_arrange. cbn zeta in *.
    destruct (hd_error (ho H (1 :: p) _ (map fst (mcollect vdec (ho H (0 :: p) _ es))))) as [head|]; [|discriminate C]. cbn [unwrap bind].
    rewrite (trapped_walk _ _ _ C n head [head]); [reflexivity|left; reflexivity].
  Qed.

  Definition segment_stuck (N : nat) (p : path) (tr : triangulation A) (e : edge) (cs : list edge) : bool :=
    okb (segment_conflicts N tr e cs) (fun conf => arrange_stuck (1 :: 2 :: p) (hull_edges H (0 :: 2 :: p) conf)).
  Lemma stuck_segment : forall N p tr e cs, segment_stuck N p tr e cs = true -> forall n, segment_include H n p tr e cs = NoFuel.
  Proof.
    intros N p tr e cs C n. unfold segment_stuck in C. apply okb_ok in C. destruct C as (conf & E & C).
    unfold segment_include. destruct (settles _ (fun n => segment_conflicts n tr e cs) (fun n n' L => segment_conflicts_mono n n' L tr e cs) N conf E n) as [Q|Q]; cbn beta in Q; rewrite Q; [reflexivity|].
    cbn [bind]. cbn zeta. unfold triangles_hull. rewrite (stuck_arrange _ _ C n). reflexivity.
  Qed.

  Definition missing_stuck (N : nat) (p : path) (segs cs : list edge) (tr : triangulation A) : bool :=
    match find (fun e => negb (hmem edec e (trn_edges tr))) (ho H (1 :: p) _ segs) with
    | Some e => segment_stuck N (2 :: p) tr e cs
    | None => false
    end.
  Lemma stuck_missing : forall N p segs cs tr, missing_stuck N p segs cs tr = true -> forall n, insert_missing H n p segs cs tr = NoFuel.
  Proof.
    intros N p segs cs tr C [|n]; [reflexivity|]. unfold missing_stuck in C. cbn [insert_missing]. cbn zeta.
    destruct (find _ _) as [e|]; [|discriminate C]. rewrite (stuck_segment _ _ _ _ _ C n). reflexivity.
  Qed.

  Definition hole_stuck (N : nat) (p : path) (tr : triangulation A) (hole : polyline A) (cs : list edge) : bool :=
    okb (into_edges hole) (fun es => okb (vertices_include H N (1 :: p) tr (pverts hole) cs None []) (fun '(tr1, _, _) =>
      missing_stuck N (2 :: p) (hset edec es) (hset edec (cs ++ hset edec es)) tr1)).
  Lemma stuck_hole : forall N p tr hole cs, hole_stuck N p tr hole cs = true -> forall n, hole_include H n p tr hole cs = NoFuel.
  Proof.
    intros N p tr hole cs C n. unfold hole_stuck in C. apply okb_ok in C. destruct C as (es & E1 & C). apply okb_ok in C. destruct C as ([[tr1 i1] d1] & E2 & C).
    unfold hole_include. rewrite E1. cbn [bind]. cbn zeta.
    destruct (settles _ (fun n => vertices_include H n (1 :: p) tr (pverts hole) cs None []) (fun n n' L => vertices_include_mono H n n' L _ _ _ _ _ _) N _ E2 n) as [Q|Q]; cbn beta in Q; rewrite Q; [reflexivity|].
    cbn [bind]. rewrite (stuck_missing _ _ _ _ _ C n). reflexivity.
  Qed.

  Definition triangulate_stuck (N : nat) (p : path) (t : triangulator A) : bool :=
    match nth_error (pverts (t_boundary t)) 0, nth_error (pverts (t_boundary t)) 1 with
    | Some v1, Some v2 =>
        okb (boundary_include H N (1 :: p) (from_initial_segment v1 v2) (t_boundary t) []) (fun tr1 =>
        okb (into_edges (t_boundary t)) (fun bes =>
        match ho H (3 :: p) _ (t_holes t) with
        | h :: _ => hole_stuck N (1 :: 2 :: p) tr1 h (hset edec bes)
        | [] => false
        end))
    | _, _ => false
    end.
  Lemma stuck_triangulate : forall N p t, triangulate_stuck N p t = true -> forall n, triangulate H n p t = NoFuel.
  Proof.
    intros N p t C n. unfold triangulate_stuck in C. unfold triangulate.
    destruct (nth_error (pverts (t_boundary t)) 0) as [v1|]; [|discriminate C]. destruct (nth_error (pverts (t_boundary t)) 1) as [v2|]; [|discriminate C].
    apply okb_ok in C. destruct C as (tr1 & E1 & C). apply okb_ok in C. destruct C as (bes & E2 & C). cbn [unwrap bind]. cbn zeta.
    destruct (settles _ (fun n => boundary_include H n (1 :: p) (from_initial_segment v1 v2) (t_boundary t) []) (fun n n' L => boundary_include_mono H n n' L _ _ _ _) N _ E1 n) as [Q|Q]; cbn beta in Q; rewrite Q; [reflexivity|].
    cbn [bind]. rewrite E2. cbn [bind]. destruct (ho H (3 :: p) _ (t_holes t)) as [|h hs]; [discriminate C|]. cbn [include_holes].
    rewrite (stuck_hole _ _ _ _ _ C n). reflexivity.
  Qed.

  Definition input_stuck (N : nat) (p : path) (inp : input A) : bool :=
    okb (parse H N (1 :: p) inp) (fun o => match o with Some (t, _) => triangulate_stuck N (2 :: p) t | None => false end).
  Lemma stuck_input : forall N p inp, input_stuck N p inp = true ->
    (exists t prm, (forall n, N <= n -> parse H n (1 :: p) inp = Ok (Some (t, prm))) /\ forall n, triangulate H n (2 :: p) t = NoFuel) /\ forall n, run_main H n p inp = NoFuel.
  Proof.
    intros N p inp C. unfold input_stuck in C. apply okb_ok in C. destruct C as (o & E & C). destruct o as [[t prm]|]; [|discriminate C].
    pose proof (stuck_triangulate _ _ _ C) as Ht. split.
    - exists t, prm. split; [|exact Ht]. intros n L. destruct (parse_mono H N n L (1 :: p) inp) as [Q|Q]; congruence.
    - intros n. unfold run_main. destruct (settles _ (fun n => parse H n (1 :: p) inp) (fun n n' L => parse_mono H n n' L _ _) N _ E n) as [Q|Q]; cbn beta in Q; rewrite Q; [reflexivity|].
      cbn [bind]. rewrite (Ht n). reflexivity.
  Qed.
End Stuck.

Definition inp129 : input ArithF := Inp [act_of "include" [(0, 0); (6, 0); (6, 6); (0, 6)]%Z; act_of "remove" [(2, 2); (4, 1); (1, 3)]%Z] None (fpz 10).
Lemma case_stuck : forall p, input_stuck ho_id 100 p inp129 = true.
Proof. intros p. vm_compute. reflexivity. Qed.
Lemma runs_forever : forall p, (exists t prm, (forall n, 100 <= n -> parse ho_id n (1 :: p) inp129 = Ok (Some (t, prm))) /\ forall n, triangulate ho_id n (2 :: p) t = NoFuel) /\
  forall n, run_main ho_id n p inp129 = NoFuel.
Proof. intros p. exact (stuck_input ho_id 100 p inp129 (case_stuck p)). Qed.

Definition panic129 (H : HashOrder) (n : nat) : bool := panicb (run_main H n [] inp129).
Lemma panics_129 : forall H n, panic129 H n = true -> run_main H n [] inp129 = Panic.
Proof. intros H n C. unfold panic129 in C. apply panicb_true in C. exact C. Qed.
Lemma case_panic129 : panic129 ho_rev 100 = true.
Proof. vm_compute. reflexivity. Qed.

(** ** The program on a file that holds this input *)
Section Program.
  Variables (of_int : Z -> T ArithF) (finite : T ArithF -> bool) (uuid : Type) (uuid_read : string -> option uuid) (uuid_show : uuid -> string).
  Context {F32 : Type} (cast : T ArithF -> F32).
  Variables (text_read : string -> option (json (T ArithF))) (text_show : json (T ArithF) -> string) (writable : string -> bool) (display : bool).
  Lemma main_forever : forall p id now c (w : world F32) j d, holds_value text_read w (c_input c) j -> read_input of_int uuid uuid_read id now j = Some d -> d_input _ d = inp129 ->
    forall fuel, main ho_id of_int finite uuid uuid_read uuid_show cast text_read text_show writable display fuel p id now c w = Unfinished.
  Proof.
    intros p id now c w j d (s & Ef & Et) Er Ed fuel. unfold main, io_read. rewrite Ef, Et, Er, Ed. cbv iota beta.
    pose proof (proj2 (runs_forever p) fuel) as Q. unfold run_main in Q.
    destruct (parse ho_id fuel (1 :: p) inp129) as [[[t prm]| ]| |] eqn:E; cbn [bind] in *; try discriminate Q; [|reflexivity].
    destruct (proj1 (runs_forever p)) as (t0 & prm0 & Hp & Ht).
    destruct (settles _ (fun n => parse ho_id n (1 :: p) inp129) (fun n n' L => parse_mono ho_id n n' L _ _) 100 _ (Hp 100 (Nat.le_refl _)) fuel) as [R|R]; cbn beta in R; rewrite R in E; [discriminate E|].
    injection E as <- <-. rewrite (Ht fuel). reflexivity.
  Qed.
End Program.

(** The text of such a file spells this value. *)
Definition value129 : json (T ArithF) :=
  let q (x y : Z) := JObj [("x", JInt x); ("y", JInt y)]%string in
  JObj [("name", JStr "a square with a hole");
        ("actions", JArr [JObj [("intent", JStr "include"); ("geometry", JStr "polyline"); ("points", JArr [q 0 0; q 6 0; q 6 6; q 0 6])];
                          JObj [("intent", JStr "remove"); ("geometry", JStr "polyline"); ("points", JArr [q 2 2; q 4 1; q 1 3])]]);
        ("params", JObj [("quality", JInt 10)])]%Z%string.
Lemma value_129 : forall uuid uuid_read (id : uuid) now, read_input (A:=ArithF) fpz uuid uuid_read id now value129 = Some (Doc uuid id "a square with a hole" now inp129).
Proof. intros. cbn. reflexivity. Qed.
Lemma program_forever : exists (H : HashOrder) (j : json (T ArithF)),
  (forall uuid uuid_read (id : uuid) now, exists d, read_input (A:=ArithF) fpz uuid uuid_read id now j = Some d /\
    i_actions (d_input _ d) = [act_of "include" [(0, 0); (6, 0); (6, 6); (0, 6)]%Z; act_of "remove" [(2, 2); (4, 1); (1, 3)]%Z]) /\
  forall finite uuid (uuid_read : string -> option uuid) uuid_show F32 (cast : T ArithF -> F32) text_read text_show writable display p id now c (w : world F32),
    holds_value text_read w (c_input c) j ->
    forall fuel, main (A:=ArithF) H fpz finite uuid uuid_read uuid_show cast text_read text_show writable display fuel p id now c w = Unfinished.
Proof. exists ho_id, value129. split; [intros; eexists; split; [apply value_129|reflexivity]|]. intros. eapply main_forever; [eassumption|apply value_129|reflexivity]. Qed.
Lemma input_forever : exists (H : HashOrder) (inp : input ArithF),
  i_actions inp = [act_of "include" [(0, 0); (6, 0); (6, 6); (0, 6)]%Z; act_of "remove" [(2, 2); (4, 1); (1, 3)]%Z] /\
  forall p, (exists N t prm, (forall fuel, N <= fuel -> parse H fuel (1 :: p) inp = Ok (Some (t, prm))) /\ forall fuel, triangulate H fuel (2 :: p) t = NoFuel) /\
    forall fuel, run_main H fuel p inp = NoFuel.
Proof.
  exists ho_id, inp129. split; [reflexivity|]. intros p. destruct (runs_forever p) as [(t & prm & Q) R]. split; [exists 100, t, prm; exact Q|exact R].
Qed.
Lemma input_panics : exists H fuel p, run_main H fuel p (Inp [act_of "include" [(0, 0); (6, 0); (6, 6); (0, 6)]%Z; act_of "remove" [(2, 2); (4, 1); (1, 3)]%Z] None (fpz 10)) = Panic.
Proof. exists ho_rev, 100, []. exact (panics_129 ho_rev 100 case_panic129). Qed.
