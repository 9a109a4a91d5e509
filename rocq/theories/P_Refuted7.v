(** P_Refuted7.v — a simple polygon that is left without triangles, and a convex
    polygon given clockwise on which the program panics. *)

From Coq Require Import String List ZArith Bool.
From Verif Require Import Base Arith Geometry Elements Polyline Procedures Refine Triangulator Interface
  Spec P_Base P_Trn P_Triangulator ArithF Samples P_Refuted P_Refuted2 P_Refuted3 P_Refuted4.
Import ListNotations.
Local Open Scope nat_scope.
Local Open Scope list_scope.

Definition hook : polyline ArithF := Poly [pt 0 0; pt 40 0; pt 40 2; pt 4 2; pt 4 4; pt 20 4; pt 20 10; pt 0 10] false.
Definition hook_check (H : HashOrder) (n : nat) (q : vertex ArithF) : bool :=
  inside_b hook q && okb (into_edges hook) (fun es => forallb (fun e => forallb (fun e' => negb (crosses e e')) es) es) &&
  okb (triangulate H n [] (triangulator_new hook)) (fun t => forallb is_ghost (tris (t_trn t)) && forallb (fun v => hmem vdec v (trn_vertices (t_trn t))) (pverts hook)).
Lemma hook_case : hook_check (ho_seed 1) 200 (pt 2 5) = true.
Proof. vm_compute. reflexivity. Qed.
Lemma hook_unfilled : exists H fuel p q es t, into_edges hook = Ok es /\ (forall e e', In e es -> In e' es -> crosses e e' = false) /\
  poly_contains hook q = Ok (Some Inside) /\ triangulate H fuel p (triangulator_new hook) = Ok t /\
  (forall v, In v (pverts hook) -> In v (trn_vertices (t_trn t))) /\ forall u, In u (tris (t_trn t)) -> is_ghost u = true.
Proof.
  pose proof hook_case as C. exists (ho_seed 1), 200, [], (pt 2 5). unfold hook_check in C.
  apply andb_true_iff in C. destruct C as (C & C3). apply andb_true_iff in C. destruct C as (C1 & C2).
  apply okb_ok in C2. destruct C2 as (es & E & C2). apply okb_ok in C3. destruct C3 as (t & Et & C3). apply andb_true_iff in C3. destruct C3 as (C3 & C4).
  exists es, t. split; [exact E|]. split.
  { intros e e' He He'. rewrite forallb_forall in C2. specialize (C2 e He). rewrite forallb_forall in C2. apply negb_true_iff, C2, He'. }
  split; [apply inside_b_true, C1|]. split; [exact Et|]. split.
  - intros v Hv. rewrite forallb_forall in C4. apply (hmem_In vdec), C4, Hv.
  - intros u Hu. rewrite forallb_forall in C3. apply C3, Hu.
Qed.

Definition turned_kite : input ArithF := Inp [act_of "include" [(0, 0); (9, 1); (20, 0); (8, -1)]%Z] None (fpz 10).
Lemma turned_case : panicb (run_main (ho_seed 1) 300 [] turned_kite) = true.
Proof. vm_compute. reflexivity. Qed.
Lemma turned_panics : exists H fuel p, run_main H fuel p turned_kite = Panic.
Proof. exists (ho_seed 1), 300, []. apply panicb_true, turned_case. Qed.
