(** P_Refuted6.v — a square with a triangular hole: triangulated well, its
    refinement covers the hole, covers points twice or panics; and with a thinner
    hole the triangulation itself panics. *)

From Coq Require Import String List ZArith Bool.
From Verif Require Import Base Arith Geometry Elements Polyline Procedures Refine Triangulator Interface
  Spec P_Base P_Trn P_Triangulator ArithF Samples P_Refuted3 P_Refuted4.
Import ListNotations.
Local Open Scope nat_scope.
Local Open Scope list_scope.

Definition sq124 : polyline ArithF := Poly [pt 0 0; pt 8 0; pt 8 8; pt 0 8] false.
Definition high124 : polyline ArithF := Poly [pt 3 7; pt 3 5; pt 5 7] false.
Definition wedge124 : polyline ArithF := Poly [pt 4 6; pt 2 6; pt 3 4] false.
Definition thin124 : polyline ArithF := Poly [pt 3 2; pt 6 1; pt 2 3] false.
Definition prm124 : refine_params ArithF := RP (A:=ArithF) None (fpq 3 2).

Section refined.
  Context (H : HashOrder) (n : nat) (b h : polyline ArithF) (prm : refine_params ArithF).
  Definition hole_run : res (triangulator ArithF * result (list (vertex ArithF)) * triangulator ArithF) :=
    let! x1 := insert_hole n (triangulator_new b) h in let! t2 := triangulate H n [] (fst x1) in Ok (x1, t2).
  Definition good_mesh (q : vertex ArithF) (t2 : triangulator ArithF) : bool := forallb ccwb (tris (t_trn t2)) && negb (coversb q t2).
  Definition refined_check (q w : vertex ArithF) : bool := inside_b h q && okb hole_run (fun '(x1, t2) =>
    fineb (snd x1) && (good_mesh q t2 && okb (refine H n [] t2 prm) (fun '(t3, _) => coversb q t3 && twice w t3))).
  Definition panic_check (q : vertex ArithF) : bool := inside_b h q && okb hole_run (fun '(x1, t2) =>
    fineb (snd x1) && (good_mesh q t2 && panicb (refine H n [] t2 prm))).

  Lemma ccw_all : forall t : triangulator ArithF, forallb ccwb (tris (t_trn t)) = true ->
    forall u, In u (tris (t_trn t)) -> is_ghost u = false -> orientation (tv1 u) (tv2 u) (tv3 u) = CCW.
  Proof. intros t E u Hu G. rewrite forallb_forall in E. specialize (E u Hu). unfold ccwb in E. rewrite G in E. apply orient_eqb_eq in E. exact E. Qed.
  Lemma hole_run_ok : forall x1 t2, hole_run = Ok (x1, t2) -> fineb (snd x1) = true ->
    insert_hole n (triangulator_new b) h = Ok (fst x1, RFine) /\ triangulate H n [] (fst x1) = Ok t2.
  Proof.
    intros x1 t2 E F. unfold hole_run in E. apply bind_ok in E. destruct E as (y & E1 & E). apply bind_ok in E. destruct E as (u & E2 & E).
    injection E as -> ->. destruct x1 as [t1 r1]. cbn [fst snd] in *. apply fineb_true in F. subst r1. split; assumption.
  Qed.
  Lemma refined_ok : forall q w, refined_check q w = true -> exists t1 t2 t3 cs,
    insert_hole n (triangulator_new b) h = Ok (t1, RFine) /\ triangulate H n [] t1 = Ok t2 /\ refine H n [] t2 prm = Ok (t3, cs) /\
    poly_contains h q = Ok (Some Inside) /\
    (forall u, In u (tris (t_trn t2)) -> is_ghost u = false -> orientation (tv1 u) (tv2 u) (tv3 u) = CCW) /\
    (forall u, In u (tris (t_trn t2)) -> ~ within q u) /\
    (exists u, In u (tris (t_trn t3)) /\ within q u) /\
    (exists y z, In y (tris (t_trn t3)) /\ In z (tris (t_trn t3)) /\ y <> z /\ within w y /\ within w z).
  Proof.
    intros q w C. apply andb_true_iff in C. destruct C as (Q & C). apply okb_ok in C. destruct C as ([x1 t2] & E & C). cbn beta iota in C.
    apply andb_true_iff in C. destruct C as (F & C). apply andb_true_iff in C. destruct C as (G & C).
    unfold good_mesh in G. apply andb_true_iff in G. destruct G as (G & N). apply negb_true_iff in N.
    apply okb_ok in C. destruct C as ([t3 cs] & E3 & C). apply andb_true_iff in C. destruct C as (C1 & C2).
    destruct (hole_run_ok _ _ E F) as (E1 & E2). exists (fst x1), t2, t3, cs.
    split; [exact E1|]. split; [exact E2|]. split; [exact E3|]. split; [apply inside_b_true, Q|]. split; [exact (ccw_all _ G)|].
    split; [exact (coversb_false _ _ N)|]. split; [apply coversb_true, C1|apply twice_true, C2].
  Qed.
  Lemma panic_ok : forall q, panic_check q = true -> exists t1 t2,
    insert_hole n (triangulator_new b) h = Ok (t1, RFine) /\ triangulate H n [] t1 = Ok t2 /\ refine H n [] t2 prm = Panic /\
    poly_contains h q = Ok (Some Inside) /\
    (forall u, In u (tris (t_trn t2)) -> is_ghost u = false -> orientation (tv1 u) (tv2 u) (tv3 u) = CCW) /\
    (forall u, In u (tris (t_trn t2)) -> ~ within q u).
  Proof.
    intros q C. apply andb_true_iff in C. destruct C as (Q & C). apply okb_ok in C. destruct C as ([x1 t2] & E & C). cbn beta iota in C.
    apply andb_true_iff in C. destruct C as (F & C). apply andb_true_iff in C. destruct C as (G & C).
    unfold good_mesh in G. apply andb_true_iff in G. destruct G as (G & N). apply negb_true_iff in N. apply panicb_true in C.
    destruct (hole_run_ok _ _ E F) as (E1 & E2). exists (fst x1), t2.
    split; [exact E1|]. split; [exact E2|]. split; [exact C|]. split; [apply inside_b_true, Q|]. split; [exact (ccw_all _ G)|exact (coversb_false _ _ N)].
  Qed.
End refined.

Lemma refined_case : refined_check (ho_seed 2) 200 sq124 high124 prm124 (ptq 36 10 66 10) (ptq 42 10 76 10) = true.
Proof. vm_compute. reflexivity. Qed.
Lemma refined_covers_hole : exists H fuel p prm (b h : polyline ArithF) q w t1 t2 t3 cs,
  insert_hole fuel (triangulator_new b) h = Ok (t1, RFine) /\ triangulate H fuel p t1 = Ok t2 /\ refine H fuel p t2 prm = Ok (t3, cs) /\
  poly_contains h q = Ok (Some Inside) /\
  (forall u, In u (tris (t_trn t2)) -> is_ghost u = false -> orientation (tv1 u) (tv2 u) (tv3 u) = CCW) /\
  (forall u, In u (tris (t_trn t2)) -> ~ within q u) /\
  (exists u, In u (tris (t_trn t3)) /\ within q u) /\
  (exists y z, In y (tris (t_trn t3)) /\ In z (tris (t_trn t3)) /\ y <> z /\ within w y /\ within w z).
Proof. exists (ho_seed 2), 200, [], prm124, sq124, high124, (ptq 36 10 66 10), (ptq 42 10 76 10). exact (refined_ok _ _ _ _ _ _ _ refined_case). Qed.

Lemma panic_case : panic_check ho_id 200 sq124 wedge124 prm124 (pt 3 5) = true.
Proof. vm_compute. reflexivity. Qed.
Lemma refined_panics : exists H fuel p prm (b h : polyline ArithF) q t1 t2,
  insert_hole fuel (triangulator_new b) h = Ok (t1, RFine) /\ triangulate H fuel p t1 = Ok t2 /\ refine H fuel p t2 prm = Panic /\
  poly_contains h q = Ok (Some Inside) /\
  (forall u, In u (tris (t_trn t2)) -> is_ghost u = false -> orientation (tv1 u) (tv2 u) (tv3 u) = CCW) /\
  (forall u, In u (tris (t_trn t2)) -> ~ within q u).
Proof. exists ho_id, 200, [], prm124, sq124, wedge124, (pt 3 5). exact (panic_ok _ _ _ _ _ _ panic_case). Qed.

Definition thin_check (H : HashOrder) (n : nat) : bool := okb (insert_hole n (triangulator_new sq124) thin124) (fun '(t1, r1) => fineb r1 && panicb (triangulate H n [] t1)).
Lemma thin_ok : forall H n, thin_check H n = true -> exists t1,
  insert_hole n (triangulator_new sq124) thin124 = Ok (t1, RFine) /\ triangulate H n [] t1 = Panic.
Proof.
  intros H n C. unfold thin_check in C. apply okb_ok in C. destruct C as ([t1 r1] & E & C). apply andb_true_iff in C. destruct C as (F & C).
  apply fineb_true in F. subst r1. apply panicb_true in C. exists t1. split; assumption.
Qed.
Lemma thin_case : thin_check ho_rev 200 = true.
Proof. vm_compute. reflexivity. Qed.
Lemma thin_hole_panics : exists H fuel p t1,
  insert_hole fuel (triangulator_new sq124) thin124 = Ok (t1, RFine) /\ triangulate H fuel p t1 = Panic.
Proof. exists ho_rev, 200, []. exact (thin_ok _ _ thin_case). Qed.
