(** P_Refuted9.v — a convex polygon with integer corners whose refined mesh has
    triangles that overlap, for some orders of the hash sets only. *)

From Coq Require Import String List ZArith Bool.
From Verif Require Import Base Arith Geometry Elements Polyline Procedures Refine Triangulator Interface
  Spec P_Base P_Trn P_Triangulator ArithF Samples P_Refuted P_Refuted2 P_Refuted3 P_Refuted4 P_Refuted6.
Import ListNotations.
Local Open Scope nat_scope.
Local Open Scope list_scope.

Definition quad136 : polyline ArithF := Poly [pt 0 0; pt 20 0; pt 21 19; pt 1 18] false.
Definition free136 : list (vertex ArithF) := [pt 11 10; pt 12 9].
Definition prm136 : refine_params ArithF := RP (A:=ArithF) None (fpz 1000).
Definition inp136 : input ArithF := Inp
  [act_of "include" [(0, 0); (20, 0); (21, 19); (1, 18)]%Z; Act (A:=ArithF) "constraint" "vertices" [] [point_of 11 10; point_of 12 9] []] None (fpz 1000).

Definition cwb (u : triangle ArithF) : bool := negb (is_ghost u) && match orientation (tv1 u) (tv2 u) (tv3 u) with CW => true | _ => false end.

Section torn.
  Variables (H H' : HashOrder) (n : nat) (b : polyline ArithF) (vs : list (vertex ArithF)) (prm : refine_params ArithF) (w : vertex ArithF).
  Definition torn_check : bool :=
    okb (insert_vertices H [] (triangulator_new b) vs) (fun '(t1, r1) => fineb r1 && okb (triangulate H n [] t1) (fun t2 => forallb ccwb (tris (t_trn t2)) &&
      (okb (refine H n [] t2 prm) (fun '(t3, _) => existsb cwb (tris (t_trn t3)) && twice w t3) && okb (refine H' n [] t2 prm) (fun '(t3, _) => forallb ccwb (tris (t_trn t3)))))).
  Lemma torn_ok : torn_check = true -> exists t1 t2 t3 cs t3' cs',
    insert_vertices H [] (triangulator_new b) vs = Ok (t1, RFine) /\ triangulate H n [] t1 = Ok t2 /\ refine H n [] t2 prm = Ok (t3, cs) /\ refine H' n [] t2 prm = Ok (t3', cs') /\
    (forall u, In u (tris (t_trn t2)) -> is_ghost u = false -> orientation (tv1 u) (tv2 u) (tv3 u) = CCW) /\
    (forall u, In u (tris (t_trn t3')) -> is_ghost u = false -> orientation (tv1 u) (tv2 u) (tv3 u) = CCW) /\
    (exists u, In u (tris (t_trn t3)) /\ is_ghost u = false /\ orientation (tv1 u) (tv2 u) (tv3 u) = CW) /\
    (exists y z, In y (tris (t_trn t3)) /\ In z (tris (t_trn t3)) /\ y <> z /\ within w y /\ within w z).
  Proof.
    intros C. unfold torn_check in C. apply okb_ok in C. destruct C as ([t1 r1] & E1 & C). apply andb_true_iff in C. destruct C as (F & C).
    apply fineb_true in F. subst r1. apply okb_ok in C. destruct C as (t2 & E2 & C). apply andb_true_iff in C. destruct C as (G & C).
    apply andb_true_iff in C. destruct C as (C & C'). apply okb_ok in C. destruct C as ([t3 cs] & E3 & C). apply okb_ok in C'. destruct C' as ([t3' cs'] & E3' & C').
    apply andb_true_iff in C. destruct C as (C1 & C2). exists t1, t2, t3, cs, t3', cs'.
    split; [exact E1|]. split; [exact E2|]. split; [exact E3|]. split; [exact E3'|]. split; [exact (ccw_all _ G)|]. split; [exact (ccw_all _ C')|].
    split; [|apply twice_true, C2]. apply existsb_exists in C1. destruct C1 as (u & Hu & Cu). exists u. split; [exact Hu|]. unfold cwb in Cu.
    apply andb_true_iff in Cu. destruct Cu as (Cg & Co). apply negb_true_iff in Cg. split; [exact Cg|]. destruct (orientation (tv1 u) (tv2 u) (tv3 u)); try discriminate Co. reflexivity.
  Qed.
End torn.
Lemma torn_case : torn_check ho_rev ho_id 60 quad136 free136 prm136 (pt 16 18) = true.
Proof. vm_compute. reflexivity. Qed.
Lemma refined_torn : exists H H' fuel p prm w t1 t2 t3 cs t3' cs',
  insert_vertices H p (triangulator_new quad136) free136 = Ok (t1, RFine) /\ triangulate H fuel p t1 = Ok t2 /\ refine H fuel p t2 prm = Ok (t3, cs) /\ refine H' fuel p t2 prm = Ok (t3', cs') /\
  (forall u, In u (tris (t_trn t2)) -> is_ghost u = false -> orientation (tv1 u) (tv2 u) (tv3 u) = CCW) /\
  (forall u, In u (tris (t_trn t3')) -> is_ghost u = false -> orientation (tv1 u) (tv2 u) (tv3 u) = CCW) /\
  (exists u, In u (tris (t_trn t3)) /\ is_ghost u = false /\ orientation (tv1 u) (tv2 u) (tv3 u) = CW) /\
  (exists y z, In y (tris (t_trn t3)) /\ In z (tris (t_trn t3)) /\ y <> z /\ within w y /\ within w z).
Proof. exists ho_rev, ho_id, 60, [], prm136, (pt 16 18). exact (torn_ok _ _ _ _ _ _ _ torn_case). Qed.

(** What goes wrong: the line from an inner point to the middle of a side is said
    to leave the polygon. *)
Definition leave_check (b : polyline ArithF) (q m : vertex ArithF) : bool :=
  inside_b b q && okb (poly_continence 50 b (Poly [q; m] true)) noneb.
Lemma leave_ok : forall b q m, leave_check b q m = true -> poly_contains b q = Ok (Some Inside) /\ poly_continence 50 b (Poly [q; m] true) = Ok None.
Proof.
  intros b q m C. unfold leave_check in C. apply andb_true_iff in C. destruct C as (C1 & C2). split; [apply inside_b_true, C1|].
  apply okb_ok in C2. destruct C2 as ([x|] & E & C2); [discriminate C2|exact E].
Qed.
Lemma leave_case : leave_check quad136 (pt 17 13) (edge_midpoint (pt 20 0, pt 21 19)) = true.
Proof. vm_compute. reflexivity. Qed.
Lemma middle_left_out : exists fuel q, poly_contains quad136 q = Ok (Some Inside) /\
  poly_continence fuel quad136 (Poly [q; edge_midpoint (pt 20 0, pt 21 19)] true) = Ok None.
Proof. exists 50, (pt 17 13). exact (leave_ok _ _ _ leave_case). Qed.

(** The whole program on such an input, in two orders. *)
Definition written (r : res (option (list (point (A:=ArithF)) * list (nat * nat * nat)))) : option (nat * nat) :=
  match r with Ok (Some (c, ts)) => Some (length c, length ts) | _ => None end.
Definition two_check136 (H H' : HashOrder) (n : nat) (inp : input ArithF) : bool :=
  match written (run_main H n [] inp), written (run_main H' n [] inp) with
  | Some (a, k), Some (a', k') => Nat.eqb a a' && negb (Nat.eqb k k') | _, _ => false end.
Lemma two_ok136 : forall H H' n inp, two_check136 H H' n inp = true -> exists c ts c' ts',
  run_main H n [] inp = Ok (Some (c, ts)) /\ run_main H' n [] inp = Ok (Some (c', ts')) /\ length c = length c' /\ length ts <> length ts'.
Proof.
  intros H H' n inp C. unfold two_check136 in C.
  destruct (run_main H n [] inp) as [[[c ts]|]| |]; cbn [written] in C; try discriminate C.
  destruct (run_main H' n [] inp) as [[[c' ts']|]| |]; cbn [written] in C; try discriminate C.
  apply andb_true_iff in C. destruct C as (C1 & C2). apply Nat.eqb_eq in C1. apply negb_true_iff, Nat.eqb_neq in C2. exists c, ts, c', ts'. auto.
Qed.
Lemma two_case136 : two_check136 ho_rev ho_id 60 inp136 = true.
Proof. vm_compute. reflexivity. Qed.
Lemma written_differs : exists H H' fuel p c ts c' ts',
  run_main H fuel p inp136 = Ok (Some (c, ts)) /\ run_main H' fuel p inp136 = Ok (Some (c', ts')) /\ length c = length c' /\ length ts <> length ts'.
Proof. exists ho_rev, ho_id, 60, []. exact (two_ok136 _ _ _ _ two_case136). Qed.
