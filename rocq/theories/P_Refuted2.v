(** P_Refuted2.v — more witnesses against claims that are false of the code
    (binary64 arithmetic). *)

From Coq Require Import List ZArith Bool.
From Verif Require Import Base Arith Geometry Elements Polyline Procedures Refine Triangulator
  Spec P_Base P_Trn P_Triangulator ArithF Samples P_Refuted.
Import ListNotations.
Local Open Scope nat_scope.
Local Open Scope list_scope.

(** ** C82 *)
Definition wall : edge ArithF := (pt 3 5, pt 7 5).
Definition beside_wall : vertex ArithF := ptq 5 1 26 5.
Definition shared_point : vertex ArithF := ptq 5 1 51 10.
Definition clockwiseb (t : triangle ArithF) : bool :=
  negb (is_ghost t) && orient_eqb (orientation (tv1 t) (tv2 t) (tv3 t)) CW.
Definition strictlyb (q : vertex ArithF) (t : triangle ArithF) : bool :=
  negb (is_ghost t) && orient_eqb (orientation (tv1 t) (tv2 t) q) CCW && orient_eqb (orientation (tv2 t) (tv3 t) q) CCW &&
  orient_eqb (orientation (tv3 t) (tv1 t) q) CCW.
Lemma orient_eqb_eq : forall o o', orient_eqb o o' = true -> o = o'.
Proof. intros [| |] [| |] E; try reflexivity; discriminate E. Qed.
Lemma strictlyb_spec : forall q t, strictlyb q t = true -> is_ghost t = false /\ orientation (tv1 t) (tv2 t) q = CCW /\
  orientation (tv2 t) (tv3 t) q = CCW /\ orientation (tv3 t) (tv1 t) q = CCW.
Proof.
  intros q t E. unfold strictlyb in E. repeat (apply andb_true_iff in E; destruct E as [E ?]). apply negb_true_iff in E.
  repeat split; try assumption; apply orient_eqb_eq; assumption.
Qed.

Lemma torn_mesh : exists H fuel p (b : polyline ArithF) s v t1 t2 t3 x y z q,
  insert_segments H fuel p (triangulator_new b) [s] = Ok (t1, RFine) /\
  insert_vertices H p t1 [v] = Ok (t2, RFine) /\ triangulate H fuel p t2 = Ok t3 /\
  In x (tris (t_trn t3)) /\ is_ghost x = false /\ orientation (tv1 x) (tv2 x) (tv3 x) = CW /\
  In y (tris (t_trn t3)) /\ In z (tris (t_trn t3)) /\ y <> z /\
  (is_ghost y = false /\ orientation (tv1 y) (tv2 y) q = CCW /\ orientation (tv2 y) (tv3 y) q = CCW /\ orientation (tv3 y) (tv1 y) q = CCW) /\
  (is_ghost z = false /\ orientation (tv1 z) (tv2 z) q = CCW /\ orientation (tv2 z) (tv3 z) q = CCW /\ orientation (tv3 z) (tv1 z) q = CCW).
Proof.
  assert (Hb : okb (insert_segments ho_id 60 [] (triangulator_new big_square) [wall]) (fun '(t1, r1) => fineb r1 &&
    okb (insert_vertices ho_id [] t1 [beside_wall]) (fun '(t2, r2) => fineb r2 &&
      okb (triangulate ho_id 60 [] t2) (fun t3 => existsb clockwiseb (tris (t_trn t3)) &&
        existsb (fun y => strictlyb shared_point y && existsb (fun z => strictlyb shared_point z && negb (if tdec y z then true else false)) (tris (t_trn t3)))
          (tris (t_trn t3))))) = true) by (vm_compute; reflexivity).
  apply okb_ok in Hb. destruct Hb as ([t1 r1] & H1 & E1). apply andb_true_iff in E1. destruct E1 as [F1 E1]. apply fineb_fine in F1. subst r1.
  apply okb_ok in E1. destruct E1 as ([t2 r2] & H2 & E2). apply andb_true_iff in E2. destruct E2 as [F2 E2]. apply fineb_fine in F2. subst r2.
  apply okb_ok in E2. destruct E2 as (t3 & H3 & E3). apply andb_true_iff in E3. destruct E3 as [E3 E4].
  apply existsb_exists in E3. destruct E3 as (x & Hx & Ex). unfold clockwiseb in Ex. apply andb_true_iff in Ex. destruct Ex as [Gx Ox].
  apply negb_true_iff in Gx. apply orient_eqb_eq in Ox.
  apply existsb_exists in E4. destruct E4 as (y & Hy & E4). apply andb_true_iff in E4. destruct E4 as [Ey E4].
  apply existsb_exists in E4. destruct E4 as (z & Hz & E4). apply andb_true_iff in E4. destruct E4 as [Ez Nyz].
  apply strictlyb_spec in Ey, Ez.
  exists ho_id, 60, [], big_square, wall, beside_wall, t1, t2, t3, x, y, z, shared_point.
  repeat (split; [assumption|]). split; [|split; assumption]. intros ->. destruct (tdec z z); [discriminate Nyz|congruence].
Qed.
