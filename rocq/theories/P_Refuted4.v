(** P_Refuted4.v — holes that get covered: with a second hole, or in a polygon
    that is not convex. *)

From Coq Require Import String List ZArith Bool.
From Verif Require Import Base Arith Geometry Elements Polyline Procedures Refine Triangulator Interface
  Spec P_Base P_Trn P_Triangulator ArithF Samples.
Import ListNotations.
Local Open Scope nat_scope.
Local Open Scope list_scope.

Definition inb (q : vertex ArithF) (t : triangle ArithF) : bool :=
  negb (is_ghost t) && (orient_eqb (orientation (tv1 t) (tv2 t) q) CCW && (orient_eqb (orientation (tv2 t) (tv3 t) q) CCW && orient_eqb (orientation (tv3 t) (tv1 t) q) CCW)).
Definition within (q : vertex ArithF) (t : triangle ArithF) : Prop :=
  is_ghost t = false /\ orientation (tv1 t) (tv2 t) q = CCW /\ orientation (tv2 t) (tv3 t) q = CCW /\ orientation (tv3 t) (tv1 t) q = CCW.
Lemma inb_true : forall q t, inb q t = true <-> within q t.
Proof.
  intros q t. unfold inb, within. rewrite !andb_true_iff, negb_true_iff.
  assert (E : forall o, orient_eqb o CCW = true <-> o = CCW) by (intros []; cbn; split; congruence). rewrite !E. tauto.
Qed.
Definition inside_b (b : polyline ArithF) q : bool := okb (poly_contains b q) (fun o => match o with Some Inside => true | _ => false end).
Lemma inside_b_true : forall b q, inside_b b q = true -> poly_contains b q = Ok (Some Inside).
Proof. intros b q Hb. apply okb_ok in Hb. destruct Hb as ([[]|] & E & F); try discriminate. exact E. Qed.
Definition outside_b (b : polyline ArithF) q : bool := okb (poly_contains b q) (fun o => match o with Some Outside => true | _ => false end).
Lemma outside_b_true : forall b q, outside_b b q = true -> poly_contains b q = Ok (Some Outside).
Proof. intros b q Hb. apply okb_ok in Hb. destruct Hb as ([[]|] & E & F); try discriminate. exact E. Qed.

Definition sq96 : polyline ArithF := Poly [pt 0 0; pt 20 0; pt 20 20; pt 0 20] false.
Definition h96 : polyline ArithF := Poly [pt 4 4; pt 6 4; pt 6 6; pt 4 6] false.
Definition g96 : polyline ArithF := Poly [pt 12 12; pt 15 12; pt 14 15] false.
Definition l97 : polyline ArithF := Poly [pt 0 0; pt 20 0; pt 20 6; pt 6 6; pt 6 20; pt 0 20] false.
Definition h97 : polyline ArithF := Poly [pt 2 12; pt 4 12; pt 3 14] false.

Definition coversb (q : vertex ArithF) (t : triangulator ArithF) : bool := existsb (inb q) (tris (t_trn t)).
Lemma coversb_true : forall q t, coversb q t = true -> exists x, In x (tris (t_trn t)) /\ within q x.
Proof. intros q t E. apply existsb_exists in E. destruct E as (x & Hx & E). exists x. split; [exact Hx|apply inb_true, E]. Qed.
Lemma coversb_false : forall q t, coversb q t = false -> forall x, In x (tris (t_trn t)) -> ~ within q x.
Proof.
  intros q t E x Hx Hw. unfold coversb in E. rewrite <- not_true_iff_false in E. apply E. apply existsb_exists.
  exists x. split; [exact Hx|apply inb_true, Hw].
Qed.
Definition twice (q : vertex ArithF) (t : triangulator ArithF) : bool :=
  existsb (fun y => inb q y && existsb (fun z => inb q z && negb (if tdec y z then true else false)) (tris (t_trn t))) (tris (t_trn t)).
Lemma twice_true : forall q t, twice q t = true -> exists y z, In y (tris (t_trn t)) /\ In z (tris (t_trn t)) /\ y <> z /\ within q y /\ within q z.
Proof.
  intros q t E. apply existsb_exists in E. destruct E as (y & Hy & E). apply andb_true_iff in E. destruct E as (Ey & E).
  apply existsb_exists in E. destruct E as (z & Hz & E). apply andb_true_iff in E. destruct E as (Ez & E).
  exists y, z. split; [exact Hy|]. split; [exact Hz|]. split; [|split; apply inb_true; assumption].
  destruct (tdec y z); [discriminate|assumption].
Qed.
Definition fineb {B} (r : result B) : bool := match r with RFine => true | _ => false end.
Lemma fineb_true : forall B (r : result B), fineb r = true -> r = RFine.
Proof. intros B [|]; cbn; congruence. Qed.


(** ** C96 *)
Section two_holes.
  Context (H H' : HashOrder) (n : nat) (b h g : polyline ArithF) (q w : vertex ArithF).
  Definition two_run : res (triangulator ArithF * result (list (vertex ArithF)) * (triangulator ArithF * result (list (vertex ArithF))) * triangulator ArithF * triangulator ArithF) :=
    let! x1 := insert_hole n (triangulator_new b) h in let! x2 := insert_hole n (fst x1) g in
    let! t3 := triangulate H n [] (fst x2) in let! t3' := triangulate H' n [] (fst x2) in Ok (x1, x2, t3, t3').
  Definition two_check : bool := inside_b h q && okb two_run (fun '(x1, x2, t3, t3') => fineb (snd x1) && (fineb (snd x2) && (coversb q t3 && (twice w t3 && negb (coversb q t3'))))).
  Lemma two_covered : two_check = true -> exists t1 t2 t3 t3',
    insert_hole n (triangulator_new b) h = Ok (t1, RFine) /\ insert_hole n t1 g = Ok (t2, RFine) /\
    triangulate H n [] t2 = Ok t3 /\ triangulate H' n [] t2 = Ok t3' /\ poly_contains h q = Ok (Some Inside) /\
    (exists x, In x (tris (t_trn t3)) /\ within q x) /\
    (exists y z, In y (tris (t_trn t3)) /\ In z (tris (t_trn t3)) /\ y <> z /\ within w y /\ within w z) /\
    (forall x, In x (tris (t_trn t3')) -> ~ within q x).
  Proof.
    intros C. apply andb_true_iff in C. destruct C as (Q & C). apply okb_ok in C. destruct C as ([[[[t1 r1] [t2 r2]] t3] t3'] & E & C).
    unfold two_run in E. cbn beta iota in C. cbn [fst snd] in C.
    apply andb_true_iff in C. destruct C as (F1 & C). apply andb_true_iff in C. destruct C as (F2 & C).
    apply andb_true_iff in C. destruct C as (C1 & C). apply andb_true_iff in C. destruct C as (C2 & C3). apply negb_true_iff in C3.
    apply fineb_true in F1, F2. subst r1 r2.
    apply bind_ok in E. destruct E as (x1 & E1 & E). apply bind_ok in E. destruct E as (x2 & E2 & E).
    apply bind_ok in E. destruct E as (u & E3 & E). apply bind_ok in E. destruct E as (u' & E4 & E).
    injection E as -> -> -> ->. cbn [fst] in E2, E3, E4.
    exists t1, t2, t3, t3'. split; [exact E1|]. split; [exact E2|]. split; [exact E3|]. split; [exact E4|].
    split; [apply inside_b_true, Q|]. split; [apply coversb_true, C1|]. split; [apply twice_true, C2|]. apply coversb_false, C3.
  Qed.
End two_holes.

Lemma two_case : two_check ho_rev ho_id 300 sq96 h96 g96 (ptq 51 10 52 10) (pt 10 9) = true.
Proof. vm_compute. reflexivity. Qed.
Lemma hole_covered : exists H H' fuel p (b h g : polyline ArithF) q w t1 t2 t3 t3',
  insert_hole fuel (triangulator_new b) h = Ok (t1, RFine) /\ insert_hole fuel t1 g = Ok (t2, RFine) /\
  triangulate H fuel p t2 = Ok t3 /\ triangulate H' fuel p t2 = Ok t3' /\ poly_contains h q = Ok (Some Inside) /\
  (exists x, In x (tris (t_trn t3)) /\ within q x) /\
  (exists y z, In y (tris (t_trn t3)) /\ In z (tris (t_trn t3)) /\ y <> z /\ within w y /\ within w z) /\
  (forall x, In x (tris (t_trn t3')) -> ~ within q x).
Proof. exists ho_rev, ho_id, 300, [], sq96, h96, g96, (ptq 51 10 52 10), (pt 10 9). exact (two_covered _ _ _ _ _ _ _ _ two_case). Qed.

(** ** C97 *)
Section one_hole.
  Context (H H' : HashOrder) (n : nat) (b h : polyline ArithF) (q w : vertex ArithF).
  Definition one_run : res (triangulator ArithF * result (list (vertex ArithF)) * triangulator ArithF * triangulator ArithF) :=
    let! x1 := insert_hole n (triangulator_new b) h in let! t2 := triangulate H n [] (fst x1) in
    let! t2' := triangulate H' n [] (fst x1) in Ok (x1, t2, t2').
  Definition one_check : bool := inside_b h q && (outside_b b w && okb one_run (fun '(x1, t2, t2') =>
    fineb (snd x1) && (coversb q t2 && (coversb w t2 && (negb (coversb q t2') && negb (coversb w t2')))))).
  Lemma one_covered : one_check = true -> exists t1 t2 t2',
    insert_hole n (triangulator_new b) h = Ok (t1, RFine) /\ triangulate H n [] t1 = Ok t2 /\ triangulate H' n [] t1 = Ok t2' /\
    poly_contains h q = Ok (Some Inside) /\ poly_contains b w = Ok (Some Outside) /\
    (exists x y, In x (tris (t_trn t2)) /\ within q x /\ In y (tris (t_trn t2)) /\ within w y) /\
    (forall x, In x (tris (t_trn t2')) -> ~ within q x /\ ~ within w x).
  Proof.
    intros C. apply andb_true_iff in C. destruct C as (Q & C). apply andb_true_iff in C. destruct C as (W & C).
    apply okb_ok in C. destruct C as ([[[t1 r1] t2] t2'] & E & C). unfold one_run in E. cbn beta iota in C. cbn [fst snd] in C.
    apply andb_true_iff in C. destruct C as (F1 & C). apply andb_true_iff in C. destruct C as (C1 & C). apply andb_true_iff in C. destruct C as (C2 & C).
    apply andb_true_iff in C. destruct C as (C3 & C4). apply negb_true_iff in C3, C4. apply fineb_true in F1. subst r1.
    apply bind_ok in E. destruct E as (x1 & E1 & E). apply bind_ok in E. destruct E as (u & E3 & E). apply bind_ok in E. destruct E as (u' & E4 & E).
    injection E as -> -> ->. cbn [fst] in E3, E4.
    exists t1, t2, t2'. split; [exact E1|]. split; [exact E3|]. split; [exact E4|].
    split; [apply inside_b_true, Q|]. split; [apply outside_b_true, W|]. split.
    - apply coversb_true in C1, C2. destruct C1 as (x & Hx & Wx), C2 as (y & Hy & Wy). exists x, y. tauto.
    - intros x Hx. split; [apply (coversb_false _ _ C3 x Hx)|apply (coversb_false _ _ C4 x Hx)].
  Qed.
End one_hole.

Lemma one_case : one_check ho_rev ho_id 300 l97 h97 (ptq 31 10 131 10) (pt 10 9) = true.
Proof. vm_compute. reflexivity. Qed.
Lemma hole_covered_alone : exists H H' fuel p (b h : polyline ArithF) q w t1 t2 t2',
  insert_hole fuel (triangulator_new b) h = Ok (t1, RFine) /\
  triangulate H fuel p t1 = Ok t2 /\ triangulate H' fuel p t1 = Ok t2' /\
  poly_contains h q = Ok (Some Inside) /\ poly_contains b w = Ok (Some Outside) /\
  (exists x y, In x (tris (t_trn t2)) /\ within q x /\ In y (tris (t_trn t2)) /\ within w y) /\
  (forall x, In x (tris (t_trn t2')) -> ~ within q x /\ ~ within w x).
Proof. exists ho_rev, ho_id, 300, [], l97, h97, (ptq 31 10 131 10), (pt 10 9). exact (one_covered _ _ _ _ _ _ _ one_case). Qed.
