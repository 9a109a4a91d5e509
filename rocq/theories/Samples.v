(** Samples.v — concrete data (binary64) used by the examples that stand beside
    the theorems and by the refutations. *)

From Coq Require Import List ZArith.
From Verif Require Import Base Arith Geometry Elements Polyline Procedures Refine Triangulator ArithF.
Import ListNotations.

(** Points with integer or rational coordinates. *)
Definition pt (x y : Z) : vertex ArithF := V (A:=ArithF) (fpz x) (fpz y) false.
Definition ptq (a b c d : Z) : vertex ArithF := V (A:=ArithF) (fpq a b) (fpq c d) false.

Arguments pt (_ _)%Z.
Arguments ptq (_ _ _ _)%Z.

(** Two overlapping squares and two triangles. *)
Definition square1 : polyline ArithF := Poly [pt 1 2; pt 3 2; pt 3 4; pt 1 4] false.
Definition square2 : polyline ArithF := Poly [pt 2 1; pt 4 1; pt 4 3; pt 2 3] false.
Definition far_square : polyline ArithF := Poly [pt 12 1; pt 14 1; pt 14 3; pt 12 3] false.
Definition open_line : polyline ArithF := Poly [pt 0 0; pt 6 4; pt 7 1] true.

(** A square domain with a square hole. *)
Definition big_square : polyline ArithF := Poly [pt 0 0; pt 10 0; pt 10 10; pt 0 10] false.
Definition small_hole : polyline ArithF := Poly [pt 4 4; pt 6 4; pt 6 6; pt 4 6] false.
Definition domain0 : triangulator ArithF := triangulator_new big_square.
Definition domain1 : triangulator ArithF := with_holes domain0 [small_hole].
Definition domain2 : triangulator ArithF :=
  with_segments (with_vertices domain1 [pt 1 1; pt 2 8]) [(pt 1 2, pt 1 8)].

(** Decidable tests on the result of a run. *)
Definition okb {X} (r : res X) (f : X -> bool) : bool :=
  match r with Ok x => f x | _ => false end.
Lemma okb_ok : forall X (r : res X) (f : X -> bool), okb r f = true -> exists x, r = Ok x /\ f x = true.
Proof. intros X [x| |] f Hf; try discriminate. exists x. auto. Qed.
Definition edges_eqb (l l' : list (edge ArithF)) : bool := if list_eq_dec edec l l' then true else false.
Lemma edges_eqb_eq : forall l l', edges_eqb l l' = true -> l = l'.
Proof. intros l l'. unfold edges_eqb. destruct (list_eq_dec edec l l') as [->|]; congruence. Qed.
Definition nodupb (l : list (edge ArithF)) : bool :=
  edges_eqb (nodup edec l) l.
Lemma nodupb_NoDup : forall l, nodupb l = true -> NoDup l.
Proof. intros l Hl. apply edges_eqb_eq in Hl. rewrite <- Hl. apply NoDup_nodup. Qed.

(** A hash order that varies with a seed. *)
Definition seed_num (s : nat) (p : path) (m : nat) : nat :=
  Z.to_nat (Z.modulo (fold_left (fun a n => Z.modulo (a * 31 + Z.of_nat n + 7)%Z 10007) p (Z.of_nat s * 17 + 5)%Z)
                     (Z.of_nat (S m))).
Definition ho_seed (s : nat) : HashOrder :=
  {| ho := fun p X l => rot (seed_num s p (length l)) l;
     ho_perm := fun p X l => rot_perm X (seed_num s p (length l)) l |}.

Definition point_of (x y : Z) : sf * sf := (fpz x, fpz y).
Arguments point_of (_ _)%Z.
