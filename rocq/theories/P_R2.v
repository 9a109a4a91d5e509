(** P_R2.v — bounding boxes and segment intersection over the reals. *)

From Coq Require Import Reals List ZArith Lra Psatz Bool.
From Verif Require Import Base Arith Geometry Elements Polyline ArithR SpecR P_R1.
Import ListNotations.
Local Open Scope R_scope.

(** ** Bounding boxes (C07) *)
Notation box := (bbox ArithR).

Lemma fmin_R : forall a b : R, fmin (A:=ArithR) a b = Rmin a b.
Proof.
  intros a b. unfold fmin. change (flt (a:=ArithR) a b) with (Rltb a b). unfold Rmin.
  destruct (Rltb_spec a b), (Rle_dec a b); lra.
Qed.
Lemma fmax_R : forall a b : R, fmax (A:=ArithR) a b = Rmax a b.
Proof.
  intros a b. unfold fmax. change (flt (a:=ArithR) b a) with (Rltb b a). unfold Rmax.
  destruct (Rltb_spec b a), (Rle_dec a b); lra.
Qed.

Lemma box_le_refl : forall b, box_le b b.
Proof. intros b. unfold box_le. repeat split; apply Rle_refl. Qed.
Lemma box_le_trans : forall a b c, box_le a b -> box_le b c -> box_le a c.
Proof. unfold box_le. intros a b c (A1 & A2 & A3 & A4) (B1 & B2 & B3 & B4). repeat split; eapply Rle_trans; eassumption. Qed.
Lemma in_box_le : forall b b' p, in_box b p -> box_le b b' -> in_box b' p.
Proof.
  unfold in_box, box_le. intros b b' p [[H1 H2] [H3 H4]] (A1 & A2 & A3 & A4).
  repeat split; eapply Rle_trans; eassumption.
Qed.

Ltac minmax := repeat match goal with
  | |- context [Rmin ?a ?b] => pose proof (Rmin_l a b); pose proof (Rmin_r a b); pose proof (Rmin_glb a b); generalize dependent (Rmin a b); intros
  | |- context [Rmax ?a ?b] => pose proof (Rmax_l a b); pose proof (Rmax_r a b); pose proof (Rmax_lub a b); generalize dependent (Rmax a b); intros
  end.

Lemma bbox_step_spec : forall (b : box) (v : pnt),
  box_le b (bbox_step b v) /\ in_box (bbox_step b v) v /\
  forall b', box_le b b' -> in_box b' v -> box_le (bbox_step b v) b'.
Proof.
  intros [x0 y0 x1 y1] v. unfold bbox_step, box_le, in_box. cbn [bx0 by0 bx1 by1].
  rewrite (fmin_R x0 (vx v)), (fmin_R y0 (vy v)), (fmax_R x1 (vx v)), (fmax_R y1 (vy v)).
  change (vx v) with (X v). change (vy v) with (Y v).
  pose proof (Rmin_l x0 (X v)). pose proof (Rmin_r x0 (X v)). pose proof (Rmin_l y0 (Y v)). pose proof (Rmin_r y0 (Y v)).
  pose proof (Rmax_l x1 (X v)). pose proof (Rmax_r x1 (X v)). pose proof (Rmax_l y1 (Y v)). pose proof (Rmax_r y1 (Y v)).
  split; [repeat split; assumption|].
  assert (In_ : forall a b : R, a <= b -> a <= b) by auto.
  split; [repeat split; assumption|].
  intros b' (B1 & B2 & B3 & B4) [[C1 C2] [C3 C4]].
  repeat split; first [apply Rmin_glb; assumption | apply Rmax_lub; assumption].
Qed.

Lemma fold_step_spec : forall l (b : box),
  box_le b (fold_left bbox_step l b) /\ (forall v, In v l -> in_box (fold_left bbox_step l b) v) /\
  forall b', box_le b b' -> (forall v, In v l -> in_box b' v) -> box_le (fold_left bbox_step l b) b'.
Proof.
  induction l as [|v l IH]; intros b; cbn [fold_left].
  - split; [apply box_le_refl|]. split; [intros v []|]. auto.
  - destruct (bbox_step_spec b v) as (S1 & S2 & S3). destruct (IH (bbox_step b v)) as (I1 & I2 & I3).
    split; [eapply box_le_trans; eassumption|]. split.
    + intros w [<-|Hw]; [eapply in_box_le; eassumption|apply I2, Hw].
    + intros b' Hb Hl. apply I3; [apply S3; [exact Hb|apply Hl; left; reflexivity]|]. intros w Hw. apply Hl. right. exact Hw.
Qed.

Lemma from_vertices_spec : forall l : list pnt,
  match bbox_from_vertices l with
  | None => l = []
  | Some b => (forall v, In v l -> in_box b v) /\ forall b', (forall v, In v l -> in_box b' v) -> box_le b b'
  end.
Proof.
  intros [|v l]; [reflexivity|]. unfold bbox_from_vertices.
  destruct (fold_step_spec (v :: l) (BB (vx v) (vy v) (vx v) (vy v))) as (_ & I2 & I3).
  split; [exact I2|]. intros b' Hb. apply I3; [|exact Hb].
  destruct (Hb v (or_introl eq_refl)) as [[H1 H2] [H3 H4]]. unfold box_le. cbn. repeat split; assumption.
Qed.

Lemma bbox_contains_spec : forall (b : box) (p : pnt), bbox_contains b p = true <-> in_box b p.
Proof.
  intros b p. unfold bbox_contains, in_box, X, Y. unR.
  repeat rcase; split; intros; try discriminate; try reflexivity; lra.
Qed.

Lemma bbox_intersection_spec : forall b1 b2 : box,
  match bbox_intersection b1 b2 with
  | None => forall p, ~ (in_box b1 p /\ in_box b2 p)
  | Some b => forall p, in_box b p <-> in_box b1 p /\ in_box b2 p
  end.
Proof.
  intros [a0 c0' a1 c1'] [e0 f0 e1 f1]. unfold bbox_intersection. cbn [bx0 by0 bx1 by1].
  rewrite (fmax_R a0 e0), (fmin_R a1 e1), (fmax_R c0' f0), (fmin_R c1' f1).
  change (fle (a:=ArithR)) with Rleb. unR.
  assert (Hmx : forall u w z, Rmax u w <= z <-> u <= z /\ w <= z).
  { intros u w z. split; [intros Hz; split; [eapply Rle_trans; [apply Rmax_l|exact Hz]|eapply Rle_trans; [apply Rmax_r|exact Hz]]|].
    intros [P Q]. apply Rmax_lub; assumption. }
  assert (Hmn : forall u w z, z <= Rmin u w <-> z <= u /\ z <= w).
  { intros u w z. split; [intros Hz; split; [eapply Rle_trans; [exact Hz|apply Rmin_l]|eapply Rle_trans; [exact Hz|apply Rmin_r]]|].
    intros [P Q]. apply Rmin_glb; assumption. }
  destruct (Rleb_spec (Rmax a0 e0) (Rmin a1 e1)) as [Hx|Hx]; cbn [andb];
    [destruct (Rleb_spec (Rmax c0' f0) (Rmin c1' f1)) as [Hy|Hy]|].
  - intros p. unfold in_box. cbn. rewrite !Hmx, !Hmn. tauto.
  - intros p [[_ Q1] [_ Q2]]. cbn in *. apply (Rlt_not_le _ _ Hy). apply Rle_trans with (Y p); [apply Hmx|apply Hmn]; tauto.
  - intros p [[Q1 _] [Q2 _]]. cbn in *. apply (Rlt_not_le _ _ Hx). apply Rle_trans with (X p); [apply Hmx|apply Hmn]; tauto.
Qed.

Lemma bbox_union_spec : forall b1 b2 : box,
  box_le b1 (bbox_union b1 b2) /\ box_le b2 (bbox_union b1 b2) /\
  forall b', box_le b1 b' -> box_le b2 b' -> box_le (bbox_union b1 b2) b'.
Proof.
  intros [a0 c0' a1 c1'] [e0 f0 e1 f1]. unfold bbox_union, box_le. cbn [bx0 by0 bx1 by1].
  rewrite (fmin_R a0 e0), (fmax_R a1 e1), (fmin_R c0' f0), (fmax_R c1' f1).
  repeat split; try apply Rmin_l; try apply Rmin_r; try apply Rmax_l; try apply Rmax_r;
    first [apply Rmin_glb | apply Rmax_lub]; tauto.
Qed.

Lemma fold_union_spec : forall l (b : box),
  box_le b (fold_left bbox_union l b) /\ (forall x, In x l -> box_le x (fold_left bbox_union l b)) /\
  forall b', box_le b b' -> (forall x, In x l -> box_le x b') -> box_le (fold_left bbox_union l b) b'.
Proof.
  induction l as [|x l IH]; intros b; cbn [fold_left].
  - split; [apply box_le_refl|]. split; [intros x []|]. auto.
  - destruct (bbox_union_spec b x) as (S1 & S2 & S3). destruct (IH (bbox_union b x)) as (I1 & I2 & I3).
    split; [eapply box_le_trans; eassumption|]. split.
    + intros w [<-|Hw]; [eapply box_le_trans; eassumption|apply I2, Hw].
    + intros b' Hb Hl. apply I3; [apply S3; [exact Hb|apply Hl; left; reflexivity]|]. intros w Hw. apply Hl. right. exact Hw.
Qed.

Lemma union_list_spec : forall l : list box,
  match bbox_union_list l with
  | None => l = []
  | Some b => (forall x, In x l -> box_le x b) /\ forall b', (forall x, In x l -> box_le x b') -> box_le b b'
  end.
Proof.
  intros [|x l]; [reflexivity|]. unfold bbox_union_list.
  destruct (fold_union_spec (x :: l) x) as (_ & I2 & I3).
  split; [exact I2|]. intros b' Hb. apply I3; [|exact Hb]. apply Hb. left. reflexivity.
Qed.

(** ** Edge::contains (C25) *)
Lemma two_box : forall a b : pnt, exists bb, bbox_from_vertices [a; b] = Some bb /\
  bx0 bb = Rmin (X a) (X b) /\ bx1 bb = Rmax (X a) (X b) /\ by0 bb = Rmin (Y a) (Y b) /\ by1 bb = Rmax (Y a) (Y b).
Proof.
  intros a b. eexists. split; [reflexivity|]. cbn [fold_left bbox_step bx0 by0 bx1 by1].
  unfold bbox_step. cbn [bx0 by0 bx1 by1].
  rewrite (fmin_R (vx a) (vx a)), (fmax_R (vx a) (vx a)), (fmin_R (vy a) (vy a)), (fmax_R (vy a) (vy a)).
  rewrite (fmin_R _ (vx b)), (fmax_R _ (vx b)), (fmin_R _ (vy b)), (fmax_R _ (vy b)).
  change (vx a) with (X a). change (vy a) with (Y a). change (vx b) with (X b). change (vy b) with (Y b).
  rewrite !(Rmin_left (X a) (X a)), !(Rmax_left (X a) (X a)), !(Rmin_left (Y a) (Y a)), !(Rmax_left (Y a) (Y a)) by apply Rle_refl.
  repeat split.
Qed.

Lemma edge_contains_spec : forall (e : edge ArithR) (v : pnt),
  edge_contains e v = true <-> near_box 0 (fst e) (snd e) v /\ - eps <= area2 (fst e) (snd e) v <= eps.
Proof.
  intros e v. unfold edge_contains, ev1, ev2. destruct (two_box (fst e) (snd e)) as (bb & -> & E1 & E2 & E3 & E4).
  destruct (bbox_contains bb v) eqn:Hb; cbn [negb].
  - apply bbox_contains_spec in Hb. unfold in_box in Hb. rewrite E1, E2, E3, E4 in Hb. unfold near_box.
    destruct (orientation_spec (fst e) (snd e) v) as (_ & _ & Hc).
    destruct (orientation (fst e) (snd e) v); cbn; (split; [intros H; try discriminate|intros [_ H]; try reflexivity]).
    + apply Hc in H. discriminate.
    + apply Hc in H. discriminate.
    + split; [lra|]. apply Hc. reflexivity.
  - split; [discriminate|]. intros [Hn _]. exfalso. unfold near_box in Hn.
    assert (Hin : bbox_contains bb v = true). { apply bbox_contains_spec. unfold in_box. rewrite E1, E2, E3, E4. lra. }
    congruence.
Qed.

Lemma near_box_sym : forall e a b p, near_box e a b p -> near_box e b a p.
Proof. unfold near_box. intros e a b p. rewrite (Rmin_comm (X a)), (Rmax_comm (X a)), (Rmin_comm (Y a)), (Rmax_comm (Y a)). auto. Qed.
Lemma on_segment_box : forall a b p, on_segment a b p -> near_box 0 a b p /\ area2 a b p = 0.
Proof.
  intros a b p (t & Ht & Hx & Hy). split.
  - unfold near_box. rewrite Hx, Hy.
    assert (Hc : forall u w, Rmin u w - 0 <= u + t * (w - u) <= Rmax u w + 0).
    { intros u w. unfold Rmin, Rmax. destruct (Rle_dec u w); nra. }
    split; apply Hc.
  - unfold area2. rewrite Hx, Hy. ring.
Qed.

Lemma edge_contains_ends : forall e : edge ArithR, edge_contains e (fst e) = true /\ edge_contains e (snd e) = true /\
  (forall p, on_segment (fst e) (snd e) p -> edge_contains e p = true) /\
  forall v, edge_contains e v = edge_contains (snd e, fst e) v.
Proof.
  intros e. pose proof eps_pos.
  assert (Hall : forall p, on_segment (fst e) (snd e) p -> edge_contains e p = true).
  { intros p Hp. apply edge_contains_spec. apply on_segment_box in Hp. destruct Hp as [Hb Ha]. split; [exact Hb|]. lra. }
  split; [|split; [|split; [exact Hall|]]].
  - apply Hall. exists 0. split; [lra|]. split; lra.
  - apply Hall. exists 1. split; [lra|]. split; lra.
  - intros v. apply eq_true_iff_eq. rewrite !edge_contains_spec. cbn [fst snd].
    rewrite (area2_swap (fst e) (snd e)). split; intros [Hb Ha]; (split; [apply near_box_sym, Hb|lra]).
Qed.
