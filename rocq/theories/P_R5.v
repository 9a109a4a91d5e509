(** P_R5.v — the polyline of a triangle (C09). *)

From Coq Require Import Reals List ZArith Lra Lia Psatz Bool Permutation.
From Verif Require Import Base Arith Geometry Elements Polyline ArithR SpecR P_Base P_R1 P_R2 P_Contains.
Import ListNotations.
Local Open Scope R_scope.

Lemma area_sum : forall a b c p : pnt, area2 a b p + area2 b c p + area2 c a p = area2 a b c.
Proof. intros. unfold area2. ring. Qed.
Lemma area_x : forall a b c p : pnt,
  area2 b c p * (X a - X p) + area2 c a p * (X b - X p) + area2 a b p * (X c - X p) = 0.
Proof. intros. unfold area2. ring. Qed.
Lemma area_y : forall a b c p : pnt,
  area2 b c p * (Y a - Y p) + area2 c a p * (Y b - Y p) + area2 a b p * (Y c - Y p) = 0.
Proof. intros. unfold area2. ring. Qed.

Lemma mul_pp : forall a b : R, 0 < a -> 0 < b -> 0 < a * b. Proof. intros; nra. Qed.
Lemma mul_0p : forall a b : R, 0 <= a -> 0 <= b -> 0 <= a * b. Proof. intros; nra. Qed.

Definition tri_winding (a b c p : pnt) : Z := winding p (polygon_sides [a; b; c]).

Lemma tri_winding_eq : forall a b c p,
  tri_winding a b c p = (ray_crossing p (a, b) + (ray_crossing p (b, c) + ray_crossing p (c, a)))%Z.
Proof. intros. unfold tri_winding, winding. cbn [polygon_sides path_sides map fold_right app]. lia. Qed.


Definition split_out (u v w : R) : Prop :=
  (0 < u + v + w /\ (u < 0 \/ v < 0 \/ w < 0)) \/ (u + v + w < 0 /\ (0 < u \/ 0 < v \/ 0 < w)).

Lemma one_right : forall u v w x y z : R, w * x + u * y + v * z = 0 -> 0 < x -> y <= 0 -> z <= 0 -> split_out u v w ->
  ~ (0 < u /\ 0 <= v) /\ ~ (u <= 0 /\ v < 0).
Proof.
  intros u v w x y z He Hx Hy Hz Ho. split; intros [Hu Hv].
  - assert (w < 0) by (unfold split_out in Ho; lra). nra.
  - assert (0 < w) by (unfold split_out in Ho; lra). nra.
Qed.
Lemma one_left : forall u v w x y z : R, w * x + u * y + v * z = 0 -> x <= 0 -> 0 < y -> 0 < z -> split_out u v w ->
  ~ (0 < v /\ 0 <= u) /\ ~ (v <= 0 /\ u < 0).
Proof.
  intros u v w x y z He Hx Hy Hz Ho. split; intros [Hu Hv].
  - assert (w < 0) by (unfold split_out in Ho; lra). nra.
  - assert (0 < w) by (unfold split_out in Ho; lra). nra.
Qed.

Lemma tri_winding_abs : forall (w u v x y z xp : R),
  w * (x - xp) + u * (y - xp) + v * (z - xp) = 0 ->
  let side (a b : R) (s : R) : Z :=
    if Rle_dec a xp then (if Rlt_dec xp b then (if Rlt_dec 0 s then 1 else 0) else 0)%Z
    else (if Rle_dec b xp then (if Rlt_dec s 0 then -1 else 0) else 0)%Z in
  let n := (side x y v + (side y z w + side z x u))%Z in
  (~ (x = xp /\ y = xp /\ z = xp) -> (0 < u /\ 0 < v /\ 0 < w) \/ (u < 0 /\ v < 0 /\ w < 0) -> n <> 0%Z) /\
  (split_out u v w -> n = 0%Z).
Proof.
  intros w u v x y z xp He. cbv zeta.
  assert (He2 : u * (y - xp) + v * (z - xp) + w * (x - xp) = 0) by lra.
  assert (He3 : v * (z - xp) + w * (x - xp) + u * (y - xp) = 0) by lra.
  assert (P1 : split_out u v w -> split_out v w u) by (unfold split_out; lra).
  assert (P2 : split_out u v w -> split_out w u v) by (unfold split_out; lra).
  destruct (Rle_dec x xp), (Rle_dec y xp), (Rle_dec z xp), (Rlt_dec xp y), (Rlt_dec xp z), (Rlt_dec xp x); try (exfalso; lra).
  all: split; [intros Hn Hs|intros Hs].
  all: try (exfalso; destruct Hs as [(U & V & W)|(U & V & W)]; nra).
  all: try match goal with
    | |- _ <> _ => repeat match goal with |- context [if ?d then _ else _] => destruct d end; cbn; try discriminate; exfalso; lra
    end.
  all: try reflexivity.
  all: repeat match goal with |- context [if ?d then _ else _] => destruct d end; cbn; try reflexivity; exfalso.
  all: try match type of He with _ =>
    match goal with
    | _ => destruct (one_right u v w (x - xp) (y - xp) (z - xp)) as [Q1 Q2]; [lra|lra|lra|lra|exact Hs|lra]
    | _ => destruct (one_left u v w (x - xp) (y - xp) (z - xp)) as [Q1 Q2]; [lra|lra|lra|lra|exact Hs|lra]
    | _ => destruct (one_right v w u (y - xp) (z - xp) (x - xp)) as [Q1 Q2]; [lra|lra|lra|lra|apply P1, Hs|lra]
    | _ => destruct (one_left v w u (y - xp) (z - xp) (x - xp)) as [Q1 Q2]; [lra|lra|lra|lra|apply P1, Hs|lra]
    | _ => destruct (one_right w u v (z - xp) (x - xp) (y - xp)) as [Q1 Q2]; [lra|lra|lra|lra|apply P2, Hs|lra]
    | _ => destruct (one_left w u v (z - xp) (x - xp) (y - xp)) as [Q1 Q2]; [lra|lra|lra|lra|apply P2, Hs|lra]
    end end.
Qed.

Lemma tri_winding_spec : forall a b c p : pnt,
  (inside_triangle a b c p -> tri_winding a b c p <> 0%Z) /\ (outside_triangle a b c p -> tri_winding a b c p = 0%Z).
Proof.
  intros a b c p. rewrite tri_winding_eq.
  destruct (tri_winding_abs (area2 b c p) (area2 c a p) (area2 a b p) (X a) (X b) (X c) (X p) (area_x a b c p)) as [Hi Ho].
  pose proof (area_sum a b c p) as Hsum. split; intros Hs.
  - apply Hi.
    + intros (Ea & Eb & Ec). assert (E : area2 a b p = 0) by (unfold area2; rewrite Ea, Eb; ring).
      unfold inside_triangle in Hs. lra.
    + unfold inside_triangle in Hs. lra.
  - apply Ho. unfold split_out, outside_triangle in *. lra.
Qed.

Lemma pos_combination : forall w u s t : R, 0 <= w -> 0 <= u -> 0 < w + u -> w * s + u * t = 0 -> (s <= 0 /\ 0 <= t) \/ (0 <= s /\ t <= 0).
Proof.
  intros w u s t Hw Hu Hp He.
  destruct (Rlt_dec 0 s), (Rlt_dec 0 t), (Rlt_dec s 0), (Rlt_dec t 0); try lra; exfalso.
  - assert (0 <= w * s) by nra. assert (0 <= u * t) by nra. assert (0 < w \/ 0 < u) as [Q|Q] by lra; nra.
  - assert (w * s <= 0) by nra. assert (u * t <= 0) by nra. assert (0 < w \/ 0 < u) as [Q|Q] by lra; nra.
Qed.

(** On the closed triangle but not strictly inside: on a side. *)
Lemma on_side_closed : forall a b c p : pnt, area2 a b p = 0 ->
  (0 < area2 a b c /\ 0 <= area2 b c p /\ 0 <= area2 c a p) \/ (area2 a b c < 0 /\ area2 b c p <= 0 /\ area2 c a p <= 0) ->
  touches_side p (a, b).
Proof.
  intros a b c p Hz Hs. pose proof (area_sum a b c p) as Hsum. pose proof (area_x a b c p) as Hx. pose proof (area_y a b c p) as Hy.
  pose proof eps_pos. rewrite Hz in *.
  assert (Bx : Rmin (X a) (X b) <= X p <= Rmax (X a) (X b) <-> (X a <= X p <= X b \/ X b <= X p <= X a)).
  { unfold Rmin, Rmax. destruct (Rle_dec (X a) (X b)); lra. }
  assert (By : Rmin (Y a) (Y b) <= Y p <= Rmax (Y a) (Y b) <-> (Y a <= Y p <= Y b \/ Y b <= Y p <= Y a)).
  { unfold Rmin, Rmax. destruct (Rle_dec (Y a) (Y b)); lra. }
  unfold touches_side. rewrite Bx, By, Hz. clear Bx By.
  set (w := area2 b c p) in *. set (u := area2 c a p) in *. clearbody w u.
  assert (K : forall xa xb xp : R, w * (xa - xp) + u * (xb - xp) = 0 -> xa <= xp <= xb \/ xb <= xp <= xa).
  { intros xa xb xp He. destruct Hs as [(S1 & S2 & S3)|(S1 & S2 & S3)].
    - destruct (pos_combination w u (xa - xp) (xb - xp)); lra.
    - destruct (pos_combination (- w) (- u) (xa - xp) (xb - xp)); lra. }
  split; [apply K; lra|]. split; [lra|]. intros _. apply K. lra.
Qed.

Lemma inside_rotate : forall a b c p : pnt, inside_triangle a b c p -> inside_triangle b c a p.
Proof. unfold inside_triangle. intros; lra. Qed.

(** The three cases of a proper triangle. *)
Lemma triangle_cases : forall a b c p : pnt, area2 a b c <> 0 ->
  inside_triangle a b c p \/ outside_triangle a b c p \/ exists s, In s (polygon_sides [a; b; c]) /\ touches_side p s.
Proof.
  intros a b c p Hd. pose proof (area_sum a b c p) as Hsum.
  assert (R1 : area2 b c a = area2 a b c) by (unfold area2; ring).
  assert (R2 : area2 c a b = area2 a b c) by (unfold area2; ring).
  destruct (Req_dec (area2 a b p) 0) as [E1|E1].
  { destruct (Rlt_dec 0 (area2 a b c)).
    - destruct (Rle_dec 0 (area2 b c p)), (Rle_dec 0 (area2 c a p)); try (right; left; unfold outside_triangle; lra).
      right; right. exists (a, b). split; [left; reflexivity|]. apply (on_side_closed a b c); [exact E1|lra].
    - destruct (Rle_dec (area2 b c p) 0), (Rle_dec (area2 c a p) 0); try (right; left; unfold outside_triangle; lra).
      right; right. exists (a, b). split; [left; reflexivity|]. apply (on_side_closed a b c); [exact E1|lra]. }
  destruct (Req_dec (area2 b c p) 0) as [E2|E2].
  { destruct (Rlt_dec 0 (area2 a b c)).
    - destruct (Rle_dec 0 (area2 a b p)), (Rle_dec 0 (area2 c a p)); try (right; left; unfold outside_triangle; lra).
      right; right. exists (b, c). split; [right; left; reflexivity|]. apply (on_side_closed b c a); [exact E2|lra].
    - destruct (Rle_dec (area2 a b p) 0), (Rle_dec (area2 c a p) 0); try (right; left; unfold outside_triangle; lra).
      right; right. exists (b, c). split; [right; left; reflexivity|]. apply (on_side_closed b c a); [exact E2|lra]. }
  destruct (Req_dec (area2 c a p) 0) as [E3|E3].
  { destruct (Rlt_dec 0 (area2 a b c)).
    - destruct (Rle_dec 0 (area2 a b p)), (Rle_dec 0 (area2 b c p)); try (right; left; unfold outside_triangle; lra).
      right; right. exists (c, a). split; [right; right; left; reflexivity|]. apply (on_side_closed c a b); [exact E3|lra].
    - destruct (Rle_dec (area2 a b p) 0), (Rle_dec (area2 b c p) 0); try (right; left; unfold outside_triangle; lra).
      right; right. exists (c, a). split; [right; right; left; reflexivity|]. apply (on_side_closed c a b); [exact E3|lra]. }
  unfold inside_triangle, outside_triangle. lra.
Qed.

Lemma triangle_contains_spec : forall a b c p : pnt, area2 a b c <> 0 ->
  exists k, poly_contains (Poly [a; b; c] false) p = Ok (Some k) /\
    (k = Boundary <-> touches_side p (a, b) \/ touches_side p (b, c) \/ touches_side p (c, a)) /\
    (k = Inside -> inside_triangle a b c p) /\ (inside_triangle a b c p -> k = Inside \/ k = Boundary) /\
    (k = Outside -> outside_triangle a b c p) /\ (outside_triangle a b c p -> k = Outside \/ k = Boundary).
Proof.
  intros a b c p Hd. destruct (contains_winding [a; b; c] p) as (k & Hk & Hb & Hi & Ho); [discriminate|].
  exists k. split; [exact Hk|]. destruct (tri_winding_spec a b c p) as [Wi Wo]. unfold tri_winding in *.
  assert (Hb' : k = Boundary <-> touches_side p (a, b) \/ touches_side p (b, c) \/ touches_side p (c, a)).
  { rewrite Hb. split.
    - intros (s & [<-|[<-|[<-|[]]]] & Ht); auto.
    - intros [Ht|[Ht|Ht]]; eexists; (split; [|exact Ht]); [left|right; left|right; right; left]; reflexivity. }
  split; [exact Hb'|].
  destruct (triangle_cases a b c p Hd) as [Ht|[Ht|Ht]].
  - repeat split.
    + intros _. exact Ht.
    + intros _. destruct k; [left; reflexivity|exfalso; exact (Wi Ht (Ho eq_refl))|right; reflexivity].
    + intros ->. exfalso. exact (Wi Ht (Ho eq_refl)).
    + intros Ht'. exfalso. pose proof (area_sum a b c p). unfold inside_triangle, outside_triangle in *. lra.
  - repeat split.
    + intros ->. exfalso. exact (Hi eq_refl (Wo Ht)).
    + intros Ht'. exfalso. pose proof (area_sum a b c p). unfold inside_triangle, outside_triangle in *. lra.
    + intros _. exact Ht.
    + intros _. destruct k; [exfalso; exact (Hi eq_refl (Wo Ht))|left; reflexivity|right; reflexivity].
  - apply Hb in Ht. rewrite Ht. repeat split; try discriminate; right; reflexivity.
Qed.
