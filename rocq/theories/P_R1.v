(** P_R1.v — the geometric primitives over the reals. *)

From Coq Require Import Reals List ZArith Lra Psatz Bool.
From Verif Require Import Base Arith Geometry Elements Polyline ArithR SpecR.
Import ListNotations.
Local Open Scope R_scope.

Lemma Rltb_spec : forall x y, BoolSpec (x < y) (y <= x) (Rltb x y).
Proof. intros x y. unfold Rltb. destruct (Rlt_dec x y); constructor; lra. Qed.
Lemma Rleb_spec : forall x y, BoolSpec (x <= y) (y < x) (Rleb x y).
Proof. intros x y. unfold Rleb. destruct (Rle_dec x y); constructor; lra. Qed.
Lemma Reqb_spec : forall x y, BoolSpec (x = y) (x <> y) (Reqb x y).
Proof. intros x y. unfold Reqb. destruct (Req_EM_T x y); constructor; assumption. Qed.
Lemma Raeq_spec : forall x y, BoolSpec (- eps <= x - y <= eps) (x - y < - eps \/ eps < x - y) (Raeq x y).
Proof.
  intros x y. unfold Raeq. destruct (Rleb_spec (Rabs (x - y)) eps) as [Hl|Hl]; constructor;
    unfold Rabs in Hl; destruct (Rcase_abs (x - y)); lra.
Qed.

(** Reduces the operations of [ArithR] to those of [R]. *)
Ltac unR := cbv [c0 c1 c2 c3 c4 fadd fsub fmul fdiv fneg flt fle feq fsqrt facos fcos fsin fpi fofnat fround_usize fhalf aeq det4 T ArithR] in *;
  change (INR 0) with 0 in *; change (INR 1) with 1 in *;
  try (replace (INR 2) with 2 in * by (cbn; ring)); try (replace (INR 3) with 3 in * by (cbn; ring));
  try (replace (INR 4) with 4 in * by (cbn; ring)).

Ltac rcase :=
  match goal with
  | |- context [Rltb ?x ?y] => destruct (Rltb_spec x y)
  | |- context [Rleb ?x ?y] => destruct (Rleb_spec x y)
  | |- context [Reqb ?x ?y] => destruct (Reqb_spec x y)
  | |- context [Raeq ?x ?y] => destruct (Raeq_spec x y)
  end; cbn [andb orb negb].

(** ** Orientation (C01) *)
Lemma orientation_sign : forall a b c : pnt,
  orientation a b c = if Raeq (area2 a b c) 0 then Colinear else if Rltb 0 (area2 a b c) then CCW else CW.
Proof.
  intros a b c. unfold orientation, det3. unR.
  change (let det := X a * (Y b * 1 - Y c * 1) - Y a * (X b * 1 - X c * 1) + 1 * (X b * Y c - X c * Y b) in
    (if Raeq det 0 then Colinear else if Rltb 0 det then CCW else CW) =
    (if Raeq (area2 a b c) 0 then Colinear else if Rltb 0 (area2 a b c) then CCW else CW)).
  cbv zeta. replace (X a * (Y b * 1 - Y c * 1) - Y a * (X b * 1 - X c * 1) + 1 * (X b * Y c - X c * Y b)) with (area2 a b c)
    by (unfold area2; ring). reflexivity.
Qed.

Lemma orientation_spec : forall a b c : pnt,
  (orientation a b c = CCW <-> eps < area2 a b c) /\
  (orientation a b c = CW <-> area2 a b c < - eps) /\
  (orientation a b c = Colinear <-> - eps <= area2 a b c <= eps).
Proof.
  intros a b c. rewrite orientation_sign. pose proof eps_pos.
  destruct (Raeq_spec (area2 a b c) 0) as [Hl|Hl]; [|destruct (Rltb_spec 0 (area2 a b c)) as [Hs|Hs]];
    repeat split; intros; try discriminate; try reflexivity; lra.
Qed.

Lemma area2_rotate : forall a b c, area2 b c a = area2 a b c.
Proof. intros. unfold area2. ring. Qed.
Lemma area2_swap : forall a b c, area2 b a c = - area2 a b c.
Proof. intros. unfold area2. ring. Qed.

Lemma orientation_rotate : forall a b c : pnt, orientation b c a = orientation a b c.
Proof. intros a b c. rewrite !orientation_sign, area2_rotate. reflexivity. Qed.
Lemma orientation_moved : forall dx dy (a b c a' b' c' : pnt), moved dx dy a a' -> moved dx dy b b' -> moved dx dy c c' ->
  orientation a' b' c' = orientation a b c.
Proof.
  intros dx dy a b c a' b' c' [A1 A2] [B1 B2] [C1 C2]. rewrite !orientation_sign.
  replace (area2 a' b' c') with (area2 a b c) by (unfold area2; rewrite A1, A2, B1, B2, C1, C2; ring). reflexivity.
Qed.
Lemma orientation_swap : forall a b c : pnt, orientation b a c = turned (orientation a b c).
Proof.
  intros a b c. rewrite !orientation_sign, area2_swap. pose proof eps_pos.
  repeat rcase; cbn; try reflexivity; exfalso; lra.
Qed.

(** ** In-circle test (C02) *)
Definition incircle (a b c d : pnt) : R :=
  let row (v : pnt) := (X v, Y v, X v * X v + Y v * Y v, 1) in Rdet4 (row a) (row b) (row c) (row d).

Lemma continence_sign : forall a b c d : pnt,
  continence a b c d = if Raeq (incircle a b c d) 0 then Boundary else if Rltb 0 (incircle a b c d) then Inside else Outside.
Proof. reflexivity. Qed.

Lemma incircle_power : forall a b c d o : pnt, d2 o a = d2 o b -> d2 o a = d2 o c ->
  incircle a b c d = area2 a b c * (d2 o a - d2 o d).
Proof.
  intros a b c d o Hb Hc. unfold incircle, Rdet4, Rdet3, area2, d2 in *.
  destruct a as [a1 a2 ga], b as [b1 b2 gb], c as [p1 p2 gc], d as [q1 q2 gd], o as [o1 o2 go]. cbn [X Y vx vy] in *.
  unfold X, Y in *. cbn [vx vy] in *. change (T ArithR) with R in *.
  assert (E2 : b1*b1 + b2*b2 = a1*a1 + a2*a2 + 2*o1*(b1-a1) + 2*o2*(b2-a2)) by lra.
  assert (E3 : p1*p1 + p2*p2 = a1*a1 + a2*a2 + 2*o1*(p1-a1) + 2*o2*(p2-a2)) by lra.
  rewrite E2, E3. ring.
Qed.

Lemma continence_spec : forall a b c d o : pnt, d2 o a = d2 o b -> d2 o a = d2 o c ->
  (continence a b c d = Inside <-> eps < area2 a b c * (d2 o a - d2 o d)) /\
  (continence a b c d = Outside <-> area2 a b c * (d2 o a - d2 o d) < - eps) /\
  (continence a b c d = Boundary <-> - eps <= area2 a b c * (d2 o a - d2 o d) <= eps).
Proof.
  intros a b c d o Hb Hc. rewrite continence_sign, (incircle_power a b c d o Hb Hc). pose proof eps_pos.
  repeat rcase; repeat split; intros; try discriminate; try reflexivity; lra.
Qed.

Lemma continence_circle : forall a b c d o : pnt, d2 o a = d2 o b -> d2 o a = d2 o c -> 0 < area2 a b c ->
  (continence a b c d = Inside -> d2 o d < d2 o a) /\ (continence a b c d = Outside -> d2 o a < d2 o d).
Proof.
  intros a b c d o Hb Hc Hp. destruct (continence_spec a b c d o Hb Hc) as (H1 & H2 & _). pose proof eps_pos. split.
  - intros Hi. apply H1 in Hi. nra.
  - intros Ho. apply H2 in Ho. nra.
Qed.

Lemma incircle_rotate : forall a b c d, incircle b c a d = incircle a b c d.
Proof. intros. unfold incircle, Rdet4, Rdet3. ring. Qed.
Lemma incircle_swap : forall a b c d, incircle b a c d = - incircle a b c d.
Proof. intros. unfold incircle, Rdet4, Rdet3. ring. Qed.
Lemma continence_rotate : forall a b c d : pnt, continence b c a d = continence a b c d.
Proof. intros. rewrite !continence_sign, incircle_rotate. reflexivity. Qed.
Lemma continence_swap : forall a b c d : pnt, continence b a c d = swapped (continence a b c d).
Proof.
  intros. rewrite !continence_sign, incircle_swap. pose proof eps_pos.
  repeat rcase; cbn; try reflexivity; exfalso; lra.
Qed.

(** ** Circumcenter (C03) *)
Definition cc_det (a b c : pnt) : R := (X c - X a) * (Y b - Y a) - (X b - X a) * (Y c - Y a).
Definition cc_b1 (a b c : pnt) : R := X c * X c - X a * X a + Y c * Y c - Y a * Y a.
Definition cc_b2 (a b c : pnt) : R := X b * X b - X a * X a + Y b * Y b - Y a * Y a.
Definition cc_x (a b c : pnt) : R :=
  / 2 * ((Y b - Y a) / cc_det a b c) * cc_b1 a b c + / 2 * (- (Y c - Y a) / cc_det a b c) * cc_b2 a b c.
Definition cc_y (a b c : pnt) : R :=
  / 2 * (- (X b - X a) / cc_det a b c) * cc_b1 a b c + / 2 * ((X c - X a) / cc_det a b c) * cc_b2 a b c.

Lemma circumcenter_eq : forall a b c : pnt,
  circumcenter a b c = if negb (Reqb (cc_det a b c) 0) then Some (V (A:=ArithR) (cc_x a b c) (cc_y a b c) false) else None.
Proof. reflexivity. Qed.

Lemma cc_det_area : forall a b c, cc_det a b c = - area2 a b c.
Proof. intros. unfold cc_det, area2. ring. Qed.

Lemma equidistant_linear : forall o a b, d2 o a = d2 o b <->
  (X b - X a) * X o + (Y b - Y a) * Y o = (X b * X b - X a * X a + Y b * Y b - Y a * Y a) / 2.
Proof. intros. unfold d2. split; intros; lra. Qed.

Lemma circumcenter_spec : forall a b c : pnt,
  (area2 a b c = 0 -> circumcenter a b c = None) /\
  (area2 a b c <> 0 -> exists o, circumcenter a b c = Some o /\ vghost o = false /\
     d2 o a = d2 o b /\ d2 o a = d2 o c /\
     forall o', d2 o' a = d2 o' b -> d2 o' a = d2 o' c -> coincide o o').
Proof.
  intros a b c. rewrite circumcenter_eq. split.
  - intros Hz. rcase; [reflexivity|]. rewrite cc_det_area in *. lra.
  - intros Hn. rcase; [rewrite cc_det_area in *; lra|]. eexists. split; [reflexivity|]. split; [reflexivity|].
    rewrite !equidistant_linear.
    match goal with |- context [V ?x ?y false] => set (o := V (A:=ArithR) x y false) end.
    assert (E2 : (X c - X a) * X o + (Y c - Y a) * Y o = cc_b1 a b c / 2).
    { unfold o, X at 3, Y at 3. cbn [vx vy]. unfold cc_x, cc_y. unfold cc_det in *. field. assumption. }
    assert (E1 : (X b - X a) * X o + (Y b - Y a) * Y o = cc_b2 a b c / 2).
    { unfold o, X at 3, Y at 3. cbn [vx vy]. unfold cc_x, cc_y. unfold cc_det in *. field. assumption. }
    split; [exact E1|]. split; [exact E2|]. intros o' H1 H2. rewrite equidistant_linear in H1, H2.
    unfold cc_b1, cc_b2 in *. clearbody o. unfold coincide, cc_det in *.
    split; (apply Rmult_eq_reg_l with ((X c - X a) * (Y b - Y a) - (X b - X a) * (Y c - Y a)); [|assumption]).
    + transitivity ((Y b - Y a) * ((X c - X a) * X o + (Y c - Y a) * Y o) - (Y c - Y a) * ((X b - X a) * X o + (Y b - Y a) * Y o)); [ring|].
      rewrite E1, E2, <- H1, <- H2. ring.
    + transitivity ((X c - X a) * ((X b - X a) * X o + (Y b - Y a) * Y o) - (X b - X a) * ((X c - X a) * X o + (Y c - Y a) * Y o)); [ring|].
      rewrite E1, E2, <- H1, <- H2. ring.
Qed.

(** ** Encroachment (C04) *)
Lemma encroach_sign : forall a b v : pnt,
  encroach a b v = let s := (X v - X b) * (X v - X a) + (Y v - Y b) * (Y v - Y a) in
    if Raeq s 0 then Boundary else if Rltb 0 s then Outside else Inside.
Proof. reflexivity. Qed.

Lemma thales : forall a b v m, half_point a b m ->
  (X v - X b) * (X v - X a) + (Y v - Y b) * (Y v - Y a) = d2 m v - d2 a b / 4.
Proof. intros a b v m [Hx Hy]. unfold d2. rewrite Hx, Hy. field. Qed.

Lemma encroach_spec : forall a b v m : pnt, half_point a b m ->
  (encroach a b v = Inside <-> d2 m v < d2 a b / 4 - eps) /\
  (encroach a b v = Outside <-> d2 a b / 4 + eps < d2 m v) /\
  (encroach a b v = Boundary <-> d2 a b / 4 - eps <= d2 m v <= d2 a b / 4 + eps).
Proof.
  intros a b v m Hm. rewrite encroach_sign. cbv zeta. rewrite (thales a b v m Hm). pose proof eps_pos.
  repeat rcase; repeat split; intros; try discriminate; try reflexivity; lra.
Qed.

Lemma encroach_sym : forall a b v : pnt, encroach a b v = encroach b a v.
Proof.
  intros a b v. rewrite !encroach_sign. cbv zeta.
  replace ((X v - X a) * (X v - X b) + (Y v - Y a) * (Y v - Y b)) with ((X v - X b) * (X v - X a) + (Y v - Y b) * (Y v - Y a)) by ring.
  reflexivity.
Qed.

Lemma encroach_midpoint : forall a b m : pnt, half_point a b m -> 4 * eps < d2 a b -> encroach a b m = Inside.
Proof.
  intros a b m Hm Hd. apply (encroach_spec a b m m Hm). assert (d2 m m = 0) by (unfold d2; ring). lra.
Qed.

(** ** Midpoints (C14) *)
Lemma midpoint_spec : forall a b : pnt,
  (vghost a = false -> vghost b = false -> half_point a b (midpoint a b) /\ vghost (midpoint a b) = false) /\
  (vghost a = true \/ vghost b = true -> vghost (midpoint a b) = true).
Proof.
  intros a b. unfold midpoint. split.
  - intros -> ->. cbn [orb]. split; [|reflexivity]. unfold half_point, at_ratio.
    change (X (mkv ((vx a + vx b) / c2)%f64 ((vy a + vy b) / c2)%f64)) with ((X a + X b) / INR 2).
    change (Y (mkv ((vx a + vx b) / c2)%f64 ((vy a + vy b) / c2)%f64)) with ((Y a + Y b) / INR 2).
    replace (INR 2) with 2 by (cbn; ring). split; field.
  - intros [-> | ->]; [reflexivity|]. rewrite orb_true_r. reflexivity.
Qed.

Lemma edge_midpoint_spec : forall e : edge ArithR,
  half_point (fst e) (snd e) (edge_midpoint e) /\ vghost (edge_midpoint e) = false.
Proof.
  intros e. split; [|reflexivity]. unfold half_point, at_ratio.
  change (X (edge_midpoint e)) with ((X (fst e) + X (snd e)) / INR 2).
  change (Y (edge_midpoint e)) with ((Y (fst e) + Y (snd e)) / INR 2).
  replace (INR 2) with 2 by (cbn; ring). split; field.
Qed.

(** ** Ordering (C17) *)
Lemma vcmp_spec : forall a b : pnt, constructed a -> constructed b ->
  (vcmp a b = Lt <-> lex_lt a b) /\ (vcmp a b = Gt <-> lex_lt b a) /\ (vcmp a b = Eq <-> coincide a b).
Proof.
  intros a b Ha Hb. unfold vcmp. destruct (vghost a && vghost b)%bool eqn:Hg.
  - apply andb_true_iff in Hg. destruct Hg as [Ga Gb]. destruct (Ha Ga), (Hb Gb). unfold lex_lt, coincide.
    repeat split; intros; try discriminate; try reflexivity; lra.
  - unfold lex_lt, coincide. unfold X, Y. unR.
    repeat (rcase; try (repeat split; intros; try discriminate; try reflexivity; lra)).
Qed.

Lemma vcmp_order : forall a b c : pnt, constructed a -> constructed b -> constructed c ->
  vcmp a a = Eq /\ vcmp b a = CompOpp (vcmp a b) /\
  (vcmp a b <> Gt -> vcmp b c <> Gt -> vcmp a c <> Gt).
Proof.
  intros a b c Ha Hb Hc. destruct (vcmp_spec a a Ha Ha) as (_ & _ & Eaa).
  destruct (vcmp_spec a b Ha Hb) as (Lab & Gab & Eab), (vcmp_spec b a Hb Ha) as (Lba & Gba & Eba).
  destruct (vcmp_spec b c Hb Hc) as (Lbc & Gbc & Ebc), (vcmp_spec a c Ha Hc) as (Lac & Gac & Eac).
  unfold lex_lt, coincide in *. split; [apply Eaa; auto|]. split.
  - destruct (vcmp a b); cbn.
    + apply Eba. destruct Eab as [E _]. specialize (E eq_refl). intuition congruence.
    + apply Gba. destruct Lab as [E _]. apply E. reflexivity.
    + apply Lba. destruct Gab as [E _]. apply E. reflexivity.
  - intros H1 H2 H3. apply Gac in H3.
    assert (N1 : ~ (X b < X a \/ X b = X a /\ Y b < Y a)) by (intros E; apply H1, Gab, E).
    assert (N2 : ~ (X c < X b \/ X c = X b /\ Y c < Y b)) by (intros E; apply H2, Gbc, E).
    destruct (Rtotal_order (X a) (X b)) as [Q|[Q|Q]]; [| |apply N1; lra];
      (destruct (Rtotal_order (X b) (X c)) as [Q'|[Q'|Q']]; [| |apply N2; lra]); try lra.
Qed.
