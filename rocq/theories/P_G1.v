(** P_G1.v — the boundary test of an insertion in a convex polygon ends. *)

From Coq Require Import Reals List ZArith Lra Lia Psatz Bool Permutation.
From Verif Require Import Base Arith Geometry Elements Polyline Procedures Triangulator ArithR Spec SpecR SpecD SpecP SpecC SpecE
  P_Base P_Trn P_Fuel P_Poly P_Vertices P_R1 P_R2 P_R3 P_R5 P_R6 P_RX P_D1 P_D2 P_D3 P_D4 P_D5 P_D6 P_D7 P_Fill P_Fill2 P_Region P_Region2 P_Contains P_C1 P_C2 P_C3 P_C4 P_C5 P_C6 P_C7 P_E4 P_E6.
Import ListNotations.
Local Open Scope R_scope.

(** ** Runs that end *)
Definition ends {X} (f : nat -> res X) (r : X) : Prop := exists n, forall m, (n <= m)%nat -> f m = Ok r.
Lemma ends_const : forall X (r : X), ends (fun _ => Ok r) r.
Proof. intros X r. exists 0%nat. reflexivity. Qed.
Lemma ends_bind : forall X Y (f : nat -> res X) (k : nat -> X -> res Y) x y, ends f x -> ends (fun n => k n x) y -> ends (fun n => bind (f n) (k n)) y.
Proof. intros X Y f k x y [n Hn] [m Hm]. exists (Nat.max n m). intros i Hi. rewrite Hn by lia. cbn [bind]. apply Hm. lia. Qed.
Lemma ends_next : forall X (f g : nat -> res X) r, ends f r -> (forall n, g (Datatypes.S n) = f n) -> ends g r.
Proof. intros X f g r [n Hn] Hg. exists (Datatypes.S n). intros [|m] Hm; [lia|]. rewrite Hg. apply Hn. lia. Qed.
Lemma ends_ext : forall X (f g : nat -> res X) r, ends f r -> (forall n, g n = f n) -> ends g r.
Proof. intros X f g r [n Hn] Hg. exists n. intros m Hm. rewrite Hg. apply Hn, Hm. Qed.
Lemma ends_at : forall X (f : nat -> res X) r, ends f r -> exists n, f n = Ok r.
Proof. intros X f r [n Hn]. exists n. apply Hn, le_n. Qed.
Lemma ends_mono : forall X (f : nat -> res X) r n, (forall a b, (a <= b)%nat -> rle (f a) (f b)) -> f n = Ok r -> ends f r.
Proof. intros X f r n Hm Hn. exists n. intros m Hle. apply (rle_ok _ _ _ _ (Hm n m Hle) Hn). Qed.

(** ** The splitting of crossings *)
Section Split.
  Variables (P : edge ArithR -> Prop) (wt : edge ArithR -> nat).
  Let keepw (c : bool) (e : edge ArithR) : nat := if c then 0%nat else wt e.
  Hypothesis HP : closed_under P.
  Hypothesis Hw : forall a b c d iv, P (a, b) -> P (c, d) -> crosses (a, b) (c, d) = true -> intersection a b c d = Some iv ->
    (keepw (veqb a iv) (a, iv) + keepw (veqb b iv) (iv, b) + keepw (veqb c iv) (c, iv) + keepw (veqb d iv) (iv, d) < wt (a, b) + wt (c, d))%nat.
  Let W (L : list (edge ArithR)) : nat := list_sum (map wt L).

  Lemma extract_weight : forall f L x r, extract f L = Some (x, r) -> W L = (wt x + W r)%nat.
  Proof.
    intros f L. induction L as [|a L IH]; intros x r E; cbn [extract] in E; [discriminate|]. unfold W in *. cbn [map list_sum fold_right].
    destruct (f a); [injection E as <- <-; reflexivity|]. destruct (extract f L) as [[y r']|] eqn:Er; [|discriminate]. injection E as <- <-.
    specialize (IH _ _ eq_refl). cbn [map list_sum fold_right] in *. unfold list_sum in *. lia.
  Qed.
  Lemma split_total : forall n aux done, (forall e, In e aux -> P e) -> (forall e, In e done -> P e) -> (5 * (W aux + W done) + length aux < n)%nat ->
    exists r, split_loop n aux done = Ok r.
  Proof.
    induction n as [|n IH]; intros aux done Ha Hd Hn; [lia|]. cbn [split_loop]. destruct aux as [|[v1 v2] aux]; [eauto|].
    destruct (extract (crosses (v1, v2)) done) as [[[v3 v4] done']|] eqn:Ex.
    - destruct (extract_some _ _ _ _ _ Ex) as (H1 & H2 & H3). pose proof (extract_weight _ _ _ _ Ex) as Ew.
      destruct (intersection v1 v2 v3 v4) as [iv|] eqn:Ei; [|unfold crosses in H2; rewrite Ei in H2; discriminate]. cbn [unwrap bind].
      pose proof (HP v1 v2 v3 v4 iv (Ha _ (or_introl eq_refl)) (Hd _ H1) H2 Ei) as (Q1 & Q2 & Q3 & Q4).
      pose proof (Hw v1 v2 v3 v4 iv (Ha _ (or_introl eq_refl)) (Hd _ H1) H2 Ei) as Hlt.
      assert (Ha' : forall e, In e aux -> P e) by (intros e He; apply Ha; right; exact He). assert (Hd' : forall e, In e done' -> P e) by (intros e He; apply Hd, H3, He).
      unfold keepw in Hlt. unfold W in *. cbn [map list_sum fold_right length] in *. fold (list_sum (map wt aux)) in *.
      destruct (veqb v1 iv) eqn:E1; destruct (veqb v2 iv) eqn:E2; destruct (veqb v3 iv) eqn:E3; destruct (veqb v4 iv) eqn:E4; cbn [negb]; apply IH;
        try exact Hd'; try (cbn [map list_sum fold_right length]; unfold list_sum in *; lia);
        intros e He; cbn [In] in He; repeat (destruct He as [<-|He]; [solve [auto]|]); apply Ha'; exact He.
    - apply IH.
      + intros e He. apply Ha. right. exact He.
      + intros e He. apply in_app_or in He. destruct He as [He|[<-|[]]]; [apply Hd, He|apply Ha; left; reflexivity].
      + unfold W in *. rewrite map_app. cbn [map list_sum fold_right length] in *. assert (E := list_sum_app (map wt done) [wt (v1, v2)]). cbn [list_sum fold_right] in E. unfold list_sum in *. lia.
  Qed.
End Split.

(** ** Sides of a convex polygon against segments between points placed in it *)
Lemma close_same : forall a b : pnt, vghost a = false -> vghost b = false -> close a b -> veqb a b = true.
Proof.
  intros a b Ga Gb [Hx Hy]. unfold veqb. rewrite Ga, Gb. cbn [andb Bool.eqb]. change (aeq (vx a) (vx b)) with (Raeq (X a) (X b)). change (aeq (vy a) (vy b)) with (Raeq (Y a) (Y b)).
  destruct (Raeq_spec (X a) (X b)); [|lra]. destruct (Raeq_spec (Y a) (Y b)); [reflexivity|lra].
Qed.
(** A point of the line of [pq] that the box of [pq] nearly has and that is close to neither end is between them. *)
Lemma near_between : forall x y p q u i j k, ~ coincide x y -> at_ratio i x y p -> at_ratio j x y q -> at_ratio k x y u -> i < j ->
  near_box eps p q u -> vghost p = false -> vghost q = false -> vghost u = false -> veqb p u = false -> veqb q u = false -> i < k < j.
Proof.
  intros x y p q u i j k Hc [Px Py] [Qx Qy] [Ux Uy] Hij [Bx By] Gp Gq Gu N1 N2.
  assert (Far : forall a b : pnt, vghost a = false -> vghost b = false -> veqb a b = false -> ~ close a b) by (intros a b Ga Gb E Hcl; rewrite (close_same a b Ga Gb Hcl) in E; discriminate).
  assert (Mono : forall A B D' : R, forall t s, t <= s -> s < D' -> Rmin (A + s * B) (A + D' * B) - eps <= A + t * B <= Rmax (A + s * B) (A + D' * B) + eps -> - eps <= (A + s * B) - (A + t * B) <= eps).
  { intros A B D' t s Ht Hs [L1 L2]. pose proof eps_pos. destruct (Rle_dec 0 B) as [Hb|Hb].
    - assert (Q1 := mpp (s - t) B). assert (Q2 := mpp (D' - s) B). rewrite Rmin_left in L1 by lra. lra.
    - assert (Q1 := mpn (s - t) B). assert (Q2 := mpn (D' - s) B). rewrite Rmax_left in L2 by lra. lra. }
  split; apply Rnot_le_lt; intros L.
  - apply (Far p u Gp Gu N1). unfold close. rewrite Px, Py, Qx, Qy, Ux, Uy in *. split; [apply (Mono _ _ j)|apply (Mono _ _ j)]; try lra; assumption.
  - apply (Far q u Gq Gu N2). unfold close. rewrite Px, Py, Qx, Qy, Ux, Uy in *.
    assert (M2 : forall A B : R, Rmin (A + i * B) (A + j * B) - eps <= A + k * B <= Rmax (A + i * B) (A + j * B) + eps -> - eps <= (A + j * B) - (A + k * B) <= eps).
    { intros A B [L1 L2]. pose proof eps_pos. destruct (Rle_dec 0 B) as [Hb|Hb].
      - assert (Q1 := mpp (k - j) B). assert (Q2 := mpp (j - i) B). rewrite Rmax_right in L2 by lra. lra.
      - assert (Q1 := mpn (k - j) B). assert (Q2 := mpn (j - i) B). rewrite Rmin_right in L1 by lra. lra. }
    split; apply M2; assumption.
Qed.
Lemma ratio_part : forall x y i j p q, at_ratio i x y p -> at_ratio j x y q -> forall u, D p q u = (j - i) * D x y u.
Proof. intros x y i j p q [Px Py] [Qx Qy] u. unfold area2. rewrite Px, Py, Qx, Qy. ring. Qed.
Lemma spread_part : forall m x y i j p q, at_ratio i x y p -> at_ratio j x y q -> i < j -> forall u, spread m x y u -> spread m p q u.
Proof.
  intros m x y i j p q Hp Hq Hij u Hs. unfold spread in *. rewrite (ratio_part x y i j p q Hp Hq u). destruct Hp as [Px Py]. destruct Hq as [Qx Qy].
  assert (Ex : X q - X p = (j - i) * (X y - X x)) by (rewrite Px, Qx; ring). assert (Ey : Y q - Y p = (j - i) * (Y y - Y x)) by (rewrite Py, Qy; ring).
  rewrite Ex, Ey, !Rabs_mult, (Rabs_right (j - i)) by lra.
  assert (Q := Rmult_lt_compat_l (j - i) _ _ ltac:(lra) Hs). lra.
Qed.

Definition between_b (e : edge ArithR) (w : pnt) : bool :=
  if Req_EM_T (area2 (fst e) (snd e) w) 0 then (if Rlt_dec (dotp w (fst e) w (snd e)) 0 then true else false) else false.
Lemma between_b_true : forall e w, between_b e w = true <-> strictly_between (fst e) (snd e) w.
Proof.
  intros e w. unfold between_b, strictly_between. destruct (Req_EM_T _ _) as [E|E]; [|split; [discriminate|intros [E' _]; contradiction]].
  destruct (Rlt_dec _ _) as [L|L]; [|split; [discriminate|intros [_ L']; contradiction]]. split; auto.
Qed.
Lemma filter_part : forall {X} (f g h : X -> bool) u (L : list X), (forall z, f z = true -> h z = true) -> (forall z, g z = true -> h z = true) -> (forall z, f z = true -> g z = false) ->
  f u = false -> g u = false -> h u = true -> In u L -> (length (filter f L) + length (filter g L) < length (filter h L))%nat.
Proof.
  intros X f g h u L Hf Hg Hd Fu Gu Hu.
  assert (Le : forall M, (length (filter f M) + length (filter g M) <= length (filter h M))%nat).
  { induction M as [|z M IH]; cbn [filter]; [reflexivity|]. specialize (Hf z). specialize (Hg z). specialize (Hd z).
    destruct (f z); destruct (g z); destruct (h z); cbn [length]; try lia; try (discriminate (Hf eq_refl)); try (discriminate (Hg eq_refl)); discriminate (Hd eq_refl). }
  induction L as [|z L IH]; intros Hi; [destruct Hi|]. cbn [filter]. destruct Hi as [->|Hi].
  - rewrite Fu, Gu, Hu. cbn [length]. specialize (Le L). lia.
  - specialize (IH Hi). specialize (Hf z). specialize (Hg z). specialize (Hd z).
    destruct (f z); destruct (g z); destruct (h z); cbn [length]; try lia; try (discriminate (Hf eq_refl)); try (discriminate (Hg eq_refl)); discriminate (Hd eq_refl).
Qed.

Section Test.
  Variable l : list pnt.
  Hypothesis HC : convex_polygon l.
  Variables (V : list pnt) (E : list (edge ArithR)).
  Hypothesis Hreal : forall u, In u V -> vghost u = false.
  Hypothesis Hcorner : forall u, In u l -> In u V.
  (** Each point is on a side or off it by more than the tolerances. *)
  Hypothesis Hplace : forall u c d, In u V -> In (c, d) (polygon_sides l) -> on_side c d u \/ spread 1 c d u.
  Hypothesis Hends : forall e, In e E -> In (fst e) V /\ In (snd e) V.
  Hypothesis Hquiet : forall e e', In e E -> In e' E -> crosses e e' = false.

  Definition side_part (e : edge ArithR) : Prop := exists x y i j, In (x, y) (polygon_sides l) /\ In (fst e) V /\ In (snd e) V /\ at_ratio i x y (fst e) /\ at_ratio j x y (snd e) /\ i < j.
  Definition tested (e : edge ArithR) : Prop := side_part e \/ In e E.
  Definition weight (e : edge ArithR) : nat := length (filter (between_b e) V).

  Lemma crossp_flip : forall a b c d, crossp c d a b = - crossp a b c d.
  Proof. intros. unfold crossp. ring. Qed.
  (** Where a part of a side meets a segment. *)
  Lemma part_meets : forall x y i j p q u z iv, In (x, y) (polygon_sides l) -> In p V -> In q V -> at_ratio i x y p -> at_ratio j x y q -> i < j ->
    In u V -> In z V -> crossp p q u z <> 0 -> on_line p q iv -> on_line u z iv -> near_box eps p q iv -> near_box eps u z iv -> vghost iv = false ->
    veqb p u = false -> veqb p z = false -> veqb q u = false -> veqb q z = false ->
    (iv = u \/ iv = z) /\ exists k, at_ratio k x y iv /\ i < k < j.
  Proof.
    intros x y i j p q u z iv Hxy Hp Hq Rp Rq Hij Hu Hz Hc L1 L2 B1 B2 Gi N1 N2 N3 N4.
    destruct (cx_apart l HC x y Hxy) as (Nc & _).
    assert (On : forall w, on_side x y w -> D p q w = 0) by (intros w Hw; rewrite (ratio_part x y i j p q Rp Rq w), (on_side_D _ _ _ Hw); ring).
    assert (Fin : forall w, In w V -> on_side x y w -> iv = w -> veqb p w = false -> veqb q w = false -> exists k, at_ratio k x y iv /\ i < k < j).
    { intros w Hw Ow -> M1 M2. destruct (on_side_ratio x y w Ow) as (k & _ & Rk). exists k. split; [exact Rk|]. exact (near_between x y p q w i j k Nc Rp Rq Rk Hij B1 (Hreal p Hp) (Hreal q Hq) (Hreal w Hw) M1 M2). }
    destruct (Hplace u x y Hu Hxy) as [Ou|Su]; destruct (Hplace z x y Hz Hxy) as [Oz|Sz].
    - exfalso. apply Hc. pose proof (On u Ou). pose proof (On z Oz). unfold crossp, area2 in *. lra.
    - assert (Ei : iv = u). { apply (meet_at p q z u iv (Hreal u Hu) Gi (On u Ou)); [unfold crossp in *; lra|exact L1|]. unfold on_line, area2 in *. lra. }
      split; [left; exact Ei|]. apply (Fin u Hu Ou Ei); assumption.
    - assert (Ei : iv = z) by (apply (meet_at p q u z iv (Hreal z Hz) Gi (On z Oz)); assumption).
      split; [right; exact Ei|]. apply (Fin z Hz Oz Ei); assumption.
    - exfalso. pose proof (near_spread p q u z iv Hc L2 B2 (spread_part 1 x y i j p q Rp Rq Hij u Su) (spread_part 1 x y i j p q Rp Rq Hij z Sz)) as Pos. unfold on_line in L1. lra.
  Qed.
  Lemma weight_cut : forall x y i j k p q u, ~ coincide x y -> at_ratio i x y p -> at_ratio j x y q -> at_ratio k x y u -> i < k < j -> In u V ->
    (weight (p, u) + weight (u, q) < weight (p, q))%nat.
  Proof.
    intros x y i j k p q u Nc Rp Rq Ru Hk Hu.
    assert (View : forall a b s t w, at_ratio s x y a -> at_ratio t x y b -> s < t -> (strictly_between a b w <-> exists r, at_ratio r x y w /\ s < r < t)).
    { intros a b s t w Ra Rb Hst. split.
      - intros Hb. destruct (between_param a b w Hb) as (c & Hc' & Wx & Wy). destruct Ra as [Ax Ay]. destruct Rb as [Bx By]. exists (s + c * (t - s)).
        split; [split; rewrite ?Wx, ?Wy, ?Ax, ?Ay, ?Bx, ?By; ring|]. assert (Q1 := spp c (t - s)). assert (Q2 := spp (1 - c) (t - s)). lra.
      - intros (r & Rr & Hr). exact (ratio_between x y s t r a b w Nc Ra Rb Rr Hr). }
    pose proof (View p u i k) as V1. pose proof (View u q k j) as V2. pose proof (View p q i j) as V3.
    unfold weight. apply (filter_part _ _ _ u).
    - intros w Hw. apply between_b_true in Hw. apply between_b_true. cbn [fst snd] in *. apply (V1 w Rp Ru ltac:(lra)) in Hw. destruct Hw as (r & Rr & Hr). apply (V3 w Rp Rq ltac:(lra)). exists r. split; [exact Rr|lra].
    - intros w Hw. apply between_b_true in Hw. apply between_b_true. cbn [fst snd] in *. apply (V2 w Ru Rq ltac:(lra)) in Hw. destruct Hw as (r & Rr & Hr). apply (V3 w Rp Rq ltac:(lra)). exists r. split; [exact Rr|lra].
    - intros w Hw. apply between_b_true in Hw. apply not_true_iff_false. intros Hw'. apply between_b_true in Hw'. cbn [fst snd] in *. apply (V1 w Rp Ru ltac:(lra)) in Hw. apply (V2 w Ru Rq ltac:(lra)) in Hw'.
      destruct Hw as (r & Rr & Hr). destruct Hw' as (r' & Rr' & Hr'). rewrite (ratio_same x y r r' w Nc Rr Rr') in Hr. lra.
    - apply not_true_iff_false. intros Hw. apply between_b_true in Hw. apply (V1 u Rp Ru ltac:(lra)) in Hw. destruct Hw as (r & Rr & Hr). rewrite (ratio_same x y r k u Nc Rr Ru) in Hr. lra.
    - apply not_true_iff_false. intros Hw. apply between_b_true in Hw. apply (V2 u Ru Rq ltac:(lra)) in Hw. destruct Hw as (r & Rr & Hr). rewrite (ratio_same x y r k u Nc Rr Ru) in Hr. lra.
    - apply between_b_true. apply (V3 u Rp Rq ltac:(lra)). exists k. split; [exact Ru|lra].
    - exact Hu.
  Qed.
  (** One crossing: the part of a side is cut at an end of the segment, which stays. *)
  Lemma cut_one : forall p q u z iv, side_part (p, q) -> In (u, z) E -> crossp p q u z <> 0 -> on_line p q iv -> on_line u z iv -> near_box eps p q iv -> near_box eps u z iv -> vghost iv = false ->
    veqb p u = false -> veqb p z = false -> veqb q u = false -> veqb q z = false ->
    (iv = u \/ iv = z) /\ side_part (p, iv) /\ side_part (iv, q) /\ (weight (p, iv) + weight (iv, q) < weight (p, q))%nat.
  Proof.
    intros p q u z iv (x & y & i & j & Hxy & Hp & Hq & Rp & Rq & Hij) He Hc L1 L2 B1 B2 Gi N1 N2 N3 N4. cbn [fst snd] in *. destruct (Hends _ He) as [Hu Hz]. cbn [fst snd] in *.
    destruct (part_meets x y i j p q u z iv Hxy Hp Hq Rp Rq Hij Hu Hz Hc L1 L2 B1 B2 Gi N1 N2 N3 N4) as (Hi & k & Rk & Hk).
    assert (Hv : In iv V) by (destruct Hi as [-> | ->]; assumption). split; [exact Hi|]. split; [|split].
    - exists x, y, i, k. cbn [fst snd]. repeat split; try assumption; try lra; apply Rk || apply Rp.
    - exists x, y, k, j. cbn [fst snd]. repeat split; try assumption; try lra; apply Rk || apply Rq.
    - apply (weight_cut x y i j k); try assumption. apply (cx_apart l HC x y Hxy).
  Qed.
  (** Two parts of sides do not cross. *)
  Lemma parts_quiet : forall a b c d iv, side_part (a, b) -> side_part (c, d) -> crossp a b c d <> 0 -> on_line a b iv -> on_line c d iv -> near_box eps a b iv -> near_box eps c d iv -> vghost iv = false ->
    veqb a c = false -> veqb a d = false -> veqb b c = false -> veqb b d = false -> False.
  Proof.
    intros a b c d iv (x & y & i & j & Hxy & Ha & Hb & Ra & Rb & Hij) (x' & y' & i' & j' & Hxy' & Hc & Hd & Rc & Rd & Hij') Hcp L1 L2 B1 B2 Gi N1 N2 N3 N4. cbn [fst snd] in *.
    destruct (part_meets x y i j a b c d iv Hxy Ha Hb Ra Rb Hij Hc Hd Hcp L1 L2 B1 B2 Gi N1 N2 N3 N4) as (Hi & k & Rk & Hk).
    pose proof (cx_apart l HC x y Hxy) as (Nc & _).
    assert (Z : forall w, D x' y' w = 0 -> strictly_between x y w -> False).
    { intros w Z Bt. assert (Eq : (x', y') = (x, y)) by (apply (cx_one l HC x y x' y' w); [assumption|assumption|exact Bt|lra]). injection Eq as -> ->. apply Hcp.
      destruct Ra as [Ax Ay]. destruct Rb as [Bx By]. destruct Rc as [Cx Cy]. destruct Rd as [Dx Dy]. unfold crossp. rewrite Ax, Ay, Bx, By, Cx, Cy, Dx, Dy. ring. }
    assert (Zr : forall t w, at_ratio t x' y' w -> D x' y' w = 0) by (intros t w Hr; rewrite (ratio_D t x' y' w x' y' Hr), D_ab_a, D_ab_b; ring).
    assert (Ir : forall t w, In w V -> at_ratio t x y w -> 0 <= t <= 1).
    { intros t w Hw Rw. destruct (Hplace w x y Hw Hxy) as [Ow|Sw]; [destruct (on_side_ratio x y w Ow) as (t' & Ht' & Rw'); rewrite (ratio_same x y t t' w Nc Rw Rw'); exact Ht'|].
      exfalso. pose proof (spread_pos 1 x y w ltac:(lra) Sw) as Q. rewrite (ratio_D t x y w x y Rw), D_ab_a, D_ab_b in Q. lra. }
    pose proof (Ir i a Ha Ra). pose proof (Ir j b Hb Rb).
    apply (Z iv); [destruct Hi as [-> | ->]; eapply Zr; eassumption|]. apply (ratio_between x y 0 1 k x y iv Nc); [split; lra|split; lra|exact Rk|lra].
  Qed.
  Lemma crosses_facts : forall a b c d iv : pnt, crosses (a, b) (c, d) = true -> intersection a b c d = Some iv ->
    crossp a b c d <> 0 /\ on_line a b iv /\ on_line c d iv /\ near_box eps a b iv /\ near_box eps c d iv /\ vghost iv = false /\
    veqb a c = false /\ veqb a d = false /\ veqb b c = false /\ veqb b d = false.
  Proof.
    intros a b c d iv Hc Hi. destruct (intersection_sound _ _ _ _ _ Hi) as (B1 & B2 & Gi & Hl & _).
    assert (Hcp : crossp a b c d <> 0) by (intros Z; rewrite parallel_quiet in Hc by exact Z; discriminate). destruct (Hl Hcp) as [L1 L2].
    unfold crosses in Hc. rewrite Hi in Hc. repeat (apply andb_true_iff in Hc; destruct Hc as [Hc ?]). repeat match goal with Q : negb _ = true |- _ => apply negb_true_iff in Q end. tauto.
  Qed.
  Lemma veqb_sym : forall a b : pnt, veqb a b = veqb b a.
  Proof.
    intros a b. unfold veqb. rewrite (andb_comm (vghost a) (vghost b)). destruct (vghost b && vghost a); [reflexivity|].
    assert (S1 : forall s t, Raeq s t = Raeq t s) by (intros s t; unfold Raeq; rewrite Rabs_minus_sym; reflexivity).
    change (Bool.eqb (vghost a) (vghost b) && Raeq (vx a) (vx b) && Raeq (vy a) (vy b) = Bool.eqb (vghost b) (vghost a) && Raeq (vx b) (vx a) && Raeq (vy b) (vy a)).
    rewrite (S1 (vx a) (vx b)), (S1 (vy a) (vy b)). destruct (vghost a); destruct (vghost b); reflexivity.
  Qed.
  (** A crossing of the test is of a part of a side with a segment. *)
  Lemma crossing : forall a b c d iv, tested (a, b) -> tested (c, d) -> crosses (a, b) (c, d) = true -> intersection a b c d = Some iv ->
    (side_part (a, b) /\ In (c, d) E /\ (iv = c \/ iv = d) /\ side_part (a, iv) /\ side_part (iv, b) /\ (weight (a, iv) + weight (iv, b) < weight (a, b))%nat) \/
    (side_part (c, d) /\ In (a, b) E /\ (iv = a \/ iv = b) /\ side_part (c, iv) /\ side_part (iv, d) /\ (weight (c, iv) + weight (iv, d) < weight (c, d))%nat).
  Proof.
    intros a b c d iv Ta Tc Hc Hi. destruct (crosses_facts a b c d iv Hc Hi) as (Hcp & L1 & L2 & B1 & B2 & Gi & N1 & N2 & N3 & N4).
    destruct Ta as [Pa|Ea]; destruct Tc as [Pc|Ec].
    - exfalso. exact (parts_quiet a b c d iv Pa Pc Hcp L1 L2 B1 B2 Gi N1 N2 N3 N4).
    - left. split; [exact Pa|]. split; [exact Ec|]. exact (cut_one a b c d iv Pa Ec Hcp L1 L2 B1 B2 Gi N1 N2 N3 N4).
    - right. split; [exact Pc|]. split; [exact Ea|]. rewrite veqb_sym in N1, N2, N3, N4. apply (cut_one c d a b iv Pc Ea); try assumption. rewrite crossp_flip. lra.
    - exfalso. rewrite (Hquiet _ _ Ea Ec) in Hc. discriminate.
  Qed.
  Lemma tested_closed : closed_under tested.
  Proof.
    intros a b c d iv Ta Tc Hc Hi. destruct (crossing a b c d iv Ta Tc Hc Hi) as [(_ & Ec & Hv & P1 & P2 & _)|(_ & Ea & Hv & P1 & P2 & _)].
    - split; [left; exact P1|]. split; [left; exact P2|]. destruct Hv as [-> | ->]; (split; [try (rewrite veqb_same; discriminate); right; exact Ec|try (rewrite veqb_same; discriminate); right; exact Ec]).
    - split; [destruct Hv as [-> | ->]; try (rewrite veqb_same; discriminate); right; exact Ea|]. split; [destruct Hv as [-> | ->]; try (rewrite veqb_same; discriminate); right; exact Ea|]. split; left; assumption.
  Qed.
  Lemma test_splits : forall L, (forall e, In e L -> tested e) -> exists r, ends (fun n => split_intersections n L) r.
  Proof.
    intros L HL. set (n := Datatypes.S (5 * (list_sum (map weight (rev L)) + list_sum (map weight [])) + length (rev L))).
    destruct (split_total tested weight tested_closed) with (n := n) (aux := rev L) (done := @nil (edge ArithR)) as (r & Hr).
    - intros a b c d iv Ta Tc Hc Hi. destruct (crossing a b c d iv Ta Tc Hc Hi) as [(_ & Ec & Hv & _ & _ & Hw)|(_ & Ea & Hv & _ & _ & Hw)].
      + destruct Hv as [-> | ->]; rewrite veqb_same; repeat match goal with |- context [veqb ?u ?v] => destruct (veqb u v) end; lia.
      + destruct Hv as [-> | ->]; rewrite veqb_same; repeat match goal with |- context [veqb ?u ?v] => destruct (veqb u v) end; lia.
    - intros e He. apply in_rev in He. apply HL, He.
    - intros e [].
    - unfold n. lia.
    - exists r. apply (ends_mono _ _ _ n); [|exact Hr]. intros p q Hpq. apply split_intersections_mono, Hpq.
  Qed.
  Lemma side_tested : forall e, In e (polygon_sides l) -> tested e.
  Proof.
    intros [x y] He. left. destruct (polygon_ends l _ He) as [Hx Hy]. exists x, y, 0, 1. cbn [fst snd] in *. repeat split; auto; lra.
  Qed.
End Test.
