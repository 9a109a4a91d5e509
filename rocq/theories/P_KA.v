(** P_KA.v — boolean operations on polygons on a grid; rectangles. *)

From Coq Require Import Reals List ZArith Lra Lia Psatz Bool Permutation.
From Verif Require Import Base Arith Geometry Elements Polyline Procedures ArithR Spec SpecR SpecD SpecM SpecP SpecK
  P_Base P_Poly P_Trn P_Triangulator P_Contains P_R1 P_R2 P_R3 P_R4 P_R5 P_R6 P_D1 P_D2 P_D3 P_D4 P_D5 P_RX P_Fill P_Fill2 P_Slide P_Region2 P_E4 P_G1 P_Bool P_Nest P_J3
  P_K1 P_K2 P_K3 P_K4 P_K5 P_K6 P_K7 P_K8 P_K9.
Import ListNotations.
Local Open Scope R_scope.

Lemma room_enough : forall Z, room (length Z) = enough Z. Proof. reflexivity. Qed.
Lemma flat_map_const : forall T U (f : T -> list U) n l, (forall x, In x l -> length (f x) = n) -> length (flat_map f l) = (length l * n)%nat.
Proof.
  intros T U f n l Hf. induction l as [|x l IH]; [reflexivity|]. cbn [flat_map length]. rewrite app_length, (Hf x (or_introl eq_refl)), IH by (intros y Hy; apply Hf; right; exact Hy). cbn. reflexivity.
Qed.
Lemma sides_length : forall l : list pnt, length (polygon_sides l) = length l.
Proof.
  intros [|a l]; [reflexivity|]. change (polygon_sides (a :: l)) with (path_sides ((a :: l) ++ [a])). rewrite <- (path_fst (a :: l) a) at 2. symmetry. apply map_length.
Qed.
Lemma grid_points_length : forall l1 l2, length (grid_points l1 l2) = (length l1 + length l2 + 2 * length l1 * length l2)%nat.
Proof.
  intros l1 l2. unfold grid_points, crossing_points. rewrite !app_length.
  rewrite (flat_map_const _ _ _ (2 * length l2)%nat); [rewrite sides_length; lia|]. intros s _. rewrite (flat_map_const _ _ _ 2%nat); [rewrite sides_length; lia|]. reflexivity.
Qed.

Section Grid.
  Variables (l1 l2 : list pnt).
  Hypothesis H1 : grid_polygon l1.
  Hypothesis H2 : grid_polygon l2.
  Hypothesis HX : cross_only l1 l2.
  Let n := (length l1 + length l2 + 2 * length l1 * length l2)%nat.
  Lemma grid_room : room n = enough (grid_points l1 l2).
  Proof. unfold n. rewrite <- grid_points_length. reflexivity. Qed.
  Let C1 := grid_clear (grid_points l1 l2) (polygon_sides l1) (polygon_sides l2) (fun z => grid_points_corner l1 l2 z H1 H2) (fun s => side_straight l2 s H2).
  Let C2 := grid_clear (grid_points l1 l2) (polygon_sides l2) (polygon_sides l1) (fun z => grid_points_corner l1 l2 z H1 H2) (fun s => side_straight l1 s H1).

  Theorem grid_intersection : forall H fuel p, no_turning_back (polygon_sides l1 ++ polygon_sides l2) -> (room n <= fuel)%nat ->
    exists pls u, poly_intersection H fuel p (Poly l1 false) (Poly l2 false) = Ok (pls, u) /\ (forall pl, In pl pls -> proper_closed pl) /\
      forall q, (forall s, In s (polygon_sides l1 ++ polygon_sides l2) -> ~ on_segment (fst s) (snd s) q) ->
        winding_all q pls = (winding q (polygon_sides l1) * winding q (polygon_sides l2))%Z.
  Proof.
    intros H fuel p HB Hf. rewrite grid_room in Hf. apply (intersection_surrounds H (grid_points l1 l2)); try assumption.
    - apply (gp_long _ H1).
    - apply (gp_long _ H2).
    - apply grid_laid; assumption.
    - apply grid_calm; [|exact HB]. intros s Hs. apply in_app_or in Hs. destruct Hs as [Hs|Hs]; [apply (side_straight l1 s H1 Hs)|apply (side_straight l2 s H2 Hs)].
    - apply (gp_filled _ H1).
    - apply (gp_filled _ H2).
  Qed.
  Theorem grid_subtraction : forall H fuel p, no_turning_back (polygon_sides l1 ++ polygon_sides (rev l2)) -> boxes_meet (Poly l1 false) (Poly l2 false) ->
    (exists v, In v l2 /\ poly_contains (Poly l1 false) v <> Ok (Some Inside)) -> (room n <= fuel)%nat ->
    exists pls u, poly_subtraction H fuel p (Poly l1 false) (Poly l2 false) = Ok (pls, u) /\ (forall pl, In pl pls -> proper_closed pl) /\
      forall q, (forall s, In s (polygon_sides l1 ++ polygon_sides l2) -> ~ on_segment (fst s) (snd s) q) ->
        winding_all q pls = (winding q (polygon_sides l1) * (1 - winding q (polygon_sides l2)))%Z.
  Proof.
    intros H fuel p HB HM Hv Hf. rewrite grid_room in Hf. apply (subtraction_surrounds H (grid_points l1 l2)); try assumption.
    - apply (gp_long _ H1).
    - apply (gp_long _ H2).
    - apply grid_laid; assumption.
    - apply grid_calm; [|exact HB]. intros s Hs. apply in_app_or in Hs. destruct Hs as [Hs|Hs]; [apply (side_straight l1 s H1 Hs)|].
      rewrite <- (turn_turn s). apply turned_straight, (side_straight l2 _ H2), side_turned, Hs.
    - apply (gp_filled _ H1).
    - apply (gp_filled _ H2).
  Qed.
  Theorem grid_union : forall H fuel p, boxes_meet (Poly l1 false) (Poly l2 false) -> (room n <= fuel)%nat ->
    exists rings : list (list pnt), (forall l, In l rings -> (3 <= length l)%nat) /\
      (forall q, (forall s, In s (polygon_sides l1 ++ polygon_sides l2) -> ~ on_segment (fst s) (snd s) q) ->
        winding_all q (rings_of rings) =
          (winding q (polygon_sides l1) + winding q (polygon_sides l2) - winding q (polygon_sides l1) * winding q (polygon_sides l2))%Z) /\
      match poly_union H fuel p (Poly l1 false) (Poly l2 false) with
      | Ok (Some (pl, u)) => popened pl = false /\ 0 < shoelace (polygon_sides (pverts pl)) /\
          exists before after, rings = before ++ pverts pl :: after /\ forall l s, In l (before ++ after) -> In s (polygon_sides l) -> In s u
      | Ok None => forall l, In l rings -> shoelace (polygon_sides l) < 0
      | Panic => exists l, In l rings /\ shoelace (polygon_sides l) = 0
      | NoFuel => False
      end.
  Proof.
    intros H fuel p HM Hf. rewrite grid_room in Hf. apply (union_surrounds H (grid_points l1 l2)); try assumption.
    - apply (gp_long _ H1).
    - apply (gp_long _ H2).
    - apply grid_laid; assumption.
    - apply (gp_filled _ H1).
    - apply (gp_filled _ H2).
  Qed.
End Grid.

(** ** Rectangles *)
Lemma winding_within : forall l q x0 x1 y0 y1, (forall x, In x l -> x0 <= X x <= x1 /\ y0 <= Y x <= y1) -> winding q (polygon_sides l) <> 0%Z -> x0 <= X q <= x1 /\ y0 <= Y q <= y1.
Proof.
  intros l q x0 x1 y0 y1 Hin Hw.
  assert (G : forall dx dy, (forall x, In x l -> 0 < dx * (Y x - Y q) - dy * (X x - X q)) -> False).
  { intros dx dy Hx. apply Hw. apply (beyond_line l q (at_ (X q + dx) (Y q + dy))).
    - intros x Hi. specialize (Hx x Hi). unfold area2. rewrite X_at, Y_at. lra.
    - unfold area2. rewrite X_at, Y_at. lra. }
  repeat split; apply Rnot_lt_le; intros L.
  - apply (G 0 (-1)). intros x Hx. destruct (Hin x Hx) as [[A1 A2] [A3 A4]]. lra.
  - apply (G 0 1). intros x Hx. destruct (Hin x Hx) as [[A1 A2] [A3 A4]]. lra.
  - apply (G 1 0). intros x Hx. destruct (Hin x Hx) as [[A1 A2] [A3 A4]]. lra.
  - apply (G (-1) 0). intros x Hx. destruct (Hin x Hx) as [[A1 A2] [A3 A4]]. lra.
Qed.
Notation P x y := (V (A:=ArithR) (IZR x) (IZR y) false).
Lemma rectangle_sides : forall i j k l, polygon_sides (rectangle i j k l) = [(P i j, P k j); (P k j, P k l); (P k l, P i l); (P i l, P i j)].
Proof. reflexivity. Qed.
Lemma level_in : forall i k j (p : pnt), on_segment (P i j) (P k j) p -> Y p = IZR j.
Proof. intros i k j p (t & _ & [_ E]). rewrite E. change (IZR j + t * (IZR j - IZR j) = IZR j). ring. Qed.
Lemma upright_in : forall i j l (p : pnt), on_segment (P i j) (P i l) p -> X p = IZR i.
Proof. intros i j l p (t & _ & [E _]). rewrite E. change (IZR i + t * (IZR i - IZR i) = IZR i). ring. Qed.
Lemma rectangle_winding : forall i j k l q, (i < k)%Z -> (j < l)%Z -> IZR i < X q < IZR k -> IZR j < Y q < IZR l -> winding q (polygon_sides (rectangle i j k l)) = 1%Z.
Proof.
  intros i j k l q Hik Hjl Hx Hy. apply IZR_lt in Hik. apply IZR_lt in Hjl. rewrite rectangle_sides. unfold winding. cbn [map fold_right].
  assert (A1 : 0 < area2 (P i j) (P k j) q) by (unfold area2; cbn; assert (W := spp (IZR k - IZR i) (Y q - IZR j) ltac:(lra) ltac:(lra)); unfold Y in *; lra).
  assert (A2 : 0 < area2 (P k l) (P i l) q) by (unfold area2; cbn; assert (W := spp (IZR k - IZR i) (IZR l - Y q) ltac:(lra) ltac:(lra)); unfold Y in *; lra).
  unfold ray_crossing. change (X (P i j)) with (IZR i). change (X (P k j)) with (IZR k). change (X (P k l)) with (IZR k). change (X (P i l)) with (IZR i).
  repeat (match goal with |- context [Rle_dec ?a ?b] => destruct (Rle_dec a b) | |- context [Rlt_dec ?a ?b] => destruct (Rlt_dec a b) end; try (exfalso; lra)); reflexivity.
Qed.
Lemma rectangle_filled : forall i j k l, (i < k)%Z -> (j < l)%Z -> filled_once (rectangle i j k l).
Proof.
  intros i j k l Hik Hjl q Ho. pose proof (IZR_lt _ _ Hik) as Hx. pose proof (IZR_lt _ _ Hjl) as Hy.
  destruct (Z.eq_dec (winding q (polygon_sides (rectangle i j k l))) 0) as [E|N]; [left; exact E|right].
  assert (B : IZR i <= X q <= IZR k /\ IZR j <= Y q <= IZR l); [|destruct B as [Bx By]].
  { apply (winding_within (rectangle i j k l)); [|exact N]. intros x [<-|[<-|[<-|[<-|[]]]]]; unfold X, Y; cbn [vx vy]; lra. }
  rewrite rectangle_sides in Ho.
  apply rectangle_winding; try assumption.
  - split; apply Rnot_le_lt; intros L.
    + apply (Ho (P i l, P i j)); [right; right; right; left; reflexivity|]. apply upright_on; cbn; [reflexivity|lra|unfold X in *; lra|rewrite Rmin_right, Rmax_left by lra; unfold Y in *; lra].
    + apply (Ho (P k j, P k l)); [right; left; reflexivity|]. apply upright_on; cbn; [reflexivity|lra|unfold X in *; lra|rewrite Rmin_left, Rmax_right by lra; unfold Y in *; lra].
  - split; apply Rnot_le_lt; intros L.
    + apply (Ho (P i j, P k j)); [left; reflexivity|]. apply level_on; cbn; [reflexivity|lra|unfold Y in *; lra|rewrite Rmin_left, Rmax_right by lra; unfold X in *; lra].
    + apply (Ho (P k l, P i l)); [right; right; left; reflexivity|]. apply level_on; cbn; [reflexivity|lra|unfold Y in *; lra|rewrite Rmin_right, Rmax_left by lra; unfold X in *; lra].
Qed.
Lemma P_inj : forall a b c d, P a b = P c d -> a = c /\ b = d.
Proof. intros a b c d E. split; apply eq_IZR; [exact (f_equal X E)|exact (f_equal Y E)]. Qed.
Ltac flat := repeat match goal with
  | O : on_segment (P ?a ?j) (P ?b ?j) _ |- _ => apply level_in in O
  | O : on_segment (P ?a ?j) (P ?a ?l) _ |- _ => apply upright_in in O end.
Lemma rectangle_grid : forall i j k l, (i < k)%Z -> (j < l)%Z -> grid_polygon (rectangle i j k l).
Proof.
  intros i j k l Hik Hjl. pose proof (IZR_lt _ _ Hik) as Hx. pose proof (IZR_lt _ _ Hjl) as Hy. constructor.
  - cbn. lia.
  - intros v [<-|[<-|[<-|[<-|[]]]]]; (split; [reflexivity|]); eexists; eexists; split; reflexivity.
  - rewrite rectangle_sides. intros s [<-|[<-|[<-|[<-|[]]]]]; cbn [fst snd]; (split; [intros E; apply P_inj in E; lia|]); (left; reflexivity) || (right; reflexivity).
  - rewrite rectangle_sides. repeat constructor; cbn; intros Q; repeat match goal with Q : _ \/ _ |- _ => destruct Q as [Q|Q] end; try contradiction;
      injection Q; intros; repeat match goal with E : IZR _ = IZR _ |- _ => apply eq_IZR in E end; lia.
  - rewrite rectangle_sides. intros s s' p I1 I2 N O1 O2.
    destruct I1 as [<-|[<-|[<-|[<-|[]]]]], I2 as [<-|[<-|[<-|[<-|[]]]]]; try (exfalso; apply N; reflexivity); cbn [fst snd] in *; flat; try (exfalso; lra);
      (split; [(left; split; assumption) || (right; split; assumption)|(left; split; assumption) || (right; split; assumption)]).
  - apply rectangle_filled; assumption.
Qed.

(** Two rectangles without a common coordinate. *)
Section TwoRectangles.
  Variables i j k l i' j' k' l' : Z.
  Hypothesis D1 : (i < k)%Z. Hypothesis D2 : (j < l)%Z. Hypothesis D3 : (i' < k')%Z. Hypothesis D4 : (j' < l')%Z.
  Hypothesis Dx : forall a b, In a [i; k] -> In b [i'; k'] -> a <> b.
  Hypothesis Dy : forall a b, In a [j; l] -> In b [j'; l'] -> a <> b.
  Ltac far := match goal with
    | A : ?x = IZR ?a, B : ?x = IZR ?b |- _ => exfalso; assert (a = b) by (apply eq_IZR; congruence);
        (eapply Dx; [| |eassumption]; cbn; tauto) || (eapply Dy; [| |eassumption]; cbn; tauto) || lia end.
  Lemma rectangles_across : cross_only (rectangle i j k l) (rectangle i' j' k' l').
  Proof.
    pose proof (IZR_lt _ _ D1) as E1. pose proof (IZR_lt _ _ D2) as E2. pose proof (IZR_lt _ _ D3) as E3. pose proof (IZR_lt _ _ D4) as E4.
    intros s s' p I1 I2 Hc O1 O2. rewrite rectangle_sides in I1, I2.
    destruct I1 as [<-|[<-|[<-|[<-|[]]]]], I2 as [<-|[<-|[<-|[<-|[]]]]]; cbn [fst snd] in *; flat; try far; exfalso; revert Hc; unfold crossp, X, Y; cbn [vx vy]; intros Hc;
      match type of Hc with (?a - ?b) * (?c - ?d) - (?e - ?f) * (?g - ?h) = 0 =>
        assert (Q : (a - b) * (c - d) = (e - f) * (g - h)) by lra end;
      match goal with
      | Q : (?a - ?b) * (?c - ?d) = (?e - ?e) * _ |- _ => assert (Q' : (a - b) * (c - d) = 0) by lra; apply Rmult_integral in Q'; destruct Q'; lra
      | Q : (?a - ?a) * _ = (?c - ?d) * (?e - ?f) |- _ => assert (Q' : (c - d) * (e - f) = 0) by lra; apply Rmult_integral in Q'; destruct Q'; lra
      end.
  Qed.
  Ltac one := match goal with
    | A : ?x = IZR ?a, B : ?x = IZR ?b |- _ => assert (a = b) by (apply eq_IZR; congruence);
        lia || (eapply Dx; [| |eassumption]; cbn; tauto) || (eapply Dy; [| |eassumption]; cbn; tauto) || (eapply Dx; [| |symmetry; eassumption]; cbn; tauto) || (eapply Dy; [| |symmetry; eassumption]; cbn; tauto) end.
  Lemma rectangles_calm : no_turning_back (polygon_sides (rectangle i j k l) ++ polygon_sides (rectangle i' j' k' l')) /\
    no_turning_back (polygon_sides (rectangle i j k l) ++ polygon_sides (rev (rectangle i' j' k' l'))).
  Proof.
    pose proof (IZR_lt _ _ D1) as E1. pose proof (IZR_lt _ _ D2) as E2. pose proof (IZR_lt _ _ D3) as E3. pose proof (IZR_lt _ _ D4) as E4.
    assert (G : forall a b, dotp a b a b < 0 -> False).
    { intros a b Hd. unfold dotp in Hd. assert (Q1 := Rle_0_sqr (X b - X a)). assert (Q2 := Rle_0_sqr (Y b - Y a)). unfold Rsqr in *. lra. }
    split; intros s s' p I1 I2 Hc Hd O1 O2; cbn in I1, I2;
      repeat match goal with Q : _ \/ _ |- _ => destruct Q as [Q|Q] end; try contradiction; subst s s'; cbn [fst snd] in *; try (apply G in Hd; exact Hd); flat;
      try one; unfold dotp, X, Y in Hd; cbn [vx vy] in Hd; lra.
  Qed.
End TwoRectangles.

(** The number of times a rectangle surrounds a point off its sides. *)
Lemma rectangle_out : forall i j k l q, (i < k)%Z -> (j < l)%Z -> (forall s, In s (polygon_sides (rectangle i j k l)) -> ~ on_segment (fst s) (snd s) q) ->
  (winding q (polygon_sides (rectangle i j k l)) = 1%Z <-> IZR i < X q < IZR k /\ IZR j < Y q < IZR l) /\
  (winding q (polygon_sides (rectangle i j k l)) = 0%Z <-> ~ (IZR i < X q < IZR k /\ IZR j < Y q < IZR l)).
Proof.
  intros i j k l q Hik Hjl Ho. pose proof (rectangle_filled i j k l Hik Hjl q Ho) as F.
  assert (G : winding q (polygon_sides (rectangle i j k l)) = 1%Z -> IZR i < X q < IZR k /\ IZR j < Y q < IZR l).
  { intros E. pose proof (IZR_lt _ _ Hik) as Hx. pose proof (IZR_lt _ _ Hjl) as Hy.
    assert (B : IZR i <= X q <= IZR k /\ IZR j <= Y q <= IZR l).
    { apply (winding_within (rectangle i j k l)); [|rewrite E; discriminate]. intros x [<-|[<-|[<-|[<-|[]]]]]; unfold X, Y; cbn [vx vy]; lra. }
    rewrite rectangle_sides in Ho. destruct B as [Bx By].
    repeat split; apply Rnot_le_lt; intros L.
    + apply (Ho (P i l, P i j)); [right; right; right; left; reflexivity|]. apply upright_on; cbn; [reflexivity|lra|unfold X in *; lra|rewrite Rmin_right, Rmax_left by lra; unfold Y in *; lra].
    + apply (Ho (P k j, P k l)); [right; left; reflexivity|]. apply upright_on; cbn; [reflexivity|lra|unfold X in *; lra|rewrite Rmin_left, Rmax_right by lra; unfold Y in *; lra].
    + apply (Ho (P i j, P k j)); [left; reflexivity|]. apply level_on; cbn; [reflexivity|lra|unfold Y in *; lra|rewrite Rmin_left, Rmax_right by lra; unfold X in *; lra].
    + apply (Ho (P k l, P i l)); [right; right; left; reflexivity|]. apply level_on; cbn; [reflexivity|lra|unfold Y in *; lra|rewrite Rmin_right, Rmax_left by lra; unfold X in *; lra]. }
  assert (G' : IZR i < X q < IZR k /\ IZR j < Y q < IZR l -> winding q (polygon_sides (rectangle i j k l)) = 1%Z) by (intros [A B]; apply rectangle_winding; assumption).
  split; [split; assumption|]. split.
  - intros E Q. apply G' in Q. rewrite E in Q. discriminate.
  - intros N. destruct F as [F|F]; [exact F|exfalso; apply N, G, F].
Qed.

Theorem rectangles_intersection : forall H i j k l i' j' k' l' fuel p, (i < k)%Z -> (j < l)%Z -> (i' < k')%Z -> (j' < l')%Z ->
  (forall a b, In a [i; k] -> In b [i'; k'] -> a <> b) -> (forall a b, In a [j; l] -> In b [j'; l'] -> a <> b) -> (room 40 <= fuel)%nat ->
  exists pls u, poly_intersection H fuel p (Poly (rectangle i j k l) false) (Poly (rectangle i' j' k' l') false) = Ok (pls, u) /\
    forall q, (forall s, In s (polygon_sides (rectangle i j k l) ++ polygon_sides (rectangle i' j' k' l')) -> ~ on_segment (fst s) (snd s) q) ->
      (winding_all q pls = 1%Z <-> (IZR i < X q < IZR k /\ IZR j < Y q < IZR l) /\ (IZR i' < X q < IZR k' /\ IZR j' < Y q < IZR l')) /\
      (winding_all q pls = 0%Z <-> ~ ((IZR i < X q < IZR k /\ IZR j < Y q < IZR l) /\ (IZR i' < X q < IZR k' /\ IZR j' < Y q < IZR l'))).
Proof.
  intros H i j k l i' j' k' l' fuel p D1 D2 D3 D4 Dx Dy Hf.
  destruct (grid_intersection (rectangle i j k l) (rectangle i' j' k' l') (rectangle_grid _ _ _ _ D1 D2) (rectangle_grid _ _ _ _ D3 D4) (rectangles_across _ _ _ _ _ _ _ _ D1 D2 D3 D4 Dx Dy) H fuel p) as (pls & u & Hr & _ & Hw).
  - apply (rectangles_calm _ _ _ _ _ _ _ _ D1 D2 D3 D4 Dx Dy).
  - exact Hf.
  - exists pls, u. split; [exact Hr|]. intros q Hq. rewrite (Hw q Hq).
    assert (Q1 : forall s, In s (polygon_sides (rectangle i j k l)) -> ~ on_segment (fst s) (snd s) q) by (intros s Hs; apply Hq, in_or_app; left; exact Hs).
    assert (Q2 : forall s, In s (polygon_sides (rectangle i' j' k' l')) -> ~ on_segment (fst s) (snd s) q) by (intros s Hs; apply Hq, in_or_app; right; exact Hs).
    destruct (rectangle_out _ _ _ _ q D1 D2 Q1) as [A1 A0]. destruct (rectangle_out _ _ _ _ q D3 D4 Q2) as [B1 B0].
    destruct (rectangle_filled _ _ _ _ D1 D2 q Q1) as [W|W], (rectangle_filled _ _ _ _ D3 D4 q Q2) as [W'|W']; rewrite W, W' in *; cbn [Z.mul];
      (split; split; intros Q; try discriminate; try reflexivity; try (exfalso; discriminate)); rewrite <- ?A1, <- ?B1 in *; intuition discriminate.
Qed.

Lemma common_point_boxes : forall (l1 l2 : list pnt) q, l1 <> [] -> l2 <> [] -> winding q (polygon_sides l1) <> 0%Z -> winding q (polygon_sides l2) <> 0%Z -> boxes_meet (Poly l1 false) (Poly l2 false).
Proof.
  intros l1 l2 q N1 N2 W1 W2. destruct (bbox_some l1 N1) as [b1 B1]. destruct (bbox_some l2 N2) as [b2 B2]. exists b1, b2.
  pose proof (bbox_intersection_spec b1 b2) as Hs. destruct (bbox_intersection b1 b2) as [b|]; [exists b; auto|]. exfalso. apply (Hs q).
  split; [exact (winding_box l1 b1 q B1 W1)|exact (winding_box l2 b2 q B2 W2)].
Qed.
Lemma outer_corner : forall (l : list pnt) v, l <> [] -> winding v (polygon_sides l) = 0%Z -> poly_contains (Poly l false) v <> Ok (Some Inside).
Proof. intros l v N W E. destruct (contains_winding l v N) as (k & Hk & _ & Hi & _). rewrite E in Hk. injection Hk as <-. apply (Hi eq_refl W). Qed.

Lemma squares_case : grid_polygon (rectangle 0 0 2 2) /\ grid_polygon (rectangle 1 1 3 3) /\ cross_only (rectangle 0 0 2 2) (rectangle 1 1 3 3) /\
  no_turning_back (polygon_sides (rectangle 0 0 2 2) ++ polygon_sides (rectangle 1 1 3 3)) /\ no_turning_back (polygon_sides (rectangle 0 0 2 2) ++ polygon_sides (rev (rectangle 1 1 3 3))) /\
  boxes_meet (Poly (rectangle 0 0 2 2) false) (Poly (rectangle 1 1 3 3) false) /\
  (exists v, In v (rectangle 1 1 3 3) /\ poly_contains (Poly (rectangle 0 0 2 2) false) v <> Ok (Some Inside)).
Proof.
  assert (Dx : forall a b, In a [0; 2]%Z -> In b [1; 3]%Z -> a <> b) by (intros a b [<-|[<-|[]]] [<-|[<-|[]]]; discriminate).
  split; [apply rectangle_grid; reflexivity|]. split; [apply rectangle_grid; reflexivity|]. split; [apply rectangles_across; try reflexivity; exact Dx|].
  destruct (rectangles_calm 0 0 2 2 1 1 3 3) as [A B]; try reflexivity; try exact Dx. split; [exact A|]. split; [exact B|]. split.
  - apply (common_point_boxes _ _ (at_ (3/2) (3/2))); [discriminate|discriminate| |]; rewrite rectangle_winding; try reflexivity; rewrite ?X_at, ?Y_at; try lra; discriminate.
  - exists (V (A:=ArithR) 3 3 false). split; [right; right; left; reflexivity|]. apply outer_corner; [discriminate|].
    destruct (Z.eq_dec (winding (V (A:=ArithR) 3 3 false) (polygon_sides (rectangle 0 0 2 2))) 0) as [E|N]; [exact E|exfalso].
    destruct (winding_within (rectangle 0 0 2 2) (V (A:=ArithR) 3 3 false) 0 2 0 2) as [[_ Q] _]; [|exact N|unfold X in Q; cbn in Q; lra].
    intros x [<-|[<-|[<-|[<-|[]]]]]; unfold X, Y; cbn [vx vy]; lra.
Qed.
Lemma squares_laid : exists Z, laid_out Z (polygon_sides (rectangle 0 0 2 2)) (polygon_sides (rectangle 1 1 3 3)) /\
  no_counter Z (polygon_sides (rectangle 0 0 2 2) ++ polygon_sides (rectangle 1 1 3 3)) /\ no_counter Z (polygon_sides (rectangle 0 0 2 2) ++ polygon_sides (rev (rectangle 1 1 3 3))) /\
  middles_clear Z (polygon_sides (rectangle 0 0 2 2)) (polygon_sides (rectangle 1 1 3 3)) /\ middles_clear Z (polygon_sides (rectangle 1 1 3 3)) (polygon_sides (rectangle 0 0 2 2)) /\
  filled_once (rectangle 0 0 2 2) /\ filled_once (rectangle 1 1 3 3) /\
  (exists q, (forall s, In s (polygon_sides (rectangle 0 0 2 2) ++ polygon_sides (rectangle 1 1 3 3)) -> ~ on_segment (fst s) (snd s) q) /\
    (winding q (polygon_sides (rectangle 0 0 2 2)) * winding q (polygon_sides (rectangle 1 1 3 3)) = 1)%Z).
Proof.
  destruct squares_case as (G1 & G2 & C & A & B & _ & _). exists (grid_points (rectangle 0 0 2 2) (rectangle 1 1 3 3)).
  split; [apply grid_laid; assumption|].
  assert (S1 : forall s, In s (polygon_sides (rectangle 0 0 2 2)) -> straight s) by (intros s; apply side_straight, G1).
  assert (S2 : forall s, In s (polygon_sides (rectangle 1 1 3 3)) -> straight s) by (intros s; apply side_straight, G2).
  split; [apply grid_calm; [|exact A]; intros s Hs; apply in_app_or in Hs; destruct Hs; auto|].
  split; [apply grid_calm; [|exact B]; intros s Hs; apply in_app_or in Hs; destruct Hs as [Hs|Hs]; [auto|rewrite <- (turn_turn s); apply turned_straight, S2, side_turned, Hs]|].
  split; [apply grid_clear; [intros z; apply grid_points_corner; assumption|exact S2]|]. split; [apply grid_clear; [intros z; apply grid_points_corner; assumption|exact S1]|].
  split; [apply (gp_filled _ G1)|]. split; [apply (gp_filled _ G2)|].
  exists (at_ (3/2) (3/2)). split.
  - intros s Hs Ho. cbn in Hs. repeat match goal with Q : _ \/ _ |- _ => destruct Q as [Q|Q] end; try contradiction; subst s; cbn [fst snd] in Ho; destruct Ho as (t & Ht & [Ex Ey]); rewrite X_at in Ex; rewrite Y_at in Ey; unfold X, Y in *; cbn [vx vy] in *; lra.
  - rewrite !rectangle_winding; try reflexivity; rewrite ?X_at, ?Y_at; lra.
Qed.

Theorem union_all : forall H Z l1 l2 fuel p, (3 <= length l1)%nat -> (3 <= length l2)%nat ->
  laid_out Z (polygon_sides l1) (polygon_sides l2) ->
  middles_clear Z (polygon_sides l1) (polygon_sides l2) -> middles_clear Z (polygon_sides l2) (polygon_sides l1) ->
  filled_once l1 -> filled_once l2 -> boxes_meet (Poly l1 false) (Poly l2 false) -> (room (length Z) <= fuel)%nat ->
  exists rings : list (list pnt), (forall l, In l rings -> (3 <= length l)%nat) /\
    (forall q, (forall s, In s (polygon_sides l1 ++ polygon_sides l2) -> ~ on_segment (fst s) (snd s) q) ->
      winding_all q (rings_of rings) =
        (winding q (polygon_sides l1) + winding q (polygon_sides l2) - winding q (polygon_sides l1) * winding q (polygon_sides l2))%Z) /\
    match poly_union H fuel p (Poly l1 false) (Poly l2 false) with
    | Ok (Some (pl, u)) => popened pl = false /\ 0 < shoelace (polygon_sides (pverts pl)) /\
        (exists before after, rings = before ++ pverts pl :: after /\ forall l s, In l (before ++ after) -> In s (polygon_sides l) -> In s u) /\
        ((forall e, In e u -> poly_contains (Poly l1 false) (midpoint (fst e) (snd e)) = Ok (Some Inside) \/
            poly_contains (Poly l2 false) (midpoint (fst e) (snd e)) = Ok (Some Inside)) ->
          forall q, (forall s, In s (polygon_sides l1 ++ polygon_sides l2) -> ~ on_segment (fst s) (snd s) q) ->
            winding q (polygon_sides (pverts pl)) =
              (winding q (polygon_sides l1) + winding q (polygon_sides l2) - winding q (polygon_sides l1) * winding q (polygon_sides l2))%Z)
    | Ok None => forall l, In l rings -> shoelace (polygon_sides l) < 0
    | Panic => exists l, In l rings /\ shoelace (polygon_sides l) = 0
    | NoFuel => False
    end.
Proof.
  intros H Z l1 l2 fuel p L1 L2 HL HM1 HM2 F1 F2 HB Hf.
  destruct (union_surrounds H Z l1 l2 fuel p L1 L2 HL HM1 HM2 F1 F2 HB Hf) as (rings & A & B & C). exists rings. split; [exact A|]. split; [exact B|].
  destruct (poly_union H fuel p (Poly l1 false) (Poly l2 false)) as [[[pl u]|]| |] eqn:E; try exact C.
  destruct C as (C1 & C2 & C3). split; [exact C1|]. split; [exact C2|]. split; [exact C3|]. intros Hu q Hq.
  exact (union_whole H Z l1 l2 fuel p pl u L1 L2 HL HM1 HM2 F1 F2 Hf E Hu q Hq).
Qed.
