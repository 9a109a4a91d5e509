(** P_Ff1.v — a polygon is filled exactly when its sides are free. *)

From Coq Require Import Reals List ZArith Lra Lia Bool.
From Verif Require Import Base Arith Geometry Elements Polyline Procedures Triangulator ArithR Spec SpecR SpecD SpecP
  P_Base P_R1 P_RX P_D8 P_Polygon P_Polygon3 P_C5 P_Y4 P_Y7.
Import ListNotations.
Local Open Scope R_scope.

(** Moving the centre of a circle through [a] and [b] away along the bisector. *)
Lemma slid_centre : forall (o a b w : pnt) s, d2 o a = d2 o b ->
  let o' := at_ (X o + s * (Y b - Y a)) (Y o - s * (X b - X a)) in
  d2 o' a = d2 o' b /\ d2 o' w - d2 o' a = d2 o w - d2 o a + 2 * s * area2 a b w.
Proof. intros o a b w s. unfold d2, area2. cbn zeta. rewrite !X_at, !Y_at. intros E. split; nra. Qed.

Lemma small_slide : forall l (o a b : pnt), (forall w, In w l -> w <> a -> w <> b -> d2 o a < d2 o w \/ (d2 o a = d2 o w /\ 0 < area2 a b w)) ->
  exists s0, 0 < s0 /\ forall s, 0 < s <= s0 -> forall w, In w l -> w <> a -> w <> b -> 0 < d2 o w - d2 o a + 2 * s * area2 a b w.
Proof.
  intros l o a b Hl. induction l as [|x l IH]; [exists 1; split; [lra|intros s _ w []]|].
  destruct IH as (s0 & P0 & IH); [intros w Hw; apply Hl; right; exact Hw|].
  destruct (vdec x a) as [-> |Na].
  { exists s0. split; [exact P0|]. intros s Hs w [<-|Hw] N1 N2; [contradiction|apply IH; assumption]. }
  destruct (vdec x b) as [-> |Nb].
  { exists s0. split; [exact P0|]. intros s Hs w [<-|Hw] N1 N2; [contradiction|apply IH; assumption]. }
  destruct (Hl x (or_introl eq_refl) Na Nb) as [Px|[Ex Px]].
  - set (k := d2 o x - d2 o a). set (d := area2 a b x). assert (Pk : 0 < k) by (unfold k; lra).
    assert (Pd : 0 < 2 * Rabs d + 1) by (pose proof (Rabs_pos d); lra).
    exists (Rmin s0 (k / (2 * Rabs d + 1))). split.
    { apply Rmin_glb_lt; [exact P0|]. apply Rdiv_lt_0_compat; assumption. }
    intros s [Ps Hs] w [<-|Hw] N1 N2; [|apply IH; try assumption; pose proof (Rmin_l s0 (k / (2 * Rabs d + 1))); lra].
    fold k d. pose proof (Rmin_r s0 (k / (2 * Rabs d + 1))) as Hm.
    assert (Hk : s * (2 * Rabs d + 1) <= k).
    { apply Rle_trans with (k / (2 * Rabs d + 1) * (2 * Rabs d + 1)); [apply Rmult_le_compat_r; lra|]. right. field. lra. }
    assert (- Rabs d <= d) by (pose proof (Rle_abs (- d)) as Q; rewrite Rabs_Ropp in Q; lra). nra.
  - exists s0. split; [exact P0|]. intros s Hs w [<-|Hw] N1 N2; [nra|apply IH; assumption].
Qed.

(** A side of a triangle whose circle is empty is free, when no four points share a circle. *)
Lemma empty_free : forall l (a b c : pnt), In a l -> In b l -> In c l -> no_four_on_a_circle l -> 0 < area2 a b c -> empty_circle l a b c -> free_side l a b.
Proof.
  intros l a b c Ia Ib Ic H4 Pa He. destruct (proj2 (circumcenter_spec a b c)) as (o & _ & _ & E1 & E2 & _); [lra|].
  assert (Nab : a <> b) by (intros ->; unfold area2 in Pa; lra).
  assert (Nac : a <> c) by (intros ->; unfold area2 in Pa; lra).
  assert (Nbc : b <> c) by (intros ->; unfold area2 in Pa; lra).
  destruct (small_slide l o a b) as (s & Ps & Hs).
  { intros w Hw Na Nb. destruct (vdec w c) as [-> |Nc]; [right; split; [exact E2|exact Pa]|left].
    destruct (Rle_lt_or_eq_dec _ _ (He o w Hw E1 E2)) as [L|E]; [exact L|exfalso].
    apply (H4 o a b c w Ia Ib Ic Hw); try assumption.
    repeat constructor; cbn [In]; intuition congruence. }
  exists (at_ (X o + s * (Y b - Y a)) (Y o - s * (X b - X a))). destruct (slid_centre o a b a s E1) as [Eo _]. split; [exact Eo|].
  intros w Hw Na Nb. destruct (slid_centre o a b w s E1) as [_ Ew]. pose proof (Hs s ltac:(lra) w Hw Na Nb). lra.
Qed.

Lemma area2_turn : forall a b c : pnt, area2 b c a = area2 a b c.
Proof. intros. unfold area2. ring. Qed.
Lemma empty_turn : forall l (a b c : pnt), empty_circle l a b c -> empty_circle l b c a.
Proof. intros l a b c He o w Hw E1 E2. rewrite E2. apply He; [exact Hw|congruence|congruence]. Qed.

Theorem filled_free : forall l (tr : mesh), no_four_on_a_circle l -> fills l tr -> forall a b, In (a, b) (polygon_sides l) -> free_side l a b.
Proof.
  intros l tr H4 HF a b Hs. destruct (fl_border _ _ HF _ Hs) as (u & Hu & Hside).
  inversion Hside as [x y c E1 E2|c x y E1 E2|y c x E1 E2]; subst; destruct (fl_shape _ _ HF _ _ _ Hu) as (Ia & Ib & Ic & Pa & He).
  - exact (empty_free l a b c Ia Ib Ic H4 Pa He).
  - apply (empty_free l a b c Ib Ic Ia H4); [rewrite area2_turn; exact Pa|apply empty_turn, He].
  - apply (empty_free l a b c Ic Ia Ib H4); [rewrite <- area2_turn; exact Pa|apply empty_turn, empty_turn, He].
Qed.

Theorem filled_iff : forall (H : HashOrder) fuel p (t t' : triangulator ArithR) l, only_polygon t l -> NoDup l -> resolved l -> no_four_on_a_circle l ->
  0 < shoelace (polygon_sides l) -> triangulate H fuel p t = Ok t' ->
  (fills l (t_trn t') <->
   (forall a b, In (a, b) (polygon_sides l) -> free_side l a b) /\ (forall w, In w l -> exists u, solid_in (t_trn t') u /\ corner_of w u)).
Proof.
  intros H fuel p t t' l Ho Hn HR H4 Ha Hr. split.
  - intros HF. split; [exact (filled_free l _ H4 HF)|]. intros w Hw. destruct (polygon_ends_in l w Hw) as ([x y] & Hs & Ew). cbn [snd] in Ew. subst y.
    destruct (fl_border _ _ HF _ Hs) as (u & Hu & Hside). exists u. split; [exact Hu|]. inversion Hside; subst; constructor.
  - intros [Hf Hu]. exact (polygon_filled_free H fuel p t t' l Ho Hn HR Ha Hf Hr Hu).
Qed.

(** ** A sample: a side with a corner close on each hand *)
Definition pinched : list pnt := [at_ 0 0; at_ 10 0; at_ 5 1; at_ (- 20) (- 1); at_ 5 (- 2)].
Lemma pinched_apart : NoDup pinched /\ no_four_on_a_circle pinched.
Proof.
  assert (N : forall x y x' y', x <> x' \/ y <> y' -> at_ x y <> at_ x' y') by (intros x y x' y' Hn E; injection E; intros; lra).
  split.
  - unfold pinched. repeat (constructor; [cbn [In]; intros Hi; repeat (destruct Hi as [Hi|Hi]; [revert Hi; apply N; lra|]); exact Hi|]). constructor.
  - intros o a b c d Ha Hb Hc Hd Hn E1 E2 E3. unfold pinched in *. cbn [In app] in Ha, Hb, Hc, Hd.
    inversion Hn as [|? ? Q1 Hn1]. inversion Hn1 as [|? ? Q2 Hn2]. inversion Hn2 as [|? ? Q3 _]. cbn [In] in Q1, Q2, Q3. subst. clear Hn Hn1 Hn2.
    destruct Ha as [<-|[<-|[<-|[<-|[<-|[]]]]]]; destruct Hb as [<-|[<-|[<-|[<-|[<-|[]]]]]]; try tauto; destruct Hc as [<-|[<-|[<-|[<-|[<-|[]]]]]]; try tauto; destruct Hd as [<-|[<-|[<-|[<-|[<-|[]]]]]]; try tauto;
      unfold d2 in E1, E2, E3; rewrite ?X_at, ?Y_at in E1, E2, E3; lra.
Qed.
Lemma pinched_side : In (at_ 0 0, at_ 10 0) (polygon_sides pinched) /\ ~ free_side pinched (at_ 0 0) (at_ 10 0).
Proof.
  assert (N : forall x y x' y', x <> x' \/ y <> y' -> at_ x y <> at_ x' y') by (intros x y x' y' Hn E; injection E; intros; lra).
  split; [left; reflexivity|]. intros (o & E & Hw).
  pose proof (Hw (at_ 5 1) ltac:(unfold pinched; cbn [In]; tauto) ltac:(apply N; lra) ltac:(apply N; lra)) as L1.
  pose proof (Hw (at_ 5 (- 2)) ltac:(unfold pinched; cbn [In]; tauto) ltac:(apply N; lra) ltac:(apply N; lra)) as L2.
  unfold d2 in *. rewrite ?X_at, ?Y_at in *. lra.
Qed.
Theorem blocked_unfilled : forall l a b, no_four_on_a_circle l -> In (a, b) (polygon_sides l) -> ~ free_side l a b -> forall tr : mesh, ~ fills l tr.
Proof. intros l a b H4 Hs Hn tr HF. exact (Hn (filled_free l tr H4 HF a b Hs)). Qed.

Lemma case_pinched : NoDup pinched /\ no_four_on_a_circle pinched /\ 0 < shoelace (polygon_sides pinched) /\
  In (at_ 0 0, at_ 10 0) (polygon_sides pinched) /\ ~ free_side pinched (at_ 0 0) (at_ 10 0).
Proof.
  split; [apply pinched_apart|]. split; [apply pinched_apart|]. split; [|exact pinched_side].
  unfold pinched, shoelace. cbn. lra.
Qed.
Lemma case_iff : only_polygon dart_input dart /\ NoDup dart /\ resolved dart /\ no_four_on_a_circle dart /\ 0 < shoelace (polygon_sides dart) /\
  exists n0 t', triangulate ho_id n0 [] dart_input = Ok t' /\ fills dart (t_trn t').
Proof.
  destruct case_dart as (Ho & Hn & HR & Ha & _ & n0 & t' & Hr & _ & _ & HF). pose proof (proj1 (proj2 (proj2 (proj2 case_float_dart)))) as H4.
  split; [exact Ho|]. split; [exact Hn|]. split; [exact HR|]. split; [exact H4|]. split; [exact Ha|]. exists n0, t'. split; assumption.
Qed.
