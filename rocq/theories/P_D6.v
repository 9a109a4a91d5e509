(** P_D6.v — a new point is always in conflict with some triangle of a mesh that
    is not a bare segment; consequences for insertion one point at a time. *)

From Coq Require Import Reals List ZArith Lra Lia Psatz Bool Permutation.
From Verif Require Import Base Arith Geometry Elements Polyline Procedures ArithR Spec SpecR SpecD
  P_Base P_Trn P_Fuel P_Vertices P_Cavity P_R1 P_R2 P_R5 P_D1 P_D2 P_D3 P_D4 P_D5.
Import ListNotations.
Local Open Scope R_scope.

(** ** Plane lemmas *)
Lemma I_bary : forall a b c v,
  I a b c v * D a b c = D a b v * D b c v * d2 c a + D b c v * D c a v * d2 a b + D c a v * D a b v * d2 b c.
Proof. intros. unfold incircle, Rdet4, Rdet3, area2, d2. ring. Qed.
Lemma D_sum : forall a b c v, D a b v + D b c v + D c a v = D a b c.
Proof. intros. unfold area2. ring. Qed.
Lemma two_zero : forall a b c v, D a b c <> 0 -> D a b v = 0 -> D b c v = 0 -> coincide v b.
Proof.
  intros a b c v Hn H1 H2.
  assert (Ex : (X v - X b) * D a b c = 0).
  { replace ((X v - X b) * D a b c) with ((X c - X b) * D a b v - (X b - X a) * D b c v); [rewrite H1, H2; ring|]. unfold area2. ring. }
  assert (Ey : (Y v - Y b) * D a b c = 0).
  { replace ((Y v - Y b) * D a b c) with ((Y c - Y b) * D a b v - (Y b - Y a) * D b c v); [rewrite H1, H2; ring|]. unfold area2. ring. }
  apply div_eq in Ex; [|exact Hn]. apply div_eq in Ey; [|exact Hn]. split; lra.
Qed.

Lemma I_closed : forall a b c v : pnt, vghost a = false -> vghost b = false -> vghost c = false -> vghost v = false -> v <> a -> v <> b -> v <> c ->
  0 < D a b c -> 0 <= D a b v -> 0 <= D b c v -> 0 <= D c a v -> 0 < I a b c v.
Proof.
  intros a b c v Ga Gb Gc Gv Na Nb Nc HD H1 H2 H3. apply (div_gt _ (D a b c)); [exact HD|]. rewrite I_bary. destruct (D_neq _ _ _ HD) as (n1 & n2 & n3).
  assert (P1 : 0 < d2 c a) by (apply d2_pos; auto). assert (P2 : 0 < d2 a b) by (apply d2_pos; auto). assert (P3 : 0 < d2 b c) by (apply d2_pos; auto).
  pose proof (mpp _ _ (mpp _ _ H1 H2) (Rlt_le _ _ P1)) as M1. pose proof (mpp _ _ (mpp _ _ H2 H3) (Rlt_le _ _ P2)) as M2. pose proof (mpp _ _ (mpp _ _ H3 H1) (Rlt_le _ _ P3)) as M3.
  assert (Hn : D a b c <> 0) by lra.
  destruct (Rle_lt_or_eq_dec _ _ H1) as [L1|E1]; destruct (Rle_lt_or_eq_dec _ _ H2) as [L2|E2]; destruct (Rle_lt_or_eq_dec _ _ H3) as [L3|E3].
  - pose proof (spp _ _ (spp _ _ L1 L2) P1). lra.
  - pose proof (spp _ _ (spp _ _ L1 L2) P1). lra.
  - pose proof (spp _ _ (spp _ _ L3 L1) P3). lra.
  - exfalso. apply Nc. apply plain_coincide; auto. apply (two_zero b c a v); [rewrite D_rot; exact Hn|lra|lra].
  - pose proof (spp _ _ (spp _ _ L2 L3) P2). lra.
  - exfalso. apply Na. apply plain_coincide; auto. apply (two_zero c a b v); [rewrite D_rot2; exact Hn|lra|lra].
  - exfalso. apply Nb. apply plain_coincide; auto. apply (two_zero a b c v); [exact Hn|lra|lra].
  - pose proof (D_sum a b c v). lra.
Qed.

Lemma list_max : forall X (f : X -> R) l x, In x l -> exists m, In m l /\ forall y, In y l -> f y <= f m.
Proof.
  intros X f l. induction l as [|a l IH]; intros x Hx; [destruct Hx|]. destruct l as [|b l].
  - exists a. split; [left; reflexivity|]. intros y [<-|[]]. lra.
  - destruct (IH b (or_introl eq_refl)) as (m & Hm & Hmax). destruct (Rle_dec (f a) (f m)) as [L|L].
    + exists m. split; [right; exact Hm|]. intros y [<-|Hy]; [exact L|apply Hmax, Hy].
    + exists a. split; [left; reflexivity|]. intros y [<-|Hy]; [lra|]. pose proof (Hmax y Hy). lra.
Qed.

Section Cover.
  Variables (S : list pnt) (tr : mesh) (v s0 : pnt).
  Hypothesis HD : delaunay S tr.
  Hypothesis HR : resolved (s0 :: S).

  Definition is_solid (t : tri) (a b c : pnt) : Prop :=
    In t (tris tr) /\ looks t a b c /\ In a S /\ In b S /\ In c S /\ 0 < D a b c.
  (** The power of [v] is least. *)
  Definition nearest (a b c : pnt) : Prop :=
    forall t' a' b' c', is_solid t' a' b' c' -> I a' b' c' v * D a b c <= I a b c v * D a' b' c'.
  Definition arc (a b c : pnt) : nat := length (filter (fun w => Reqb (I a b c w) 0 && Rltb (D a b w) 0) S).

  Lemma solid_rot : forall t a b c, is_solid t a b c -> is_solid t b c a.
  Proof. intros t a b c (H1 & H2 & H3 & H4 & H5 & H6). repeat (split; [auto using looks_rot|]). rewrite D_rot. exact H6. Qed.
  Lemma nearest_rot : forall a b c, nearest a b c -> nearest b c a.
  Proof. intros a b c H t' a' b' c' Hs. rewrite (I_rot a b c), (D_rot a b c). apply (H t' a' b' c' Hs). Qed.
  (** No closed triangle contains [v] and no outer face sees it. *)
  Definition nowhere : Prop := (forall t a b c, is_solid t a b c -> D a b v < 0 \/ D b c v < 0 \/ D c a v < 0) /\
    forall a b, In (Tri a b gv) (tris tr) -> D a b v <= 0.

  Lemma walk : nowhere -> forall n t a b c, is_solid t a b c -> nearest a b c -> D a b v < 0 -> (arc a b c <= n)%nat -> False.
  Proof.
    intros [Hcl Hgh] n. induction n as [n IH] using (well_founded_induction lt_wf). intros t a b c Hs Hm Hd Hn.
    pose proof Hs as (H1 & H2 & H3 & H4 & H5 & H6). pose proof (plainS S s0 HR) as P.
    destruct (dl_closed _ _ HD t (a, b) H1) as (u & Hu & Su); [apply (looks_sides _ _ _ _ H2); auto|]. cbn [flip fst snd] in Su.
    destruct (view S tr HD u b a Hu Su) as (_ & _ & _ & [(d & Hd1 & Hl & Hd2)| ->]); [intros ->; specialize (P _ H4); discriminate|intros ->; specialize (P _ H3); discriminate| |].
    2:{ apply Hgh in Hu. rewrite D_swap in Hu. lra. }
    assert (Hu' : is_solid u b a d) by (repeat (split; [assumption|]); assumption).
    pose proof (Hm u b a d Hu') as Hle. pose proof (cross_power a b c d v) as Hc.
    assert (HI : I a b c d <= 0).
    { destruct H2 as [-> | [-> | ->]].
      - apply (I_none S tr s0 HD HR a b c); auto.
      - rewrite <- (I_rot a b c). apply (I_none S tr s0 HD HR b c a); auto.
      - rewrite <- (I_rot2 a b c). apply (I_none S tr s0 HD HR c a b); auto. }
    assert (HI0 : I a b c d = 0).
    { pose proof (mpn (- D a b v) (I a b c d) ltac:(lra) HI) as M. apply (div_eq _ (- D a b v)); [lra|]. lra. }
    assert (Hm' : nearest b a d).
    { intros t' a' b' c' Hs'. pose proof (Hm t' a' b' c' Hs') as M. pose proof Hs' as (_ & _ & _ & _ & _ & Hp').
      assert (E : I a b c v * D b a d = I b a d v * D a b c) by (rewrite HI0 in Hc; lra).
      pose proof (mpp (D b a d) (I a b c v * D a' b' c' - I a' b' c' v * D a b c) ltac:(lra) ltac:(lra)) as M2.
      assert (M3 : 0 <= (I b a d v * D a' b' c' - I a' b' c' v * D b a d) * D a b c).
      { replace ((I b a d v * D a' b' c' - I a' b' c' v * D b a d) * D a b c) with (I b a d v * D a b c * D a' b' c' - I a' b' c' v * D b a d * D a b c) by ring.
        rewrite <- E. lra. }
      apply div_ge in M3; [lra|exact H6]. }
    assert (Gd : vghost d = false) by (apply P, Hd1). destruct (D_neq _ _ _ Hd2) as (n1 & n2 & n3).
    assert (Pda : 0 < d2 d a) by (apply d2_pos; auto). assert (Pdb : 0 < d2 d b) by (apply d2_pos; auto). assert (Pab : 0 < d2 a b) by (apply d2_pos; auto). assert (Pba : 0 < d2 b a) by (apply d2_pos; auto).
    assert (Dd : D a b d < 0) by (rewrite D_swap in Hd2; lra).
    assert (Hcirc : forall w, I b a d w = 0 -> I a b c w = 0).
    { intros w Hw. pose proof (same_circle a b c d w HI0) as E. rewrite Hw in E. apply (div_eq _ (D b a d)); [lra|]. lra. }
    destruct (Hcl u b a d Hu') as [L|[L|L]]; [rewrite D_swap in L; lra| |].
    - apply (IH (arc a d b)) with (t := u) (a := a) (b := d) (c := b); [|apply solid_rot, Hu'|apply nearest_rot, Hm'|exact L|lia].
      apply (Nat.lt_le_trans _ (arc a b c)); [|exact Hn]. unfold arc. apply (filter_lt _ _ _ S d); [|exact Hd1| |].
      + intros w _ Hw. apply andb_true_iff in Hw. destruct Hw as [W1 W2]. destruct (Reqb_spec (I a d b w) 0) as [E|]; [|discriminate]. destruct (Rltb_spec (D a d w) 0) as [Q|]; [|discriminate].
        rewrite I_rot in E. apply andb_true_iff. split; [destruct (Reqb_spec (I a b c w) 0) as [|nq]; [reflexivity|exfalso; apply nq, Hcirc, E]|].
        destruct (Rltb_spec (D a b w) 0) as [|nq]; [reflexivity|exfalso; apply (Rle_not_lt _ _ nq)]. apply (arc_first a b d w); auto; [|lra]. rewrite I_swap in E. lra.
      + apply andb_true_iff. split; [destruct (Reqb_spec (I a b c d) 0); [reflexivity|contradiction]|destruct (Rltb_spec (D a b d) 0); [reflexivity|lra]].
      + apply andb_false_iff. right. destruct (Rltb_spec (D a d d) 0) as [Q|]; [rewrite D_ab_b in Q; lra|reflexivity].
    - apply (IH (arc d b a)) with (t := u) (a := d) (b := b) (c := a); [|apply solid_rot, solid_rot, Hu'|apply nearest_rot, nearest_rot, Hm'|exact L|lia].
      apply (Nat.lt_le_trans _ (arc a b c)); [|exact Hn]. unfold arc. apply (filter_lt _ _ _ S d); [|exact Hd1| |].
      + intros w _ Hw. apply andb_true_iff in Hw. destruct Hw as [W1 W2]. destruct (Reqb_spec (I d b a w) 0) as [E|]; [|discriminate]. destruct (Rltb_spec (D d b w) 0) as [Q|]; [|discriminate].
        rewrite I_rot2 in E. apply andb_true_iff. split; [destruct (Reqb_spec (I a b c w) 0) as [|nq]; [reflexivity|exfalso; apply nq, Hcirc, E]|].
        destruct (Rltb_spec (D a b w) 0) as [|nq]; [reflexivity|exfalso; apply (Rle_not_lt _ _ nq)]. apply (arc_second a b d w); auto; [|lra]. rewrite I_swap in E. lra.
      + apply andb_true_iff. split; [destruct (Reqb_spec (I a b c d) 0); [reflexivity|contradiction]|destruct (Rltb_spec (D a b d) 0); [reflexivity|lra]].
      + apply andb_false_iff. right. destruct (Rltb_spec (D d b d) 0) as [Q|]; [rewrite D_ab_a in Q; lra|reflexivity].
  Qed.

  Lemma somewhere : (exists t, In t (tris tr) /\ solid_over S t) -> ~ nowhere.
  Proof.
    intros (t0 & Ht0 & a0 & b0 & c0 & E0 & Ha0 & Hb0 & Hc0 & Hp0) Hno. pose proof (plainS S s0 HR) as P.
    set (rat := fun t : tri => I (tv1 t) (tv2 t) (tv3 t) v / D (tv1 t) (tv2 t) (tv3 t)).
    assert (Hsol : forall t, In t (filter (fun t => negb (vghost (tv3 t))) (tris tr)) <-> In t (tris tr) /\ solid_over S t).
    { intros t. rewrite filter_In. split.
      - intros [Hi Hg]. split; [exact Hi|]. destruct (dl_shape _ _ HD t Hi) as [Hs|(a & b & -> & _)]; [exact Hs|discriminate].
      - intros [Hi (a & b & c & -> & _ & _ & Hc & _)]. split; [exact Hi|]. cbn. rewrite (P _ Hc). reflexivity. }
    destruct (list_max _ rat (filter (fun t => negb (vghost (tv3 t))) (tris tr)) t0) as (m & Hm & Hmax).
    { apply Hsol. split; [exact Ht0|]. exists a0, b0, c0. auto. }
    apply Hsol in Hm. destruct Hm as [Hmi (a & b & c & -> & Ha & Hb & Hc & Hp)].
    assert (Hs : is_solid (Tri a b c) a b c) by (split; [assumption|split; [left; reflexivity|]]; auto).
    assert (Hne : nearest a b c).
    { intros t' a' b' c' (H1 & H2 & H3 & H4 & H5 & H6).
      assert (Hin : In t' (filter (fun t => negb (vghost (tv3 t))) (tris tr))).
      { apply Hsol. split; [exact H1|]. destruct H2 as [-> | [-> | ->]]; [exists a', b', c'|exists b', c', a'|exists c', a', b']; repeat (split; [auto|]); rewrite ?(D_rot a' b' c'), ?(D_rot2 a' b' c'); exact H6. }
      pose proof (Hmax t' Hin) as Hle. assert (Er : rat t' = I a' b' c' v / D a' b' c').
      { unfold rat. destruct H2 as [-> | [-> | ->]]; cbn [tv1 tv2 tv3]; [reflexivity|rewrite (I_rot a' b' c'), (D_rot a' b' c'); reflexivity|rewrite (I_rot2 a' b' c'), (D_rot2 a' b' c'); reflexivity]. }
      rewrite Er in Hle. unfold rat in Hle. cbn [tv1 tv2 tv3] in Hle.
      apply (Rmult_le_compat_r (D a' b' c' * D a b c)) in Hle; [|apply mpp; lra].
      replace (I a' b' c' v / D a' b' c' * (D a' b' c' * D a b c)) with (I a' b' c' v * D a b c) in Hle by (field; lra).
      replace (I a b c v / D a b c * (D a' b' c' * D a b c)) with (I a b c v * D a' b' c') in Hle by (field; lra). exact Hle. }
    destruct (proj1 Hno _ a b c Hs) as [L|[L|L]].
    + apply (walk Hno (arc a b c) (Tri a b c) a b c); auto.
    + apply (walk Hno (arc b c a) (Tri a b c) b c a); auto using solid_rot, nearest_rot.
    + apply (walk Hno (arc c a b) (Tri a b c) c a b); auto using solid_rot, nearest_rot.
  Qed.
End Cover.

(** Every point of the plane is in a closed triangle or sees an outer face. *)
Lemma covered : forall S (tr : mesh) q, delaunay S tr -> resolved S -> (exists t, In t (tris tr) /\ solid_over S t) ->
  (exists a b c, In (Tri a b c) (tris tr) /\ vghost c = false /\ 0 <= D a b q /\ 0 <= D b c q /\ 0 <= D c a q) \/
  (exists a b, In (Tri a b gv) (tris tr) /\ 0 < D a b q).
Proof.
  intros S tr q HD HR Hs. destruct Hs as (t0 & Ht0 & a0 & Hs0).
  assert (Ha0 : In a0 S) by (destruct Hs0 as (b0 & c0 & _ & H & _); exact H).
  assert (HR' : resolved (a0 :: S)) by (apply (resolved_incl S); [exact HR|intros w [<-|Hw]; assumption]).
  set (cl := fun t : tri => negb (vghost (tv3 t)) && Rleb 0 (D (tv1 t) (tv2 t) q) && Rleb 0 (D (tv2 t) (tv3 t) q) && Rleb 0 (D (tv3 t) (tv1 t) q)).
  set (gh := fun t : tri => vghost (tv3 t) && Rltb 0 (D (tv1 t) (tv2 t) q)).
  destruct (existsb cl (tris tr)) eqn:E1; [left|destruct (existsb gh (tris tr)) eqn:E2; [right|exfalso]].
  - apply existsb_exists in E1. destruct E1 as ([a b c] & Hi & Hc). unfold cl in Hc. cbn [tv1 tv2 tv3] in Hc. rewrite !andb_true_iff in Hc. destruct Hc as (((Hg & H1) & H2) & H3).
    exists a, b, c. split; [exact Hi|]. split; [destruct (vghost c); [discriminate|reflexivity]|].
    split; [destruct (Rleb_spec 0 (D a b q)); [assumption|discriminate]|]. split; [destruct (Rleb_spec 0 (D b c q)); [assumption|discriminate]|destruct (Rleb_spec 0 (D c a q)); [assumption|discriminate]].
  - apply existsb_exists in E2. destruct E2 as (t & Hi & Hc). unfold gh in Hc. apply andb_true_iff in Hc. destruct Hc as [Hg Hd].
    destruct (dl_shape _ _ HD t Hi) as [(a & b & c & -> & _ & _ & H3 & _)|(a & b & -> & _)]; cbn in Hg.
    + rewrite (rs_plain _ HR c H3) in Hg. discriminate.
    + exists a, b. split; [exact Hi|]. cbn [tv1 tv2 tv3] in Hd. destruct (Rltb_spec 0 (D a b q)); [assumption|discriminate].
  - apply (somewhere S tr q a0 HD HR'); [exists t0; split; [exact Ht0|exists a0; exact Hs0]|]. split.
    + intros t a b c (H1 & H2 & H3 & H4 & H5 & H6).
      destruct (Rlt_dec (D a b q) 0) as [L|L1]; [auto|]. destruct (Rlt_dec (D b c q) 0) as [L|L2]; [auto|]. destruct (Rlt_dec (D c a q) 0) as [L|L3]; [auto|]. exfalso.
      assert (cl t = true).
      { unfold cl. destruct H2 as [-> | [-> | ->]]; cbn [tv1 tv2 tv3]; rewrite (rs_plain _ HR) by assumption; cbn [negb andb];
        destruct (Rleb_spec 0 (D a b q)); try lra; destruct (Rleb_spec 0 (D b c q)); try lra; destruct (Rleb_spec 0 (D c a q)); try lra; reflexivity. }
      assert (existsb cl (tris tr) = true) by (apply existsb_exists; eauto). congruence.
    + intros a b Hi. destruct (Rle_dec (D a b q) 0) as [L|L]; [exact L|exfalso].
      assert (existsb gh (tris tr) = true); [|congruence]. apply existsb_exists. exists (Tri a b gv). split; [exact Hi|]. unfold gh. cbn [tv1 tv2 tv3].
      destruct (Rltb_spec 0 (D a b q)); [reflexivity|lra].
Qed.

(** A new point is in conflict with some triangle. *)
Lemma located : forall S (tr : mesh) v, delaunay S tr -> resolved (v :: S) -> ~ In v S -> (exists t, In t (tris tr) /\ solid_over S t) ->
  exists t, In t (tris tr) /\ encircles t v = Inside.
Proof.
  intros S tr v HD HR Hv Hs.
  assert (HRS : resolved S) by (apply (resolved_incl (v :: S)); [exact HR|intros w Hw; right; exact Hw]).
  assert (Hn : forall w, In w S -> v <> w) by (intros w Hw ->; auto).
  destruct (covered S tr v HD HRS Hs) as [(a & b & c & Hi & Gc & H1 & H2 & H3)|(a & b & Hi & H1)].
  - exists (Tri a b c). split; [exact Hi|]. pose proof (plainS S v HR) as P.
    destruct (dl_shape _ _ HD _ Hi) as [(a' & b' & c' & E & Ha & Hb & Hc & Hp)|(a' & b' & E & _)]; [|injection E as -> -> ->; discriminate].
    injection E as <- <- <-. unfold encircles, is_ghost. cbn [tv1 tv2 tv3]. rewrite (P _ Ha), (P _ Hb), (P _ Hc). cbn [orb negb].
    apply (inside_I S v HR); auto. apply I_closed; auto. exact (plainv S v HR).
  - exists (Tri a b gv). split; [exact Hi|]. destruct (ghost_shape S tr v HD HR a b Hi) as (Ha & Hb & _ & _). unfold encircles, is_ghost. cbn. rewrite !orb_true_r. cbn [negb].
    apply (ccw_D S v HR a b Ha Hb) in H1. rewrite H1. reflexivity.
Qed.

(** ** One point at a time *)
Lemma flat_or_solid : forall S (tr : mesh), delaunay S tr -> (forall w, In w S -> vghost w = false) ->
  (exists t, In t (tris tr) /\ solid_over S t) \/
  (exists a b, In (Tri a b gv) (tris tr) /\ In (Tri b a gv) (tris tr) /\ In a S /\ In b S /\ a <> b /\ forall w, In w S -> w = a \/ w = b).
Proof.
  intros S tr HD P. destruct (tris tr) as [|t ts] eqn:Et; [exfalso; apply (dl_some _ _ HD), Et|].
  assert (Ht : In t (tris tr)) by (rewrite Et; left; reflexivity). rewrite <- Et.
  destruct (dl_shape _ _ HD t Ht) as [Hs|(a & b & -> & Ha & Hb & Hn)]; [left; exists t; auto|].
  destruct (dl_closed _ _ HD _ (a, b) Ht) as (u & Hu & Su); [constructor|]. cbn [flip fst snd] in Su.
  destruct (view S tr HD u b a Hu Su) as (_ & _ & _ & [(d & Hd1 & Hl & Hd2)| ->]); [intros ->; specialize (P _ Hb); discriminate|intros ->; specialize (P _ Ha); discriminate| |].
  - left. exists u. split; [exact Hu|]. destruct Hl as [-> | [-> | ->]]; [exists b, a, d|exists a, d, b|exists d, b, a]; repeat (split; [auto|]); rewrite ?(D_rot b a d), ?(D_rot2 b a d); exact Hd2.
  - right. exists a, b. repeat (split; [auto|]). apply (dl_flat _ _ HD a b Ht Hu).
Qed.

Lemma sees_some : forall S (tr : mesh) v, delaunay S tr -> resolved (v :: S) -> ~ In v S -> ~ all_on_a_line (v :: S) ->
  exists t, In t (tris tr) /\ encircles t v = Inside.
Proof.
  intros S tr v HD HR Hv Hl. pose proof (plainS S v HR) as P.
  destruct (flat_or_solid S tr HD P) as [Hs|(a & b & H1 & H2 & Ha & Hb & Hn & Hf)]; [apply (located S tr v); assumption|].
  assert (Hd : D a b v <> 0).
  { intros E. apply Hl. intros x y z Hx Hy Hz.
    assert (Hon : forall w, In w (v :: S) -> D a b w = 0).
    { intros w [<-|Hw]; [exact E|]. destruct (Hf w Hw) as [-> | ->]; [apply D_ab_a|apply D_ab_b]. }
    apply (line3 a b); auto. apply d2_pos; auto. }
  assert (Ein : forall x y, In (Tri x y gv) (tris tr) -> In x S -> In y S -> 0 < D x y v -> encircles (Tri x y gv) v = Inside).
  { intros x y Hi Hx Hy Hp. unfold encircles, is_ghost. cbn. rewrite !orb_true_r. cbn [negb]. apply (ccw_D S v HR x y Hx Hy) in Hp. rewrite Hp. reflexivity. }
  destruct (Rtotal_order (D a b v) 0) as [L|[E|L]]; [|contradiction|].
  - exists (Tri b a gv). split; [exact H2|]. apply Ein; auto. rewrite D_swap. lra.
  - exists (Tri a b gv). split; [exact H1|]. apply Ein; auto.
Qed.

Lemma include_one : forall (H : HashOrder) p S (tr : mesh) v, delaunay S tr -> resolved (v :: S) -> ~ all_on_a_line (v :: S) ->
  exists n0 tr' inc del, (forall fuel, (n0 <= fuel)%nat -> vertices_include H fuel p tr [v] [] None [] = Ok (tr', inc, del)) /\
    delaunay (v :: S) tr'.
Proof.
  intros H p S tr v HD HR Hl. destruct (include_delaunay H p S tr [v] HD) as (n0 & tr' & inc & del & ins & dr & Hrun & HD' & Hp & Hnd & Hnew & Hne); [exact HR|].
  exists n0, tr', inc, del. split; [exact Hrun|]. pose proof (plainS S v HR) as P.
  assert (Hf : filter (fun w => negb (hmem vdec w (trn_vertices tr))) [v] = if in_dec vdec v S then [] else [v]).
  { cbn. destruct (hmem vdec v (trn_vertices tr)) eqn:Em; destruct (in_dec vdec v S) as [Hi|Hi]; try reflexivity; exfalso.
    - apply Hi. apply (delaunay_points S tr HD P). apply (hmem_In vdec). exact Em.
    - apply (hmem_false vdec) in Em. apply Em. apply (delaunay_points S tr HD P), Hi. }
  rewrite Hf in Hp. destruct (in_dec vdec v S) as [Hi|Hi].
  - apply Permutation_nil, app_eq_nil in Hp. destruct Hp as [-> ->]. cbn [app] in HD'. apply (delaunay_incl S); auto.
    intros w. cbn [In]. split; [auto|intros [<-|Hw]; assumption].
  - assert (ins <> []).
    { apply Hne. destruct (sees_some S tr v HD HR Hi Hl) as (t & Ht & He). exists t, v. cbn; auto. }
    destruct ins as [|w ins]; [contradiction|]. apply Permutation_length_1_inv in Hp. injection Hp as -> Hp. apply app_eq_nil in Hp. destruct Hp as [-> _]. exact HD'.
Qed.
