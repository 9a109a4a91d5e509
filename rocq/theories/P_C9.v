(** P_C9.v — a constrained Delaunay mesh is so as a whole: a vertex that sees a point
    of a triangle is not strictly inside its circle. *)

From Coq Require Import Reals List ZArith Lra Lia Psatz Bool Permutation.
From Verif Require Import Base Arith Geometry Elements Polyline Procedures Triangulator ArithR Spec SpecR SpecD SpecP SpecC
  P_Base P_Trn P_Fuel P_Poly P_Vertices P_Flood P_R1 P_R2 P_R3 P_R5 P_R6 P_RX P_D1 P_D2 P_D3 P_D4 P_D5 P_D6 P_D7 P_D8 P_Fill P_Fill2 P_Region P_Region2 P_Contains P_Slide P_Polygon P_Polygon2 P_Polygon3 P_Zone P_Checks P_C1 P_C2 P_C3 P_C4 P_C5 P_C6.
Import ListNotations.
Local Open Scope R_scope.

Section Visible.
  Variables (S : list pnt) (K : list (edge ArithR)) (tr : mesh) (w : pnt).
  Hypothesis HC : constrained_delaunay S K tr.
  Hypothesis HR : resolved S.
  Hypothesis Hw : In w S.
  Hypothesis Hoff : forall a b, barred K a b -> ~ strictly_between a b w.

  Let HRw : resolved (w :: S).
  Proof. apply (resolved_incl S); [exact HR|]. intros x [<-|Hx]; assumption. Qed.

  (** [w] is not in a closed triangle whose circle strictly contains it. *)
  Lemma no_hit_inside : forall t a b c, zhit S tr w t -> looks t a b c -> in_triangle a b c w -> False.
  Proof.
    intros t a b c Ht Hl Hi. destruct (cd_used _ _ _ HC w Hw) as (t' & Ht' & Hc').
    assert (Lo : exists x y, looks t' w x y).
    { destruct t' as [t1 t2 t3]. unfold looks. inversion Hc'; subst; cbn [tv1 tv2 tv3]; eauto 6. }
    destruct Lo as (x & y & Lo). assert (P' : 0 < D w x y).
    { destruct (cd_shape _ _ _ HC t' (proj1 Ht')) as [(a' & b' & c' & -> & _ & _ & _ & P)|(a' & b' & -> & _)].
      - pose proof (D_rot a' b' c'). pose proof (D_rot2 a' b' c'). destruct Lo as [E|[E|E]]; injection E as -> -> ->; lra.
      - destruct Ht' as [_ G]. unfold is_ghost in G. cbn in G. rewrite !orb_true_r in G. discriminate. }
    assert (Hwi : in_triangle w x y w) by (unfold in_triangle; rewrite !D_ab_a, D_ab_b; pose proof (D_rot w x y); repeat split; lra).
    assert (Hnt : t' <> t).
    { intros ->. destruct (zread S tr w t a b c Ht Hl) as (_ & _ & _ & _ & P). 
      assert (E : w = a \/ w = b \/ w = c) by (destruct Hl as [E1|[E1|E1]]; destruct Lo as [E2|[E2|E2]]; rewrite E1 in E2; injection E2; intros; subst; auto).
      destruct E as [E|[E|E]]; rewrite E in P; rewrite ?I_a, ?I_b, ?I_c in P; lra. }
    assert (Kk : forall a b c, looks t a b c -> D a b w = 0 -> False).
    { clear a b c Hl Hi. intros a b c Hl E. destruct (zread S tr w t a b c Ht Hl) as (Ha & Hb & Hc & Hp & Hi).
      destruct (barred_dec K a b) as [Bb|Nb]; [apply (Hoff a b Bb); apply (inside_chord a b c); auto|].
      assert (Se : side_of (a, b) t) by (apply (looks_sides t a b c Hl); auto).
      destruct (cd_closed _ _ _ HC t (a, b) (proj1 Ht) Se) as (u & Hu & Su). cbn [flip fst snd] in Su.
      pose proof (cross_in S K tr w HC HRw t u a b Ht Hu Se Su Nb ltac:(lra)) as Hhu.
      destruct (across S K tr w HC HRw t u a b Ht Hu Se Su Nb) as (d & Lu & Hd & Pu).
      destruct (far_one w a b c Hp Hi) as [F1 F2]; [lra|].
      destruct (near_edge a b c d w x y w Hp Pu E F1 F2 P' Hwi) as (q & Q1 & [Q2|Q2]).
      - apply Hnt. apply (once_looks S K tr HC t' t w x y a b c q); auto. apply (zhit_solid_in S K tr w); auto.
      - destruct (zread S tr w u b a d Hhu Lu) as (_ & _ & _ & _ & Pi).
        assert (Eu : t' = u) by (apply (once_looks S K tr HC t' u w x y b a d q); auto; apply (zhit_solid_in S K tr w); auto).
        subst u. assert (E' : w = b \/ w = a \/ w = d) by (destruct Lu as [E1|[E1|E1]]; destruct Lo as [E2|[E2|E2]]; rewrite E1 in E2; injection E2; intros; subst; auto).
        destruct E' as [E'|[E'|E']]; rewrite E' in Pi; rewrite ?I_a, ?I_b, ?I_c in Pi; lra. }
    destruct Hi as (G1 & G2 & G3).
    assert (E1 := Kk a b c Hl). assert (E2 := Kk b c a ltac:(unfold looks in *; tauto)). assert (E3 := Kk c a b ltac:(unfold looks in *; tauto)).
    assert (Hin : inside_triangle a b c w).
    { repeat split; match goal with |- 0 < ?e => destruct (Req_dec e 0) as [Z|Z]; [exfalso; auto|lra] end. }
    destruct (near_common w x y a b c w P' Hwi Hin) as (q & Q1 & Q2). apply Hnt. apply (once_looks S K tr HC t' t w x y a b c q); auto. apply (zhit_solid_in S K tr w); auto.
  Qed.

  Lemma visible_start : forall n t a b c q, (crank S tr w t < n)%nat -> zhit S tr w t -> looks t a b c -> in_triangle a b c q ->
    (forall x y z, barred K x y -> on_segment x y z -> on_segment q w z -> coincide z w) -> False.
  Proof.
    induction n as [|n IH]; intros t a0 b0 c0 q Hn Ht Hl0 Hq Hs; [lia|].
    destruct (beyond_side S tr w t Ht) as [(a & b & Se & B)|Hno].
    2:{ apply (no_hit_inside t a0 b0 c0 Ht Hl0). pose proof (looks_sides t a0 b0 c0 Hl0) as Hsd.
        repeat split; apply not_beyond_ge, Hno, Hsd; auto. }
    destruct (zside S tr w t a b Ht Se) as (c & Hl & Ha & Hb & Hc & Hp & Hi).
    assert (Hq' : in_triangle a b c q).
    { destruct Hq as (G1 & G2 & G3). destruct Hl0 as [E0|[E0|E0]]; destruct Hl as [E|[E|E]]; rewrite E0 in E; injection E as <- <- <-; repeat split; assumption. }
    destruct (far_one w a b c Hp Hi (beyond_le _ _ _ B)) as [F1 F2].
    destruct (segment_exit a b c q w Hp Hq' (beyond_le _ _ _ B) F1 F2) as (k & z & Hk & Hkz & Hz).
    destruct (barred_dec K a b) as [Bb|Nb].
    { pose proof (Hs a b z Bb Hz ltac:(exists k; auto)) as [Ex Ey].
      apply (Hoff a b Bb). apply (inside_chord a b c); auto. apply segment_line in Hz. unfold area2 in *. rewrite <- Ex, <- Ey. exact Hz. }
    destruct (cd_closed _ _ _ HC t (a, b) (proj1 Ht) Se) as (u & Hu & Su). cbn [flip fst snd] in Su.
    pose proof (cross_in S K tr w HC HRw t u a b Ht Hu Se Su Nb (beyond_le _ _ _ B)) as Hhu.
    destruct (across S K tr w HC HRw t u a b Ht Hu Se Su Nb) as (d & Lu & Hd & Pu).
    apply (IH u b a d z); auto.
    - pose proof (crank_lt S K tr w HC HRw t u a b Ht Hhu Se Su Nb B). lia.
    - apply segment_in; assumption.
    - intros x y r Hxy Hr (k' & Hk' & [E1 E2]). apply (Hs x y r Hxy Hr). destruct Hkz as [G1 G2]. exists (k + k' * (1 - k)).
      assert (Q1 := mpp k' (1 - k)). assert (Q2 := mpp (1 - k') (1 - k)). split; [lra|]. split; [rewrite E1, G1|rewrite E2, G2]; ring.
  Qed.
End Visible.

Lemma visible_outside : forall S K (tr : mesh) w a b c q, constrained_delaunay S K tr -> resolved S -> In w S ->
  (forall x y, barred K x y -> ~ strictly_between x y w) -> solid_in tr (Tri a b c) -> in_triangle a b c q ->
  (forall x y z, barred K x y -> on_segment x y z -> on_segment q w z -> coincide z w) ->
  forall o, d2 o a = d2 o b -> d2 o a = d2 o c -> d2 o a <= d2 o w.
Proof.
  intros S K tr w a b c q HC HR Hw Hoff Ht Hq Hs o E1 E2. apply Rnot_lt_le. intros L.
  assert (HRw : resolved (w :: S)) by (apply (resolved_incl S); [exact HR|]; intros x [<-|Hx]; assumption).
  apply (visible_start S K tr w HC HR Hw Hoff (Datatypes.S (crank S tr w (Tri a b c))) (Tri a b c) a b c q); auto; [|left; reflexivity].
  apply (inside_zhit S K); auto. apply (inside_circle S K tr w a b c HC HRw Ht). intros o' E1' E2'.
  destruct (cd_shape _ _ _ HC _ (proj1 Ht)) as [(x & y & z & E & _ & _ & _ & P)|(x & y & E & _)].
  - injection E as <- <- <-. pose proof (incircle_power a b c w o E1 E2) as Hp. pose proof (incircle_power a b c w o' E1' E2') as Hp'.
    apply Rnot_le_lt. intros L'. assert (Q := spp (D a b c) (d2 o a - d2 o w)). assert (Q' := mpn (D a b c) (d2 o' a - d2 o' w)). lra.
  - destruct Ht as [_ G]. injection E as -> -> ->. unfold is_ghost in G. cbn in G. rewrite !orb_true_r in G. discriminate.
Qed.

(** Inside a convex polygon everything is visible, so the circles are empty. *)
Lemma convex_visible : forall (l : list pnt) q w, (forall x y, In (x, y) (polygon_sides l) -> 0 < D x y q) ->
  (forall x y, In (x, y) (polygon_sides l) -> 0 <= D x y w) ->
  forall x y z, barred (polygon_sides l) x y -> on_segment x y z -> on_segment q w z -> coincide z w.
Proof.
  intros l q w Hq Hw.
  assert (K : forall x y, In (x, y) (polygon_sides l) -> forall z, on_segment x y z -> on_segment q w z -> coincide z w).
  { intros x y Hxy z Hz (t & Ht & Ex & Ey). apply segment_line in Hz. assert (E : D x y z = (1 - t) * D x y q + t * D x y w) by (unfold area2; rewrite Ex, Ey; ring).
    specialize (Hq x y Hxy). specialize (Hw x y Hxy). destruct (Req_dec t 1) as [->|N].
    - split; [rewrite Ex|rewrite Ey]; ring.
    - exfalso. assert (Q1 := spp (1 - t) (D x y q)). assert (Q2 := mpp t (D x y w)). lra. }
  intros x y z [Hxy|Hxy] Hz Hz'; [exact (K x y Hxy z Hz Hz')|apply (K y x Hxy z); [apply on_segment_flip, Hz|exact Hz']].
Qed.

Lemma positive_centroid : forall x y a b c, 0 <= D x y a -> 0 <= D x y b -> 0 <= D x y c -> 0 < D a b c -> 0 < D x y (centroid a b c) \/ coincide x y.
Proof.
  intros x y a b c Ha Hb Hc P. rewrite centroid_D. destruct (Rlt_le_dec 0 ((D x y a + D x y b + D x y c) / 3)) as [L|L]; [left; exact L|right].
  assert (Ea : D x y a = 0) by lra. assert (Eb : D x y b = 0) by lra. assert (Ec : D x y c = 0) by lra. clear - P Ea Eb Ec.
  assert (E1 : D a b c * (X y - X x) = 0).
  { replace (D a b c * (X y - X x)) with ((X b - X a) * (D x y c - D x y a) - (X c - X a) * (D x y b - D x y a)) by (unfold area2; ring). rewrite Ea, Eb, Ec. ring. }
  assert (E2 : D a b c * (Y y - Y x) = 0).
  { replace (D a b c * (Y y - Y x)) with ((Y b - Y a) * (D x y c - D x y a) - (Y c - Y a) * (D x y b - D x y a)) by (unfold area2; ring). rewrite Ea, Eb, Ec. ring. }
  apply Rmult_integral in E1. apply Rmult_integral in E2. split; destruct E1, E2; lra.
Qed.

Lemma convex_delaunay : forall S l (tr : mesh), constrained_delaunay S (polygon_sides l) tr -> resolved S -> NoDup l ->
  (forall x y w, In (x, y) (polygon_sides l) -> In w S -> 0 <= area2 x y w) ->
  (forall x y w, In (x, y) (polygon_sides l) -> In w S -> ~ strictly_between x y w) ->
  forall a b c w, solid_in tr (Tri a b c) -> In w S -> forall o, d2 o a = d2 o b -> d2 o a = d2 o c -> d2 o a <= d2 o w.
Proof.
  intros S l tr HC HR Hnd Hcv Hoff a b c w Ht Hw o E1 E2.
  destruct (cd_shape _ _ _ HC _ (proj1 Ht)) as [(a' & b' & c' & E & Ha & Hb & Hc & P)|(a' & b' & E & _)].
  2:{ destruct Ht as [_ G]. injection E as -> -> ->. unfold is_ghost in G. cbn in G. rewrite !orb_true_r in G. discriminate. }
  injection E as <- <- <-. pose proof (centroid_inside a b c P) as Hq.
  apply (visible_outside S (polygon_sides l) tr w a b c (centroid a b c)); auto.
  - intros x y [Hb'|Hb'] HS; [exact (Hoff x y w Hb' Hw HS)|]. exact (Hoff y x w Hb' Hw (between_sym _ _ _ HS)).
  - destruct Hq as (Q1 & Q2 & Q3); repeat split; apply Rlt_le; assumption.
  - apply convex_visible; [|intros x y Hxy; apply Hcv; assumption]. intros x y Hxy.
    destruct (positive_centroid x y a b c) as [L|[L1 L2]]; auto. exfalso.
    destruct (cd_bars _ _ _ HC x y Hxy) as (Hx & Hy & (u & Hu & Su)).
    assert (Kx : x = y -> False) by (intros ->; destruct (cd_shape _ _ _ HC u (proj1 Hu)) as [(a' & b' & c' & -> & _ & _ & _ & P')|(a' & b' & -> & _)]; [|destruct Hu as [_ G]; unfold is_ghost in G; cbn in G; rewrite !orb_true_r in G; discriminate]; destruct Su as [Su|Su]; inversion Su; subst; cbn [tv1 tv2 tv3] in *; unfold area2 in P'; lra).
    apply Kx. apply (rs_apart _ HR); auto. pose proof eps_pos. unfold close. rewrite L1, L2. lra.
Qed.

(** ** A case: the two triangles of the kite *)
Lemma case_visible : exists (tr : mesh) (w a b c q : pnt), constrained_delaunay kite (polygon_sides kite) tr /\ resolved kite /\ In w kite /\
  (forall x y, barred (polygon_sides kite) x y -> ~ strictly_between x y w) /\ solid_in tr (Tri a b c) /\ in_triangle a b c q /\
  (forall x y z, barred (polygon_sides kite) x y -> on_segment x y z -> on_segment q w z -> coincide z w) /\ ~ In w [a; b; c] /\
  NoDup kite /\ (forall x y v, In (x, y) (polygon_sides kite) -> In v kite -> 0 <= area2 x y v) /\
  (forall x y v, In (x, y) (polygon_sides kite) -> In v kite -> ~ strictly_between x y v).
Proof.
  destruct case_kite_inner as (_ & _ & _ & Hcv & Hnd & HR & n0 & t' & _ & _ & HC & _). exists (t_trn t').
  assert (Hge : forall x y v, In (x, y) (polygon_sides kite) -> In v kite -> 0 <= area2 x y v) by (intros x y v Hxy Hv; destruct (convex_side kite Hcv x y v Hxy Hv) as [[E _]|P]; lra).
  assert (Hof : forall x y v, In (x, y) (polygon_sides kite) -> In v kite -> ~ strictly_between x y v).
  { intros x y v Hxy Hv [E1 E2]. destruct (convex_side kite Hcv x y v Hxy Hv) as [[_ [-> | ->]]|P]; [| |lra]; unfold dotp in E2; lra. }
  destruct (cd_used _ _ _ HC pA (or_introl eq_refl)) as (u & Hu & _). destruct u as [a b c].
  destruct (cd_shape _ _ _ HC _ (proj1 Hu)) as [(a' & b' & c' & E & Ha & Hb & Hc & P)|(a' & b' & E & _)].
  2:{ destruct Hu as [_ G]. injection E as -> -> ->. unfold is_ghost in G. cbn in G. rewrite !orb_true_r in G. discriminate. }
  injection E as <- <- <-.
  assert (Hx : exists w, In w kite /\ ~ In w [a; b; c]).
  { destruct (in_dec vdec pA [a; b; c]) as [I1|N1]; [|exists pA; split; [left; reflexivity|exact N1]].
    destruct (in_dec vdec pB [a; b; c]) as [I2|N2]; [|exists pB; split; [right; left; reflexivity|exact N2]].
    destruct (in_dec vdec pF [a; b; c]) as [I3|N3]; [|exists pF; split; [right; right; left; reflexivity|exact N3]].
    destruct (in_dec vdec pC [a; b; c]) as [I4|N4]; [|exists pC; split; [right; right; right; left; reflexivity|exact N4]].
    exfalso. assert (Hi : incl kite [a; b; c]) by (intros x Hx; unfold kite in Hx; cbn [In] in Hx; intuition (subst; assumption)).
    pose proof (NoDup_incl_length Hnd Hi) as L. cbn in L. lia. }
  destruct Hx as (w & Hw & Nw). exists w, a, b, c, (centroid a b c). pose proof (centroid_inside a b c P) as Hq.
  split; [exact HC|]. split; [exact HR|]. split; [exact Hw|].
  split; [intros x y [Hxy|Hxy] HS; [exact (Hof x y w Hxy Hw HS)|exact (Hof y x w Hxy Hw (between_sym _ _ _ HS))]|].
  split; [exact Hu|]. split; [destruct Hq as (Q1 & Q2 & Q3); repeat split; apply Rlt_le; assumption|].
  split; [apply convex_visible; [intros x y Hxy; apply (convex_centroid kite); assumption|intros; apply Hge; assumption]|]. auto.
Qed.
