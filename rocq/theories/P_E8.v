(** P_E8.v — the mesh of a convex polygon: what it covers, and that a constrained
    Delaunay mesh of it is a Delaunay mesh. *)

From Coq Require Import Reals List ZArith Lra Lia Psatz Bool Permutation.
From Verif Require Import Base Arith Geometry Elements Polyline Procedures Refine Triangulator ArithR Spec SpecM SpecR SpecD SpecP SpecC SpecE
  P_Base P_Trn P_Fuel P_Poly P_Vertices P_Cavity P_Refine P_Worked P_R1 P_R2 P_R3 P_R4 P_R5 P_R6 P_RX P_D1 P_D2 P_D3 P_D4 P_D5 P_D6 P_D7 P_Fill P_Fill2 P_Region P_C1 P_C2 P_C3 P_C4 P_C5 P_C6 P_C7 P_C8 P_C9 P_E1 P_E2 P_E3 P_E4 P_E5 P_E6 P_E7.
Import ListNotations.
Local Open Scope R_scope.

Section Framed.
  Variable l : list pnt.
  Hypothesis HC : convex_polygon l.

  Lemma sides_some : exists a b, In (a, b) (polygon_sides l).
  Proof.
    pose proof (cp_three _ HC) as H3. destruct l as [|a m] eqn:E; [cbn in H3; lia|]. destruct (polygon_starts (a :: m) a (or_introl eq_refl)) as ([x y] & Hxy & _). exists x, y. exact Hxy.
  Qed.
  Lemma framed_wide : forall S (tr : mesh), framed l S tr -> ~ all_on_a_line S.
  Proof.
    intros S tr HF Hl. destruct sides_some as (a & b & Hab). destruct (polygon_ends l _ Hab) as [Ha Hb]. cbn [fst snd] in *.
    destruct (third_of l a b (cp_nodup _ HC) (cp_three _ HC)) as (z & Hz & N1 & N2). pose proof (spread_pos 3 a b z ltac:(lra) (cp_away _ HC a b z Hab Hz N1 N2)) as P.
    rewrite (Hl a b z) in P by (apply (fr_corners _ _ _ HF); assumption). lra.
  Qed.
  Lemma placed_nonneg : forall a b w, In (a, b) (polygon_sides l) -> placed l w -> 0 <= D a b w.
  Proof. intros a b w Hab Hw. destruct (Hw a b Hab) as [Ho|Hs]; [rewrite (on_side_D _ _ _ Ho); lra|]. apply Rlt_le, (spread_pos 3); [lra|exact Hs]. Qed.

  Lemma region_exact : forall S (tr : mesh) q, framed l S tr -> resolved S -> (in_region tr q <-> forall a b, In (a, b) (polygon_sides l) -> 0 <= D a b q).
  Proof.
    intros S tr q HF HR. pose proof (fr_delaunay _ _ _ HF) as HD. pose proof (framed_wide S tr HF) as Hw. pose proof (tiles_hull S tr q HD HR Hw) as [T1 T2]. split.
    - intros (a & b & c & [Hi Hg] & Hq) x y Hxy. assert (Hh : in_hull S q).
      { apply T2. exists a, b, c. split; [exact Hi|]. split; [|exact Hq]. unfold is_ghost in Hg. cbn [tv1 tv2 tv3] in Hg. apply orb_false_iff in Hg. apply Hg. }
      assert (Q : D y x q <= 0); [|rewrite (D_swap x y q) in Q; lra]. apply Hh. intros w Hi'. rewrite (D_swap x y w). pose proof (placed_nonneg x y w Hxy (fr_placed _ _ _ HF w Hi')). lra.
    - intros Hq. assert (Hh : in_hull S q).
      { intros a b Hab. apply Rnot_lt_le. intros L.
        assert (Hs : exists g : pnt, forall x y, In (x, y) (polygon_sides l) -> 0 < D x y g).
        { destruct (flat_or_solid S tr HD (rs_plain _ HR)) as [(t & Ht & x & y & z & -> & Hx & Hy & Hz & P)|(x & y & _ & _ & Hx & Hy & Hn & Hf)].
          - exists (centroid x y z). intros u v Huv. apply (spread_pos 1); [lra|]. apply (centroid_deep l HC); try (apply (fr_placed _ _ _ HF); assumption); assumption.
          - exfalso. apply Hw. intros u v w Hu Hv Hw'. destruct (Hf u Hu) as [-> | ->], (Hf v Hv) as [-> | ->], (Hf w Hw') as [-> | ->]; unfold area2; ring. }
        destruct Hs as (g & Hg).
        (* a point between q and g, near q *)
        assert (Hk : exists k, 0 < k < 1 /\ 0 < (1 - k) * D a b q + k * D a b g).
        { destruct (Rlt_dec 0 (D a b g)) as [Lg|Lg]; [exists (1 / 2); split; lra|]. set (m := D a b q - D a b g). assert (Pm : 0 < m) by (unfold m; lra).
          exists (D a b q / (2 * m)). assert (E : D a b q / (2 * m) * m = D a b q / 2) by (field; lra). split.
          - assert (Pk : 0 < D a b q / (2 * m)) by (apply Rdiv_lt_0_compat; lra). split; [exact Pk|]. apply (Rmult_lt_reg_r m); [exact Pm|]. unfold m in *. lra.
          - replace ((1 - D a b q / (2 * m)) * D a b q + D a b q / (2 * m) * D a b g) with (D a b q - D a b q / (2 * m) * m) by (unfold m; ring). lra. }
        destruct Hk as (k & Hk & Pk). set (z := at_ ((1 - k) * X q + k * X g) ((1 - k) * Y q + k * Y g) : pnt).
        assert (Dz : forall x y, D x y z = (1 - k) * D x y q + k * D x y g) by (intros x y; unfold area2, z; rewrite X_at, Y_at; ring).
        assert (Hz : forall x y, In (x, y) (polygon_sides l) -> 0 < D x y z).
        { intros x y Hxy. rewrite Dz. assert (Q1 := mpp (1 - k) (D x y q)). assert (Q2 := spp k (D x y g)). pose proof (Hq x y Hxy). pose proof (Hg x y Hxy). lra. }
        rewrite <- Dz in Pk. destruct (half_plane l z (Y b - Y a) (- (X b - X a)) (cx_some l HC) Hz) as (c & Hc & Lc).
        - apply Rnot_le_lt. intros L'. assert (L2 : (X b - X a) * (X b - X a) + (Y b - Y a) * (Y b - Y a) <= 0) by lra. apply squares_zero in L2. destruct L2 as [E1 E2]. unfold area2 in L. rewrite E1, E2 in L. lra.
        - pose proof (Hab c (fr_corners _ _ _ HF c Hc)) as Q. unfold area2 in *. lra. }
      destruct (T1 Hh) as (a & b & c & Hi & Gc & Ht). destruct (solid_view S tr a b c HD HR Hi Gc) as (Ha & Hb & Hc & _).
      exists a, b, c. split; [|exact Ht]. split; [exact Hi|]. unfold is_ghost. cbn [tv1 tv2 tv3]. rewrite (rs_plain _ HR a Ha), (rs_plain _ HR b Hb), Gc. reflexivity.
  Qed.

  (** A constrained Delaunay mesh that respects the sides is a Delaunay mesh. *)
  Lemma constrained_framed : forall S (tr : mesh), constrained_delaunay S (polygon_sides l) tr -> resolved S -> (forall w, In w l -> In w S) -> (forall w, In w S -> placed l w) ->
    (forall a b w, In (a, b) (polygon_sides l) -> In w S -> ~ strictly_between a b w) -> framed l S tr.
  Proof.
    intros S tr HD HR Hl Hp Hoff. split; [|exact Hl|exact Hp].
    assert (Hone : forall t u e, In t (tris tr) -> In u (tris tr) -> side_of e t -> side_of e u -> t = u).
    { intros t u e Ht Hu St Su. pose proof (cd_complete _ _ _ HD e t Ht St) as E1. pose proof (cd_complete _ _ _ HD e u Hu Su) as E2. congruence. }
    assert (Hnot : forall a b, In (Tri a b gv) (tris tr) -> In (a, b) (polygon_sides l) -> False).
    { intros a b Hg Hab. destruct (cd_bars _ _ _ HD a b Hab) as (Ha & Hb & t & [Ht Gt] & [St|St]).
      - assert (E : t = Tri a b gv) by (apply (Hone t (Tri a b gv) (a, b) Ht Hg St); constructor). subst t. unfold is_ghost in Gt. cbn in Gt. rewrite !orb_true_r in Gt. discriminate.
      - destruct (cd_shape _ _ _ HD t Ht) as [(x & y & z & -> & Hx & Hy & Hz & P)|(x & y & -> & _)]; [|unfold is_ghost in Gt; cbn in Gt; rewrite !orb_true_r in Gt; discriminate].
        pose proof (D_rot x y z) as R1. pose proof (D_rot2 x y z) as R2.
        assert (Q : forall w, In w S -> D b a w <= 0) by (intros w Hw; pose proof (placed_nonneg a b w Hab (Hp w Hw)) as Q; rewrite (D_swap b a w) in Q; lra).
        pose proof (Q x Hx). pose proof (Q y Hy). pose proof (Q z Hz). inversion St; subst; lra. }
    split.
    - exact (cd_sound _ _ _ HD).
    - exact (cd_complete _ _ _ HD).
    - exact (cd_nodup _ _ _ HD).
    - exact (cd_shape _ _ _ HD).
    - exact (cd_closed _ _ _ HD).
    - intros a b c Ht Gc o w Hw E1 E2. apply (convex_delaunay S l tr HD HR (cp_nodup _ HC)) with (b := b) (c := c); auto.
      + intros x y z Hxy Hz. apply placed_nonneg; auto.
      + split; [exact Ht|]. destruct (cd_shape _ _ _ HD _ Ht) as [(x & y & z & E & Hx & Hy & Hz & P)|(x & y & E & _)].
        * injection E as <- <- <-. unfold is_ghost. cbn [tv1 tv2 tv3]. rewrite !(rs_plain _ HR) by assumption. reflexivity.
        * injection E as -> -> ->. discriminate.
    - intros a b Hg w Hw. destruct (cd_outer _ _ _ HD a b Hg) as [Hab|Hab]; [destruct (Hnot a b Hg Hab)|].
      pose proof (placed_nonneg b a w Hab (Hp w Hw)) as Q. rewrite (D_swap a b w) in Q. split; [lra|]. intros B. apply (Hoff b a w Hab Hw).
      destruct B as [B1 B2]. split; [rewrite (D_swap a b w); lra|]. unfold dotp in *. lra.
    - intros w Hw. destruct (cd_used _ _ _ HD w Hw) as (t & [Ht _] & Hc). exists t. auto.
    - intros a b H1 H2. exfalso. destruct (cd_outer _ _ _ HD a b H1) as [Hab|Hab]; [exact (Hnot a b H1 Hab)|exact (Hnot b a H2 Hab)].
    - destruct sides_some as (a & b & Hab). destruct (cd_bars _ _ _ HD a b Hab) as (_ & _ & t & [Ht _] & _). intros E. rewrite E in Ht. destruct Ht.
  Qed.
End Framed.
