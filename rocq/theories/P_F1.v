(** P_F1.v — the parts of the sides of a convex polygon are edges of its mesh;
    one step of its refinement. *)

From Coq Require Import Reals List ZArith Lra Lia Psatz Bool Permutation.
From Verif Require Import Base Arith Geometry Elements Polyline Procedures Refine Triangulator ArithR Spec SpecM SpecR SpecD SpecP SpecC SpecE
  P_Base P_Trn P_Fuel P_Poly P_Vertices P_Cavity P_Refine P_Worked P_RX P_R1 P_R2 P_R3 P_R5 P_R6 P_D1 P_D2 P_D3 P_D4 P_D5 P_D6 P_D7 P_Fill P_Fill2 P_Region P_C1 P_C2 P_C3 P_C4 P_C5 P_C6 P_C7 P_E1 P_E2 P_E3 P_E4 P_E5 P_E6 P_E7 P_E8 P_E9.
Import ListNotations.
Local Open Scope R_scope.

Section Parts.
  Variable l : list pnt.
  Hypothesis HC : convex_polygon l.

  Section Edge.
    Variables (S : list pnt) (tr : mesh) (p q : pnt).
    Hypothesis HF : framed l S tr.
    Hypothesis HR : resolved S.
    Hypothesis He : part l S (p, q).
    Let HD := fr_delaunay _ _ _ HF.
    Let m := edge_midpoint (p, q).

    Lemma place_eq : forall a b, In a S -> In b S -> coincide a b -> a = b.
    Proof. intros a b Ha Hb [E1 E2]. apply (rs_apart _ HR a b Ha Hb). unfold close. rewrite E1, E2. pose proof eps_pos. split; lra. Qed.
    Lemma part_apart : ~ coincide p q.
    Proof.
      intros Hc. destruct He as [Hp _]. destruct (pc_along _ _ _ Hp) as (H1 & H2 & _). apply (pc_proper _ _ _ Hp). apply place_eq; assumption.
    Qed.
    Lemma mid_no_vertex : forall w, In w S -> ~ coincide m w.
    Proof.
      intros w Hw [E1 E2]. destruct He as [Hp _]. apply (pc_empty _ _ _ Hp w Hw). cbn [fst snd].
      apply (param_between p q w (/ 2)); [exact part_apart|lra|]. destruct (edge_midpoint_spec (p, q)) as [[Mx My] _]. cbn [fst snd] in *. fold m in Mx, My. split; lra.
    Qed.

    Lemma core_edge : forall a b c x y i j, In (Tri a b c) (tris tr) \/ In (Tri b c a) (tris tr) \/ In (Tri c a b) (tris tr) -> In a S -> In b S -> In c S -> 0 < D a b c ->
      In (x, y) (polygon_sides l) -> at_ratio i x y p -> at_ratio j x y q -> i < j -> D x y a = 0 -> D x y b = 0 ->
      0 <= D b c m -> 0 <= D c a m -> a = p /\ b = q.
    Proof.
      intros a b c x y i j Ht Ha Hb Hc P Hxy Ri Rj L Za Zb G1 G2. destruct (cx_apart l HC x y Hxy) as (Nc & _ & _).
      destruct (line_ratio x y a Nc Za) as (al & Ra). destruct (line_ratio x y b Nc Zb) as (be & Rb). pose proof He as [Hp _]. destruct (pc_along _ _ _ Hp) as (HpS & HqS & _). cbn [fst snd] in *.
      assert (Ek : forall z, D a b z = (be - al) * D x y z) by (intros z; destruct Ra as [Ax Ay]; destruct Rb as [Bx By]; unfold area2; rewrite Ax, Ay, Bx, By; ring).
      assert (Pc : 0 <= D x y c) by (apply (placed_nonneg l); [exact Hxy|apply (fr_placed _ _ _ HF), Hc]).
      rewrite (Ek c) in P. assert (Lab : al < be) by (apply Rnot_le_lt; intros L'; assert (Q := mnp (be - al) (D x y c)); lra).
      assert (Pc' : 0 < D x y c) by (apply Rnot_le_lt; intros L'; assert (E : D x y c = 0) by lra; rewrite E in P; lra).
      set (k := (i + j) / 2). assert (Rm : at_ratio k x y m).
      { destruct (edge_midpoint_spec (p, q)) as [[Mx My] _]. fold m in Mx, My. cbn [fst snd] in *. destruct Ri as [Ex Ey]. destruct Rj as [Fx Fy]. unfold k. split; rewrite ?Mx, ?My, ?Ex, ?Ey, ?Fx, ?Fy; field. }
      assert (E1 : D b c m = (be - k) * D x y c).
      { destruct Rm as [Mx My]. destruct Rb as [Bx By]. unfold area2. rewrite Mx, My, Bx, By. ring. }
      assert (E2 : D c a m = (k - al) * D x y c).
      { destruct Rm as [Mx My]. destruct Ra as [Ax Ay]. unfold area2. rewrite Mx, My, Ax, Ay. ring. }
      rewrite E1 in G1. rewrite E2 in G2.
      assert (K1 : k <= be) by (apply Rnot_lt_le; intros L'; assert (Q := spp (k - be) (D x y c)); lra).
      assert (K2 : al <= k) by (apply Rnot_lt_le; intros L'; assert (Q := spp (al - k) (D x y c)); lra).
      assert (Rel : forall s t r u v w, at_ratio s x y u -> at_ratio t x y v -> at_ratio r x y w -> s < r < t -> strictly_between u v w).
      { intros s t r u v w [Ux Uy] [Vx Vy] [Wx Wy] Hr. apply (param_between u v w ((r - s) / (t - s))).
        - intros [C1 C2]. rewrite Ux, Vx in C1. rewrite Uy, Vy in C2. assert (D1 : (t - s) * (X y - X x) = 0) by lra. assert (D2 : (t - s) * (Y y - Y x) = 0) by lra.
          apply Rmult_integral in D1. apply Rmult_integral in D2. apply Nc. split; destruct D1, D2; lra.
        - split; [apply Rdiv_lt_0_compat; lra|]. apply (Rmult_lt_reg_r (t - s)); [lra|]. unfold Rdiv. rewrite Rmult_assoc, Rinv_l by lra. lra.
        - split; rewrite ?Wx, ?Wy, ?Ux, ?Uy, ?Vx, ?Vy; field; lra. }
      assert (Hm : medge S tr a b).
      { assert (Hs : exists t, In t (tris tr) /\ side_of (a, b) t) by (destruct Ht as [Ht|[Ht|Ht]]; eexists; (split; [exact Ht|constructor])). destruct Hs as (t & H1 & H2). exists t. auto. }
      pose proof (no_vertex_on S tr HD HR a b p Hm HpS) as N1. pose proof (no_vertex_on S tr HD HR a b q Hm HqS) as N2.
      pose proof (pc_empty _ _ _ Hp a Ha) as N3. pose proof (pc_empty _ _ _ Hp b Hb) as N4. cbn [fst snd] in *.
      assert (Q1 : ~ (al < i < be)) by (intros Q; apply N1, (Rel al be i); assumption). assert (Q2 : ~ (al < j < be)) by (intros Q; apply N2, (Rel al be j); assumption).
      assert (Q3 : ~ (i < al < j)) by (intros Q; apply N3, (Rel i j al); assumption). assert (Q4 : ~ (i < be < j)) by (intros Q; apply N4, (Rel i j be); assumption).
      unfold k in *. assert (Ei : al = i) by lra. assert (Ej : be = j) by lra. subst al be.
      destruct Ra as [Ax Ay], Rb as [Bx By], Ri as [Px Py], Rj as [Qx Qy]. split; apply place_eq; auto; split; lra.
    Qed.

    Lemma part_edge : exists t c, In t (tris tr) /\ looks t p q c /\ In c S /\ 0 < D p q c.
    Proof.
      pose proof He as [Hp (x & y & i & j & Hxy & Ri & Rj & L)]. destruct (pc_along _ _ _ Hp) as (HpS & HqS & _). cbn [fst snd] in *.
      destruct (proj1 (tiles_hull S tr m HD HR (framed_wide l HC S tr HF))) as (a & b & c & Ht & Gc & Hi).
      { intros a b Hle. unfold m. rewrite mid_D. pose proof (Hle _ HpS). pose proof (Hle _ HqS). cbn [fst snd]. lra. }
      destruct (solid_view S tr a b c HD HR Ht Gc) as (Ha & Hb & Hc & P). destruct Hi as (I1 & I2 & I3).
      assert (Hpos : forall z, In z S -> 0 <= D x y z) by (intros z Hz; apply (placed_nonneg l); [exact Hxy|apply (fr_placed _ _ _ HF), Hz]).
      pose proof (Hpos a Ha) as Pa. pose proof (Hpos b Hb) as Pb. pose proof (Hpos c Hc) as Pc.
      assert (Zm : D x y m = 0).
      { unfold m. rewrite mid_D. cbn [fst snd]. assert (E1 : D x y p = 0) by (destruct Ri as [Ex Ey]; unfold area2; rewrite Ex, Ey; ring). assert (E2 : D x y q = 0) by (destruct Rj as [Ex Ey]; unfold area2; rewrite Ex, Ey; ring). lra. }
      assert (Sum : D x y m * D a b c = D x y a * D b c m + D x y b * D c a m + D x y c * D a b m) by (unfold area2; ring).
      assert (Tot : D b c m + D c a m + D a b m = D a b c) by (unfold area2; ring).
      rewrite Zm, Rmult_0_l in Sum. assert (M1 := mpp (D x y a) (D b c m)). assert (M2 := mpp (D x y b) (D c a m)). assert (M3 := mpp (D x y c) (D a b m)).
      assert (Z1 : D x y a * D b c m = 0) by lra. assert (Z2 : D x y b * D c a m = 0) by lra. assert (Z3 : D x y c * D a b m = 0) by lra.
      assert (Flat : forall u v w, D u v w = 0 -> True) by auto.
      assert (NA : forall a b c, In a S -> 0 < D a b c -> D a b m = 0 -> D c a m = 0 -> False).
      { intros a' b' c' Ha' P' E1 E2. apply (mid_no_vertex a' Ha').
        assert (Ex : (X m - X a') * D a' b' c' = (X c' - X a') * D a' b' m + (X b' - X a') * D c' a' m) by (unfold area2; ring).
        assert (Ey : (Y m - Y a') * D a' b' c' = (Y c' - Y a') * D a' b' m + (Y b' - Y a') * D c' a' m) by (unfold area2; ring).
        rewrite E1, E2 in Ex, Ey. split; [assert (Q : (X m - X a') * D a' b' c' = 0) by lra|assert (Q : (Y m - Y a') * D a' b' c' = 0) by lra]; apply Rmult_integral in Q; lra. }
      pose proof (D_rot a b c) as R1. pose proof (D_rot2 a b c) as R2.
      assert (N0 : ~ (D x y a = 0 /\ D x y b = 0 /\ D x y c = 0)).
      { intros (F1 & F2 & F3). destruct (cx_apart l HC x y Hxy) as (Nc & _ & _).
        assert (Q : D a b c = 0); [|lra]. apply (line3 x y a b c F1 F2 F3). apply Rnot_le_lt. intros L'. apply Nc. unfold d2 in L'. apply squares_zero in L'. unfold coincide. lra. }
      apply Rmult_integral in Z1. apply Rmult_integral in Z2. apply Rmult_integral in Z3.
      destruct Z1 as [Z1|Z1], Z2 as [Z2|Z2], Z3 as [Z3|Z3].
      - exfalso. apply N0. auto.
      - destruct (core_edge a b c x y i j) as [-> ->]; auto. exists (Tri p q c), c. split; [exact Ht|]. split; [left; reflexivity|]. auto.
      - destruct (core_edge c a b x y i j) as [-> ->]; auto; try lra. exists (Tri q b p), b. split; [exact Ht|]. split; [right; left; reflexivity|]. split; [exact Hb|]. lra.
      - exfalso. apply (NA a b c); auto.
      - destruct (core_edge b c a x y i j) as [-> ->]; auto; try lra. exists (Tri a p q), a. split; [exact Ht|]. split; [right; right; reflexivity|]. split; [exact Ha|]. lra.
      - exfalso. apply (NA b c a); auto; lra.
      - exfalso. apply (NA c a b); auto; lra.
      - exfalso. lra.
    Qed.
  End Edge.

  (** ** No new encroachment *)
  Lemma pencil : forall p q c o, I p q c o = D p q o * ((X c - X p) * (X c - X q) + (Y c - Y p) * (Y c - Y q)) - D p q c * ((X o - X p) * (X o - X q) + (Y o - Y p) * (Y o - Y q)).
  Proof. intros p q c o. unfold incircle, area2, Rdet4, Rdet3. ring. Qed.

  Lemma new_encroach : forall S (tr : mesh) o K e, framed l S tr -> resolved (o :: S) -> ~ In o S -> deep l o -> In e K -> part l S e -> edge_encroach e o = Inside ->
    (forall w, In w S -> ~ inside_diameter (fst e) (snd e) w) -> encroached tr o K e.
  Proof.
    intros S tr o K [p q] HF HR Hn Hd HK Hp He Hfree. cbn [fst snd] in *. pose proof (fr_delaunay _ _ _ HF) as HD.
    assert (HRS : resolved S) by (apply (resolved_incl (o :: S)); [exact HR|]; intros z Hz; right; exact Hz).
    destruct (part_edge S tr p q HF HRS Hp) as (t & c & Ht & Hl & Hc & P). pose proof Hp as [Hpc Hfw]. destruct (pc_along _ _ _ Hpc) as (H1 & H2 & _). cbn [fst snd] in *.
    pose proof (encroach_inside _ _ He) as Ho. unfold inside_diameter in Ho. cbn [fst snd] in Ho. pose proof (Hfree c Hc) as Hcf. unfold inside_diameter in Hcf. apply Rnot_lt_le in Hcf.
    assert (Po : 0 < D p q o).
    { destruct (forward_pos l _ Hfw) as (x & y & k & Hxy & Pk & Ek). cbn [fst snd] in Ek. rewrite (Ek o). apply Rmult_lt_0_compat; [exact Pk|apply (deep_pos l o Hd x y Hxy)]. }
    assert (Hh : hit tr o t).
    { apply (hit_solid S tr o HR t p q c Ht Hl H1 H2 Hc). rewrite (pencil p q c o). set (dc := (X c - X p) * _ + _) in *. set (d_o := (X o - X p) * _ + _) in *.
      assert (M1 := mpp (D p q o) dc). assert (M2 := spp (D p q c) (- d_o)). lra. }
    assert (Se : side_of (p, q) t) by (apply (looks_sides t p q c Hl); auto).
    destruct (dl_closed _ _ HD t (p, q) Ht Se) as (u & Hu & Su). split; [|split; [left; exact HK|exact He]]. split; [exists t; auto|]. exists u. split; [exact Hu|]. split; [exact Su|].
    intros [_ Hcu]. destruct (inner_hits_solid l HC S tr o HF HR Hn Hd u Hu Hcu) as (a' & b' & c' & -> & Ha' & Hb' & Hc' & P').
    destruct (along_ghost l S tr o HF HR t _ (p, q) Ht Hu Se Su (pc_along _ _ _ Hpc)) as [E|E]; cbn [fst snd] in E.
    - rewrite E in Hl. destruct Hl as [E'|[E'|E']]; injection E' as; subst; match goal with G : In gv S |- _ => pose proof (rs_plain _ HRS gv G); discriminate end.
    - injection E as -> -> ->. pose proof (rs_plain _ HRS gv Hc'). discriminate.
  Qed.
End Parts.
