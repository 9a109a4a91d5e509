(** P_Region.v — the winding number of a polygon whose sides are sides of a
    Delaunay triangulation, on the triangles. *)

From Coq Require Import Reals List ZArith Lra Lia Psatz Bool Permutation.
From Verif Require Import Base Arith Geometry Elements Polyline Procedures ArithR Spec SpecR SpecD SpecP
  P_Base P_R1 P_R5 P_D1 P_D2 P_D3 P_D4 P_D5 P_D6 P_D7 P_D8 P_RX P_Fill P_Fill2 P_Slide.
Import ListNotations.
Local Open Scope R_scope.

(** ** Points of a segment *)
Lemma ratio_of_line : forall a b x, ~ coincide a b -> D a b x = 0 -> exists i, at_ratio i a b x.
Proof.
  intros a b x Hco E. set (u := X b - X a). set (w := Y b - Y a). assert (P : 0 < u * u + w * w).
  { pose proof (Rle_0_sqr u). pose proof (Rle_0_sqr w). unfold Rsqr in *. destruct (Req_dec u 0) as [Eu|Nu].
    - destruct (Req_dec w 0) as [Ew|Nw]; [exfalso; apply Hco; unfold u, w in *; split; lra|]. pose proof (Rsqr_pos_lt w Nw). unfold Rsqr in *. lra.
    - pose proof (Rsqr_pos_lt u Nu). unfold Rsqr in *. lra. }
  exists (((X x - X a) * u + (Y x - Y a) * w) / (u * u + w * w)). unfold area2 in E. fold u w in E. split.
  - apply (Rmult_eq_reg_l (u * u + w * w)); [|lra]. fold u. replace ((u * u + w * w) * (X a + ((X x - X a) * u + (Y x - Y a) * w) / (u * u + w * w) * u)) with ((u * u + w * w) * X a + ((X x - X a) * u + (Y x - Y a) * w) * u) by (field; lra).
    replace ((u * u + w * w) * X x) with ((u * u + w * w) * X a + ((X x - X a) * u + (Y x - Y a) * w) * u - w * (u * (Y x - Y a) - w * (X x - X a))) by ring. rewrite E. ring.
  - apply (Rmult_eq_reg_l (u * u + w * w)); [|lra]. fold w. replace ((u * u + w * w) * (Y a + ((X x - X a) * u + (Y x - Y a) * w) / (u * u + w * w) * w)) with ((u * u + w * w) * Y a + ((X x - X a) * u + (Y x - Y a) * w) * w) by (field; lra).
    replace ((u * u + w * w) * Y x) with ((u * u + w * w) * Y a + ((X x - X a) * u + (Y x - Y a) * w) * w + u * (u * (Y x - Y a) - w * (X x - X a))) by ring. rewrite E. ring.
Qed.
Lemma open_or_end : forall a b z, on_segment a b z -> coincide a z \/ coincide b z \/ exists k, 0 < k < 1 /\ at_ratio k a b z.
Proof.
  intros a b z (k & [H0 H1] & Hk). destruct (Rle_lt_or_eq_dec _ _ H0) as [L0|Z0]; [|left; destruct Hk as [Kx Ky]; rewrite <- Z0 in *; split; lra].
  destruct (Rle_lt_or_eq_dec _ _ H1) as [L1|Z1]; [|right; left; destruct Hk as [Kx Ky]; rewrite Z1 in *; split; lra].
  right. right. exists k. split; [lra|exact Hk].
Qed.
Lemma inside_convex : forall a b c q q' z, inside_triangle a b c q -> inside_triangle a b c q' -> on_segment q q' z -> inside_triangle a b c z.
Proof.
  intros a b c q q' z (H1 & H2 & H3) (G1 & G2 & G3) (k & Hk & Rk).
  assert (P : forall x y, 0 < D x y q -> 0 < D x y q' -> 0 < D x y z).
  { intros x y Hx Hy. rewrite (ratio_D k q q' z x y Rk). assert (Q := mpp (1 - k) (D x y q)). assert (Q' := mpp k (D x y q')).
    destruct (Rlt_dec 0 k) as [L|L]; [pose proof (spp k (D x y q') L Hy); lra|pose proof (spp (1 - k) (D x y q) ltac:(lra) Hx); lra]. }
  repeat split; apply P; assumption.
Qed.
Lemma segment_side : forall a b x y z, D a b x <= 0 -> D a b y <= 0 -> on_segment x y z -> D a b z <= 0.
Proof.
  intros a b x y z Hx Hy (k & Hk & Rk). rewrite (ratio_D k x y z a b Rk). assert (Q := mpn (1 - k) (D a b x)). assert (Q' := mpn k (D a b y)). lra.
Qed.
Lemma coincide_D : forall x z a b, coincide x z -> D a b z = D a b x.
Proof. intros x z a b [E1 E2]. unfold area2. rewrite E1, E2. reflexivity. Qed.

Section Region.
  Variables (S : list pnt) (tr : mesh).
  Hypothesis HD : delaunay S tr.
  Hypothesis HR : resolved S.
  Let pl := rs_plain S HR.

  Definition medge (a b : pnt) : Prop := exists t, In t (tris tr) /\ side_of (a, b) t /\ In a S /\ In b S.
  Lemma not_gv : forall a, In a S -> a <> gv.
  Proof. intros a Ha ->. apply pl in Ha. discriminate. Qed.
  Lemma medge_view : forall a b, medge a b -> In a S /\ In b S /\ ~ coincide a b /\
    exists t, In t (tris tr) /\ ((exists c, In c S /\ looks t a b c /\ 0 < D a b c) \/ t = Tri a b gv).
  Proof.
    intros a b (t & Ht & Hs & Ha & Hb). destruct (view S tr HD t a b Ht Hs (not_gv a Ha) (not_gv b Hb)) as (_ & _ & Nab & V).
    split; [exact Ha|]. split; [exact Hb|]. split; [intros Hco; apply Nab, plain_coincide; auto|]. exists t. auto.
  Qed.
  Lemma medge_flip : forall a b, medge a b -> medge b a.
  Proof.
    intros a b (t & Ht & Hs & Ha & Hb). destruct (dl_closed _ _ HD t (a, b) Ht Hs) as (u & Hu & Su). exists u. auto.
  Qed.
  Lemma solid_empty : forall t a b c w, In t (tris tr) -> looks t a b c -> In a S -> In b S -> In c S -> In w S -> I a b c w <= 0.
  Proof.
    intros t a b c w Ht Hl Ha Hb Hc Hw. destruct (HRv S tr HD HR) as [v Hv].
    destruct Hl as [-> |[-> | ->]]; [apply (I_none S tr v HD Hv a b c); auto|rewrite <- I_rot; apply (I_none S tr v HD Hv b c a); auto|rewrite <- I_rot2; apply (I_none S tr v HD Hv c a b); auto].
  Qed.
  Lemma no_vertex_on : forall a b w, medge a b -> In w S -> ~ strictly_between a b w.
  Proof.
    intros a b w Hm Hw Hb. destruct (medge_view a b Hm) as (Ha & Hb' & _ & t & Ht & [(c & Hc & Hl & Hp)| ->]).
    - pose proof (chord_inside a b c w Hp Hb). pose proof (solid_empty t a b c w Ht Hl Ha Hb' Hc Hw). lra.
    - exact (proj2 (dl_hull _ _ HD a b Ht w Hw) Hb).
  Qed.
  Lemma open_side_tw : forall a b c k q, 0 < D a b c -> 0 < k < 1 -> at_ratio k a b q -> ~ beyond q (a, b) -> tw a b c q = 1%Z.
  Proof.
    clear. intros a b c k q Hp Hk Rk By. apply tw_ccw; [exact Hp|exact By| |].
    - intros By'. apply beyond_le in By'. rewrite (ratio_D k a b q b c Rk) in By'. rewrite D_ab_a in By'. pose proof (D_rot a b c).
      assert (Q := spp (1 - k) (D b c a) ltac:(lra) ltac:(lra)). lra.
    - intros By'. apply beyond_le in By'. rewrite (ratio_D k a b q c a Rk) in By'. rewrite D_ab_b in By'. pose proof (D_rot2 a b c).
      assert (Q := spp k (D c a b) ltac:(lra) ltac:(lra)). lra.
  Qed.
  Lemma ratio_flip : forall k a b q, at_ratio k a b q -> at_ratio (1 - k) b a q.
  Proof. clear. intros k a b q [H1 H2]. split; [rewrite H1|rewrite H2]; ring. Qed.
  (** One of the two triangles at an edge takes its points. *)
  Definition takes (u : tri) (a b c q : pnt) : Prop := In u (tris tr) /\ looks u a b c /\ In a S /\ In b S /\ In c S /\ 0 < D a b c /\ tw a b c q = 1%Z.
  Lemma taker : forall a b k q, medge a b -> 0 < k < 1 -> at_ratio k a b q -> exists x y, ((x = a /\ y = b) \/ (x = b /\ y = a)) /\
    ((exists u c, takes u x y c q) \/ In (Tri x y gv) (tris tr)).
  Proof.
    intros a b k q Hm Hk Rk. destruct (medge_view a b Hm) as (Ha & Hb & Hco & t & Ht & V).
    destruct (medge_view b a (medge_flip a b Hm)) as (_ & _ & _ & u & Hu & W).
    destruct (beyond_dec q (a, b)) as [By|By].
    - exists b, a. split; [auto|]. destruct W as [(c & Hc & Hl & Hp)| ->]; [|right; exact Hu]. left. exists u, c. repeat (split; [assumption|]).
      apply (open_side_tw b a c (1 - k) q Hp); [lra|apply ratio_flip, Rk|]. intros By'. exact (beyond_not_both q a b By By').
    - exists a, b. split; [auto|]. destruct V as [(c & Hc & Hl & Hp)| ->]; [|right; exact Ht]. left. exists t, c. repeat (split; [assumption|]).
      apply (open_side_tw a b c k q Hp Hk Rk By).
  Qed.
  Lemma looks_tw : forall u a b c q, looks u a b c -> tw (tv1 u) (tv2 u) (tv3 u) q = tw a b c q.
  Proof. clear. intros u a b c q [-> |[-> | ->]]; cbn [tv1 tv2 tv3]; unfold tw; lia. Qed.
  Lemma one_taker : forall u a b c u' a' b' c' q, takes u a b c q -> takes u' a' b' c' q -> u = u'.
  Proof.
    intros u a b c u' a' b' c' q (Hu & Hl & Ha & Hb & Hc & Hp & Hw) (Hu' & Hl' & Ha' & Hb' & Hc' & Hp' & Hw'). destruct (HRv S tr HD HR) as [v Hv].
    rewrite <- (looks_tw u a b c q Hl) in Hw. rewrite <- (looks_tw u' a' b' c' q Hl') in Hw'. destruct u as [x y z], u' as [x' y' z']. cbn [tv1 tv2 tv3] in *.
    apply (no_overlap S (tris tr) (plain_tr S tr v HD Hv) q); auto; apply pl.
    - destruct Hl as [E|[E|E]]; injection E as -> -> ->; assumption.
    - destruct Hl' as [E|[E|E]]; injection E as -> -> ->; assumption.
  Qed.

  (** An edge does not go through a triangle. *)
  Lemma edge_clear : forall a b c x y z, In (Tri a b c) (tris tr) -> vghost c = false -> inside_triangle a b c z -> medge x y -> on_segment x y z -> False.
  Proof.
    intros a b c x y z Ht Gc Hin Hm Hon. destruct (solid_view S tr a b c HD HR Ht Gc) as (Ha & Hb & Hc & Hp). destruct (medge_view x y Hm) as (Hx & Hy & Hco & _).
    destruct Hin as (H1 & H2 & H3).
    assert (Nv : forall w, In w S -> coincide w z -> False).
    { intros w Hw Hc'. rewrite (coincide_D w z a b Hc') in H1. rewrite (coincide_D w z b c Hc') in H2. rewrite (coincide_D w z c a Hc') in H3.
      assert (0 < I a b c w); [|pose proof (solid_empty _ a b c w Ht (or_introl eq_refl) Ha Hb Hc Hw); lra].
      apply I_closed; auto; try lra; intros ->; [rewrite D_ab_a in H1|rewrite D_ab_b in H1|rewrite D_ab_b in H2]; lra. }
    destruct (open_or_end x y z Hon) as [E|[E|(k & Hk & Rk)]]; [exact (Nv x Hx E)|exact (Nv y Hy E)|].
    assert (Tk : takes (Tri a b c) a b c z) by (repeat (split; [assumption||(left; reflexivity)|]); apply inside_tw; assumption).
    assert (Z : D x y z = 0) by (rewrite (ratio_D k x y z x y Rk), D_ab_a, D_ab_b; ring).
    destruct (taker x y k z Hm Hk Rk) as (x' & y' & Exy & [(u & w & Tu)|Hg]).
    - pose proof (one_taker _ _ _ _ _ _ _ _ _ Tk Tu) as E. destruct Tu as (_ & Hl & _). rewrite <- E in Hl.
      assert (Z' : D x' y' z = 0) by (destruct Exy as [[-> ->]|[-> ->]]; [exact Z|rewrite D_swap; lra]).
      destruct Hl as [E'|[E'|E']]; injection E' as -> -> ->; lra.
    - assert (Z' : D x' y' z = 0) by (destruct Exy as [[-> ->]|[-> ->]]; [exact Z|rewrite D_swap; lra]).
      pose proof (dl_hull _ _ HD x' y' Hg) as Hh. pose proof (proj1 (Hh a Ha)). pose proof (proj1 (Hh b Hb)). pose proof (proj1 (Hh c Hc)).
      destruct (D_affine x' y') as (al & be & ga & EA). pose proof (affine_bary al be ga a b c z) as B. rewrite <- !EA in B. rewrite Z' in B.
      pose proof (mpn (D b c z) (D x' y' a) ltac:(lra) ltac:(lra)). pose proof (mpn (D c a z) (D x' y' b) ltac:(lra) ltac:(lra)). pose proof (mpn (D a b z) (D x' y' c) ltac:(lra) ltac:(lra)).
      assert (Za : D x' y' a = 0) by (destruct (Req_dec (D x' y' a) 0) as [|Nz]; [assumption|pose proof (spn (D b c z) (D x' y' a) ltac:(lra) ltac:(lra)); lra]).
      assert (Zb : D x' y' b = 0) by (destruct (Req_dec (D x' y' b) 0) as [|Nz]; [assumption|pose proof (spn (D c a z) (D x' y' b) ltac:(lra) ltac:(lra)); lra]).
      assert (Zc : D x' y' c = 0) by (destruct (Req_dec (D x' y' c) 0) as [|Nz]; [assumption|pose proof (spn (D a b z) (D x' y' c) ltac:(lra) ltac:(lra)); lra]).
      assert (D a b c = 0); [|lra]. apply (line3 x' y'); auto. clear Za Zb Zc Z' Hh H H0 H4 H5 H6 H7 EA B Hg. destruct Exy as [[-> ->]|[-> ->]]; apply d2_pos; auto; intros E; apply Hco; rewrite E; split; reflexivity.
  Qed.

  (** Two edges do not cross. *)
  Lemma edges_on_line : forall a b x y k j z, medge a b -> medge x y -> D a b x = 0 -> D a b y = 0 -> 0 < k < 1 -> at_ratio k a b z -> 0 < j < 1 -> at_ratio j x y z ->
    (x = a /\ y = b) \/ (x = b /\ y = a).
  Proof.
    intros a b x y k j z Hm Hm' Zx Zy Hk Rk Hj Rj. destruct (medge_view a b Hm) as (Ha & Hb & Hco & _). destruct (medge_view x y Hm') as (Hx & Hy & Hco' & _).
    destruct (ratio_of_line a b x Hco Zx) as (i & Ri). destruct (ratio_of_line a b y Hco Zy) as (i' & Ri').
    assert (Ni : ~ 0 < i < 1) by (intros L; apply (no_vertex_on a b x Hm Hx), (param_between a b x i Hco L Ri)).
    assert (Ni' : ~ 0 < i' < 1) by (intros L; apply (no_vertex_on a b y Hm Hy), (param_between a b y i' Hco L Ri')).
    destruct Rk as [Kx Ky], Rj as [Jx Jy], Ri as [Ix Iy], Ri' as [Ix' Iy'].
    assert (Ek : k = i + j * (i' - i)).
    { assert (Ex : (k - (i + j * (i' - i))) * (X b - X a) = 0) by (rewrite Kx, Ix, Ix' in Jx; lra).
      assert (Ey : (k - (i + j * (i' - i))) * (Y b - Y a) = 0) by (rewrite Ky, Iy, Iy' in Jy; lra).
      apply Rmult_integral in Ex, Ey. destruct Ex as [Ex|Ex]; [lra|]. destruct Ey as [Ey|Ey]; [lra|]. exfalso. apply Hco. split; lra. }
    assert (Sm : forall w, In w S -> forall r, at_ratio r x y w -> ~ 0 < r < 1).
    { intros w Hw r Hr L. apply (no_vertex_on x y w Hm' Hw), (param_between x y w r Hco' L Hr). }
    assert (Co : forall w w' i0, In w S -> In w' S -> X w' = X a + i0 * (X b - X a) -> Y w' = Y a + i0 * (Y b - Y a) -> X w = X a + i0 * (X b - X a) -> Y w = Y a + i0 * (Y b - Y a) -> w' = w).
    { intros w w' i0 Hw Hw' E1 E2 E3 E4. apply plain_coincide; auto. split; lra. }
    assert (C : (i <= 0 /\ 1 <= i') \/ (i' <= 0 /\ 1 <= i)).
    { destruct (Rle_lt_dec i 0) as [L|L], (Rle_lt_dec i' 0) as [L'|L'].
      - exfalso. assert (Q := mpn j i' ltac:(lra) L'). assert (Q' := mpn (1 - j) i ltac:(lra) L). lra.
      - left. lra.
      - right. lra.
      - exfalso. assert (Q := mpp j (i' - 1) ltac:(lra) ltac:(lra)). assert (Q' := mpp (1 - j) (i - 1) ltac:(lra) ltac:(lra)). lra. }
    assert (Rr : forall i0 w, X w = X a + i0 * (X b - X a) -> Y w = Y a + i0 * (Y b - Y a) -> i' - i <> 0 -> at_ratio ((i0 - i) / (i' - i)) x y w).
    { intros i0 w E1 E2 N0. split; [rewrite E1, Ix, Ix'|rewrite E2, Iy, Iy']; field; exact N0. }
    assert (Fr : forall n d, 0 < d -> 0 < n < d -> 0 < n / d < 1).
    { intros n d Hd Hn. split; [apply Rmult_lt_0_compat; [lra|apply Rinv_0_lt_compat, Hd]|]. apply (Rmult_lt_reg_r d); [exact Hd|]. unfold Rdiv. rewrite Rmult_assoc, Rinv_l by lra. lra. }
    assert (Fr' : forall n d, d < 0 -> d < n < 0 -> 0 < n / d < 1).
    { intros n d Hd Hn. replace (n / d) with ((- n) / (- d)) by (field; lra). apply Fr; lra. }
    destruct C as [[L L']|[L L']].
    - left. assert (i = 0).
      { destruct (Rle_lt_or_eq_dec _ _ L) as [Ls|E]; [|exact E]. exfalso. apply (Sm a Ha ((0 - i) / (i' - i))); [apply Rr; lra|]. apply Fr; lra. }
      assert (i' = 1).
      { destruct (Rle_lt_or_eq_dec _ _ L') as [Ls|E]; [|lra]. exfalso. apply (Sm b Hb ((1 - i) / (i' - i))); [apply Rr; lra|]. apply Fr; lra. }
      subst i i'. split; [apply (Co a x 0); auto; lra|apply (Co b y 1); auto; lra].
    - right. assert (i' = 0).
      { destruct (Rle_lt_or_eq_dec _ _ L) as [Ls|E]; [|exact E]. exfalso. apply (Sm a Ha ((0 - i) / (i' - i))); [apply Rr; lra|]. apply Fr'; lra. }
      assert (i = 1).
      { destruct (Rle_lt_or_eq_dec _ _ L') as [Ls|E]; [|lra]. exfalso. apply (Sm b Hb ((1 - i) / (i' - i))); [apply Rr; lra|]. apply Fr'; lra. }
      subst i i'. split; [apply (Co b x 1); auto; lra|apply (Co a y 0); auto; lra].
  Qed.
  Lemma hull_line : forall a b x y j z, hull_edge S a b -> In x S -> In y S -> 0 < j < 1 -> at_ratio j x y z -> D a b z = 0 -> D a b x = 0 /\ D a b y = 0.
  Proof.
    clear. intros a b x y j z Hh Hx Hy Hj Rj Z. rewrite (ratio_D j x y z a b Rj) in Z. pose proof (proj1 (Hh x Hx)) as Lx. pose proof (proj1 (Hh y Hy)) as Ly.
    pose proof (mpn (1 - j) (D a b x) ltac:(lra) Lx). pose proof (mpn j (D a b y) ltac:(lra) Ly). split.
    - destruct (Req_dec (D a b x) 0) as [|Nz]; [assumption|pose proof (spn (1 - j) (D a b x) ltac:(lra) ltac:(lra)); lra].
    - destruct (Req_dec (D a b y) 0) as [|Nz]; [assumption|pose proof (spn j (D a b y) ltac:(lra) ltac:(lra)); lra].
  Qed.
  Lemma edge_cross : forall a b x y k z, medge a b -> medge x y -> 0 < k < 1 -> at_ratio k a b z -> on_segment x y z -> (x = a /\ y = b) \/ (x = b /\ y = a).
  Proof.
    intros a b x y k z Hm Hm' Hk Rk Hon. destruct (medge_view a b Hm) as (Ha & Hb & Hco & _). destruct (medge_view x y Hm') as (Hx & Hy & Hco' & _).
    assert (Nv : forall w, In w S -> coincide w z -> False).
    { intros w Hw [E1 E2]. apply (no_vertex_on a b w Hm Hw), (param_between a b w k Hco Hk). destruct Rk. split; lra. }
    destruct (open_or_end x y z Hon) as [E|[E|(j & Hj & Rj)]]; [destruct (Nv x Hx E)|destruct (Nv y Hy E)|].
    assert (Z : D a b z = 0) by (rewrite (ratio_D k a b z a b Rk), D_ab_a, D_ab_b; ring).
    assert (Z' : D x y z = 0) by (rewrite (ratio_D j x y z x y Rj), D_ab_a, D_ab_b; ring).
    destruct (taker a b k z Hm Hk Rk) as (a' & b' & Eab & [(u & w & Tu)|Hg]).
    - destruct (taker x y j z Hm' Hj Rj) as (x' & y' & Exy & [(u' & w' & Tu')|Hg]).
      + pose proof (one_taker _ _ _ _ _ _ _ _ _ Tu Tu') as E. destruct Tu' as (_ & Hl' & _ & _ & _ & Hp' & _). destruct Tu as (_ & Hl & _ & _ & _ & Hp & _). subst u'.
        assert (Sx : side_of (x', y') u) by (apply (looks_sides _ _ _ _ Hl'); auto). apply (looks_sides _ _ _ _ Hl) in Sx.
        assert (Zx : D x' y' z = 0) by (destruct Exy as [[-> ->]|[-> ->]]; [exact Z'|rewrite D_swap; lra]).
        assert (Rk' : exists k', 0 < k' < 1 /\ at_ratio k' a' b' z) by (destruct Eab as [[-> ->]|[-> ->]]; [exists k; auto|exists (1 - k); split; [lra|apply ratio_flip, Rk]]).
        destruct Rk' as (k' & Hk' & Rk'). assert (P1 : 0 < D b' w z).
        { rewrite (ratio_D k' a' b' z b' w Rk'), D_ab_a, D_rot. pose proof (spp (1 - k') (D a' b' w) ltac:(lra) Hp). lra. }
        assert (P2 : 0 < D w a' z).
        { rewrite (ratio_D k' a' b' z w a' Rk'), D_ab_b, D_rot2. pose proof (spp k' (D a' b' w) ltac:(lra) Hp). lra. }
        destruct Sx as [E|[E|E]]; injection E as -> ->; [|lra|lra].
        destruct Exy as [[-> ->]|[-> ->]], Eab as [[-> ->]|[-> ->]]; auto.
      + pose proof (dl_hull _ _ HD x' y' Hg) as Hh. assert (Zz : D x' y' z = 0) by (destruct Exy as [[-> ->]|[-> ->]]; [exact Z'|rewrite D_swap; lra]).
        destruct (hull_line x' y' a b k z Hh Ha Hb Hk Rk Zz) as [Z1 Z2].
        assert (Zxy : D x y a = 0 /\ D x y b = 0) by (destruct Exy as [[-> ->]|[-> ->]]; [auto|rewrite (D_swap y x a), (D_swap y x b) in *; split; lra]).
        destruct (edges_on_line x y a b j k z Hm' Hm (proj1 Zxy) (proj2 Zxy) Hj Rj Hk Rk) as [[-> ->]|[-> ->]]; auto.
    - pose proof (dl_hull _ _ HD a' b' Hg) as Hh. assert (Zz : D a' b' z = 0) by (destruct Eab as [[-> ->]|[-> ->]]; [exact Z|rewrite D_swap; lra]).
      destruct (hull_line a' b' x y j z Hh Hx Hy Hj Rj Zz) as [Z1 Z2].
      assert (Zab : D a b x = 0 /\ D a b y = 0) by (destruct Eab as [[-> ->]|[-> ->]]; [auto|rewrite (D_swap b a x), (D_swap b a y) in *; split; lra]).
      apply (edges_on_line a b x y k j z Hm Hm' (proj1 Zab) (proj2 Zab) Hk Rk Hj Rj).
  Qed.
End Region.
