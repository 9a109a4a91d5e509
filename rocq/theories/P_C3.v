(** P_C3.v — what the new vertex sees in a constrained Delaunay mesh, and the
    insertion of one vertex. *)

From Coq Require Import Reals List ZArith Lra Lia Psatz Bool Permutation.
From Verif Require Import Base Arith Geometry Elements Polyline Procedures Triangulator ArithR Spec SpecR SpecD SpecP SpecC
  P_Base P_Trn P_Fuel P_Vertices P_Cavity P_Zone P_R1 P_R2 P_R5 P_R6 P_RX P_D1 P_D2 P_D3 P_D4 P_D5 P_Fill P_Region P_Region2 P_C1 P_C2.
Import ListNotations.
Local Open Scope R_scope.

(** ** Plane *)
Lemma segment_sym : forall a b z, on_segment a b z -> on_segment b a z.
Proof. intros a b z (k & Hk & [E1 E2]). exists (1 - k). split; [lra|]. split; lra. Qed.
Lemma segment_line : forall a b z, on_segment a b z -> D a b z = 0.
Proof. intros a b z (k & _ & Hk). rewrite (ratio_D k a b z a b Hk). unfold area2. ring. Qed.
Lemma toward_ratio : forall q v k, at_ratio k q v (toward q v k).
Proof. intros. unfold toward. split; unfold X, Y, at_; cbn; ring. Qed.

Definition centroid (a b c : pnt) : pnt := at_ ((X a + X b + X c) / 3) ((Y a + Y b + Y c) / 3).
Lemma centroid_D : forall a b c x y, D x y (centroid a b c) = (D x y a + D x y b + D x y c) / 3.
Proof. intros. unfold centroid, area2. rewrite X_at, Y_at. field. Qed.
Lemma centroid_inside : forall a b c, 0 < D a b c -> inside_triangle a b c (centroid a b c).
Proof.
  intros a b c Hp. unfold inside_triangle. rewrite !centroid_D. pose proof (D_rot a b c). pose proof (D_rot2 a b c).
  repeat split; unfold area2 in *; lra.
Qed.
Lemma toward_inside : forall a b c z m s, in_triangle a b c z -> inside_triangle a b c m -> 0 < s <= 1 -> inside_triangle a b c (toward z m s).
Proof.
  intros a b c z m s (H1 & H2 & H3) (G1 & G2 & G3) Hs. unfold inside_triangle. rewrite !toward_D.
  assert (P : forall x y, 0 <= x -> 0 < y -> 0 < (1 - s) * x + s * y).
  { intros x y Hx Hy. assert (Q := mpp (1 - s) x). assert (Q' := spp s y). lra. }
  repeat split; apply P; assumption.
Qed.
Lemma stays_inside : forall a b c z m, inside_triangle a b c z -> exists e, 0 < e < 1 /\ forall s, 0 <= s <= e -> inside_triangle a b c (toward z m s).
Proof.
  intros a b c z m (H1 & H2 & H3). destruct (small_mix _ (D a b m) H1) as (e1 & P1 & F1). destruct (small_mix _ (D b c m) H2) as (e2 & P2 & F2).
  destruct (small_mix _ (D c a m) H3) as (e3 & P3 & F3). exists (Rmin e1 (Rmin e2 e3)).
  pose proof (Rmin_l e1 (Rmin e2 e3)). pose proof (Rmin_r e1 (Rmin e2 e3)). pose proof (Rmin_l e2 e3). pose proof (Rmin_r e2 e3).
  assert (0 < Rmin e1 (Rmin e2 e3)) by (repeat apply Rmin_glb_lt; lra). split; [lra|]. intros s Hs. unfold inside_triangle. rewrite !toward_D.
  repeat split; [apply F1|apply F2|apply F3]; lra.
Qed.
Lemma near_common : forall a b c a' b' c' z, 0 < D a b c -> in_triangle a b c z -> inside_triangle a' b' c' z ->
  exists q, inside_triangle a b c q /\ inside_triangle a' b' c' q.
Proof.
  intros a b c a' b' c' z Hp Hz Hz'. destruct (stays_inside a' b' c' z (centroid a b c) Hz') as (e & He & Hi).
  exists (toward z (centroid a b c) e). split; [apply toward_inside; [exact Hz|apply centroid_inside, Hp|lra]|apply Hi; lra].
Qed.
Lemma across_pos : forall a b c d z, 0 < D a b c -> 0 < D b a d -> D a b z = 0 -> 0 < D b c z -> 0 < D c a z -> 0 < D a d z /\ 0 < D d b z.
Proof.
  intros a b c d z Hp Hd E0 H1 H2.
  assert (E1 : D a d z * D a b c = D c a z * D b a d + D a b z * D a d c) by (unfold area2; ring).
  assert (E2 : D d b z * D a b c = D b c z * D b a d + D a b z * D d b c) by (unfold area2; ring).
  rewrite E0 in E1, E2. assert (Q1 := spp _ _ H2 Hd). assert (Q2 := spp _ _ H1 Hd).
  split; apply (div_gt _ (D a b c) Hp); lra.
Qed.
(** A triangle that touches the inside of the side shared by two others. *)
Lemma near_edge : forall a b c d x y w z, 0 < D a b c -> 0 < D b a d -> D a b z = 0 -> 0 < D b c z -> 0 < D c a z -> 0 < D x y w -> in_triangle x y w z ->
  exists q, inside_triangle x y w q /\ (inside_triangle a b c q \/ inside_triangle b a d q).
Proof.
  intros a b c d x y w z Hp Hd E0 H1 H2 Hw Hz. destruct (across_pos a b c d z Hp Hd E0 H1 H2) as [H3 H4].
  assert (M : exists m, inside_triangle x y w m /\ D a b m <> 0).
  { set (m := centroid x y w). pose proof (centroid_inside x y w Hw) as Hm. fold m in Hm.
    destruct (Req_dec (D a b m) 0) as [E|N]; [|exists m; auto].
    assert (Hc : exists k, in_triangle x y w k /\ D a b k <> 0).
    { pose proof (D_rot x y w). pose proof (D_rot2 x y w).
      destruct (Req_dec (D a b x) 0) as [Ex|Nx]; [|exists x; split; [|exact Nx]; unfold in_triangle, area2 in *; lra].
      destruct (Req_dec (D a b y) 0) as [Ey|Ny]; [|exists y; split; [|exact Ny]; unfold in_triangle, area2 in *; lra].
      destruct (Req_dec (D a b w) 0) as [Ew|Nw]; [|exists w; split; [|exact Nw]; unfold in_triangle, area2 in *; lra].
      exfalso. pose proof (line3 a b x y w Ex Ey Ew) as L. assert (0 < d2 a b); [|specialize (L H5); lra].
      pose proof (D_apart a b c Hp) as Na. pose proof (d2_nonneg a b) as P0. destruct (Rle_lt_or_eq_dec _ _ P0) as [P|Z]; [exact P|]. exfalso. apply Na.
      unfold d2 in Z. pose proof (Rle_0_sqr (X a - X b)) as S1. pose proof (Rle_0_sqr (Y a - Y b)) as S2. unfold Rsqr in *.
      split; apply Rminus_diag_uniq; apply Rsqr_0_uniq; unfold Rsqr; lra. }
    destruct Hc as (k & Hk & Nk). exists (toward k m (1 / 2)). split; [apply toward_inside; [exact Hk|exact Hm|lra]|]. rewrite toward_D, E. lra. }
  destruct M as (m & Hm & Nm).
  destruct (Rlt_dec 0 (D a b m)) as [L|G].
  - destruct (small_mix _ (D b c m) H1) as (e1 & P1 & F1). destruct (small_mix _ (D c a m) H2) as (e2 & P2 & F2).
    pose proof (Rmin_l e1 e2). pose proof (Rmin_r e1 e2). assert (0 < Rmin e1 e2) by (apply Rmin_glb_lt; lra).
    exists (toward z m (Rmin e1 e2)). split; [apply toward_inside; auto; lra|left]. unfold inside_triangle. rewrite !toward_D, E0.
    assert (Q := spp (Rmin e1 e2) (D a b m)). repeat split; [lra|apply F1; lra|apply F2; lra].
  - destruct (small_mix _ (D a d m) H3) as (e1 & P1 & F1). destruct (small_mix _ (D d b m) H4) as (e2 & P2 & F2).
    pose proof (Rmin_l e1 e2). pose proof (Rmin_r e1 e2). assert (0 < Rmin e1 e2) by (apply Rmin_glb_lt; lra).
    exists (toward z m (Rmin e1 e2)). split; [apply toward_inside; auto; lra|right]. unfold inside_triangle. rewrite !toward_D, (D_swap a b z), (D_swap a b m), E0.
    assert (Q := spp (Rmin e1 e2) (- D a b m)). repeat split; [lra|apply F1; lra|apply F2; lra].
Qed.

(** A finite family of closed triangles that misses [q] misses its surroundings. *)
Lemma misses_near : forall q m (l : list tri), (exists t, In t l /\ in_triangle (tv1 t) (tv2 t) (tv3 t) q) \/
  exists e, 0 < e < 1 /\ forall s t, 0 <= s <= e -> In t l -> ~ in_triangle (tv1 t) (tv2 t) (tv3 t) (toward q m s).
Proof.
  intros q m l. induction l as [|t l IH]; [right; exists (1 / 2); split; [lra|intros s t _ []]|].
  destruct IH as [(t' & Ht & Hi)|(e & He & Hm)]; [left; exists t'; cbn; auto|]. destruct t as [a b c].
  assert (Hd : in_triangle a b c q \/ exists x y, (forall z, in_triangle a b c z -> 0 <= D x y z) /\ D x y q < 0).
  { unfold in_triangle. destruct (Rlt_dec (D a b q) 0); [right; exists a, b; tauto|]. destruct (Rlt_dec (D b c q) 0); [right; exists b, c; tauto|].
    destruct (Rlt_dec (D c a q) 0); [right; exists c, a; tauto|]. left. lra. }
  destruct Hd as [Hi|(x & y & Hs & Hn)]; [left; exists (Tri a b c); cbn; auto|]. right.
  destruct (small_mix (- D x y q) (- D x y m)) as (e' & P' & F'); [lra|]. exists (Rmin e e').
  pose proof (Rmin_l e e'). pose proof (Rmin_r e e'). assert (0 < Rmin e e') by (apply Rmin_glb_lt; lra). split; [lra|].
  intros s t Hss [<-|Ht] Hi; [|apply (Hm s t); auto; lra]. cbn [tv1 tv2 tv3] in Hi. apply Hs in Hi. rewrite toward_D in Hi. specialize (F' s). lra.
Qed.
Lemma region_closed : forall tr tr' : mesh, (forall a b c, solid_in tr (Tri a b c) -> 0 < D a b c) ->
  (forall q, in_open_region tr q -> in_region tr' q) -> forall q, in_region tr q -> in_region tr' q.
Proof.
  intros tr tr' Hp Ho q (a & b & c & Ht & Hi). pose proof (Hp _ _ _ Ht) as P.
  set (m := centroid a b c). pose proof (centroid_inside a b c P) as Hm. fold m in Hm.
  destruct (misses_near q m (filter (fun t => negb (is_ghost t)) (tris tr'))) as [(t & Hin & Hc)|(e & He & Hx)].
  - apply filter_In in Hin. rewrite negb_true_iff in Hin. destruct t as [x y z]. exists x, y, z. split; [exact Hin|exact Hc].
  - exfalso. destruct (Ho (toward q m e)) as (x & y & z & [Ht' Hg] & Hc).
    + exists a, b, c. split; [exact Ht|]. apply toward_inside; [exact Hi|exact Hm|lra].
    + apply (Hx e (Tri x y z)); [lra|apply filter_In; rewrite negb_true_iff; auto|exact Hc].
Qed.

Section Mesh.
  Variables (S : list pnt) (K : list (edge ArithR)) (tr : mesh) (v : pnt).
  Hypothesis HC : constrained_delaunay S K tr.
  Hypothesis HR : resolved (v :: S).
  Hypothesis Hv : ~ In v S.
  Hypothesis Hoff : forall a b, barred K a b -> ~ strictly_between a b v.
  Notation zhit := (zhit S tr v).
  Notation zone := (zone S K tr v).
  Notation crank := (crank S tr v).

  Lemma once_looks : forall t t' a b c a' b' c' q, solid_in tr t -> solid_in tr t' -> looks t a b c -> looks t' a' b' c' ->
    inside_triangle a b c q -> inside_triangle a' b' c' q -> t = t'.
  Proof.
    assert (Kr : forall t a b c q, looks t a b c -> inside_triangle a b c q -> inside_triangle (tv1 t) (tv2 t) (tv3 t) q).
    { clear. intros t a b c q [-> |[-> | ->]] (H1 & H2 & H3); cbn [tv1 tv2 tv3]; repeat split; assumption. }
    intros t t' a b c a' b' c' q Ht Ht' L L' I1 I2. apply Kr with (1 := L) in I1. apply Kr with (1 := L') in I2. destruct t as [x y z], t' as [x' y' z'].
    exact (cd_once _ _ _ HC x y z x' y' z' q Ht Ht' I1 I2).
  Qed.
  Lemma bar_view : forall x y z, barred K x y -> on_segment x y z -> exists t x' y' w, solid_in tr t /\ looks t x' y' w /\ 0 < D x' y' w /\ barred K x' y' /\ on_segment x' y' z.
  Proof.
    intros x y z Hb Hs.
    assert (Hex : exists t x' y', solid_in tr t /\ side_of (x', y') t /\ barred K x' y' /\ on_segment x' y' z).
    { destruct Hb as [Hb|Hb]; destruct (cd_bars _ _ _ HC _ _ Hb) as (_ & _ & t & Ht & [St|St]);
        [exists t, x, y|exists t, y, x|exists t, y, x|exists t, x, y]; repeat (split; [assumption|]); (split; [unfold barred; auto|auto using segment_sym]). }
    destruct Hex as (t & x' & y' & Ht & St & Hb' & Hs'). destruct (side_looks t x' y' St) as (w & Hl). exists t, x', y', w. repeat (split; [assumption|]). split; [|auto].
    destruct Ht as [Ht Hg]. destruct (cd_shape _ _ _ HC t Ht) as [(a & b & c & -> & _ & _ & _ & P)|(a & b & -> & _)].
    - pose proof (D_rot a b c). pose proof (D_rot2 a b c). destruct Hl as [E|[E|E]]; injection E as -> -> ->; lra.
    - unfold is_ghost in Hg. cbn in Hg. rewrite !orb_true_r in Hg. discriminate.
  Qed.
  (** No constrained edge enters a triangle ... *)
  Lemma bar_inside : forall x y z t a b c, barred K x y -> on_segment x y z -> solid_in tr t -> looks t a b c -> inside_triangle a b c z -> False.
  Proof.
    intros x y z t a b c Hb Hs Ht Hl Hi. destruct (bar_view x y z Hb Hs) as (t' & x' & y' & w & Ht' & Hl' & P' & _ & Hs').
    destruct (near_common x' y' w a b c z P' (segment_in x' y' w z P' (segment_sym _ _ _ Hs')) Hi) as (q & Q1 & Q2).
    pose proof (once_looks t t' a b c x' y' w q Ht Ht' Hl Hl' Q2 Q1) as E. subst t'.
    assert (St : side_of (x', y') t) by (apply (looks_sides t x' y' w Hl'); auto). apply (looks_sides t a b c Hl) in St.
    pose proof (segment_line _ _ _ Hs') as E. destruct Hi as (I1 & I2 & I3). destruct St as [St|[St|St]]; injection St as -> ->; lra.
  Qed.
  (** ... or crosses an edge that is not constrained. *)
  Lemma bar_edge : forall x y z t u a b c d, barred K x y -> on_segment x y z -> solid_in tr t -> solid_in tr u -> looks t a b c -> looks u b a d ->
    0 < D a b c -> 0 < D b a d -> ~ barred K a b -> D a b z = 0 -> 0 < D b c z -> 0 < D c a z -> False.
  Proof.
    intros x y z t u a b c d Hb Hs Ht Hu Lt Lu Pt Pu Nb E0 H1 H2. destruct (bar_view x y z Hb Hs) as (t' & x' & y' & w & Ht' & Hl' & P' & Hb' & Hs').
    destruct (across_pos a b c d z Pt Pu E0 H1 H2) as [H3 H4].
    destruct (near_edge a b c d x' y' w z Pt Pu E0 H1 H2 P' (segment_in x' y' w z P' (segment_sym _ _ _ Hs'))) as (q & Q1 & Q2).
    pose proof (segment_line _ _ _ Hs') as E.
    destruct Q2 as [Q2|Q2].
    - pose proof (once_looks t t' a b c x' y' w q Ht Ht' Lt Hl' Q2 Q1) as Et. subst t'.
      assert (St : side_of (x', y') t) by (apply (looks_sides t x' y' w Hl'); auto). apply (looks_sides t a b c Lt) in St.
      destruct St as [St|[St|St]]; injection St as -> ->; [exact (Nb Hb')|lra|lra].
    - pose proof (once_looks u t' b a d x' y' w q Hu Ht' Lu Hl' Q2 Q1) as Et. subst t'.
      assert (St : side_of (x', y') u) by (apply (looks_sides u x' y' w Hl'); auto). apply (looks_sides u b a d Lu) in St.
      destruct St as [St|[St|St]]; injection St as -> ->; [exact (Nb (barred_sym _ _ _ Hb'))|lra|lra].
  Qed.
  Lemma zhit_solid_in : forall t, zhit t -> solid_in tr t.
  Proof.
    intros t Ht. apply (zhit_solid S K tr v HC HR) in Ht. unfold solids in Ht. apply filter_In in Ht. rewrite negb_true_iff in Ht. exact Ht.
  Qed.

  (** ** The zone is what [v] sees *)
  Lemma zone_start : forall n t a b c q, (crank t < n)%nat -> zhit t -> looks t a b c -> in_triangle a b c q -> sees K q v -> zone t.
  Proof.
    induction n as [|n IH]; intros t a0 b0 c0 q Hn Ht Hl0 Hq Hs; [lia|].
    destruct (beyond_side S tr v t Ht) as [(a & b & Se & B)|Hno]; [|apply zone_top; assumption].
    destruct (zside S tr v t a b Ht Se) as (c & Hl & Ha & Hb & Hc & Hp & Hi).
    assert (Hq' : in_triangle a b c q).
    { destruct Hq as (G1 & G2 & G3). destruct Hl0 as [E0|[E0|E0]]; destruct Hl as [E|[E|E]]; rewrite E0 in E; injection E as <- <- <-; repeat split; assumption. }
    destruct (far_one v a b c Hp Hi (beyond_le _ _ _ B)) as [F1 F2].
    destruct (segment_exit a b c q v Hp Hq' (beyond_le _ _ _ B) F1 F2) as (k & z & Hk & Hkz & Hz).
    destruct (barred_dec K a b) as [Bb|Nb]; [exfalso; apply (Hs a b z Bb Hz); exists k; auto|].
    destruct (cd_closed _ _ _ HC t (a, b) (proj1 Ht) Se) as (u & Hu & Su). cbn [flip fst snd] in Su.
    pose proof (cross_in S K tr v HC HR t u a b Ht Hu Se Su Nb (beyond_le _ _ _ B)) as Hhu.
    destruct (across S K tr v HC HR t u a b Ht Hu Se Su Nb) as (d & Lu & Hd & Pu).
    apply (zone_up S K tr v t u a b); auto. apply (IH u b a d z); auto.
    - pose proof (crank_lt S K tr v HC HR t u a b Ht Hhu Se Su Nb B). lia.
    - apply segment_in; assumption.
    - intros x y w Hxy Hw (k' & Hk' & [E1 E2]). apply (Hs x y w Hxy Hw). destruct Hkz as [G1 G2]. exists (k + k' * (1 - k)). 
      assert (Q1 := mpp k' (1 - k)). assert (Q2 := mpp (1 - k') (1 - k)). split; [lra|]. split; [rewrite E1, G1|rewrite E2, G2]; ring.
  Qed.

  Lemma top_sees : forall t, zhit t -> (forall e, side_of e t -> ~ beyond v e) -> forall x y, barred K x y -> on_segment x y v -> False.
  Proof.
    intros t Ht Hn x y Hxy Hs. pose proof (proj2 Ht) as (a & b & c & Hl & Ha & Hb & Hc & Hp & Hi).
    pose proof (looks_sides t a b c Hl) as Hsd.
    assert (Kk : forall a b c, looks t a b c -> D a b v = 0 -> False).
    { clear a b c Hl Ha Hb Hc Hp Hi Hsd. intros a b c Hl E. destruct (zread S tr v t a b c Ht Hl) as (Ha & Hb & Hc & Hp & Hi).
      destruct (barred_dec K a b) as [Bb|Nb]; [apply (Hoff a b Bb); apply (inside_chord a b c); auto|].
      assert (Se : side_of (a, b) t) by (apply (looks_sides t a b c Hl); auto).
      destruct (cd_closed _ _ _ HC t (a, b) (proj1 Ht) Se) as (u & Hu & Su). cbn [flip fst snd] in Su.
      pose proof (cross_in S K tr v HC HR t u a b Ht Hu Se Su Nb ltac:(lra)) as Hhu.
      destruct (across S K tr v HC HR t u a b Ht Hu Se Su Nb) as (d & Lu & Hd & Pu).
      destruct (far_one v a b c Hp Hi) as [F1 F2]; [lra|].
      apply (bar_edge x y v t u a b c d); auto using zhit_solid_in. }
    assert (N1 := Hn (a, b)). assert (N2 := Hn (b, c)). assert (N3 := Hn (c, a)). rewrite !Hsd in *.
    assert (G1 := not_beyond_ge _ _ _ (N1 (or_introl eq_refl))). assert (G2 := not_beyond_ge _ _ _ (N2 (or_intror (or_introl eq_refl)))). assert (G3 := not_beyond_ge _ _ _ (N3 (or_intror (or_intror eq_refl)))).
    assert (E1 := Kk a b c Hl). assert (E2 := Kk b c a ltac:(unfold looks in *; tauto)). assert (E3 := Kk c a b ltac:(unfold looks in *; tauto)).
    apply (bar_inside x y v t a b c); auto using zhit_solid_in. 
    repeat split; match goal with |- 0 < ?e => destruct (Req_dec e 0) as [Z|Z]; [exfalso; auto|lra] end.
  Qed.
  Lemma zone_clear : forall t, zone t -> forall q, (forall a b, side_of (a, b) t -> 0 < D a b q \/ (D a b q = 0 /\ 0 < D a b v)) ->
    forall s z x y, 0 < s <= 1 -> at_ratio s q v z -> barred K x y -> on_segment x y z -> False.
  Proof.
    assert (Hend : forall q z, at_ratio 1 q v z -> coincide z v) by (intros q z [E1 E2]; split; lra).
    assert (Hmix : forall s p r, 0 < s < 1 -> (0 < p \/ (p = 0 /\ 0 < r)) -> 0 <= r -> 0 < (1 - s) * p + s * r).
    { intros s p r Hs [Hp|[-> Hp]] Hr; [assert (Q1 := spp (1 - s) p); assert (Q2 := mpp s r); lra|assert (Q := spp s r); lra]. }
    intros t Ht. induction Ht as [t Hh Hn|t u a b Hh Se B Nb Hu Su Zu IH]; intros q Hq s z x y Hs Hz Hxy Hon.
    - destruct (Rle_lt_or_eq_dec _ _ (proj2 Hs)) as [L|E].
      + pose proof (proj2 Hh) as (a & b & c & Hl & Ha & Hb & Hc & Hp & Hi). pose proof (looks_sides t a b c Hl) as Hsd.
        apply (bar_inside x y z t a b c); auto using zhit_solid_in.
        assert (Kk : forall a b, side_of (a, b) t -> 0 < D a b z).
        { intros a' b' Se. rewrite (ratio_D s q v z a' b' Hz). apply Hmix; [lra|apply Hq, Se|apply not_beyond_ge, Hn, Se]. }
        repeat split; apply Kk, Hsd; auto.
      + subst s. apply (top_sees t Hh Hn x y Hxy). apply (on_segment_coincide x y z v); auto. apply (Hend q z Hz).
    - destruct (zside S tr v t a b Hh Se) as (c & Hl & Ha & Hb & Hc & Hp & Hi).
      destruct (far_one v a b c Hp Hi (beyond_le _ _ _ B)) as [F1 F2]. pose proof (beyond_le _ _ _ B) as Bv.
      pose proof (looks_sides t a b c Hl) as Hsd.
      assert (Pq : 0 < D a b q) by (destruct (Hq a b Se) as [P|[_ P]]; lra).
      assert (Sbc : side_of (b, c) t) by (apply Hsd; auto). assert (Sca : side_of (c, a) t) by (apply Hsd; auto).
      assert (Hbc : 0 < D b c z).
      { rewrite (ratio_D s q v z b c Hz). destruct (Rle_lt_or_eq_dec _ _ (proj2 Hs)) as [L|E]; [apply Hmix; [lra|apply Hq, Sbc|lra]|rewrite E; lra]. }
      assert (Hca : 0 < D c a z).
      { rewrite (ratio_D s q v z c a Hz). destruct (Rle_lt_or_eq_dec _ _ (proj2 Hs)) as [L|E]; [apply Hmix; [lra|apply Hq, Sca|lra]|rewrite E; lra]. }
      destruct (across S K tr v HC HR t u a b Hh Hu Se Su Nb) as (d & Lu & Hd & Pu).
      pose proof (zhit_solid_in t Hh) as Hst. pose proof (zhit_solid_in u (zone_hit S K tr v u Zu)) as Hsu.
      pose proof (ratio_D s q v z a b Hz) as Ez.
      destruct (Rtotal_order 0 (D a b z)) as [L|[E|G]].
      + apply (bar_inside x y z t a b c); auto. repeat split; assumption.
      + apply (bar_edge x y z t u a b c d); auto.
      + set (k := D a b q / (D a b q - D a b v)).
        assert (Ek : k * (D a b q - D a b v) = D a b q) by (unfold k; field; lra).
        assert (Nv : D a b v < 0). { apply Rnot_le_lt. intros L. assert (D a b v = 0) as E by lra. rewrite E in Ez. assert (Q := mpp (1 - s) (D a b q)). lra. }
        assert (K0 : 0 < k) by (apply (div_gt _ (D a b q - D a b v)); lra).
        assert (Ks : k < s).
        { apply Rnot_le_lt. intros L. assert (Q := mpp (k - s) (D a b q - D a b v)). lra. }
        set (z0 := toward q v k). pose proof (toward_ratio q v k) as Hz0. fold z0 in Hz0.
        pose proof (ratio_D k q v z0 a b Hz0) as E0. assert (Z0 : D a b z0 = 0) by lra.
        assert (Hbc0 : 0 < D b c z0) by (rewrite (ratio_D k q v z0 b c Hz0); apply Hmix; [lra|apply Hq, Sbc|lra]).
        assert (Hca0 : 0 < D c a z0) by (rewrite (ratio_D k q v z0 c a Hz0); apply Hmix; [lra|apply Hq, Sca|lra]).
        destruct (across_pos a b c d z0 Hp Pu Z0 Hbc0 Hca0) as [G1 G2].
        apply (IH z0) with (s := (s - k) / (1 - k)) (z := z) (x := x) (y := y); auto.
        * intros a' b' Se'. apply (looks_sides u b a d Lu) in Se'. destruct Se' as [Es|[Es|Es]]; injection Es as -> ->; [right|left; exact G1|left; exact G2].
          rewrite (D_swap a b z0), (D_swap a b v). lra.
        * assert (Es : (s - k) / (1 - k) * (1 - k) = s - k) by (field; lra). split; [apply (div_gt _ (1 - k)); lra|].
          apply Rnot_lt_le. intros L. assert (Q := spp ((s - k) / (1 - k) - 1) (1 - k)). lra.
        * destruct Hz as [X1 Y1]. destruct Hz0 as [X0 Y0]. split; [rewrite X1, X0|rewrite Y1, Y0]; field; lra.
  Qed.
  (** Every inner point of a triangle of the zone sees [v]. *)
  Lemma zone_sees : forall t a b c q, zone t -> looks t a b c -> inside_triangle a b c q -> sees K q v.
  Proof.
    intros t a b c q Ht Hl Hq x y z Hxy Hz (s & Hs & Hsz). pose proof (looks_sides t a b c Hl) as Hsd.
    destruct (Rle_lt_or_eq_dec _ _ (proj1 Hs)) as [L|E].
    - apply (zone_clear t Ht q) with (s := s) (z := z) (x := x) (y := y); auto; [|lra]. intros a' b' Se. left. apply Hsd in Se. destruct Hq as (Q1 & Q2 & Q3).
      destruct Se as [Es|[Es|Es]]; injection Es as -> ->; assumption.
    - subst s. apply (bar_inside x y z t a b c); auto using zhit_solid_in, (zone_hit S K tr v).
      destruct Hsz as [E1 E2]. assert (Ec : coincide q z) by (split; lra). destruct Hq as (Q1 & Q2 & Q3).
      repeat split; rewrite (coincide_D q z _ _ Ec); assumption.
  Qed.

  (** ** The insertion *)
  Variables (H : HashOrder) (bd : option (polyline ArithR)) (hs : list (polyline ArithR)) (fmin : nat) (pool : pnt -> Prop).
  Hypothesis Hmay : forall u fuel p, In u (tris tr) -> (fmin <= fuel)%nat ->
    exists m, may_insert_triangle H fuel p u v bd hs = Ok m /\ (zone u -> m = true).
  Hypothesis Hsplit : forall fuel p a b vs, (fmin <= fuel)%nat -> In a S -> In b S -> 0 < D a b v -> (forall w, In w vs -> pool w) ->
    exists conf rest, split_conflicts H fuel p (Tri a b v) vs bd hs = Ok (conf, rest).

  Lemma insert_constrained : forall t (s : state) fuel p, zone t -> ss_tr s = rem_tri t tr ->
    (forall w, In w (ss_rem s) -> pool w) -> (forall t vs w, In (t, vs) (ss_cm s) -> In w vs -> pool w) -> (2 * length (tris tr) + 2 + fmin < fuel)%nat ->
    exists s', cavity_loop H fuel p K bd hs v [te3 t; te2 t; te1 t] s = Ok s' /\ constrained_delaunay (v :: S) K (ss_tr s') /\
      (forall q, in_region tr q <-> in_region (ss_tr s') q) /\
      forall x, In x (tris (ss_tr s')) <-> (In x (tris tr) /\ ~ zone x) \/ exists a b, outline tr zone (a, b) /\ x = Tri a b v.
  Proof.
    intros t s fuel p Ht Es Hr1 Hr2 Hf.
    destruct (split_list tri zone (tris tr) (cd_nodup _ _ _ HC) (zone_dec S K tr v HC HR)) as (R & Kp & NR & NK & InR & InK & HP).
    destruct (zone_total H tr v) with (constraints := K) (boundary := bd) (holes := hs) (fmin := fmin) (zone := zone) (pool := pool)
      (up := fun (_ : tri) e => beyond v e) (rank := crank) (t := t) (s := s) (fuel := fuel) (p := p) as (s' & Hs & A1 & A2 & A3 & Hx); auto.
    - exact (cd_sound _ _ _ HC).
    - exact (cd_complete _ _ _ HC).
    - exact (cd_nodup _ _ _ HC).
    - intros t1 e e' Ht1 Se Se' Eq.
      assert (Hc : forall x, corner_of x t1 -> In x (v :: S) \/ x = gv).
      { intros x Hx. destruct (cd_shape _ _ _ HC t1 Ht1) as [(a & b & c & -> & Ha & Hb & Hcs & _)|(a & b & -> & Ha & Hb & _)]; inversion Hx; subst; cbn [In]; auto. }
      unfold eeqb, ev1, ev2 in Eq. apply andb_true_iff in Eq. destruct Eq as [E1 E2].
      rewrite (surjective_pairing e), (surjective_pairing e'). f_equal; apply (veqb_exact (v :: S)); auto; apply Hc;
        first [apply (side_corner1 _ _ Se) | apply (side_corner1 _ _ Se') | apply (side_corner2 _ _ Se) | apply (side_corner2 _ _ Se')].
    - exact (csides3 S K tr v HC HR).
    - exact (zone_in S K tr v).
    - intros t1 e Ht1. apply (cd_closed _ _ _ HC). apply (zone_in S K tr v), Ht1.
    - intros r e u fuel' p' Hr Se Hu Su Hfu. destruct (Hmay u fuel' p' Hu Hfu) as (m & Em & Hm). exists m. split; [exact Em|].
      destruct (cdecide S K tr v HC HR H r e u fuel' p' Hr Se Hu Su) as (m' & Em' & Hd). rewrite may_insert_free in Em'. injection Em' as <-.
      rewrite andb_true_r in Hd. split.
      + intros E. apply andb_true_iff in E. apply Hd, E.
      + intros Z. rewrite (Hm Z), andb_true_r. apply Hd, Z.
    - intros fuel' p' [a b] vs Hfu He Hvs. rewrite (bd_new S K tr v HC HR Hoff a b He). destruct (bd_facts S K tr v HC HR Hoff a b He) as (Ha & Hb & _ & P & _).
      apply Hsplit; auto.
    - intros t1 u e. apply (clink S K tr v).
    - intros t1 e e' Ht1. apply (cone S tr v). apply (zone_hit S K tr v), Ht1.
    - intros t1 u e. apply (crank_up S K tr v HC HR).
    - exact (call S K tr v HC HR).
    - exact (cnew S K tr v HC HR Hv Hoff R Kp NR NK InR InK).
    - exact (cfresh S K tr v HC HR Hv Hoff).
    - exists s'. split; [exact Hs|].
      split; [|split].
      + exact (after_constrained S K tr v HC HR Hv Hoff R Kp NR NK InR InK (ss_tr s') A1 A2 A3 Hx (ex_intro _ t Ht)).
      + intros q. split; apply region_closed.
        * intros a b c. apply (old_area S K tr HC).
        * intros q'. apply (open_after S K tr v HC HR Hoff R Kp NR NK InR InK (ss_tr s') Hx).
        * intros a b c. apply (after_area S K tr v HC HR Hoff (ss_tr s') Hx).
        * intros q'. apply (open_before S K tr v HC HR Hoff R Kp NR NK InR InK (ss_tr s') Hx).
      + exact (after_In S K tr v HC HR Hoff (ss_tr s') Hx).
  Qed.
End Mesh.
