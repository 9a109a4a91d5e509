(** P_C7.v — when nothing comes near anything, the boundary test of an insertion
    accepts; in a convex polygon it always does. *)

From Coq Require Import Reals List ZArith Lra Lia Psatz Bool Permutation.
From Verif Require Import Base Arith Geometry Elements Polyline Procedures Triangulator ArithR Spec SpecR SpecD SpecP SpecC
  P_Base P_Trn P_Fuel P_Poly P_Vertices P_Flood P_R1 P_R2 P_R3 P_R5 P_R6 P_RX P_D1 P_D2 P_D3 P_D4 P_D5 P_D6 P_D7 P_D8 P_Fill P_Fill2 P_Region P_Region2 P_Contains P_Slide P_Polygon P_Polygon2 P_Polygon3 P_Zone P_Checks P_C1 P_C2 P_C3 P_C4 P_C5 P_C6.
Import ListNotations.
Local Open Scope R_scope.

(** ** The two loops of [continence] *)
Definition inner_value (p : polyline ArithR) (q : pnt) : Prop := poly_contains p q = Ok (Some Inside) \/ poly_contains p q = Ok (Some Boundary).

Lemma loop1_inner : forall (p : polyline ArithR) vs pc pb, (forall q, In q vs -> inner_value p q) -> pc = None \/ pc = Some Inside ->
  exists pc' pb', continence_loop1 p vs pc pb = Ok (Some (pc', pb')) /\ (pc' = None \/ pc' = Some Inside) /\
    (pc' = None -> pc = None /\ (forall q, In q vs -> poly_contains p q = Ok (Some Boundary)) /\ (vs <> [] \/ pb = Closed -> pb' = Closed)).
Proof.
  intros p vs. induction vs as [|v vs IH]; intros pc pb Hv Hpc; cbn [continence_loop1].
  - exists pc, pb. split; [reflexivity|]. split; [exact Hpc|]. intros ->. split; [reflexivity|]. split; [intros q []|]. intros [Hn|E]; [congruence|exact E].
  - unfold contains_unwrap. destruct (Hv v (or_introl eq_refl)) as [E|E]; rewrite E; cbn [bind unwrap cont_eqb].
    + assert (G : exists pc' pb', continence_loop1 p vs (Some Inside) pb = Ok (Some (pc', pb')) /\ pc' = Some Inside).
      { destruct (IH (Some Inside) pb) as (pc' & pb' & E1 & [-> | ->] & E3); [intros q Hq; apply Hv; right; exact Hq|auto| |].
        - exists None, pb'. destruct (E3 eq_refl) as [E4 _]. discriminate.
        - exists (Some Inside), pb'. auto. }
      destruct G as (pc' & pb' & G1 & ->). exists (Some Inside), pb'. destruct Hpc as [-> | ->]; cbn [cont_eqb]; (split; [exact G1|]; split; [auto|discriminate]).
    + destruct (IH pc Closed) as (pc' & pb' & E1 & E2 & E3); [intros q Hq; apply Hv; right; exact Hq|exact Hpc|]. exists pc', pb'. split; [exact E1|]. split; [exact E2|].
      intros En. destruct (E3 En) as (E4 & E5 & E6). split; [exact E4|]. split; [intros q [<-|Hq]; auto|]. intros _. apply E6. right. reflexivity.
Qed.

Lemma loop2_inner : forall (p : polyline ArithR) es pc, (forall e, In e es -> poly_contains p (edge_midpoint e) = Ok (Some Boundary) \/ (poly_contains p (edge_midpoint e) = Ok (Some Inside) /\ pc = Some Inside)) ->
  continence_loop2 p es pc = Ok true.
Proof.
  intros p es pc. induction es as [|e es IH]; intros He; cbn [continence_loop2]; [reflexivity|]. unfold contains_unwrap.
  destruct (He e (or_introl eq_refl)) as [E|[E ->]]; rewrite E; cbn [bind unwrap cont_eqb]; apply IH; intros e' He'; apply He; right; exact He'.
Qed.

(** Nothing crosses, and the critical points are inside or on the boundary: the
    second polyline is accepted. *)
Lemma continence_quiet : forall fuel (l : list pnt) (p2 : polyline ArithR) es2, l <> [] -> into_edges p2 = Ok es2 -> es2 <> [] ->
  (length (polygon_sides l) + length es2 < fuel)%nat ->
  (forall e e' l1 l2 l3, rev (polygon_sides l ++ es2) = l1 ++ e :: l2 ++ e' :: l3 -> crosses e' e = false) ->
  (forall e, In e es2 -> inner_value (Poly l false) (edge_midpoint e) /\ inner_value (Poly l false) (ev1 e)) ->
  exists c b, poly_continence fuel (Poly l false) p2 = Ok (Some (c, b)) /\ c <> Outside.
Proof.
  intros fuel l p2 es2 Hl He Hne Hfu Hcr Hin. unfold poly_continence. cbn [popened]. rewrite He. cbn [bind]. cbn zeta.
  set (crit := flat_map (fun e => [edge_midpoint e; ev1 e]) es2).
  destruct (loop1_inner (Poly l false) crit None Open) as (pc & pb & E1 & E2 & E3).
  { intros q Hq. apply in_flat_map in Hq. destruct Hq as (e & Hi & [<-|[<-|[]]]); apply (Hin e Hi). }
  { left. reflexivity. }
  rewrite E1. cbn [bind]. assert (Ep : poly_pairs (Poly l false) = Ok (polygon_sides l)) by (apply polygon_edges, Hl). rewrite Ep. cbn [bind].
  unfold into_edges in He. rewrite He. cbn [bind]. rewrite (split_intersections_id (A:=ArithR) fuel (polygon_sides l ++ es2)).
  2:{ rewrite app_length. exact Hfu. }
  2:{ intros l1 x l2 y l3 E. apply (Hcr x y l1 l2 l3 E). }
  cbn [bind]. rewrite (loop2_inner (Poly l false)).
  2:{ intros e Hi. apply in_rev in Hi. apply in_app_or in Hi. destruct Hi as [Hi|Hi].
      - left. destruct e as [a b]. apply (contains_on_side l _ a b Hi). destruct (edge_midpoint_spec (a, b)) as [[Hx Hy] _]. cbn [fst snd] in *. exists (/ 2). split; [lra|]. split; assumption.
      - destruct (proj1 (Hin e Hi)) as [E|E]; [|left; exact E]. right. split; [exact E|]. destruct E2 as [-> | ->]; [|reflexivity]. exfalso.
        destruct (E3 eq_refl) as (_ & Hb & _). rewrite (Hb (edge_midpoint e)) in E; [discriminate|]. apply in_flat_map. exists e. split; [exact Hi|left; reflexivity]. }
  cbn [bind negb]. destruct E2 as [-> | ->].
  - destruct (E3 eq_refl) as (_ & _ & Ec). rewrite Ec; [|left].
    + exists Boundary, Closed. split; [reflexivity|discriminate].
    + unfold crit. destruct es2 as [|e es2]; [congruence|discriminate].
  - exists Inside, pb. split; [destruct pb; reflexivity|discriminate].
Qed.

(** ** Nothing crosses from afar *)
Lemma near_end : forall x0 x1 x t, t <= 0 -> x = x0 + t * (x1 - x0) -> Rmin x0 x1 - eps <= x <= Rmax x0 x1 + eps -> - eps <= x - x0 <= eps.
Proof.
  intros x0 x1 x t Ht Ex [L U]. pose proof eps_pos. destruct (Rle_dec x0 x1) as [Hl|Hl].
  - rewrite Rmin_left in L by lra. assert (Q := mpn (x1 - x0) t). lra.
  - rewrite Rmax_left in U by lra. assert (Q := mnn t (x1 - x0)). lra.
Qed.

Lemma shift_area : forall a b c p, - eps <= X p - X c <= eps -> - eps <= Y p - Y c <= eps ->
  D a b c - eps * (Rabs (X b - X a) + Rabs (Y b - Y a)) <= D a b p.
Proof.
  intros a b c p Hx Hy. assert (E : D a b p = D a b c + (X b - X a) * (Y p - Y c) - (Y b - Y a) * (X p - X c)) by (unfold area2; ring).
  assert (M : forall u e, - eps <= e <= eps -> - (eps * Rabs u) <= u * e <= eps * Rabs u).
  { intros u e He. pose proof eps_pos. unfold Rabs. destruct (Rcase_abs u); split; nra. }
  pose proof (M (X b - X a) _ Hy). pose proof (M (Y b - Y a) _ Hx). lra.
Qed.

Lemma near_spread : forall a b c d p, crossp a b c d <> 0 -> on_line c d p -> near_box eps c d p -> spread 1 a b c -> spread 1 a b d -> 0 < D a b p.
Proof.
  intros a b c d p Hc Hl [Bx By] Sc Sd. unfold spread in *. set (m := Rabs (X b - X a) + Rabs (Y b - Y a)) in *.
  assert (Hm : 0 <= m) by (unfold m; pose proof (Rabs_pos (X b - X a)); pose proof (Rabs_pos (Y b - Y a)); lra).
  pose proof eps_pos as He. assert (Q0 := mpp eps m).
  assert (Ht : exists t, at_ratio t c d p).
  { unfold on_line, area2 in Hl. unfold at_ratio. destruct (Req_dec (X d - X c) 0) as [Ex|Nx].
    - destruct (Req_dec (Y d - Y c) 0) as [Ey|Ny]; [exfalso; apply Hc; unfold crossp; rewrite Ex, Ey; ring|].
      exists ((Y p - Y c) / (Y d - Y c)). split; [|field; exact Ny]. rewrite Ex in *.
      assert (E : (Y d - Y c) * (X p - X c) = 0) by lra. apply Rmult_integral in E. destruct E as [E|E]; [contradiction|lra].
    - exists ((X p - X c) / (X d - X c)). split; [field; exact Nx|]. apply Rmult_eq_reg_l with (X d - X c); [|exact Nx]. field_simplify; [|exact Nx]. lra. }
  destruct Ht as (t & Ex & Ey).
  assert (E : D a b p = (1 - t) * D a b c + t * D a b d) by (unfold area2; rewrite Ex, Ey; ring).
  destruct (Rle_dec t 0) as [T0|T0].
  - pose proof (near_end _ _ _ _ T0 Ex Bx) as Nx. pose proof (near_end _ _ _ _ T0 Ey By) as Ny. pose proof (shift_area a b c p Nx Ny) as Hs. fold m in Hs. lra.
  - destruct (Rle_dec 1 t) as [T1|T1].
    + assert (Ex' : X p = X d + (1 - t) * (X c - X d)) by lra. assert (Ey' : Y p = Y d + (1 - t) * (Y c - Y d)) by lra.
      rewrite Rmin_comm, Rmax_comm in Bx. rewrite (Rmin_comm (Y c)), (Rmax_comm (Y c)) in By.
      assert (T : 1 - t <= 0) by lra. pose proof (near_end _ _ _ _ T Ex' Bx) as Nx. pose proof (near_end _ _ _ _ T Ey' By) as Ny.
      pose proof (shift_area a b d p Nx Ny) as Hs. fold m in Hs. lra.
    + assert (Q1 := spp (1 - t) (D a b c)). assert (Q2 := spp t (D a b d)). lra.
Qed.

Lemma veqb_same : forall a : pnt, veqb a a = true.
Proof. intros a. unfold veqb. cbn. rewrite !Raeq_refl. destruct (vghost a); reflexivity. Qed.

Lemma share_quiet : forall a b c d : pnt, a = c \/ a = d \/ b = c \/ b = d -> crosses (a, b) (c, d) = false.
Proof.
  intros a b c d Hs. unfold crosses. destruct (intersection a b c d); [|reflexivity].
  destruct Hs as [-> |[-> |[-> | ->]]]; rewrite veqb_same; cbn [negb andb]; rewrite ?andb_false_r; reflexivity.
Qed.
Lemma spread_quiet : forall a b c d : pnt, spread 1 a b c -> spread 1 a b d -> crosses (a, b) (c, d) = false /\ crosses (c, d) (a, b) = false.
Proof.
  intros a b c d Sc Sd. unfold crosses. split.
  - destruct (intersection a b c d) as [p|] eqn:Ei; [|reflexivity].
    destruct (parallel a b c d) eqn:Ep; [rewrite !andb_false_r; reflexivity|exfalso].
    assert (Hc : crossp a b c d <> 0) by (intros E; apply parallel_spec in E; congruence).
    destruct (intersection_sound _ _ _ _ _ Ei) as (_ & Hb & _ & Hl & _). destruct (Hl Hc) as [L1 L2].
    pose proof (near_spread a b c d p Hc L2 Hb Sc Sd) as P. unfold on_line in L1. lra.
  - destruct (intersection c d a b) as [p|] eqn:Ei; [|reflexivity].
    destruct (parallel c d a b) eqn:Ep; [rewrite !andb_false_r; reflexivity|exfalso].
    assert (Hc : crossp c d a b <> 0) by (intros E; apply parallel_spec in E; congruence).
    assert (Hc' : crossp a b c d <> 0) by (intros E; apply Hc; unfold crossp in *; lra).
    destruct (intersection_sound _ _ _ _ _ Ei) as (Hb & _ & _ & Hl & _). destruct (Hl Hc) as [L1 L2].
    pose proof (near_spread a b c d p Hc' L1 Hb Sc Sd) as P. unfold on_line in L2. lra.
Qed.

(** ** Convex polygons *)
Section ConvexTest.
  Variables (l : list pnt) (tr0 : mesh).
  Hypothesis HF : fills l tr0.
  Hypothesis Hl : l <> [].
  (** A corner or an inner point that is well apart from every side. *)
  Definition well_in (w : pnt) : Prop := forall a b, In (a, b) (polygon_sides l) -> spread 1 a b w.
  Hypothesis Hcorner : forall a b w, In (a, b) (polygon_sides l) -> In w l -> w <> a -> w <> b -> spread 1 a b w.
  Definition good (w : pnt) : Prop := In w l \/ well_in w.

  Lemma spread_pos : forall m a b w, 0 <= m -> spread m a b w -> 0 < D a b w.
  Proof.
    intros m a b w Hm Hs. unfold spread in Hs. pose proof eps_pos. pose proof (Rabs_pos (X b - X a)). pose proof (Rabs_pos (Y b - Y a)).
    assert (Q := mpp m eps). assert (Q' := mpp (m * eps) (Rabs (X b - X a) + Rabs (Y b - Y a))). lra.
  Qed.
  Lemma spread_convex : convex l.
  Proof. intros a b w Hab Hw N1 N2. apply (spread_pos 1); [lra|]. apply Hcorner; assumption. Qed.
  Lemma good_side : forall a b w, In (a, b) (polygon_sides l) -> good w -> w = a \/ w = b \/ spread 1 a b w.
  Proof.
    intros a b w Hab [Hw|Hw]; [|right; right; apply Hw, Hab]. destruct (vdec w a) as [->|N1]; [auto|]. destruct (vdec w b) as [->|N2]; [auto|].
    right. right. apply Hcorner; assumption.
  Qed.
  Lemma good_quiet : forall a b c d, In (a, b) (polygon_sides l) -> good c -> good d -> crosses (a, b) (c, d) = false /\ crosses (c, d) (a, b) = false.
  Proof.
    intros a b c d Hab Hc Hd.
    destruct (good_side a b c Hab Hc) as [-> |[-> |Sc]]; [split; apply share_quiet; auto|split; apply share_quiet; auto|].
    destruct (good_side a b d Hab Hd) as [-> |[-> |Sd]]; [split; apply share_quiet; auto|split; apply share_quiet; auto|]. apply spread_quiet; assumption.
  Qed.
  Lemma inner_contains : forall q, (forall a b, In (a, b) (polygon_sides l) -> 0 < D a b q) -> inner_value (Poly l false) q.
  Proof.
    intros q Hq. destruct (convex_region l tr0 q Hl HF spread_convex Hq) as [W _]. destruct (contains_winding l q Hl) as (k & Ek & _ & _ & Ho).
    unfold inner_value. rewrite Ek. destruct k; [|auto|auto]. all: try (specialize (Ho eq_refl); congruence).
    all: auto.
  Qed.
  Lemma corner_contains : forall q, In q l -> inner_value (Poly l false) q.
  Proof.
    intros q Hq. right. destruct (polygon_starts l q Hq) as ([a b] & He & E). cbn in E. subst a. apply (contains_on_side l q q b He). exists 0. split; [lra|]. split; lra.
  Qed.
  Lemma good_contains : forall q, good q -> inner_value (Poly l false) q.
  Proof. intros q [Hq|Hq]; [apply corner_contains, Hq|]. apply inner_contains. intros a b Hab. apply (spread_pos 1); [lra|]. apply Hq, Hab. Qed.
  Lemma mid_contains : forall a b, good a -> well_in b -> inner_value (Poly l false) (edge_midpoint (a, b)) /\ inner_value (Poly l false) (edge_midpoint (b, a)).
  Proof.
    intros a b Ha Hb.
    assert (K : forall e, e = (a, b) \/ e = (b, a) -> forall x y, In (x, y) (polygon_sides l) -> 0 < D x y (edge_midpoint e)).
    { intros e Ee x y Hxy. assert (E : D x y (edge_midpoint e) = (D x y a + D x y b) / 2).
      { destruct (edge_midpoint_spec e) as [[Ex Ey] _]. unfold area2. rewrite Ex, Ey. destruct Ee as [-> | ->]; cbn [fst snd]; field. }
      rewrite E. pose proof (spread_pos 1 x y b ltac:(lra) (Hb x y Hxy)).
      destruct (good_side x y a Hxy Ha) as [-> |[-> |Sa]]; [rewrite D_ab_a; lra|rewrite D_ab_b; lra|]. pose proof (spread_pos 1 x y a ltac:(lra) Sa). lra. }
    split; apply inner_contains, K; auto.
  Qed.

  Lemma line_quiet : forall fuel (p2 : polyline ArithR) es2, into_edges p2 = Ok es2 -> es2 <> [] -> (length l + length es2 < fuel)%nat ->
    (forall c d, In (c, d) es2 -> good c /\ good d) -> (forall e e', In e es2 -> In e' es2 -> crosses e e' = false) ->
    (forall e, In e es2 -> inner_value (Poly l false) (edge_midpoint e)) ->
    exists c b, poly_continence fuel (Poly l false) p2 = Ok (Some (c, b)) /\ c <> Outside.
  Proof.
    intros fuel p2 es2 He Hne Hfu Hg Hself Hmid. apply (continence_quiet fuel l p2 es2); auto.
    - pose proof (map_length fst (polygon_sides l)) as El. rewrite polygon_fst in El. unfold edge in *. rewrite <- El. exact Hfu.
    - intros [a b] [c d] l1 l2 l3 E.
      assert (Hi : forall e, In e (l1 ++ (a, b) :: l2 ++ (c, d) :: l3) -> In e (polygon_sides l ++ es2)) by (intros e Hi; apply in_rev; rewrite E; exact Hi).
      assert (H1 : In (a, b) (polygon_sides l ++ es2)) by (apply Hi, in_or_app; right; left; reflexivity).
      assert (H2 : In (c, d) (polygon_sides l ++ es2)) by (apply Hi, in_or_app; right; right; apply in_or_app; right; left; reflexivity).
      assert (G : forall x y, In (x, y) (polygon_sides l) -> good x /\ good y) by (intros x y Hxy; destruct (polygon_ends l _ Hxy); split; left; assumption).
      apply in_app_or in H1. apply in_app_or in H2. destruct H1 as [H1|H1]; destruct H2 as [H2|H2].
      + destruct (G _ _ H2). apply (proj2 (good_quiet a b c d H1 ltac:(assumption) ltac:(assumption))).
      + destruct (Hg _ _ H2). apply (proj2 (good_quiet a b c d H1 ltac:(assumption) ltac:(assumption))).
      + destruct (Hg _ _ H1). apply (proj1 (good_quiet c d a b H2 ltac:(assumption) ltac:(assumption))).
      + apply Hself; assumption.
    - intros [c d] Hi. split; [apply Hmid, Hi|]. apply good_contains. apply (Hg c d Hi).
  Qed.

  Lemma centroid_well : forall a b c, (forall x y, In (x, y) (polygon_sides l) -> spread 1 x y (centroid a b c)) -> well_in (centroid a b c).
  Proof. intros a b c Hs x y Hxy. apply Hs, Hxy. Qed.

  Lemma solid_line : forall (H : HashOrder) fuel p a b c v, vghost a = false -> vghost b = false -> vghost c = false ->
    well_in (centroid a b c) -> well_in v -> (length l + 2 <= fuel)%nat -> may_insert_triangle H fuel p (Tri a b c) v (Some (Poly l false)) [] = Ok true.
  Proof.
    intros H fuel p a b c v Ga Gb Gc Hg Hv Hfu. unfold may_insert_triangle, may_insert_line, is_ghost. cbn [tv1 tv2 tv3]. rewrite Ga, Gb, Gc. cbn [orb new_opened length Nat.ltb Nat.leb unwrap bind].
    unfold new_opened. cbn [length Nat.ltb Nat.leb unwrap bind inside_boundary].
    set (g := tri_center (Tri a b c)). assert (E3 : 3 = INR 3) by (cbn; ring). assert (Eg : coincide g (centroid a b c)).
    { unfold g, tri_center, is_ghost. cbn [tv1 tv2 tv3]. rewrite Ga, Gb, Gc. cbn [orb]. unfold centroid. rewrite E3. split; rewrite ?X_at, ?Y_at; reflexivity. }
    assert (Hwg : well_in g).
    { intros x y Hxy. specialize (Hg x y Hxy). unfold spread, area2 in *. destruct Eg as [-> ->]. exact Hg. }
    destruct (line_quiet fuel (Poly [g; v] true) [(g, v)]) as (k & bi & E & Hk).
    - reflexivity.
    - discriminate.
    - cbn [length]. lia.
    - intros x y [E|[]]. injection E as <- <-. split; right; assumption.
    - intros e e' [<-|[]] [<-|[]]. apply share_quiet. auto.
    - intros e [<-|[]]. apply mid_contains; [right|]; assumption.
    - rewrite E. cbn [bind]. unfold outside_holes. rewrite ho_nil. cbn [foldM bind]. destruct k; [congruence|reflexivity|reflexivity] || (destruct k; reflexivity || congruence).
  Qed.

  Lemma outer_line : forall (H : HashOrder) fuel p a b v, In (a, b) (polygon_sides l) -> well_in v -> (length l + 4 <= fuel)%nat ->
    may_insert_triangle H fuel p (Tri b a gv) v (Some (Poly l false)) [] = Ok true.
  Proof.
    intros H fuel p a b v Hab Hv Hfu. unfold may_insert_triangle, may_insert_line, is_ghost. cbn [tv1 tv2 tv3]. cbn [vghost]. rewrite !orb_true_r.
    unfold new_closed. cbn [length Nat.ltb Nat.leb unwrap bind inside_boundary]. destruct (polygon_ends l _ Hab) as [Ha Hb]. cbn [fst snd] in *.
    destruct (line_quiet fuel (Poly [b; a; v] false) [(b, a); (a, v); (v, b)]) as (k & bi & E & Hk).
    - reflexivity.
    - discriminate.
    - cbn [length]. lia.
    - intros x y [E|[E|[E|[]]]]; injection E as <- <-; split; (left; assumption) || (right; assumption).
    - intros e e' [<-|[<-|[<-|[]]]] [<-|[<-|[<-|[]]]]; apply share_quiet; auto.
    - intros e [<-|[<-|[<-|[]]]].
      + right. apply (contains_on_side l _ a b Hab). destruct (edge_midpoint_spec (b, a)) as [[Hx Hy] _]. cbn [fst snd] in *. exists (/ 2). split; [lra|]. split; lra.
      + apply (mid_contains a v); [left|]; assumption.
      + apply (mid_contains b v); [left|]; assumption.
    - rewrite E. cbn [bind]. unfold outside_holes. rewrite ho_nil. cbn [foldM bind]. destruct k; [congruence|reflexivity|reflexivity] || (destruct k; reflexivity || congruence).
  Qed.
End ConvexTest.
