(** P_K9.v — the union theorem in terms of polygons, and polygons on a grid. *)

From Coq Require Import Reals List ZArith Lra Lia Psatz Bool Permutation.
From Verif Require Import Base Arith Geometry Elements Polyline Procedures ArithR Spec SpecR SpecD SpecM SpecP SpecK
  P_Base P_Poly P_Trn P_Triangulator P_Contains P_R1 P_R2 P_R3 P_R4 P_R5 P_R6 P_D1 P_D2 P_D3 P_D4 P_D5 P_RX P_Fill P_Fill2 P_Slide P_Region2 P_E4 P_G1 P_Bool P_Nest P_J3
  P_K1 P_K2 P_K3 P_K4 P_K5 P_K6 P_K7 P_K8.
Import ListNotations.
Local Open Scope R_scope.

(** ** Union *)
Lemma ring_area_shoelace : forall c, polygon_sides (map fst c) = c -> ring_area c = - shoelace (polygon_sides (map fst c)).
Proof. intros c E. rewrite <- E at 1. apply area_polygon. Qed.

Theorem union_surrounds : forall H Z l1 l2 fuel p, (3 <= length l1)%nat -> (3 <= length l2)%nat ->
  laid_out Z (polygon_sides l1) (polygon_sides l2) ->
  middles_clear Z (polygon_sides l1) (polygon_sides l2) -> middles_clear Z (polygon_sides l2) (polygon_sides l1) ->
  filled_once l1 -> filled_once l2 -> boxes_meet (Poly l1 false) (Poly l2 false) -> (enough Z <= fuel)%nat ->
  exists rings : list (list pnt), (forall l, In l rings -> (3 <= length l)%nat) /\
    (forall q, (forall s, In s (polygon_sides l1 ++ polygon_sides l2) -> ~ on_segment (fst s) (snd s) q) ->
      winding_all q (rings_of rings) =
        (winding q (polygon_sides l1) + winding q (polygon_sides l2) - winding q (polygon_sides l1) * winding q (polygon_sides l2))%Z) /\
    match poly_union H fuel p (Poly l1 false) (Poly l2 false) with
    | Ok (Some (pl, u)) => popened pl = false /\ 0 < shoelace (polygon_sides (pverts pl)) /\
        exists before after, rings = before ++ pverts pl :: after /\ forall l s, In l (before ++ after) -> In s (polygon_sides l) -> In s u
    | Ok None => forall l, In l rings -> shoelace (polygon_sides l) < 0
    | Panic => exists l, In l rings /\ shoelace (polygon_sides l) = 0
    | NoFuel => False
    end.
Proof.
  intros H Z l1 l2 fuel p L1 L2 HL HM1 HM2 F1 F2 HB Hf.
  destruct (union_rings H Z l1 l2 fuel p L1 L2 HL HM1 HM2 F1 F2 HB Hf) as (chains & Hc & Hw & _ & Ho).
  exists (map (map fst) chains). split; [|split].
  - intros l Hl. apply in_map_iff in Hl. destruct Hl as (c & <- & Hcc). destruct (Hc c Hcc) as [_ L]. pose proof (map_length fst c) as Q. exact (eq_ind_r (fun n => (3 <= n)%nat) L Q).
  - intros q Hq. unfold rings_of. rewrite map_map. apply Hw, Hq.
  - destruct Ho as [(cs & c & cs' & u & E1 & E2 & E3 & _ & E5)|[(E1 & c & E2 & E3)|(E1 & E2)]].
    + rewrite E2. cbn [pverts popened]. assert (Hcc : In c chains) by (rewrite E1; apply in_or_app; right; left; reflexivity). split; [reflexivity|]. split.
      * rewrite (ring_area_shoelace c (proj1 (Hc c Hcc))) in E3. lra.
      * exists (map (map fst) cs), (map (map fst) cs'). split; [rewrite E1, map_app; reflexivity|]. intros l s Hl Hs. rewrite <- map_app in Hl. apply in_map_iff in Hl. destruct Hl as (x & <- & Hx).
        assert (Hxc : In x chains) by (rewrite E1; apply in_app_or in Hx; apply in_or_app; destruct Hx as [Hx|Hx]; [left|right; right]; exact Hx).
        destruct (Hc x Hxc) as [Ex _]. change (In s (polygon_sides (map fst x))) in Hs. rewrite Ex in Hs. apply (E5 x Hx s Hs).
    + rewrite E1. exists (map fst c). split; [apply (in_map (map fst)), E2|]. rewrite (ring_area_shoelace c (proj1 (Hc c E2))) in E3. lra.
    + rewrite E1. intros l Hl. apply in_map_iff in Hl. destruct Hl as (c & <- & Hcc). specialize (E2 c Hcc). rewrite (ring_area_shoelace c (proj1 (Hc c Hcc))) in E2. lra.
Qed.

Theorem union_whole : forall H Z l1 l2 fuel p pl u, (3 <= length l1)%nat -> (3 <= length l2)%nat ->
  laid_out Z (polygon_sides l1) (polygon_sides l2) ->
  middles_clear Z (polygon_sides l1) (polygon_sides l2) -> middles_clear Z (polygon_sides l2) (polygon_sides l1) ->
  filled_once l1 -> filled_once l2 -> (enough Z <= fuel)%nat ->
  poly_union H fuel p (Poly l1 false) (Poly l2 false) = Ok (Some (pl, u)) ->
  (forall e, In e u -> poly_contains (Poly l1 false) (midpoint (fst e) (snd e)) = Ok (Some Inside) \/ poly_contains (Poly l2 false) (midpoint (fst e) (snd e)) = Ok (Some Inside)) ->
  forall q, (forall s, In s (polygon_sides l1 ++ polygon_sides l2) -> ~ on_segment (fst s) (snd s) q) ->
    winding q (polygon_sides (pverts pl)) =
      (winding q (polygon_sides l1) + winding q (polygon_sides l2) - winding q (polygon_sides l1) * winding q (polygon_sides l2))%Z.
Proof.
  intros H Z l1 l2 fuel p pl u L1 L2 HL HM1 HM2 F1 F2 Hf Hrun Hu q Hq.
  assert (HB : boxes_meet (Poly l1 false) (Poly l2 false)).
  { unfold poly_union in Hrun. cbn [popened orb] in Hrun. unfold boxes_meet. destruct (poly_bbox (Poly l1 false)) as [b1|]; [|discriminate]. cbn [unwrap bind] in Hrun.
    destruct (poly_bbox (Poly l2 false)) as [b2|]; [|discriminate]. cbn [unwrap bind] in Hrun. exists b1, b2. destruct (bbox_intersection b1 b2) as [b|]; [|discriminate]. exists b. auto. }
  destruct (union_rings H Z l1 l2 fuel p L1 L2 HL HM1 HM2 F1 F2 HB Hf) as (chains & Hc & Hw & Hk & Ho). rewrite Hrun in Ho.
  destruct Ho as [(cs & c & cs' & u' & E1 & E2 & E3 & _ & E5)|[(E1 & _)|(E1 & _)]]; [|discriminate|discriminate]. injection E2 as Epl Eu. subst pl u'.
  assert (Hno : forall x, In x (cs ++ cs') -> False).
  { intros x Hx. assert (Hxc : In x chains) by (rewrite E1; apply in_app_or in Hx; apply in_or_app; destruct Hx as [Hx|Hx]; [left|right; right]; exact Hx).
    destruct (Hc x Hxc) as [_ L]. destruct x as [|e x]; [cbn in L; lia|]. destruct (Hk (e :: x) e Hxc (or_introl eq_refl)) as [K1 K2].
    destruct (Hu e (E5 _ Hx e (or_introl eq_refl))) as [Q|Q]; [exact (K1 Q)|exact (K2 Q)]. }
  assert (Ecs : cs = [] /\ cs' = []).
  { split; [destruct cs as [|x cs]; [reflexivity|exfalso; apply (Hno x); left; reflexivity]|destruct cs' as [|x cs']; [reflexivity|exfalso; apply (Hno x); apply in_or_app; right; left; reflexivity]]. }
  destruct Ecs as [-> ->]. cbn [app] in E1. subst chains. rewrite <- (Hw q Hq). unfold winding_all. cbn [map fold_right pverts]. rewrite Z.add_0_r. reflexivity.
Qed.

(** ** Polygons on a grid *)
Lemma whole_zero : forall n : Z, -1 < IZR n < 1 -> n = 0%Z.
Proof. intros n [H1 H2]. apply lt_IZR in H1. apply lt_IZR in H2. lia. Qed.
Lemma whole_near : forall i j e, e < 1 -> IZR i - e <= IZR j -> IZR i <= IZR j.
Proof. intros i j e He Hl. apply IZR_le. assert (i < j + 1)%Z; [|lia]. apply lt_IZR. rewrite plus_IZR. lra. Qed.
Lemma grid_apart : forall a b, grid_corner a -> grid_corner b -> close a b -> a = b.
Proof.
  intros a b (Ga & i & j & Xa & Ya) (Gb & k & l & Xb & Yb) [[C1 C2] [C3 C4]]. pose proof eps_small. pose proof eps_pos.
  rewrite Xa, Xb in C1, C2. rewrite Ya, Yb in C3, C4. rewrite <- minus_IZR in *.
  assert (Ex : (i - k)%Z = 0%Z) by (apply whole_zero; lra). assert (Ey : (j - l)%Z = 0%Z) by (apply whole_zero; lra).
  apply pnt_eq; [| |congruence]; [change (X a = X b)|change (Y a = Y b)]; rewrite ?Xa, ?Xb, ?Ya, ?Yb; f_equal; lia.
Qed.

Definition straight (s : edge ArithR) : Prop := grid_corner (fst s) /\ grid_corner (snd s) /\ fst s <> snd s /\ (X (fst s) = X (snd s) \/ Y (fst s) = Y (snd s)).
Lemma straight_cases : forall s, straight s -> (X (fst s) = X (snd s) /\ Y (fst s) <> Y (snd s)) \/ (Y (fst s) = Y (snd s) /\ X (fst s) <> X (snd s)).
Proof.
  intros [a b] ((Ga & _) & (Gb & _) & N & [E|E]); cbn [fst snd] in *; [left|right]; (split; [exact E|]); intros E'; apply N; apply pnt_eq; try assumption; congruence.
Qed.
Lemma between_ratio : forall a b x, a <> b -> Rmin a b <= x <= Rmax a b -> exists t, 0 <= t <= 1 /\ x = a + t * (b - a).
Proof.
  intros a b x N [H1 H2]. exists ((x - a) / (b - a)). split; [|field; lra].
  assert (G : forall n d, 0 < d -> 0 <= n <= d -> 0 <= n / d <= 1).
  { intros n d Hd [A B]. split; [apply Rmult_le_pos; [exact A|left; apply Rinv_0_lt_compat, Hd]|]. apply (Rmult_le_reg_r d); [exact Hd|]. unfold Rdiv. rewrite Rmult_assoc, Rinv_l by lra. lra. }
  destruct (Rlt_le_dec a b) as [L|L].
  - rewrite Rmin_left in H1 by lra. rewrite Rmax_right in H2 by lra. apply G; lra.
  - rewrite Rmin_right in H1 by lra. rewrite Rmax_left in H2 by lra. replace ((x - a) / (b - a)) with ((a - x) / (a - b)) by (field; lra). apply G; lra.
Qed.
Lemma upright_on : forall a b p, X a = X b -> Y a <> Y b -> X p = X a -> Rmin (Y a) (Y b) <= Y p <= Rmax (Y a) (Y b) -> on_segment a b p.
Proof. intros a b p E N Ex Hy. destruct (between_ratio _ _ _ N Hy) as (t & Ht & Et). exists t. split; [exact Ht|]. split; [rewrite Ex, E; ring|exact Et]. Qed.
Lemma level_on : forall a b p, Y a = Y b -> X a <> X b -> Y p = Y a -> Rmin (X a) (X b) <= X p <= Rmax (X a) (X b) -> on_segment a b p.
Proof. intros a b p E N Ey Hx. destruct (between_ratio _ _ _ N Hx) as (t & Ht & Et). exists t. split; [exact Ht|]. split; [exact Et|rewrite Ey, E; ring]. Qed.
Lemma near_whole : forall i j k e, e < 1 -> Rmin (IZR i) (IZR j) - e <= IZR k <= Rmax (IZR i) (IZR j) + e -> Rmin (IZR i) (IZR j) <= IZR k <= Rmax (IZR i) (IZR j).
Proof.
  intros i j k e He [H1 H2]. destruct (Rle_dec (IZR i) (IZR j)) as [L|L].
  - rewrite Rmin_left in * by exact L. rewrite Rmax_right in * by exact L. split; [apply (whole_near _ _ e He H1)|apply (whole_near _ _ e He); lra].
  - apply Rnot_le_lt in L. rewrite Rmin_right in * by lra. rewrite Rmax_left in * by lra. split; [apply (whole_near _ _ e He H1)|apply (whole_near _ _ e He); lra].
Qed.
Lemma line_upright : forall a b p, X a = X b -> Y a <> Y b -> on_line a b p -> X p = X a.
Proof.
  intros a b p E N Hl. unfold on_line, area2 in Hl. rewrite E in Hl |- *. assert (Q : (Y b - Y a) * (X p - X b) = 0) by lra. apply Rmult_integral in Q. destruct Q; lra.
Qed.
Lemma line_level : forall a b p, Y a = Y b -> X a <> X b -> on_line a b p -> Y p = Y a.
Proof.
  intros a b p E N Hl. unfold on_line, area2 in Hl. rewrite E in Hl |- *. assert (Q : (X b - X a) * (Y p - Y b) = 0) by lra. apply Rmult_integral in Q. destruct Q; lra.
Qed.
Lemma crossing_exact : forall s s' p, straight s -> straight s' -> X (fst s) = X (snd s) -> Y (fst s') = Y (snd s') -> nearly_meet s s' p ->
  on_segment (fst s) (snd s) p /\ on_segment (fst s') (snd s') p /\ X p = X (fst s) /\ Y p = Y (fst s').
Proof.
  intros [a b] [c d] p Hs Hs' E E' (Hc & L1 & L2 & B1 & B2). pose proof (straight_cases _ Hs) as C1. pose proof (straight_cases _ Hs') as C2.
  destruct Hs as ((_ & i1 & j1 & X1 & Y1) & (_ & i2 & j2 & X2 & Y2) & _ & _). destruct Hs' as ((_ & i3 & j3 & X3 & Y3) & (_ & i4 & j4 & X4 & Y4) & _ & _). cbn [fst snd] in *.
  assert (N1 : Y a <> Y b) by (destruct C1 as [[_ N]|[_ N]]; [exact N|congruence]). assert (N2 : X c <> X d) by (destruct C2 as [[_ N]|[_ N]]; [congruence|exact N]).
  pose proof (line_upright a b p E N1 L1) as Px. pose proof (line_level c d p E' N2 L2) as Py. pose proof eps_small.
  destruct B1 as [_ B1]. destruct B2 as [B2 _].
  assert (Q1 : Rmin (Y a) (Y b) <= Y p <= Rmax (Y a) (Y b)). { rewrite Py, Y1, Y2, Y3 in *. apply (near_whole _ _ _ eps); [lra|exact B1]. }
  assert (Q2 : Rmin (X c) (X d) <= X p <= Rmax (X c) (X d)). { rewrite Px, X1, X3, X4 in *. apply (near_whole _ _ _ eps); [lra|exact B2]. }
  split; [apply upright_on; assumption|]. split; [apply level_on; assumption|]. auto.
Qed.
Lemma nearly_exact : forall s s' p, straight s -> straight s' -> nearly_meet s s' p ->
  on_segment (fst s) (snd s) p /\ on_segment (fst s') (snd s') p /\ ((X p = X (fst s) /\ Y p = Y (fst s')) \/ (X p = X (fst s') /\ Y p = Y (fst s))).
Proof.
  intros s s' p Hs Hs' Hn. pose proof (straight_cases _ Hs) as C1. pose proof (straight_cases _ Hs') as C2.
  destruct C1 as [[E1 _]|[E1 _]], C2 as [[E2 _]|[E2 _]].
  - exfalso. apply (proj1 Hn). unfold crossp. rewrite E1, E2. ring.
  - destruct (crossing_exact s s' p Hs Hs' E1 E2 Hn) as (A & B & C & D). auto.
  - destruct (crossing_exact s' s p Hs' Hs E2 E1 (nearly_sym _ _ _ Hn)) as (A & B & C & D). auto.
  - exfalso. apply (proj1 Hn). unfold crossp. rewrite E1, E2. ring.
Qed.

Definition crossing_points (l1 l2 : list pnt) : list pnt :=
  flat_map (fun s => flat_map (fun s' => [at_ (X (fst s)) (Y (fst s')); at_ (X (fst s')) (Y (fst s))]) (polygon_sides l2)) (polygon_sides l1).
Definition grid_points (l1 l2 : list pnt) : list pnt := l1 ++ l2 ++ crossing_points l1 l2.

Lemma side_corner : forall (l : list pnt) s, In s (polygon_sides l) -> In (fst s) l /\ In (snd s) l.
Proof.
  intros l s Hs. destruct l as [|a l]; [destruct Hs|]. change (polygon_sides (a :: l)) with (path_sides ((a :: l) ++ [a])) in Hs.
  assert (G : forall m : list pnt, In s (path_sides m) -> In (fst s) m /\ In (snd s) m).
  { induction m as [|x [|y m] IH]; [intros []|intros []|]. intros [<-|Hm]; [cbn; auto|]. destruct (IH Hm). split; right; assumption. }
  destruct (G _ Hs) as [A B]. split; [apply in_app_or in A; destruct A as [A|[<-|[]]]; [exact A|left; reflexivity]|apply in_app_or in B; destruct B as [B|[<-|[]]]; [exact B|left; reflexivity]].
Qed.
Lemma side_straight : forall l s, grid_polygon l -> In s (polygon_sides l) -> straight s.
Proof.
  intros l s Hg Hs. destruct (side_corner l s Hs) as [A B]. destruct (gp_straight _ Hg s Hs) as [N E]. split; [apply (gp_corners _ Hg), A|]. split; [apply (gp_corners _ Hg), B|]. auto.
Qed.
Lemma grid_points_corner : forall l1 l2 z, grid_polygon l1 -> grid_polygon l2 -> In z (grid_points l1 l2) -> grid_corner z.
Proof.
  intros l1 l2 z H1 H2 Hz. unfold grid_points in Hz. apply in_app_or in Hz. destruct Hz as [Hz|Hz]; [apply (gp_corners _ H1), Hz|]. apply in_app_or in Hz. destruct Hz as [Hz|Hz]; [apply (gp_corners _ H2), Hz|].
  unfold crossing_points in Hz. apply in_flat_map in Hz. destruct Hz as (s & Hs & Hz). apply in_flat_map in Hz. destruct Hz as (s' & Hs' & Hz).
  destruct (side_straight _ _ H1 Hs) as ((_ & i1 & j1 & X1 & Y1) & _). destruct (side_straight _ _ H2 Hs') as ((_ & i3 & j3 & X3 & Y3) & _).
  destruct Hz as [<-|[<-|[]]]; (split; [reflexivity|]); [exists i1, j3|exists i3, j1]; rewrite X_at, Y_at; auto.
Qed.

Lemma grid_plain : forall l, grid_polygon l -> plain_sides (polygon_sides l).
Proof.
  intros l Hg. constructor; [apply (gp_once _ Hg)|]. intros s s' p I1 I2 N [[O1 O2]|Hn]; [apply (gp_shared _ Hg s s' p I1 I2 N O1 O2)|].
  destruct (nearly_exact s s' p (side_straight _ _ Hg I1) (side_straight _ _ Hg I2) Hn) as (O1 & O2 & _). apply (gp_shared _ Hg s s' p I1 I2 N O1 O2).
Qed.
Lemma grid_laid : forall l1 l2, grid_polygon l1 -> grid_polygon l2 -> cross_only l1 l2 -> laid_out (grid_points l1 l2) (polygon_sides l1) (polygon_sides l2).
Proof.
  intros l1 l2 H1 H2 Hx. constructor.
  - intros z Hz. apply (grid_points_corner l1 l2 z H1 H2 Hz).
  - intros a b Ha Hb. apply grid_apart; apply (grid_points_corner l1 l2); assumption.
  - intros s Hs. apply in_app_or in Hs. unfold grid_points. destruct Hs as [Hs|Hs].
    + destruct (side_corner _ _ Hs) as [A B]. split; [apply in_or_app; auto|]. split; [apply in_or_app; auto|]. apply (gp_straight _ H1 s Hs).
    + destruct (side_corner _ _ Hs) as [A B]. split; [apply in_or_app; right; apply in_or_app; auto|]. split; [apply in_or_app; right; apply in_or_app; auto|]. apply (gp_straight _ H2 s Hs).
  - apply grid_plain, H1.
  - apply grid_plain, H2.
  - intros s s' p I1 I2 Hn. destruct (nearly_exact s s' p (side_straight _ _ H1 I1) (side_straight _ _ H2 I2) Hn) as (O1 & O2 & Hp). split; [exact O1|]. split; [exact O2|].
    assert (G : forall z, In z [at_ (X (fst s)) (Y (fst s')); at_ (X (fst s')) (Y (fst s))] -> In z (grid_points l1 l2)).
    { intros z Hz. unfold grid_points. apply in_or_app. right. apply in_or_app. right. unfold crossing_points. apply in_flat_map. exists s. split; [exact I1|]. apply in_flat_map. exists s'. split; [exact I2|exact Hz]. }
    destruct Hp as [[Px Py]|[Px Py]]; eexists; (split; [apply G|]).
    + left. reflexivity.
    + split; [rewrite X_at|rewrite Y_at]; congruence.
    + right. left. reflexivity.
    + split; [rewrite X_at|rewrite Y_at]; congruence.
  - exact Hx.
Qed.

Lemma grid_clear : forall Z K K', (forall z, In z Z -> grid_corner z) -> (forall s, In s K' -> straight s) -> middles_clear Z K K'.
Proof.
  intros Z K K' HZ HK s u v m Hs Hu Hv Hp [M1 M2] Ho s' Hs' Ht. apply (Ho s' Hs'). pose proof (straight_cases _ (HK s' Hs')) as C.
  destruct (HK s' Hs') as ((_ & i1 & j1 & X1 & Y1) & (_ & i2 & j2 & X2 & Y2) & _). destruct s' as [a b]. destruct Ht as (T1 & T2 & T3). cbn [fst snd] in *.
  destruct C as [[E N]|[E N]].
  - apply upright_on; [exact E|exact N| |apply T3, E]. rewrite E in *. rewrite Rmin_left in T1 by lra. rewrite Rmax_left in T1 by lra. lra.
  - apply level_on; [exact E|exact N| |exact T1]. destruct (HZ u Hu) as (_ & iu & ju & Xu & Yu). destruct (HZ v Hv) as (_ & iv & jv & Xv & Yv).
    unfold area2 in T2. rewrite <- E in T2. rewrite Yu, Yv in M2. rewrite X1, X2, Y1 in *. pose proof eps_small. pose proof eps_pos.
    assert (Q : (i2 - i1 <= -1 \/ 1 <= i2 - i1)%Z) by (assert (i1 <> i2) by congruence; lia).
    assert (D : - (1 / 2) < Y m - IZR j1 < 1 / 2).
    { destruct Q as [Q|Q]; apply IZR_le in Q; rewrite minus_IZR in Q.
      - split; apply Rnot_le_lt; intros L.
        + assert (W := mnn (IZR i2 - IZR i1 + 1) (Y m - IZR j1) ltac:(lra) ltac:(lra)). lra.
        + assert (W := mnp (IZR i2 - IZR i1 + 1) (Y m - IZR j1) ltac:(lra) ltac:(lra)). lra.
      - split; apply Rnot_le_lt; intros L.
        + assert (W := mpn (IZR i2 - IZR i1 - 1) (Y m - IZR j1) ltac:(lra) ltac:(lra)). lra.
        + assert (W := mpp (IZR i2 - IZR i1 - 1) (Y m - IZR j1) ltac:(lra) ltac:(lra)). lra. }
    assert (W : (ju + jv - 2 * j1)%Z = 0%Z) by (apply whole_zero; rewrite minus_IZR, plus_IZR, mult_IZR; lra).
    rewrite M2. assert (W' : jv = (2 * j1 - ju)%Z) by lia. rewrite W', minus_IZR, mult_IZR. lra.
Qed.

Lemma part_dotp : forall s s' u v u' v', part_of s u v -> part_of s' u' v' -> exists k, 0 < k /\ dotp u v u' v' = k * dotp (fst s) (snd s) (fst s') (snd s').
Proof.
  intros [a b] [c d] u v u' v' (t & t' & T0 & T1 & T2 & [F1 F2] & [G1 G2]) (w & w' & W0 & W1 & W2 & [F3 F4] & [G3 G4]). cbn [fst snd] in *.
  exists ((t' - t) * (w' - w)). split; [apply Rmult_lt_0_compat; lra|]. unfold dotp. rewrite F1, F2, F3, F4, G1, G2, G3, G4. ring.
Qed.
Lemma grid_calm : forall Z K, (forall s, In s K -> straight s) -> no_turning_back K -> no_counter Z K.
Proof.
  intros Z K HK HT s s' u v u' v' p I1 I2 _ _ _ _ P1 P2 Hc Hd B1 B2 _ _.
  destruct (part_crossp s s' u v u' v' P1 P2) as (k & Hk & Ek). destruct (part_dotp s s' u v u' v' P1 P2) as (k' & Hk' & Ek').
  assert (Hc' : crossp (fst s) (snd s) (fst s') (snd s') = 0) by (rewrite Ek in Hc; apply Rmult_integral in Hc; destruct Hc; [lra|assumption]).
  assert (Hd' : dotp (fst s) (snd s) (fst s') (snd s') < 0) by (rewrite Ek' in Hd; apply (scaled_sign k'); assumption).
  apply (part_box _ _ _ _ _ P1) in B1. apply (part_box _ _ _ _ _ P2) in B2. pose proof (straight_cases _ (HK s I1)) as C1. pose proof (straight_cases _ (HK s' I2)) as C2.
  destruct (HK s I1) as ((_ & i1 & j1 & X1 & Y1) & (_ & i2 & j2 & X2 & Y2) & _). destruct (HK s' I2) as ((_ & i3 & j3 & X3 & Y3) & (_ & i4 & j4 & X4 & Y4) & _).
  destruct s as [a b], s' as [c d]. cbn [fst snd] in *. destruct B1 as [B1x B1y], B2 as [B2x B2y]. pose proof eps_small. pose proof eps_pos.
  (* two whole intervals with a point near both have a whole number in common *)
  assert (G : forall i j k l x, Rmin (IZR i) (IZR j) - eps <= x <= Rmax (IZR i) (IZR j) + eps -> Rmin (IZR k) (IZR l) - eps <= x <= Rmax (IZR k) (IZR l) + eps ->
    exists n, Rmin (IZR i) (IZR j) <= IZR n <= Rmax (IZR i) (IZR j) /\ Rmin (IZR k) (IZR l) <= IZR n <= Rmax (IZR k) (IZR l)).
  { intros i j m l x [A1 A2] [A3 A4].
    assert (Q : forall i j, exists lo hi, Rmin (IZR i) (IZR j) = IZR lo /\ Rmax (IZR i) (IZR j) = IZR hi /\ (lo <= hi)%Z).
    { intros i' j'. destruct (Z_le_gt_dec i' j') as [L|L]; [exists i', j'|exists j', i'].
      - rewrite Rmin_left, Rmax_right by (apply IZR_le, L). auto.
      - rewrite Rmin_right, Rmax_left by (apply IZR_le; lia). split; [reflexivity|]. split; [reflexivity|lia]. }
    destruct (Q i j) as (lo & hi & E3 & E4 & L1). destruct (Q m l) as (lo' & hi' & E1 & E2 & L2). rewrite E3 in A1 |- *. rewrite E4 in A2 |- *. rewrite E1 in A3 |- *. rewrite E2 in A4 |- *.
    assert (U1 : (lo <= hi')%Z). { apply le_IZR. apply (whole_near _ _ (2 * eps)); lra. }
    assert (U2 : (lo' <= hi)%Z). { apply le_IZR. apply (whole_near _ _ (2 * eps)); lra. }
    exists (Z.max lo lo'). split; split; apply IZR_le; lia. }
  destruct C1 as [[E1 N1]|[E1 N1]], C2 as [[E2 N2]|[E2 N2]].
  - rewrite Y1, Y2, Y3, Y4 in *. destruct (G _ _ _ _ _ B1y B2y) as (n & Q1 & Q2).
    assert (Ex : X a = X c). { rewrite X1, X2, X3, X4 in *. destruct (G _ _ _ _ _ B1x B2x) as (n' & Q3 & Q4). rewrite E1, E2 in *. rewrite Rmin_left, Rmax_left in Q3 by lra. rewrite Rmin_left, Rmax_left in Q4 by lra. lra. }
    apply (HT (a, b) (c, d) (at_ (X a) (IZR n)) I1 I2 Hc' Hd'); cbn [fst snd]; apply upright_on; rewrite ?X_at, ?Y_at; try assumption; try congruence; rewrite ?Y1, ?Y2, ?Y3, ?Y4; assumption.
  - exfalso. unfold dotp in Hd'. rewrite E1, E2 in Hd'. lra.
  - exfalso. unfold dotp in Hd'. rewrite E1, E2 in Hd'. lra.
  - rewrite X1, X2, X3, X4 in *. destruct (G _ _ _ _ _ B1x B2x) as (n & Q1 & Q2).
    assert (Ey : Y a = Y c). { rewrite Y1, Y2, Y3, Y4 in *. destruct (G _ _ _ _ _ B1y B2y) as (n' & Q3 & Q4). rewrite E1, E2 in *. rewrite Rmin_left, Rmax_left in Q3 by lra. rewrite Rmin_left, Rmax_left in Q4 by lra. lra. }
    apply (HT (a, b) (c, d) (at_ (IZR n) (Y a)) I1 I2 Hc' Hd'); cbn [fst snd]; apply level_on; rewrite ?X_at, ?Y_at; try assumption; try congruence; rewrite ?X1, ?X2, ?X3, ?X4; assumption.
Qed.

Lemma turned_straight : forall s, straight s -> straight (turn s).
Proof. intros [a b] (A & B & N & E). unfold straight, turn in *. cbn [fst snd] in *. split; [exact B|]. split; [exact A|]. split; [congruence|]. destruct E; [left|right]; congruence. Qed.
