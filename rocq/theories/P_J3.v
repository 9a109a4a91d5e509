(** P_J3.v — triangulating a convex polygon with one hole. *)

From Coq Require Import Reals List ZArith Lra Lia Psatz Bool Permutation.
From Verif Require Import Base Arith Geometry Elements Polyline Procedures Refine Triangulator ArithR Spec SpecM SpecR SpecD SpecP SpecC SpecE SpecJ
  P_Base P_Trn P_Fuel P_Poly P_Vertices P_Cavity P_Flood P_R1 P_R2 P_R3 P_R4 P_R5 P_R6 P_RX P_D1 P_D2 P_D3 P_D4 P_D5 P_D6 P_D7 P_D8 P_Fill P_Fill2 P_Slide P_Region P_Region2 P_Region3 P_Polygon
  P_Polygon2 P_Polygon3 P_C1 P_C2 P_C3 P_C4 P_C5 P_C6 P_C7 P_C8 P_C9 P_E8 P_Nest P_J1 P_J2.
Import ListNotations.
Local Open Scope R_scope.

(** ** Behind a line *)
Lemma beyond_line : forall h a b w, (forall x, In x h -> 0 < D a b x) -> D a b w <= 0 -> winding w (polygon_sides h) = 0%Z.
Proof.
  intros h a b w Hh Hw. assert (He : forall e, In e (polygon_sides h) -> 0 < D a b (fst e) /\ 0 < D a b (snd e)) by (intros e Hi; destruct (polygon_ends h e Hi); auto).
  destruct (Req_EM_T (X a) (X b)) as [E|E].
  - rewrite winding_zsum. apply zsum_zero. intros [x y] Hi. destruct (He _ Hi) as [H1 H2]. cbn [fst snd] in *. unfold area2 in *. rewrite E in *.
    assert (Q1 : forall v, 0 < (X b - X b) * (Y v - Y a) - (Y b - Y a) * (X v - X b) -> 0 < (Y b - Y a) * (X b - X v)) by (intros v; lra).
    assert (Q2 : (Y b - Y a) * (X b - X w) <= 0) by lra. apply Q1 in H1. apply Q1 in H2. clear Q1 E Hh He Hw. unfold rc, ray_crossing.
    destruct (Rle_dec (X x) (X w)); [destruct (Rlt_dec (X w) (X y)); [exfalso|reflexivity]|destruct (Rle_dec (X y) (X w)); [exfalso|reflexivity]]; destruct (Rle_lt_dec (Y b) (Y a)) as [L|L]; nra.
  - destruct (bounded_X (map fst (polygon_sides h) ++ map snd (polygon_sides h))) as (M & HM). set (s := (Rabs (M - X w)) / (X b - X a)).
    assert (Es : s * (X b - X a) = Rabs (M - X w)) by (unfold s; field; lra).
    set (q' := at_ (X w + s * (X b - X a)) (Y w + s * (Y b - Y a))).
    assert (HX : M <= X q') by (unfold q'; rewrite X_at, Es; pose proof (Rle_abs (M - X w)); lra).
    assert (Hq' : D a b q' = D a b w) by (unfold q', area2; rewrite X_at, Y_at; ring).
    rewrite (winding_const h w q').
    + rewrite winding_zsum. apply zsum_zero. intros [x y] Hi. apply rc_LL; (apply Rle_trans with M; [|exact HX]); apply HM; rewrite in_app_iff; [left|right]; apply in_map_iff; exists (x, y); auto.
    + intros x y Hi (z & (k & Hk & Rk) & (j & Hj & Rj)). destruct (He _ Hi) as [H1 H2]. cbn [fst snd] in *.
      pose proof (ratio_D k w q' z a b Rk) as Ez. rewrite Hq' in Ez. pose proof (ratio_D j x y z a b Rj) as Ez'.
      assert (M1 := mpp (1 - j) (D a b x)). assert (M2 := mpp j (D a b y)). destruct (Rle_lt_dec j (1/2)); [assert (M3 := spp (1 - j) (D a b x))|assert (M3 := spp j (D a b y))]; lra.
Qed.
Lemma corner_outside : forall l h w, (forall x, In x h -> deep l x) -> In w l -> winding w (polygon_sides h) = 0%Z.
Proof.
  intros l h w Hd Hw. destruct (polygon_starts l w Hw) as ([a b] & Hab & E). cbn in E. subst a. apply (beyond_line h w b); [intros x Hx; apply (deep_pos l x (Hd x Hx) w b Hab)|rewrite D_ab_a; lra].
Qed.

(** ** Whole runs *)
Lemma polygon_hole_run : forall (H : HashOrder) n p (t0 t0' t : triangulator ArithR) l h tr', only_polygon t0 l -> NoDup l -> triangulate H n p t0 = Ok t0' -> polygon_hole t l h ->
  forall fuel, (n < fuel)%nat -> hole_include H fuel (1%nat :: 2%nat :: p) (t_trn t0') (Poly h false) (polygon_sides l) = Ok tr' ->
    triangulate H fuel p t = Ok (with_triangulation t tr').
Proof.
  intros H n p t0 t0' t l h tr' [Eb Eh Es Ev] Hnd Hr [Eb' Eh' Es' Ev'] fuel Hfu Hin. unfold triangulate in *.
  rewrite Eb, Eh, Es, Ev in Hr. rewrite Eb', Eh', Es', Ev'. cbn [pverts] in *.
  destruct l as [|v1 [|v2 rest]]; [discriminate|discriminate|]. cbn [nth_error unwrap bind] in *. cbn zeta in *. set (l := v1 :: v2 :: rest) in *.
  apply bind_ok in Hr. destruct Hr as (tr1' & Hb & Hr). apply bind_ok in Hr. destruct Hr as (bes & Hbe & Hr).
  rewrite !ho_nil in *. cbn [include_holes include_segments bind] in *.
  apply bind_ok in Hr. destruct Hr as ([[tr4 inc4] del4] & Hv & E). injection E as <-. cbn [t_trn with_triangulation] in *.
  assert (E4 : tr4 = tr1').
  { pose proof (vertices_include_mono H n (Datatypes.S n) ltac:(lia) (6%nat :: p) tr1' [] (hset edec bes) (Some (Poly l false)) []) as M.
    pose proof (rle_ok _ _ _ _ M Hv) as Hv'. rewrite include_present in Hv'; [injection Hv' as -> _ _; reflexivity|lia|intros v []]. }
  subst tr4. rewrite polygon_edges in Hbe by discriminate. injection Hbe as <-.
  rewrite (rle_ok _ _ _ _ (boundary_include_mono H n fuel ltac:(lia) (1%nat :: p) (from_initial_segment v1 v2) (Poly l false) []) Hb). cbn [bind].
  rewrite polygon_edges by discriminate. cbn [bind]. rewrite hset_NoDup_id by (apply polygon_NoDup, Hnd). rewrite !ho_single. cbn [include_holes].
  rewrite Hin. cbn [bind].
  assert (Hh : h <> []).
  { intros ->. unfold hole_include in Hin. apply bind_ok in Hin. destruct Hin as (es & He & _). unfold into_edges in He. cbn in He. discriminate. }
  rewrite polygon_edges by exact Hh. cbn [bind include_holes]. rewrite include_present; [reflexivity|lia|intros v []].
Qed.

Lemma polygon_with_hole : forall (H : HashOrder) n p (t0 t0' t : triangulator ArithR) l h, only_polygon t0 l -> triangulate H n p t0 = Ok t0' -> polygon_hole t l h ->
  convex_polygon l -> NoDup h -> resolved (h ++ l) -> 0 < shoelace (polygon_sides l) -> 0 < shoelace (polygon_sides h) ->
  (forall w, In w l -> exists u, solid_in (t_trn t0') u /\ corner_of w u) -> (forall w, In w h -> deep l w) ->
  (forall a b, In (a, b) (polygon_sides h) -> free_side (h ++ l) a b) ->
  exists n0 tr1 inc del, (forall fuel, (n0 <= fuel)%nat -> vertices_include H fuel (1%nat :: 1%nat :: 2%nat :: p) (t_trn t0') h (polygon_sides l) None [] = Ok (tr1, inc, del)) /\
    ((forall w, In w h -> In w (trn_vertices tr1)) ->
     exists n1 t' S, (forall fuel, (n1 <= fuel)%nat -> triangulate H fuel p t = Ok t') /\ (forall w, In w S <-> In w l \/ In w h) /\ holed l h S (t_trn t')).
Proof.
  intros H n p t0 t0' t l h Ho Hr Ht HC Hnd HR Hal Hah Hu Hd Hf.
  assert (HRl : resolved l) by (apply (resolved_incl (h ++ l)); [exact HR|]; intros x Hx; apply in_or_app; auto).
  assert (Hcv : forall a b w, In (a, b) (polygon_sides l) -> In w l -> w <> a -> w <> b -> 0 < area2 a b w).
  { intros a b w Hab Hx N1 N2. apply (spread_pos 3); [lra|]. apply (cp_away _ HC); assumption. }
  assert (HF : fills l (t_trn t0')) by (apply (convex_filled H n p t0 t0' l); try assumption; apply (cp_nodup _ HC)).
  pose proof (polygon_constrained H n p t0 t0' l Ho (cp_nodup _ HC) HRl Hr HF) as HCD.
  destruct (hole_cut_out H (1%nat :: 2%nat :: p) l l (t_trn t0') h HC HCD) as (n0 & tr1 & inc & del & Hv & Hk); auto.
  - intros w Hw. left. exact Hw.
  - intros w Hw. right. apply (corner_outside l); assumption.
  - exists n0, tr1, inc, del. split; [exact Hv|]. intros Hkept. destruct (Hk Hkept) as (n1 & tr' & S & Hrun & HS & Hhl).
    exists (n + n1 + 1)%nat, (with_triangulation t tr'), S. split; [|split; [exact HS|exact Hhl]].
    intros fuel Hfu. apply (polygon_hole_run H n p t0 t0' t l h tr' Ho (cp_nodup _ HC) Hr Ht); [lia|apply Hrun; lia].
Qed.

(** ** When only one corner of the hole is missing, it is not left out *)
Lemma hole_cut_one : forall (H : HashOrder) p l S (tr : mesh) h v, convex_polygon l -> constrained_delaunay S (polygon_sides l) tr -> (forall w, In w l -> In w S) ->
  (forall w, In w S -> corner_or_deep l w) -> NoDup h -> resolved (h ++ S) -> (forall w, In w h -> deep l w) -> 0 < shoelace (polygon_sides h) ->
  (forall a b, In (a, b) (polygon_sides h) -> free_side (h ++ S) a b) -> (forall w, In w S -> In w h \/ winding w (polygon_sides h) = 0%Z) ->
  In v h -> ~ In v S -> (forall w, In w h -> w = v \/ In w S) ->
  exists n1 tr' S', (forall fuel, (n1 <= fuel)%nat -> hole_include H fuel p tr (Poly h false) (polygon_sides l) = Ok tr') /\
    (forall w, In w S' <-> In w S \/ In w h) /\ holed l h S' tr'.
Proof.
  intros H p l S tr h v HC HCD Hl HS Hnd HR Hdeep Harea Hfree Hout Hv Hn Hrest.
  assert (HRS : resolved S) by (apply (resolved_incl (h ++ S)); [exact HR|]; intros x Hx; apply in_or_app; auto).
  assert (HRv : resolved (v :: S)) by (apply (resolved_incl (h ++ S)); [exact HR|]; intros x [<-|Hx]; apply in_or_app; auto).
  destruct (hole_cut_out H p l S tr h HC HCD Hl HS Hnd HR Hdeep Harea Hfree Hout) as (n0 & tr1 & inc & del & Hrun & Hcut). apply Hcut. clear Hcut.
  pose proof (Hdeep v Hv) as Hdv.
  destruct (one_vertex H (1%nat :: p) S (polygon_sides l) tr v HCD HRv Hn) as (n & tr' & inc' & del' & Hone & HC' & _).
  - apply convex_off, deep_pos, Hdv.
  - apply (region_exact l HC S tr v (settled_framed l HC S tr HCD (conj Hl HS) HRS) HRS). intros a b Hab. apply Rlt_le, (deep_pos l v Hdv a b Hab).
  - apply (settled_unscreened l HC S); try assumption. split; assumption.
  - set (f := fun x : pnt => negb (hmem vdec x (trn_vertices tr))).
    assert (Hf : forall w, f w = true <-> ~ In w S).
    { intros w. unfold f. rewrite negb_true_iff, <- (cd_points S _ tr HCD (rs_plain _ HRS) w). pose proof (hmem_In vdec w (trn_vertices tr)) as Hm. destruct (hmem vdec w (trn_vertices tr)); intuition congruence. }
    assert (E : filter f h = filter f [v]).
    { cbn [filter]. rewrite (proj2 (Hf v) Hn). apply filter_one; [exact Hnd|exact Hv|apply Hf, Hn|].
      intros y Hy Fy. destruct (Hrest y Hy) as [->|Hs]; [reflexivity|]. apply Hf in Fy. contradiction. }
    assert (Er : forall fuel, vertices_include H fuel (1%nat :: p) tr h (polygon_sides l) None [] = vertices_include H fuel (1%nat :: p) tr [v] (polygon_sides l) None []).
    { intros fuel. unfold vertices_include. fold f. rewrite E. reflexivity. }
    pose proof (Hrun (Nat.max n0 n) (Nat.le_max_l _ _)) as R1. pose proof (Hone (Nat.max n0 n) (Nat.le_max_r _ _)) as R2. rewrite Er, R2 in R1. injection R1 as E1 _ _. subst tr1.
    intros w Hw. apply (cd_points _ _ _ HC' (rs_plain _ HRv)). destruct (Hrest w Hw) as [->|Hs]; [left; reflexivity|right; exact Hs].
Qed.

(** ** A case: a triangular hole in the kite *)
Definition pJ : pnt := at_ 2 2.
Definition gap : list pnt := [pE; pG; pJ].
Lemma case_gap : convex_polygon kite /\ NoDup gap /\ resolved (gap ++ kite) /\ (forall w, In w gap -> deep kite w) /\ 0 < shoelace (polygon_sides kite) /\ 0 < shoelace (polygon_sides gap) /\
  (forall a b, In (a, b) (polygon_sides gap) -> free_side (gap ++ kite) a b) /\ (forall w, In w (gap ++ kite) -> In w gap \/ winding w (polygon_sides gap) = 0%Z) /\
  polygon_hole (TR trn_new (Poly kite false) [Poly gap false] [] []) kite gap /\
  only_polygon kite_input kite /\ (exists n t', triangulate ho_id n [] kite_input = Ok t' /\ (forall w, In w kite -> exists u, solid_in (t_trn t') u /\ corner_of w u)) /\
  exists tr : mesh, constrained_delaunay (gap ++ kite) (polygon_sides kite) tr /\ ((forall w, In w kite -> In w (gap ++ kite)) /\ (forall w, In w (gap ++ kite) -> corner_or_deep kite w)) /\
  exists tr2 : mesh, constrained_delaunay (pG :: pJ :: kite) (polygon_sides kite) tr2 /\ (forall w, In w kite -> In w (pG :: pJ :: kite)) /\ (forall w, In w (pG :: pJ :: kite) -> corner_or_deep kite w) /\
    ~ In pE (pG :: pJ :: kite).
Proof.
  destruct case_full as (Ho & _ & Hnd & _ & _ & Hsh & Hc & Hi & _ & n & t' & Hr & Hu).
  assert (HC : convex_polygon kite) by (split; [exact Hnd|cbn; lia|exact Hc]).
  assert (G : grid (gap ++ kite)).
  { intros w Hw. cbn [In app kite gap] in Hw. destruct Hw as [<-|[<-|[<-|[<-|[<-|[<-|[<-|[]]]]]]]]; (split; [reflexivity|]);
      [exists 2%Z, 1%Z|exists 3%Z, 2%Z|exists 2%Z, 2%Z|exists 0%Z, 0%Z|exists 4%Z, 0%Z|exists 7%Z, 5%Z|exists 1%Z, 3%Z]; split; reflexivity. }
  pose proof (grid_resolved _ G) as HR.
  assert (Hd : forall w, In w gap -> deep kite w).
  { intros w [<-|[<-|[<-|[]]]] a b Hab; [apply Hi; [exact Hab|left; reflexivity]|apply Hi; [exact Hab|right; left; reflexivity]|]. apply spread_grid.
    - destruct (polygon_ends kite _ Hab) as [Ha Hb]. intros x [<-|[<-|[<-|[]]]]; apply G; [apply in_or_app; right; exact Ha|apply in_or_app; right; exact Hb|cbn; auto].
    - assert (Hc' : In (a, b) [(pA, pB); (pB, pF); (pF, pC); (pC, pA)]) by exact Hab.
      destruct Hc' as [E|[E|[E|[E|[]]]]]; injection E as <- <-; unfold pA, pB, pC, pF; rewrite !X_at, !Y_at; unfold Rabs; repeat destruct (Rcase_abs _); lra.
    - assert (Hc' : In (a, b) [(pA, pB); (pB, pF); (pF, pC); (pC, pA)]) by exact Hab.
      destruct Hc' as [E|[E|[E|[E|[]]]]]; injection E as <- <-; unfold area2, pA, pB, pC, pF, pJ; rewrite !X_at, !Y_at; lra. }
  assert (Hng : NoDup gap).
  { assert (N : forall x y x' y', x <> x' \/ y <> y' -> at_ x y <> at_ x' y') by (intros x y x' y' Hn E; injection E; intros; lra).
    unfold gap, pE, pG, pJ. repeat constructor; cbn [In]; intros Hx; repeat (destruct Hx as [Hx|Hx]); try contradiction; revert Hx; apply N; lra. }
  assert (Hnk : forall w, In w gap -> ~ In w kite) by (intros w Hw; apply (deep_corner kite), Hd, Hw).
  split; [exact HC|]. split; [exact Hng|]. split; [exact HR|]. split; [exact Hd|]. split; [exact Hsh|]. split.
  { unfold shoelace, gap, polygon_sides, total, pE, pG, pJ. cbn [path_sides app map fold_right fst snd]. rewrite !X_at, !Y_at. lra. }
  split.
  { intros a b Hab. assert (Hc' : In (a, b) [(pE, pG); (pG, pJ); (pJ, pE)]) by exact Hab.
    destruct Hc' as [E|[E|[E|[]]]]; injection E as <- <-; [exists (at_ 3 1)|exists (at_ (5 / 2) 2)|exists (at_ 2 (3 / 2))]; (split; [unfold d2, pE, pG, pJ; rewrite !X_at, !Y_at; lra|]);
      intros w Hw N1 N2; cbn [In app gap kite] in Hw; destruct Hw as [<-|[<-|[<-|[<-|[<-|[<-|[<-|[]]]]]]]]; try congruence;
      unfold d2, pA, pB, pC, pF, pE, pG, pJ; rewrite !X_at, !Y_at; lra. }
  split; [intros w Hw; apply in_app_or in Hw; destruct Hw as [Hw|Hw]; [auto|right; apply (corner_outside kite); assumption]|].
  split; [split; reflexivity|]. split; [exact Ho|]. split; [exists n, t'; auto|].
  assert (HRk : resolved kite) by (apply (resolved_incl (gap ++ kite)); [exact HR|]; intros x Hx; apply in_or_app; auto).
  assert (Hcv : forall a b w, In (a, b) (polygon_sides kite) -> In w kite -> w <> a -> w <> b -> 0 < area2 a b w).
  { intros a b w Hab Hx N1 N2. apply (spread_pos 3); [lra|]. apply Hc; assumption. }
  assert (HF : fills kite (t_trn t')) by (apply (convex_filled ho_id n [] kite_input t' kite); assumption).
  pose proof (polygon_constrained ho_id n [] kite_input t' kite Ho Hnd HRk Hr HF) as HCD.
  assert (HS0 : settled kite kite (t_trn t')) by (split; [auto|intros x Hx; left; exact Hx]).
  assert (Sub : forall L, (forall x, In x L -> In x (gap ++ kite)) -> resolved L) by (intros L HL; apply (resolved_incl (gap ++ kite)); assumption).
  destruct (deep_insert kite kite (t_trn t') pJ HC HCD HS0) as (tr1 & C1 & S1);
    [apply Sub; intros x Hx; cbn [In app gap kite] in *; tauto|apply Hnk; cbn; auto|apply Hd; cbn; auto|].
  unfold gap in Hng. rewrite !NoDup_cons_iff in Hng. destruct Hng as (M1 & M2 & _).
  destruct (deep_insert kite (pJ :: kite) tr1 pG HC C1 S1) as (tr2 & C2 & S2);
    [apply Sub; intros x Hx; cbn [In app gap kite] in *; tauto|intros [E|E]; [apply M2; left; exact E|revert E; apply Hnk; cbn; auto]|apply Hd; cbn; auto|].
  destruct (deep_insert kite (pG :: pJ :: kite) tr2 pE HC C2 S2) as (tr3 & C3 & S3);
    [apply Sub; intros x Hx; cbn [In app gap kite] in *; tauto|intros [E|[E|E]]; [apply M1; left; exact E|apply M1; right; left; exact E|revert E; apply Hnk; cbn; auto]|apply Hd; cbn; auto|].
  exists tr3. split; [exact C3|]. split; [exact S3|]. exists tr2. split; [exact C2|]. split; [exact (proj1 S2)|]. split; [exact (proj2 S2)|].
  intros [E|[E|E]]; [apply M1; left; exact E|apply M1; right; left; exact E|revert E; apply Hnk; cbn; auto].
Qed.
