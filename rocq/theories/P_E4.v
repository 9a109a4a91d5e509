(** P_E4.v — the boundary test of an insertion in a convex polygon: inner points
    and points of the sides are accepted. *)

From Coq Require Import Reals List ZArith Lra Lia Psatz Bool Permutation.
From Verif Require Import Base Arith Geometry Elements Polyline Procedures Triangulator ArithR Spec SpecR SpecD SpecP SpecC SpecE
  P_Base P_Trn P_Fuel P_Poly P_Vertices P_R1 P_R2 P_R3 P_R5 P_R6 P_RX P_D1 P_D2 P_D3 P_D4 P_D5 P_D6 P_D7 P_Fill P_Fill2 P_Region P_Region2 P_Contains P_C1 P_C2 P_C3 P_C4 P_C5 P_C6 P_C7.
Import ListNotations.
Local Open Scope R_scope.

(** ** Going round a polygon *)
Lemma path_all : forall (P : pnt -> Prop) l1 c l2, (forall a b, In (a, b) (path_sides (l1 ++ c :: l2)) -> P a -> P b) -> P c -> forall x, In x (c :: l2) -> P x.
Proof.
  intros P l1. induction l1 as [|y l1 IH]; intros c l2 Hs Hc x Hx.
  - revert c Hs Hc Hx. induction l2 as [|d l2 IH2]; intros c Hs Hc Hx; [destruct Hx as [<-|[]]; exact Hc|].
    destruct Hx as [<-|Hx]; [exact Hc|]. apply (IH2 d).
    + intros a b Hab. apply Hs. cbn [app path_sides]. right. exact Hab.
    + apply (Hs c d); [left; reflexivity|exact Hc].
    + exact Hx.
  - apply (IH c l2); auto. intros a b Hab. apply Hs. destruct l1 as [|z l1]; cbn [app path_sides] in *; right; exact Hab.
Qed.
Lemma cycle_all : forall (P : pnt -> Prop) l c, (forall a b, In (a, b) (polygon_sides l) -> P a -> P b) -> In c l -> P c -> forall x, In x l -> P x.
Proof.
  intros P l c Hs Hc Pc x Hx. destruct l as [|a l]; [destruct Hc|]. change (polygon_sides (a :: l)) with (path_sides ((a :: l) ++ [a])) in Hs.
  assert (Pa : P a).
  { destruct (in_split _ _ Hc) as (l1 & l2 & E). rewrite E in Hs. rewrite <- app_assoc in Hs. cbn [app] in Hs.
    apply (path_all P l1 c (l2 ++ [a]) Hs Pc). right. apply in_or_app. right. left. reflexivity. }
  apply (path_all P [] a (l ++ [a]) Hs Pa). destruct Hx as [<-|Hx]; [left; reflexivity|right; apply in_or_app; auto].
Qed.
Lemma max_of : forall (h : pnt -> R) l, l <> [] -> exists m, In m l /\ forall x, In x l -> h x <= h m.
Proof.
  intros h l. induction l as [|a l IH]; intros Hn; [congruence|]. destruct l as [|b l].
  - exists a. split; [left; reflexivity|]. intros x [<-|[]]. lra.
  - destruct IH as (m & Hm & Hx); [discriminate|]. destruct (Rle_dec (h a) (h m)) as [L|L].
    + exists m. split; [right; exact Hm|]. intros x [<-|Hi]; auto.
    + exists a. split; [left; reflexivity|]. intros x [<-|Hi]; [lra|]. specialize (Hx x Hi). lra.
Qed.
Lemma no_climb : forall (h : pnt -> R) l, l <> [] -> ~ (forall a b, In (a, b) (polygon_sides l) -> h a < h b).
Proof.
  intros h l Hn Hs. destruct (max_of h l Hn) as (m & Hm & Hx). destruct (polygon_starts l m Hm) as ([a b] & He & E). cbn in E. subst a.
  pose proof (Hs m b He). destruct (polygon_ends l _ He) as [_ Hb]. cbn in Hb. specialize (Hx b Hb). lra.
Qed.

(** A point strictly to the left of every side has corners strictly on both sides of any line through it. *)
Lemma half_plane : forall l w u v, l <> [] -> (forall a b, In (a, b) (polygon_sides l) -> 0 < D a b w) -> 0 < u * u + v * v ->
  exists c, In c l /\ u * (X c - X w) + v * (Y c - Y w) < 0.
Proof.
  intros l w u v Hn Hs Huv. set (f := fun c : pnt => u * (X c - X w) + v * (Y c - Y w)). set (g := fun c : pnt => u * (Y c - Y w) - v * (X c - X w)).
  assert (Hdec : (exists c, In c l /\ f c < 0) \/ forall c, In c l -> 0 <= f c).
  { clear Hn Hs. induction l as [|c l IH]; [right; intros c []|]. destruct (Rlt_dec (f c) 0) as [L|L]; [left; exists c; split; [left; reflexivity|exact L]|].
    destruct IH as [(d & Hd & Hf)|Hd]; [left; exists d; split; [right; exact Hd|exact Hf]|right]. intros d [<-|Hi]; [lra|auto]. }
  destruct Hdec as [G|Hf]; [exact G|exfalso].
  assert (Hc : forall a b, In (a, b) (polygon_sides l) -> 0 < f a * g b - g a * f b).
  { intros a b Hab. specialize (Hs a b Hab). assert (E : f a * g b - g a * f b = (u * u + v * v) * D a b w) by (unfold f, g, area2; ring).
    rewrite E. assert (Q := spp (u * u + v * v) (D a b w)). lra. }
  assert (Hp : forall c, In c l -> 0 < f c).
  { intros c Hi. destruct (Hf c Hi) as [P|Z]; [exact P|exfalso].
    destruct (polygon_starts l c Hi) as ([c1 b] & H1 & E1). destruct (polygon_ends_in l c Hi) as ([a c2] & H2 & E2). cbn [fst snd] in *. subst c1 c2.
    pose proof (Hc c b H1) as Q1. pose proof (Hc a c H2) as Q2. rewrite <- Z in Q1, Q2.
    destruct (polygon_ends l _ H1) as [_ Hb]. destruct (polygon_ends l _ H2) as [Ha _]. cbn [fst snd] in *. pose proof (Hf b Hb) as Fb. pose proof (Hf a Ha) as Fa.
    assert (G1 : g c < 0). { apply Rnot_le_lt. intros L. assert (Q := mpp (g c) (f b) L Fb). lra. }
    assert (G2 : 0 < g c). { apply Rnot_le_lt. intros L. assert (Q := mpn (f a) (g c) Fa L). lra. }
    lra. }
  apply (no_climb (fun c => g c / f c) l Hn). intros a b Hab. destruct (polygon_ends l _ Hab) as [Ha Hb]. cbn [fst snd] in *.
  pose proof (Hp a Ha) as Pa. pose proof (Hp b Hb) as Pb. specialize (Hc a b Hab).
  assert (E : g b / f b - g a / f a = (f a * g b - g a * f b) / (f a * f b)) by (field; lra).
  assert (0 < (f a * g b - g a * f b) / (f a * f b)) by (apply Rdiv_lt_0_compat; [exact Hc|apply Rmult_lt_0_compat; assumption]). lra.
Qed.
Lemma inner_winding : forall l w, l <> [] -> (forall a b, In (a, b) (polygon_sides l) -> 0 < D a b w) -> winding w (polygon_sides l) <> 0%Z.
Proof.
  intros l w Hn Hs.
  assert (Hx : exists a b, In (a, b) (polygon_sides l) /\ X a <= X w < X b).
  { destruct (half_plane l w 1 0 Hn Hs ltac:(lra)) as (c & Hc & Lc). destruct (half_plane l w (-1) 0 Hn Hs ltac:(lra)) as (d & Hd & Ld).
    assert (G : forall es, (exists a b, In (a, b) es /\ X a <= X w < X b) \/ forall a b, In (a, b) es -> X a <= X w -> X b <= X w).
    { induction es as [|[a b] es IH]; [right; intros a b []|]. destruct IH as [(a' & b' & Hi & L)|IH]; [left; exists a', b'; split; [right; exact Hi|exact L]|].
      destruct (Rle_dec (X a) (X w)) as [La|La].
      - destruct (Rlt_dec (X w) (X b)) as [Lb|Lb]; [left; exists a, b; split; [left; reflexivity|lra]|right]. intros a' b' [E|Hi]; [injection E as <- <-; lra|apply IH, Hi].
      - right. intros a' b' [E|Hi]; [injection E as <- <-; lra|apply IH, Hi]. }
    destruct (G (polygon_sides l)) as [G'|G']; [exact G'|exfalso]. pose proof (cycle_all (fun x => X x <= X w) l c G' Hc ltac:(cbn; lra) d Hd) as Q. cbn in Q. lra. }
  destruct Hx as (a & b & Hab & Lx). unfold winding. revert Hs Hab. generalize (polygon_sides l) as es. clear Hn. intros es Hs Hab.
  assert (Pos : forall es', (forall e, In e es' -> In e es) -> (0 <= fold_right Z.add 0 (map (ray_crossing w) es'))%Z).
  { induction es' as [|[c d] es' IH]; intros Hi; cbn [map fold_right]; [lia|].
    assert (0 <= ray_crossing w (c, d))%Z. { pose proof (Hs c d (Hi _ (or_introl eq_refl))). unfold ray_crossing. repeat (destruct (Rle_dec _ _) || destruct (Rlt_dec _ _)); try lia; exfalso; lra. }
    specialize (IH (fun e He => Hi e (or_intror He))). lia. }
  destruct (in_split _ _ Hab) as (l1 & l2 & E). rewrite E, map_app, fold_right_app. cbn [map fold_right].
  assert (One : ray_crossing w (a, b) = 1%Z).
  { pose proof (Hs a b Hab). unfold ray_crossing. repeat (destruct (Rle_dec _ _) || destruct (Rlt_dec _ _)); try reflexivity; exfalso; lra. }
  rewrite One. assert (P2 := Pos l2). assert (P1 := Pos l1).
  assert (Hf : forall zs a0, fold_right Z.add a0 zs = (fold_right Z.add 0 zs + a0)%Z) by (induction zs as [|z zs IH]; intros a0; cbn [fold_right]; [lia|rewrite IH; lia]).
  rewrite Hf. specialize (P1 ltac:(intros e He; rewrite E; apply in_or_app; auto)). specialize (P2 ltac:(intros e He; rewrite E; apply in_or_app; right; right; exact He)). unfold edge in *. lia.
Qed.

(** ** What the splitting of crossings keeps *)
Lemma extract_some : forall X (f : X -> bool) l x r, extract f l = Some (x, r) -> In x l /\ f x = true /\ forall y, In y r -> In y l.
Proof.
  intros X f l. induction l as [|a l IH]; intros x r E; cbn [extract] in E; [discriminate|]. destruct (f a) eqn:Ef.
  - injection E as <- <-. split; [left; reflexivity|]. split; [exact Ef|]. intros y Hy. right. exact Hy.
  - destruct (extract f l) as [[y r']|] eqn:Er; [|discriminate]. injection E as <- <-. destruct (IH _ _ eq_refl) as (H1 & H2 & H3).
    split; [right; exact H1|]. split; [exact H2|]. intros z [<-|Hz]; [left; reflexivity|right; apply H3, Hz].
Qed.
Definition closed_under (P : edge ArithR -> Prop) : Prop := forall a b c d iv, P (a, b) -> P (c, d) -> crosses (a, b) (c, d) = true -> intersection a b c d = Some iv ->
  (veqb a iv = false -> P (a, iv)) /\ (veqb b iv = false -> P (iv, b)) /\ (veqb c iv = false -> P (c, iv)) /\ (veqb d iv = false -> P (iv, d)).
Lemma split_keeps : forall P, closed_under P -> forall fuel aux done r, split_loop (A:=ArithR) fuel aux done = Ok r ->
  (forall e, In e aux -> P e) -> (forall e, In e done -> P e) -> forall e, In e r -> P e.
Proof.
  intros P HP fuel. induction fuel as [|fuel IH]; intros aux done r Hr Ha Hd; cbn [split_loop] in Hr; [discriminate|].
  destruct aux as [|[v1 v2] aux]; [injection Hr as <-; exact Hd|].
  destruct (extract (crosses (v1, v2)) done) as [[[v3 v4] done']|] eqn:Ex.
  - destruct (extract_some _ _ _ _ _ Ex) as (H1 & H2 & H3). apply bind_ok in Hr. destruct Hr as (iv & Hi & Hr).
    destruct (intersection v1 v2 v3 v4) as [iv'|] eqn:Ei; cbn [unwrap] in Hi; [|discriminate]. injection Hi as <-.
    destruct (HP v1 v2 v3 v4 iv' (Ha _ (or_introl eq_refl)) (Hd _ H1) H2 Ei) as (Q1 & Q2 & Q3 & Q4).
    apply (IH _ _ _ Hr); [|intros e He; apply Hd, H3, He].
    intros e He. destruct (veqb v1 iv') eqn:E1; destruct (veqb v2 iv') eqn:E2; destruct (veqb v3 iv') eqn:E3; destruct (veqb v4 iv') eqn:E4; cbn [negb] in He; cbn [In] in He;
      repeat (destruct He as [<-|He]; [solve [auto]|]); apply Ha; right; exact He.
  - apply (IH _ _ _ Hr); [intros e He; apply Ha; right; exact He|]. intros e He. apply in_app_or in He. destruct He as [He|[<-|[]]]; [apply Hd, He|apply Ha; left; reflexivity].
Qed.

(** A polyline that stays in the polygon is accepted, if the test ends. *)
Lemma continence_partial : forall P fuel (l : list pnt) (p2 : polyline ArithR) es2 o, l <> [] -> into_edges p2 = Ok es2 -> es2 <> [] -> closed_under P ->
  (forall e, In e (polygon_sides l) -> P e) -> (forall e, In e es2 -> P e) ->
  (forall e, P e -> poly_contains (Poly l false) (edge_midpoint e) = Ok (Some Boundary) \/ In e es2) ->
  (forall e, In e es2 -> inner_value (Poly l false) (edge_midpoint e) /\ inner_value (Poly l false) (ev1 e)) ->
  poly_continence fuel (Poly l false) p2 = Ok o -> exists c b, o = Some (c, b) /\ c <> Outside.
Proof.
  intros P fuel l p2 es2 o Hl He Hne HP P1 P2 Hb Hin Ho. unfold poly_continence in Ho. cbn [popened] in Ho. rewrite He in Ho. cbn [bind] in Ho. cbn zeta in Ho.
  set (crit := flat_map (fun e => [edge_midpoint e; ev1 e]) es2) in *.
  destruct (loop1_inner (Poly l false) crit None Open) as (pc & pb & E1 & E2 & E3).
  { intros q Hq. apply in_flat_map in Hq. destruct Hq as (e & Hi & [<-|[<-|[]]]); apply (Hin e Hi). }
  { left. reflexivity. }
  rewrite E1 in Ho. cbn [bind] in Ho. assert (Ep : poly_pairs (Poly l false) = Ok (polygon_sides l)) by (apply polygon_edges, Hl). rewrite Ep in Ho. cbn [bind] in Ho.
  unfold into_edges in He. rewrite He in Ho. cbn [bind] in Ho. apply bind_ok in Ho. destruct Ho as (sp & Hsp & Ho).
  assert (Hk : forall e, In e sp -> P e).
  { apply (split_keeps P HP _ _ _ _ Hsp); [|intros e []]. intros e Hi. apply in_rev in Hi. apply in_app_or in Hi. destruct Hi; auto. }
  rewrite (loop2_inner (Poly l false)) in Ho.
  2:{ intros e Hi. destruct (Hb e (Hk e Hi)) as [E|Hi2]; [left; exact E|]. destruct (proj1 (Hin e Hi2)) as [E|E]; [|left; exact E]. right. split; [exact E|]. destruct E2 as [-> | ->]; [|reflexivity]. exfalso.
      destruct (E3 eq_refl) as (_ & Hc & _). rewrite (Hc (edge_midpoint e)) in E; [discriminate|]. apply in_flat_map. exists e. split; [exact Hi2|left; reflexivity]. }
  cbn [bind negb] in Ho. destruct E2 as [-> | ->].
  - destruct (E3 eq_refl) as (_ & _ & Ec). rewrite Ec in Ho; [|left].
    + injection Ho as <-. exists Boundary, Closed. split; [reflexivity|discriminate].
    + unfold crit. destruct es2 as [|e es2]; [congruence|discriminate].
  - exists Inside, pb. split; [destruct pb; injection Ho as <-; reflexivity|discriminate].
Qed.
Lemma quiet_closed : forall P : edge ArithR -> Prop, (forall e e', P e -> P e' -> crosses e e' = false) -> closed_under P.
Proof. intros P Hq a b c d iv H1 H2 Hc. rewrite (Hq _ _ H1 H2) in Hc. discriminate. Qed.

Definition clear_of (c d u : pnt) : Prop := u = c \/ u = d \/ spread 1 c d u.
Lemma clear_quiet : forall c d u v : pnt, clear_of c d u -> clear_of c d v -> crosses (c, d) (u, v) = false /\ crosses (u, v) (c, d) = false.
Proof.
  intros c d u v Hu Hv. destruct Hu as [-> |[-> |Su]]; [split; apply share_quiet; auto|split; apply share_quiet; auto|].
  destruct Hv as [-> |[-> |Sv]]; [split; apply share_quiet; auto|split; apply share_quiet; auto|]. apply spread_quiet; assumption.
Qed.
Lemma parallel_quiet : forall a b c d : pnt, crossp a b c d = 0 -> crosses (a, b) (c, d) = false.
Proof. intros a b c d E. apply parallel_spec in E. unfold crosses. destruct (intersection a b c d); [|reflexivity]. rewrite E. cbn [negb]. apply andb_false_r. Qed.

Lemma meet_at : forall a b g m iv : pnt, vghost m = false -> vghost iv = false -> D a b m = 0 -> crossp a b g m <> 0 -> on_line a b iv -> on_line g m iv -> iv = m.
Proof.
  intros a b g m iv Gm Gi Hm Hc L1 L2. unfold on_line, area2, crossp in *.
  set (dx := X iv - X m). set (dy := Y iv - Y m).
  assert (E1 : (X b - X a) * dy - (Y b - Y a) * dx = 0) by (unfold dx, dy; lra).
  assert (E2 : (X m - X g) * dy - (Y m - Y g) * dx = 0) by (unfold dx, dy; lra).
  set (k := (X b - X a) * (Y m - Y g) - (Y b - Y a) * (X m - X g)) in *.
  assert (Zx : k * dx = 0). { assert (E : k * dx = (X m - X g) * ((X b - X a) * dy - (Y b - Y a) * dx) - (X b - X a) * ((X m - X g) * dy - (Y m - Y g) * dx)) by (unfold k; ring). rewrite E, E1, E2. ring. }
  assert (Zy : k * dy = 0). { assert (E : k * dy = (Y m - Y g) * ((X b - X a) * dy - (Y b - Y a) * dx) - (Y b - Y a) * ((X m - X g) * dy - (Y m - Y g) * dx)) by (unfold k; ring). rewrite E, E1, E2. ring. }
  apply Rmult_integral in Zx. apply Rmult_integral in Zy. destruct Zx as [Zx|Zx]; [contradiction|]. destruct Zy as [Zy|Zy]; [contradiction|].
  unfold dx, dy in *. destruct iv as [x y gi], m as [x' y' gm]. cbn in *. subst gi gm. f_equal; lra.
Qed.

(** ** Convex polygons *)
Lemma squares_zero : forall u v, u * u + v * v <= 0 -> u = 0 /\ v = 0.
Proof.
  intros u v L. assert (Q1 := Rle_0_sqr u). assert (Q2 := Rle_0_sqr v). unfold Rsqr in *. assert (Ex : u * u = 0) by lra. assert (Ey : v * v = 0) by lra.
  apply Rmult_integral in Ex. apply Rmult_integral in Ey. split; [destruct Ex; assumption|destruct Ey; assumption].
Qed.
Lemma third_of : forall (l : list pnt) a b, NoDup l -> (3 <= length l)%nat -> exists w, In w l /\ w <> a /\ w <> b.
Proof.
  intros l a b Hn H3. destruct l as [|x [|y [|z l]]]; cbn in H3; try lia. rewrite !NoDup_cons_iff in Hn. cbn [In] in Hn. destruct Hn as (N1 & N2 & _).
  assert (Nxy : x <> y) by (intros E; apply N1; auto). assert (Nxz : x <> z) by (intros E; apply N1; auto). assert (Nyz : y <> z) by (intros E; apply N2; auto). clear N1 N2.
  destruct (vdec x a) as [->|Xa]; [|destruct (vdec x b) as [->|Xb]; [|exists x; cbn; auto]].
  - destruct (vdec y b) as [->|Yb]; [exists z; cbn; auto|exists y; cbn; auto].
  - destruct (vdec y a) as [->|Ya]; [exists z; cbn; auto|exists y; cbn; auto].
Qed.
Lemma on_side_ratio : forall a b w, on_side a b w -> exists k, 0 <= k <= 1 /\ at_ratio k a b w.
Proof.
  intros a b w [-> |[-> |Hb]].
  - exists 0. split; [lra|]. split; lra.
  - exists 1. split; [lra|]. split; lra.
  - destruct (between_param a b w Hb) as (k & Hk & E). exists k. split; [lra|exact E].
Qed.
Lemma on_side_D : forall a b w, on_side a b w -> D a b w = 0.
Proof. intros a b w [-> |[-> |[E _]]]; [apply D_ab_a|apply D_ab_b|exact E]. Qed.
Lemma spread_weaker : forall m a b w, 1 <= m -> spread m a b w -> spread 1 a b w.
Proof.
  intros m a b w Hm Hs. unfold spread in *. pose proof eps_pos. pose proof (Rabs_pos (X b - X a)). pose proof (Rabs_pos (Y b - Y a)).
  assert (Q := mpp eps (Rabs (X b - X a) + Rabs (Y b - Y a))). assert (Q' := mpp (m - 1) (eps * (Rabs (X b - X a) + Rabs (Y b - Y a)))). lra.
Qed.

Section Convex.
  Variable l : list pnt.
  Hypothesis HC : convex_polygon l.

  Lemma cx_some : l <> [].
  Proof. pose proof (cp_three _ HC) as H3. intros E. rewrite E in H3. cbn in H3. lia. Qed.
  Lemma cx_pos : forall a b w, In (a, b) (polygon_sides l) -> In w l -> w <> a -> w <> b -> 0 < D a b w.
  Proof. intros a b w Hab Hw N1 N2. apply (spread_pos 3); [lra|]. apply (cp_away _ HC); assumption. Qed.
  Lemma cx_side : forall a b w, In (a, b) (polygon_sides l) -> In w l -> D a b w = 0 /\ (w = a \/ w = b) \/ 0 < D a b w.
  Proof.
    intros a b w Hab Hw. destruct (vdec w a) as [->|N1]; [left; rewrite D_ab_a; auto|]. destruct (vdec w b) as [->|N2]; [left; rewrite D_ab_b; auto|]. right. apply cx_pos; assumption.
  Qed.
  Lemma cx_apart : forall a b, In (a, b) (polygon_sides l) -> ~ coincide a b /\ a <> b /\ ~ In (b, a) (polygon_sides l).
  Proof.
    intros a b Hab. destruct (third_of l a b (cp_nodup _ HC) (cp_three _ HC)) as (w & Hw & N1 & N2). pose proof (cx_pos a b w Hab Hw N1 N2) as P.
    split; [|split].
    - intros [E1 E2]. unfold area2 in P. rewrite E1, E2 in P. lra.
    - intros ->. unfold area2 in P. lra.
    - intros Hba. pose proof (cx_pos b a w Hba Hw N2 N1) as P'. rewrite (D_swap a b w) in P'. lra.
  Qed.
  Lemma cx_one : forall a b c d w, In (a, b) (polygon_sides l) -> In (c, d) (polygon_sides l) -> strictly_between a b w -> D c d w <= 0 -> (c, d) = (a, b).
  Proof.
    intros a b c d w Hab Hcd Hb Hw. destruct (between_param a b w Hb) as (k & Hk & E). rewrite (ratio_D k a b w c d E) in Hw.
    destruct (polygon_ends l _ Hab) as [Ha Hb']. cbn [fst snd] in *. destruct (cx_apart a b Hab) as (_ & Nab & Nba).
    assert (Q1 := mpp (1 - k) (D c d a)). assert (Q2 := mpp k (D c d b)).
    destruct (cx_side c d a Hcd Ha) as [[Za Ea]|Pa]; destruct (cx_side c d b Hcd Hb') as [[Zb Eb]|Pb].
    - destruct Ea as [-> | ->]; destruct Eb as [-> | ->]; try congruence.
    - exfalso. assert (Q := spp k (D c d b)). rewrite Za in *. lra.
    - exfalso. assert (Q := spp (1 - k) (D c d a)). rewrite Zb in *. lra.
    - exfalso. assert (Q := spp (1 - k) (D c d a)). assert (Q' := spp k (D c d b)). lra.
  Qed.
  (** A point placed in the polygon, seen from the sides. *)
  Lemma placed_ge : forall a b w, In (a, b) (polygon_sides l) -> placed l w -> D a b w = 0 /\ on_side a b w \/ 3 * eps * (Rabs (X b - X a) + Rabs (Y b - Y a)) < D a b w.
  Proof. intros a b w Hab Hw. destruct (Hw a b Hab) as [Hs|Hs]; [left; split; [apply on_side_D, Hs|exact Hs]|right; exact Hs]. Qed.
  Lemma placed_pos : forall a b w, In (a, b) (polygon_sides l) -> placed l w -> D a b w = 0 /\ on_side a b w \/ 0 < D a b w.
  Proof. intros a b w Hab Hw. destruct (Hw a b Hab) as [Hs|Hs]; [left; split; [apply on_side_D, Hs|exact Hs]|right; apply (spread_pos 3); [lra|exact Hs]]. Qed.
  Lemma deep_pos : forall w, deep l w -> forall a b, In (a, b) (polygon_sides l) -> 0 < D a b w.
  Proof. intros w Hw a b Hab. apply (spread_pos 3); [lra|]. apply Hw, Hab. Qed.
  Lemma deep_placed : forall w, deep l w -> placed l w.
  Proof. intros w Hw a b Hab. right. apply Hw, Hab. Qed.
  Lemma corner_placed : forall w, In w l -> placed l w.
  Proof.
    intros w Hw a b Hab. destruct (vdec w a) as [->|N1]; [left; left; reflexivity|]. destruct (vdec w b) as [->|N2]; [left; right; left; reflexivity|]. right. apply (cp_away _ HC); assumption.
  Qed.

  Lemma inner_contains' : forall q, (forall a b, In (a, b) (polygon_sides l) -> 0 < D a b q) -> inner_value (Poly l false) q.
  Proof.
    intros q Hq. pose proof (inner_winding l q cx_some Hq) as W. destruct (contains_winding l q cx_some) as (k & Ek & _ & _ & Ho).
    unfold inner_value. rewrite Ek. destruct k; auto. specialize (Ho eq_refl). congruence.
  Qed.
  Lemma side_contains : forall a b q, In (a, b) (polygon_sides l) -> on_side a b q -> poly_contains (Poly l false) q = Ok (Some Boundary).
  Proof. intros a b q Hab Hq. apply (contains_on_side l q a b Hab). apply on_side_ratio in Hq. exact Hq. Qed.
  Lemma ratio_contains : forall a b q k, In (a, b) (polygon_sides l) -> 0 <= k <= 1 -> at_ratio k a b q -> poly_contains (Poly l false) q = Ok (Some Boundary).
  Proof. intros a b q k Hab Hk Hq. apply (contains_on_side l q a b Hab). exists k. auto. Qed.

  Lemma centroid_deep : forall a b c, placed l a -> placed l b -> placed l c -> 0 < D a b c -> forall x y, In (x, y) (polygon_sides l) -> spread 1 x y (centroid a b c).
  Proof.
    intros a b c Ha Hb Hc P x y Hxy. unfold spread. rewrite centroid_D. set (m := Rabs (X y - X x) + Rabs (Y y - Y x)).
    assert (Hm : 0 <= eps * m).
    { pose proof eps_pos. apply mpp; [lra|]. unfold m. pose proof (Rabs_pos (X y - X x)). pose proof (Rabs_pos (Y y - Y x)). lra. }
    destruct (placed_ge x y a Hxy Ha) as [[E1 _]|P1]; destruct (placed_ge x y b Hxy Hb) as [[E2 _]|P2]; destruct (placed_ge x y c Hxy Hc) as [[E3 _]|P3]; try fold m in P1; try fold m in P2; try fold m in P3; try lra.
    exfalso. assert (Z : D a b c = 0); [|lra]. apply (line3 x y a b c E1 E2 E3).
    destruct (cx_apart x y Hxy) as (Nc & _). apply Rnot_le_lt. intros L. apply Nc. unfold d2 in L. apply squares_zero in L. unfold coincide. lra.
  Qed.

  Lemma center_centroid : forall a b c : pnt, vghost a = false -> vghost b = false -> vghost c = false -> coincide (tri_center (Tri a b c)) (centroid a b c).
  Proof.
    intros a b c Ga Gb Gc. assert (E3 : 3 = INR 3) by (cbn; ring). unfold tri_center, is_ghost. cbn [tv1 tv2 tv3]. rewrite Ga, Gb, Gc. cbn [orb]. unfold centroid. rewrite E3. split; rewrite ?X_at, ?Y_at; reflexivity.
  Qed.
  Lemma center_well : forall a b c, vghost a = false -> vghost b = false -> vghost c = false -> placed l a -> placed l b -> placed l c -> 0 < D a b c ->
    forall x y, In (x, y) (polygon_sides l) -> spread 1 x y (tri_center (Tri a b c)).
  Proof.
    intros a b c Ga Gb Gc Ha Hb Hc P x y Hxy. pose proof (centroid_deep a b c Ha Hb Hc P x y Hxy) as Hs. destruct (center_centroid a b c Ga Gb Gc) as [Ex Ey].
    unfold spread, area2 in *. rewrite Ex, Ey. exact Hs.
  Qed.
  Lemma mid_D : forall x y e, D x y (edge_midpoint e) = (D x y (fst e) + D x y (snd e)) / 2.
  Proof. intros x y e. destruct (edge_midpoint_spec e) as [[Ex Ey] _]. unfold area2. rewrite Ex, Ey. field. Qed.

  Lemma sides_quiet : forall e e', In e (polygon_sides l) -> In e' (polygon_sides l) -> crosses e e' = false.
  Proof.
    intros [a b] [c d] H1 H2. destruct (polygon_ends l _ H2) as [Hc Hd]. cbn [fst snd] in *.
    assert (Q : forall w, In w l -> clear_of a b w).
    { intros w Hw. destruct (vdec w a) as [->|N1]; [left; reflexivity|]. destruct (vdec w b) as [->|N2]; [right; left; reflexivity|]. right. right. apply (spread_weaker 3); [lra|]. apply (cp_away _ HC); assumption. }
    apply (proj1 (clear_quiet a b c d (Q c Hc) (Q d Hd))).
  Qed.
  Lemma may_from : forall (H : HashOrder) fuel p t w p2 m, may_insert_line t w = Ok p2 ->
    (forall o, poly_continence fuel (Poly l false) p2 = Ok o -> exists c b, o = Some (c, b) /\ c <> Outside) ->
    may_insert_triangle H fuel p t w (Some (Poly l false)) [] = Ok m -> m = true.
  Proof.
    intros H fuel p t w p2 m Hp Ho Hm. unfold may_insert_triangle in Hm. rewrite Hp in Hm. cbn [bind inside_boundary] in Hm.
    apply bind_ok in Hm. destruct Hm as (i & Hi & Hm). apply bind_ok in Hi. destruct Hi as (o & Hi & E). destruct (Ho o Hi) as (c & b & -> & Hc).
    unfold outside_holes in Hm. rewrite ho_nil in Hm. cbn [foldM bind] in Hm. injection E as <-. injection Hm as <-. destruct c; try reflexivity. congruence.
  Qed.

  (** A point well inside, from a solid triangle. *)
  Lemma may_inner : forall (H : HashOrder) fuel p a b c w m, vghost a = false -> vghost b = false -> vghost c = false -> placed l a -> placed l b -> placed l c -> 0 < D a b c -> deep l w ->
    may_insert_triangle H fuel p (Tri a b c) w (Some (Poly l false)) [] = Ok m -> m = true.
  Proof.
    intros H fuel p a b c w m Ga Gb Gc Ha Hb Hc P Hw. pose proof (center_well a b c Ga Gb Gc Ha Hb Hc P) as Hg. set (g := tri_center (Tri a b c)) in *.
    apply may_from with (p2 := Poly [g; w] true).
    { unfold may_insert_line, is_ghost. cbn [tv1 tv2 tv3]. rewrite Ga, Gb, Gc. reflexivity. }
    intros o. apply (continence_partial (fun e => In e (polygon_sides l) \/ e = (g, w))) with (es2 := [(g, w)]).
    - exact cx_some.
    - reflexivity.
    - discriminate.
    - apply quiet_closed.
      assert (Q : forall c d, In (c, d) (polygon_sides l) -> crosses (c, d) (g, w) = false /\ crosses (g, w) (c, d) = false).
      { intros x y Hxy. apply clear_quiet; right; right; [apply Hg, Hxy|]. apply (spread_weaker 3); [lra|]. apply Hw, Hxy. }
      intros e e' [H1| ->] [H2| ->]; [apply sides_quiet; assumption|destruct e as [x y]; apply (proj1 (Q x y H1))|destruct e' as [x y]; apply (proj2 (Q x y H2))|apply share_quiet; auto].
    - auto.
    - intros e [<-|[]]. auto.
    - intros e [He| ->]; [left|right; left; reflexivity]. destruct e as [x y]. apply (ratio_contains x y _ (/ 2) He); [lra|]. destruct (edge_midpoint_spec (x, y)) as [Hm _]. exact Hm.
    - assert (Pg : forall x y, In (x, y) (polygon_sides l) -> 0 < D x y g) by (intros x y Hxy; apply (spread_pos 1); [lra|apply Hg, Hxy]).
      intros e [<-|[]]. split; apply inner_contains'; [|exact Pg]. intros x y Hxy. rewrite mid_D. cbn [fst snd]. pose proof (Pg x y Hxy). pose proof (deep_pos w Hw x y Hxy). lra.
  Qed.

  (** A point of a side, from a solid triangle. *)
  Lemma may_side : forall (H : HashOrder) fuel p a b c x y w m, vghost a = false -> vghost b = false -> vghost c = false -> placed l a -> placed l b -> placed l c -> 0 < D a b c ->
    In (x, y) (polygon_sides l) -> strictly_between x y w -> placed l w -> vghost w = false ->
    may_insert_triangle H fuel p (Tri a b c) w (Some (Poly l false)) [] = Ok m -> m = true.
  Proof.
    intros H fuel p a b c x y w m Ga Gb Gc Ha Hb Hc P Hxy Hbt Hw Gw. pose proof (center_well a b c Ga Gb Gc Ha Hb Hc P) as Hg. set (g := tri_center (Tri a b c)) in *.
    assert (Pg : forall x y, In (x, y) (polygon_sides l) -> 0 < D x y g) by (intros x' y' Hxy'; apply (spread_pos 1); [lra|apply Hg, Hxy']).
    destruct (polygon_ends l _ Hxy) as [Hx Hy]. cbn [fst snd] in *. destruct (between_param x y w Hbt) as (k & Hk & Ek).
    assert (Dw : D x y w = 0) by apply Hbt.
    assert (Pw : forall x' y', In (x', y') (polygon_sides l) -> 0 <= D x' y' w) by (intros x' y' Hs; destruct (placed_pos x' y' w Hs Hw) as [[-> _]|Q]; lra).
    assert (Cw : forall c d, In (c, d) (polygon_sides l) -> (c, d) = (x, y) \/ spread 1 c d w).
    { intros c' d' Hs. destruct (Hw c' d' Hs) as [Ho|Ho]; [left; apply (cx_one x y c' d' w Hxy Hs Hbt); rewrite (on_side_D _ _ _ Ho); lra|right]. apply (spread_weaker 3); [lra|exact Ho]. }
    assert (Cl : forall c d z, In (c, d) (polygon_sides l) -> In z l -> clear_of c d z).
    { intros c' d' z Hs Hz. destruct (vdec z c') as [->|N1]; [left; reflexivity|]. destruct (vdec z d') as [->|N2]; [right; left; reflexivity|]. right. right. apply (spread_weaker 3); [lra|]. apply (cp_away _ HC); assumption. }
    apply may_from with (p2 := Poly [g; w] true).
    { unfold may_insert_line, is_ghost. cbn [tv1 tv2 tv3]. rewrite Ga, Gb, Gc. reflexivity. }
    set (Q := fun e : edge ArithR => In e (polygon_sides l) \/ e = (g, w) \/ e = (x, w) \/ e = (w, y)).
    assert (Qxw : Q (x, w)) by (right; right; left; reflexivity). assert (Qwy : Q (w, y)) by (right; right; right; reflexivity). assert (Qgw : Q (g, w)) by (right; left; reflexivity).
    assert (Hsq : forall c d u, In (c, d) (polygon_sides l) -> (u = (x, w) \/ u = (w, y)) -> crosses (c, d) u = false /\ crosses u (c, d) = false).
    { intros c' d' u Hs Hu. destruct (Cw c' d' Hs) as [E|Sw].
      - injection E as -> ->. destruct Hu as [-> | ->]; split; apply share_quiet; auto.
      - destruct Hu as [-> | ->]; apply clear_quiet; try (right; right; exact Sw); apply Cl; assumption. }
    assert (Hgq : forall c d, In (c, d) (polygon_sides l) -> (c, d) = (x, y) \/ crosses (c, d) (g, w) = false /\ crosses (g, w) (c, d) = false).
    { intros c' d' Hs. destruct (Cw c' d' Hs) as [E|Sw]; [left; exact E|right]. apply clear_quiet; right; right; [apply Hg, Hs|exact Sw]. }
    assert (Hcl : closed_under Q).
    { assert (Hpair : forall e e', Q e -> Q e' -> crosses e e' = true -> (e = (x, y) /\ e' = (g, w)) \/ (e = (g, w) /\ e' = (x, y))).
      { intros e e' He He' Hc'. destruct He as [He|[He|He]]; destruct He' as [He'|[He'|He']].
        - rewrite sides_quiet in Hc' by assumption. discriminate.
        - subst e'. destruct e as [c' d']. destruct (Hgq c' d' He) as [E|[E _]]; [left; auto|congruence].
        - destruct e as [c' d']. destruct (Hsq c' d' e' He He') as [E _]. congruence.
        - subst e. destruct e' as [c' d']. destruct (Hgq c' d' He') as [E|[_ E]]; [right; auto|congruence].
        - subst. rewrite share_quiet in Hc' by auto. discriminate.
        - subst e. destruct He' as [-> | ->]; rewrite share_quiet in Hc' by auto; discriminate.
        - destruct e' as [c' d']. destruct (Hsq c' d' e He' He) as [_ E]. congruence.
        - subst e'. destruct He as [-> | ->]; rewrite share_quiet in Hc' by auto; discriminate.
        - destruct He as [-> | ->]; destruct He' as [-> | ->]; rewrite share_quiet in Hc' by auto; discriminate. }
      intros v1 v2 v3 v4 iv H1 H2 Hc' Hi. destruct (intersection_sound _ _ _ _ _ Hi) as (_ & _ & Gi & Hl & _).
      assert (Hcp : crossp v1 v2 v3 v4 <> 0) by (intros E; rewrite parallel_quiet in Hc' by exact E; discriminate). destruct (Hl Hcp) as [L1 L2].
      destruct (Hpair _ _ H1 H2 Hc') as [[E1 E2]|[E1 E2]]; injection E1 as -> ->; injection E2 as -> ->.
      - assert (Ei : iv = w) by (apply (meet_at x y g w iv); assumption). subst iv.
        split; [auto|]. split; [auto|]. split; [auto|]. rewrite veqb_same. discriminate.
      - assert (Ei : iv = w) by (apply (meet_at x y g w iv); try assumption; intros E; apply Hcp; unfold crossp in *; lra). subst iv.
        split; [auto|]. split; [rewrite veqb_same; discriminate|]. split; [auto|]. auto. }
    intros o. apply (continence_partial Q) with (es2 := [(g, w)]).
    - exact cx_some.
    - reflexivity.
    - discriminate.
    - exact Hcl.
    - intros e He. left. exact He.
    - intros e [<-|[]]. exact Qgw.
    - intros e [He|[-> |He]]; [left|right; left; reflexivity|left].
      + destruct e as [c' d']. apply (ratio_contains c' d' _ (/ 2) He); [lra|]. destruct (edge_midpoint_spec (c', d')) as [Hm _]. exact Hm.
      + destruct Ek as [Ex Ey]. destruct (edge_midpoint_spec e) as [[Mx My] _]. destruct He as [-> | ->]; cbn [fst snd] in *.
        * apply (ratio_contains x y _ (k / 2) Hxy); [lra|]. split; rewrite ?Mx, ?My, ?Ex, ?Ey; field.
        * apply (ratio_contains x y _ ((1 + k) / 2) Hxy); [lra|]. split; rewrite ?Mx, ?My, ?Ex, ?Ey; field.
    - intros e [<-|[]]. split; apply inner_contains'; [|exact Pg]. intros x' y' Hs. rewrite mid_D. cbn [fst snd]. pose proof (Pg x' y' Hs). pose proof (Pw x' y' Hs). lra.
  Qed.

  (** A point of a side, from the outer face beyond it. *)
  Lemma may_outer : forall (H : HashOrder) fuel p a b x y w m, In (x, y) (polygon_sides l) -> on_side x y a -> on_side x y b -> placed l a -> placed l b -> placed l w -> on_side x y w ->
    may_insert_triangle H fuel p (Tri a b gv) w (Some (Poly l false)) [] = Ok m -> m = true.
  Proof.
    intros H fuel p a b x y w m Hxy Oa Ob Ha Hb Hw Ow.
    apply may_from with (p2 := Poly [a; b; w] false).
    { unfold may_insert_line, is_ghost. cbn [tv1 tv2 tv3 vghost ghost_vertex]. rewrite !orb_true_r. reflexivity. }
    assert (Cl : forall c d z, In (c, d) (polygon_sides l) -> on_side x y z -> placed l z -> (c, d) = (x, y) \/ clear_of c d z).
    { intros c d z Hs Oz Hz. destruct (Hz c d Hs) as [Hc|Hc]; [|right; right; right; apply (spread_weaker 3); [lra|exact Hc]].
      destruct Hc as [-> |[-> |Hc]]; [right; left; reflexivity|right; right; left; reflexivity|left]. symmetry. apply (cx_one c d x y z Hs Hxy Hc). rewrite (on_side_D _ _ _ Oz). lra. }
    assert (Hr : forall u v, on_side x y u -> on_side x y v -> crossp x y u v = 0).
    { intros u v Hu Hv. apply on_side_D in Hu. apply on_side_D in Hv. unfold crossp, area2 in *. lra. }
    assert (Hq : forall c d u v, In (c, d) (polygon_sides l) -> on_side x y u -> placed l u -> on_side x y v -> placed l v -> crosses (c, d) (u, v) = false /\ crosses (u, v) (c, d) = false).
    { intros c d u v Hs Ou Hu Ov Hv. destruct (Cl c d u Hs Ou Hu) as [E|Cu].
      - injection E as -> ->. pose proof (Hr u v Ou Ov) as Z. split; apply parallel_quiet; [exact Z|]. unfold crossp in *. lra.
      - destruct (Cl c d v Hs Ov Hv) as [E|Cv]; [|apply clear_quiet; assumption].
        injection E as -> ->. pose proof (Hr u v Ou Ov) as Z. split; apply parallel_quiet; [exact Z|]. unfold crossp in *. lra. }
    intros o. apply (continence_partial (fun e => In e (polygon_sides l) \/ In e [(a, b); (b, w); (w, a)])) with (es2 := [(a, b); (b, w); (w, a)]).
    - exact cx_some.
    - reflexivity.
    - discriminate.
    - assert (Hk : forall e, In e [(a, b); (b, w); (w, a)] -> on_side x y (fst e) /\ placed l (fst e) /\ on_side x y (snd e) /\ placed l (snd e)) by (intros e [<-|[<-|[<-|[]]]]; cbn [fst snd]; auto).
      apply quiet_closed. intros e e' [H1|H1] [H2|H2].
      + apply sides_quiet; assumption.
      + destruct e as [c d]. destruct (Hk e' H2) as (K1 & K2 & K3 & K4). rewrite (surjective_pairing e'). apply (proj1 (Hq c d _ _ H1 K1 K2 K3 K4)).
      + destruct e' as [c d]. destruct (Hk e H1) as (K1 & K2 & K3 & K4). rewrite (surjective_pairing e). apply (proj2 (Hq c d _ _ H2 K1 K2 K3 K4)).
      + destruct H1 as [<-|[<-|[<-|[]]]]; destruct H2 as [<-|[<-|[<-|[]]]]; apply share_quiet; auto.
    - auto.
    - auto.
    - intros e [He|He]; [left|right; exact He]. destruct e as [c d]. apply (ratio_contains c d _ (/ 2) He); [lra|]. destruct (edge_midpoint_spec (c, d)) as [Hm _]. exact Hm.
    - assert (Hmid : forall u v, on_side x y u -> on_side x y v -> poly_contains (Poly l false) (edge_midpoint (u, v)) = Ok (Some Boundary)).
      { intros u v Hu Hv. apply on_side_ratio in Hu. apply on_side_ratio in Hv. destruct Hu as (s & Hs & Ex & Ey). destruct Hv as (t & Ht & Fx & Fy).
        apply (ratio_contains x y _ ((s + t) / 2) Hxy); [lra|]. destruct (edge_midpoint_spec (u, v)) as [[Mx My] _]. cbn [fst snd] in *. split; rewrite ?Mx, ?My, ?Ex, ?Ey, ?Fx, ?Fy; field. }
      intros e [<-|[<-|[<-|[]]]]; cbn [ev1 fst]; (split; right; [apply Hmid; assumption|apply (side_contains x y); assumption]).
  Qed.

  (** ** The mesh around a new point *)
  Section Mesh.
    Variables (S : list pnt) (tr : mesh) (w : pnt).
    Hypothesis HF : framed l S tr.
    Hypothesis HR : resolved (w :: S).
    Hypothesis Hn : ~ In w S.
    Let HD := fr_delaunay _ _ _ HF.

    Lemma fr_apart : forall a b, In a S -> In b S -> a <> b -> ~ coincide a b.
    Proof. intros a b Ha Hb N [E1 E2]. apply N. apply (rs_apart _ HR); [right; exact Ha|right; exact Hb|]. unfold close. rewrite E1, E2. pose proof eps_pos. split; lra. Qed.

    (** The outer faces do not see inner points. *)
    Lemma hull_inner : forall a b q, In (Tri a b gv) (tris tr) -> (forall x y, In (x, y) (polygon_sides l) -> 0 < D x y q) -> D a b q < 0.
    Proof.
      intros a b q Hg Hq. destruct (ghost_shape S tr w HD HR a b Hg) as (Ha & Hb & Nab & Hh). pose proof (fr_apart a b Ha Hb Nab) as Nc.
      apply Rnot_le_lt. intros L. destruct (half_plane l q (Y b - Y a) (- (X b - X a)) cx_some Hq) as (c & Hc & Lc).
      { apply Rnot_le_lt. intros L'. apply Nc. assert (L2 : (X b - X a) * (X b - X a) + (Y b - Y a) * (Y b - Y a) <= 0) by lra. apply squares_zero in L2. unfold coincide. lra. }
      destruct (Hh c (fr_corners _ _ _ HF c Hc)) as [Hle _]. unfold area2 in *. lra.
    Qed.
    Lemma inner_hits_solid : deep l w -> forall t, In t (tris tr) -> is_conflicting t w = true -> exists a b c, t = Tri a b c /\ In a S /\ In b S /\ In c S /\ 0 < D a b c.
    Proof.
      intros Hw t Ht Hc. destruct (dl_shape _ _ HD t Ht) as [G|(a & b & -> & Ha & Hb & Nab)]; [exact G|exfalso].
      assert (Hh : hitv tr w (Tri a b gv)) by (split; assumption). apply (hit_ghost S tr w HD HR Hn a b Ht) in Hh.
      pose proof (hull_inner a b w Ht (deep_pos w Hw)) as Q. destruct Hh as [P|[P _]]; lra.
    Qed.

    Lemma inner_yes : forall (H : HashOrder), deep l w -> forall t fuel p m, In t (tris tr) -> is_conflicting t w = true ->
      may_insert_triangle H fuel p t w (Some (Poly l false)) [] = Ok m -> m = true.
    Proof.
      intros H Hw t fuel p m Ht Hc. destruct (inner_hits_solid Hw t Ht Hc) as (a & b & c & -> & Ha & Hb & Hcs & P).
      pose proof (fr_placed _ _ _ HF) as HP. pose proof (rs_plain _ HR) as G. apply may_inner; auto; apply G; right; assumption.
    Qed.

    (** A side of the mesh that runs along the polygon has an outer face on one side. *)
    Lemma along_D : forall a b x y, on_side x y a -> on_side x y b -> exists k, forall c, D a b c = k * D x y c.
    Proof.
      intros a b x y Ha Hb. apply on_side_ratio in Ha. apply on_side_ratio in Hb. destruct Ha as (s & _ & Ex & Ey). destruct Hb as (t & _ & Fx & Fy).
      exists (t - s). intros c'. unfold area2. rewrite Ex, Ey, Fx, Fy. ring.
    Qed.
    Lemma along_ghost : forall t u e, In t (tris tr) -> In u (tris tr) -> side_of e t -> side_of (flip e) u -> along l S e -> t = Tri (fst e) (snd e) gv \/ u = Tri (snd e) (fst e) gv.
    Proof.
      intros t u [a b] Ht Hu St Su (Ha & Hb & x & y & Hxy & Oa & Ob). cbn [fst snd flip] in *.
      assert (Na : a <> gv) by (intros ->; pose proof (rs_plain _ HR gv (or_intror Ha)); discriminate). assert (Nb : b <> gv) by (intros ->; pose proof (rs_plain _ HR gv (or_intror Hb)); discriminate).
      destruct (view S tr HD t a b Ht St Na Nb) as (_ & _ & _ & [(c & Hc & _ & Pc)|E]); [|left; exact E].
      destruct (view S tr HD u b a Hu Su Nb Na) as (_ & _ & _ & [(d & Hd & _ & Pd)|E]); [|right; exact E]. exfalso.
      destruct (along_D a b x y Oa Ob) as (k & Hk). rewrite (Hk c) in Pc. rewrite (D_swap a b d), (Hk d) in Pd.
      assert (Q : forall z, In z S -> 0 <= D x y z) by (intros z Hz; destruct (placed_pos x y z Hxy (fr_placed _ _ _ HF z Hz)) as [[-> _]|Q]; lra).
      pose proof (Q c Hc) as Qc. pose proof (Q d Hd) as Qd. destruct (Rle_dec k 0) as [L|L]; [assert (M := mnp k (D x y c))|assert (M := mpp k (D x y d))]; lra.
    Qed.
    Lemma constrained_in : forall (K : list (edge ArithR)) e, is_constrained K e = true -> In e K \/ In (flip e) K.
    Proof. intros K [a b] E. unfold is_constrained in E. apply orb_true_iff in E. rewrite !hmem_In in E. destruct E; auto. Qed.
    Lemma along_flip : forall e, along l S e -> along l S (flip e).
    Proof. intros [a b] (Ha & Hb & x & y & Hxy & Oa & Ob). cbn [fst snd flip] in *. split; [exact Hb|]. split; [exact Ha|]. exists x, y. auto. Qed.
    Lemma constrained_along : forall K, (forall e, In e K -> along l S e) -> forall e, is_constrained K e = true -> along l S e.
    Proof. intros K HK e E. destruct (constrained_in K e E) as [Hi|Hi]; [apply HK, Hi|]. apply HK, along_flip in Hi. destruct e. exact Hi. Qed.
    Lemma inner_bar : forall K, deep l w -> (forall e, In e K -> along l S e) -> forall t u e, In t (tris tr) -> In u (tris tr) -> is_conflicting t w = true -> is_conflicting u w = true ->
      side_of e t -> side_of (flip e) u -> is_constrained K e = false.
    Proof.
      intros K Hw HK t u e Ht Hu Ct Cu St Su. destruct (is_constrained K e) eqn:E; [|reflexivity]. exfalso. pose proof (constrained_along K HK e E) as Ha.
      assert (G : forall a b, In (Tri a b gv) (tris tr) -> is_conflicting (Tri a b gv) w = true -> False).
      { intros a b Hi Hc. destruct (inner_hits_solid Hw _ Hi Hc) as (a' & b' & c' & E' & _ & _ & Hc' & _). injection E' as _ _ <-. pose proof (rs_plain _ HR gv (or_intror Hc')). discriminate. }
      destruct (along_ghost t u e Ht Hu St Su Ha) as [-> | ->]; eapply G; eassumption.
    Qed.
  End Mesh.

  Lemma line_ratio : forall c d p, ~ coincide c d -> D c d p = 0 -> exists t, at_ratio t c d p.
  Proof.
    intros c d p Hc Hl. unfold area2 in Hl. unfold at_ratio. destruct (Req_dec (X d - X c) 0) as [Ex|Nx].
    - destruct (Req_dec (Y d - Y c) 0) as [Ey|Ny]; [exfalso; apply Hc; unfold coincide; lra|].
      exists ((Y p - Y c) / (Y d - Y c)). split; [|field; exact Ny]. rewrite Ex in *.
      assert (E : (Y d - Y c) * (X p - X c) = 0) by lra. apply Rmult_integral in E. destruct E as [E|E]; [contradiction|lra].
    - exists ((X p - X c) / (X d - X c)). split; [field; exact Nx|]. apply Rmult_eq_reg_l with (X d - X c); [|exact Nx]. field_simplify; [|exact Nx]. lra.
  Qed.
  Lemma mid_between : forall p q, ~ coincide p q -> strictly_between p q (edge_midpoint (p, q)).
  Proof. intros p q Hpq. apply (param_between p q _ (/ 2)); [exact Hpq|lra|]. destruct (edge_midpoint_spec (p, q)) as [Hm _]. exact Hm. Qed.

  Section Middle.
    Variables (S : list pnt) (tr : mesh) (s : edge ArithR).
    Let w := edge_midpoint s.
    Hypothesis HF : framed l S tr.
    Hypothesis HR : resolved (w :: S).
    Hypothesis Hs : piece l S s.
    Hypothesis Hw : placed l w.
    Let HD := fr_delaunay _ _ _ HF.

    Lemma seg_apart : ~ coincide (fst s) (snd s).
    Proof. destruct (pc_along _ _ _ Hs) as (Hp & Hq & _). apply (fr_apart S w HR); auto. apply (pc_proper _ _ _ Hs). Qed.
    Lemma mid_of : strictly_between (fst s) (snd s) w.
    Proof. unfold w. rewrite (surjective_pairing s). apply mid_between, seg_apart. Qed.
    Lemma mid_fresh : ~ In w S.
    Proof. intros Hi. exact (pc_empty _ _ _ Hs w Hi mid_of). Qed.
    Lemma mid_on : exists x y, In (x, y) (polygon_sides l) /\ on_side x y (fst s) /\ on_side x y (snd s) /\ strictly_between x y w.
    Proof.
      destruct (pc_along _ _ _ Hs) as (_ & _ & x & y & Hxy & Op & Oq). exists x, y. split; [exact Hxy|]. split; [exact Op|]. split; [exact Oq|].
      pose proof seg_apart as Nc. apply on_side_ratio in Op. apply on_side_ratio in Oq. destruct Op as (i & Hi & Ex & Ey). destruct Oq as (j & Hj & Fx & Fy).
      apply (param_between x y w ((i + j) / 2)); [apply cx_apart, Hxy| |].
      - assert (Nij : i <> j) by (intros ->; apply Nc; unfold coincide; rewrite Ex, Ey, Fx, Fy; auto). lra.
      - destruct (edge_midpoint_spec s) as [[Mx My] _]. unfold w. split; rewrite ?Mx, ?My, ?Ex, ?Ey, ?Fx, ?Fy; field.
    Qed.
    Lemma same_place : forall a b, In a S -> In b S -> coincide a b -> a = b.
    Proof. intros a b Ha Hb Hc. destruct (vdec a b) as [E|N]; [exact E|]. exfalso. exact (fr_apart S w HR a b Ha Hb N Hc). Qed.
    Lemma mid_ghost : forall a b, In (Tri a b gv) (tris tr) -> is_conflicting (Tri a b gv) w = true -> (a, b) = s \/ (a, b) = flip s.
    Proof.
      intros a b Ht Hc. assert (Hh : hitv tr w (Tri a b gv)) by (split; assumption). apply (hit_ghost S tr w HD HR mid_fresh a b Ht) in Hh.
      destruct (ghost_shape S tr w HD HR a b Ht) as (Ha & Hb & Nab & Hull). destruct (pc_along _ _ _ Hs) as (Hp & Hq & _). pose proof seg_apart as Nc.
      assert (Ef : flip s = (snd s, fst s)) by (destruct s; reflexivity). assert (Es : s = (fst s, snd s)) by (destruct s; reflexivity). rewrite Ef. rewrite Es at 1.
      set (p := fst s) in *. set (q := snd s) in *. destruct (Hull p Hp) as [Lp Fp]. destruct (Hull q Hq) as [Lq Fq].
      assert (Em : D a b w = (D a b p + D a b q) / 2) by (unfold w; apply mid_D).
      destruct Hh as [P|Hbt]; [lra|]. pose proof Hbt as [Zw _]. assert (Zp : D a b p = 0) by lra. assert (Zq : D a b q = 0) by lra.
      pose proof (fr_apart S w HR a b Ha Hb Nab) as Ncab.
      assert (P2 : 0 < d2 a b) by (apply Rnot_le_lt; intros L; apply Ncab; unfold d2 in L; apply squares_zero in L; unfold coincide; lra).
      assert (Za : D p q a = 0) by (apply (line3 a b p q a Zp Zq (D_ab_a a b) P2)). assert (Zb : D p q b = 0) by (apply (line3 a b p q b Zp Zq (D_ab_b a b) P2)).
      destruct (line_ratio p q a Nc Za) as (al & Ax & Ay). destruct (line_ratio p q b Nc Zb) as (be & Bx & By).
      assert (Nal : al <> be) by (intros E; apply Ncab; unfold coincide; rewrite Ax, Ay, Bx, By, E; auto).
      assert (Bt : forall k, al < k < be \/ be < k < al -> forall z, at_ratio k p q z -> strictly_between a b z).
      { intros k Hk z [Ex Ey]. apply (param_between a b z ((k - al) / (be - al))); [exact Ncab| |].
        - destruct Hk as [Hk|Hk].
          + split; [apply Rdiv_lt_0_compat; lra|]. apply (Rmult_lt_reg_r (be - al)); [lra|]. unfold Rdiv. rewrite Rmult_assoc, Rinv_l by lra. lra.
          + assert (E : (k - al) / (be - al) = (al - k) / (al - be)) by (field; lra). rewrite E. split; [apply Rdiv_lt_0_compat; lra|]. apply (Rmult_lt_reg_r (al - be)); [lra|]. unfold Rdiv. rewrite Rmult_assoc, Rinv_l by lra. lra.
        - split; rewrite ?Ex, ?Ey, ?Ax, ?Ay, ?Bx, ?By; field; lra. }
      assert (R0 : at_ratio 0 p q p) by (split; lra). assert (R1 : at_ratio 1 p q q) by (split; lra).
      assert (Ea : ~ (0 < al < 1)) by (intros Hk; apply (pc_empty _ _ _ Hs a Ha); fold p q; apply (param_between p q a al); [exact Nc|exact Hk|split; assumption]).
      assert (Eb : ~ (0 < be < 1)) by (intros Hk; apply (pc_empty _ _ _ Hs b Hb); fold p q; apply (param_between p q b be); [exact Nc|exact Hk|split; assumption]).
      destruct (between_param a b w Hbt) as (k & Hk & Wx & Wy). destruct (edge_midpoint_spec s) as [[Mx My] _]. fold w p q in Mx, My.
      assert (Ew : (1 - k) * al + k * be = / 2).
      { assert (E1 : ((1 - k) * al + k * be - / 2) * (X q - X p) = 0) by (rewrite Ax, Bx in Wx; lra). assert (E2 : ((1 - k) * al + k * be - / 2) * (Y q - Y p) = 0) by (rewrite Ay, By in Wy; lra).
        apply Rmult_integral in E1. apply Rmult_integral in E2. destruct E1 as [E1|E1]; [lra|]. destruct E2 as [E2|E2]; [lra|]. exfalso. apply Nc. unfold coincide. lra. }
      destruct (Rlt_dec al be) as [L|L].
      - left. assert (La : al < / 2) by (assert (Q := spp k (be - al)); lra). assert (Lb : / 2 < be) by (assert (Q := spp (1 - k) (be - al)); lra).
        assert (E0 : al = 0). { apply Rle_antisym; [lra|]. apply Rnot_lt_le. intros L0. apply Fp. apply (Bt 0); [lra|exact R0]. }
        assert (E1 : be = 1). { apply Rle_antisym; [|lra]. apply Rnot_lt_le. intros L0. apply Fq. apply (Bt 1); [lra|exact R1]. }
        rewrite E0 in *. rewrite E1 in *. f_equal; apply same_place; auto; unfold coincide; lra.
      - right. assert (La : / 2 < al) by (assert (Q := spp k (al - be)); lra). assert (Lb : be < / 2) by (assert (Q := spp (1 - k) (al - be)); lra).
        assert (E0 : be = 0). { apply Rle_antisym; [lra|]. apply Rnot_lt_le. intros L0. apply Fp. apply (Bt 0); [lra|exact R0]. }
        assert (E1 : al = 1). { apply Rle_antisym; [|lra]. apply Rnot_lt_le. intros L0. apply Fq. apply (Bt 1); [lra|exact R1]. }
        rewrite E0 in *. rewrite E1 in *. f_equal; apply same_place; auto; unfold coincide; lra.
    Qed.
    Lemma mid_yes : forall (H : HashOrder) t fuel p m, In t (tris tr) -> is_conflicting t w = true ->
      may_insert_triangle H fuel p t w (Some (Poly l false)) [] = Ok m -> m = true.
    Proof.
      intros H t fuel p m Ht Hc. pose proof (fr_placed _ _ _ HF) as HP. pose proof (rs_plain _ HR) as G. destruct mid_on as (x & y & Hxy & Op & Oq & Hbt).
      destruct (dl_shape _ _ HD t Ht) as [(a & b & c & -> & Ha & Hb & Hcs & P)|(a & b & -> & Ha & Hb & Nab)].
      - apply (may_side H fuel p a b c x y w m); auto; apply G; right; assumption.
      - destruct (mid_ghost a b Ht Hc) as [E|E]; apply (may_outer H fuel p a b x y w m); auto; try (right; right; exact Hbt).
        + rewrite <- E in Op. exact Op.
        + rewrite <- E in Oq. exact Oq.
        + destruct s as [p0 q0]. injection E as -> ->. exact Oq.
        + destruct s as [p0 q0]. injection E as -> ->. exact Op.
    Qed.
    Lemma mid_bar : forall K, (forall e, In e K -> along l S e) -> ~ In s K -> ~ In (flip s) K -> forall t u e, In t (tris tr) -> In u (tris tr) -> is_conflicting t w = true -> is_conflicting u w = true ->
      side_of e t -> side_of (flip e) u -> is_constrained K e = false.
    Proof.
      intros K HK N1 N2 t u e Ht Hu Ct Cu St Su. destruct (is_constrained K e) eqn:E; [|reflexivity]. exfalso. pose proof (constrained_along S K HK e E) as Ha.
      assert (Q : e = s \/ e = flip s).
      { destruct (along_ghost S tr w HF HR t u e Ht Hu St Su Ha) as [-> | ->].
        - destruct (mid_ghost _ _ Ht Ct) as [E'|E']; rewrite <- (surjective_pairing e) in E'; auto.
        - destruct (mid_ghost _ _ Hu Cu) as [E'|E']; destruct e as [a b], s as [p q]; cbn [fst snd flip] in *; injection E' as -> ->; auto. }
      destruct (constrained_in K e E) as [Hi|Hi]; destruct Q as [-> | ->]; auto. destruct s; cbn [flip] in *; auto.
    Qed.
    Lemma mid_hit : exists t, In t (tris tr) /\ encircles t w = Inside.
    Proof.
      assert (HRS : resolved S) by (apply (resolved_incl (w :: S)); [exact HR|]; intros z Hz; right; exact Hz).
      destruct (pc_along _ _ _ Hs) as (Hp & Hq & _).
      destruct (proj1 (tiles_hull S tr w HD HRS ltac:(
        intros Hl; destruct mid_on as (x & y & Hxy & _); destruct (third_of l x y (cp_nodup _ HC) (cp_three _ HC)) as (z & Hz & N1 & N2);
        pose proof (cx_pos x y z Hxy Hz N1 N2) as P; destruct (polygon_ends l _ Hxy) as [Hx Hy]; cbn [fst snd] in *;
        rewrite (Hl x y z) in P by (apply (fr_corners _ _ _ HF); assumption); lra))) as (a & b & c & Ht & Gc & Hi).
      - intros a b Hle. unfold w. rewrite mid_D. pose proof (Hle _ Hp). pose proof (Hle _ Hq). lra.
      - exists (Tri a b c). split; [exact Ht|]. destruct (solid_view S tr a b c HD HRS Ht Gc) as (Ha & Hb & Hc & P). unfold encircles.
        assert (G : is_ghost (Tri a b c) = false) by (unfold is_ghost; cbn [tv1 tv2 tv3]; rewrite !(rs_plain _ HRS) by assumption; reflexivity).
        rewrite G. cbn [tv1 tv2 tv3]. apply (inside_I S w HR a b c); auto.
        assert (Na : forall z, In z S -> ~ coincide w z).
        { intros z Hz [E1 E2]. apply mid_fresh. rewrite (rs_apart _ HR w z); [exact Hz|left; reflexivity|right; exact Hz|]. unfold close. rewrite E1, E2. pose proof eps_pos. split; lra. }
        apply closed_circle; auto.
    Qed.
  End Middle.
End Convex.
