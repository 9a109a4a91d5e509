(** P_Same.v — runs on one convex polygon give one mesh (C134). *)

From Coq Require Import Reals List ZArith Lra Lia Psatz Bool Permutation.
From Verif Require Import Base Arith Geometry Elements Polyline Procedures Triangulator ArithR Spec SpecR SpecD SpecP SpecC SpecE
  P_Base P_Trn P_Fuel P_Poly P_Contains P_R1 P_R2 P_R5 P_R6 P_RX P_D1 P_D2 P_D5 P_D7 P_D8 P_C4 P_Polygon3 P_E8 P_C8 P_F2 P_L4 P_Y4.
Import ListNotations.
Local Open Scope R_scope.

Lemma sides_rotate : forall (l1 l2 : list pnt), Permutation (polygon_sides (l1 ++ l2)) (polygon_sides (l2 ++ l1)).
Proof.
  intros [|a l1] [|b l2]; try reflexivity; [rewrite app_nil_r; reflexivity|rewrite app_nil_r; reflexivity|].
  change (Permutation (consecutive (A:=ArithR) (((a :: l1) ++ b :: l2) ++ [a])) (consecutive (A:=ArithR) (((b :: l2) ++ a :: l1) ++ [b]))).
  rewrite <- !app_assoc. cbn [app].
  change (Permutation (consecutive (A:=ArithR) ((a :: l1) ++ b :: (l2 ++ [a]))) (consecutive (A:=ArithR) ((b :: l2) ++ a :: (l1 ++ [b])))).
  rewrite consecutive_app, (consecutive_app (b :: l2)). apply Permutation_app_comm.
Qed.
Lemma sides_rotate_In : forall (l1 l2 : list pnt) e, In e (polygon_sides (l2 ++ l1)) -> In e (polygon_sides (l1 ++ l2)).
Proof. intros l1 l2 e He. apply (Permutation_in _ (sides_rotate l2 l1) He). Qed.
Lemma convex_rotate : forall l1 l2, convex_polygon (l1 ++ l2) -> convex_polygon (l2 ++ l1).
Proof.
  intros l1 l2 [N L C]. split.
  - apply (Permutation_NoDup (Permutation_app_comm l1 l2) N).
  - rewrite app_length in *. lia.
  - intros a b w Hab Hw. apply C; [apply sides_rotate_In, Hab|]. apply (Permutation_in _ (Permutation_app_comm l2 l1) Hw).
Qed.
Lemma deep_rotate : forall l1 l2 w, deep (l1 ++ l2) w -> deep (l2 ++ l1) w.
Proof. intros l1 l2 w Hd a b Hab. apply Hd, sides_rotate_In, Hab. Qed.

(** What a run that returns leaves. *)
Lemma run_delaunay : forall (H : HashOrder) fuel p (t t' : triangulator ArithR) l vs, polygon_with t l vs -> convex_polygon l -> NoDup vs -> resolved (vs ++ l) -> (forall w, In w vs -> deep l w) ->
  triangulate H fuel p t = Ok t' ->
  exists ins, delaunay (ins ++ l) (t_trn t') /\ incl ins vs /\ (vs <> [] -> ins <> []).
Proof.
  intros H fuel p t t' l vs Hw Hc Hv HR Hd Hr. destruct (convex_with_vertices H p t l vs Hw Hc Hv HR Hd) as (n0 & t2 & ins & dr & Hrun & HC & Hp & Hne & _).
  assert (E : t2 = t').
  { pose proof (Hrun (n0 + fuel)%nat ltac:(lia)) as E1. assert (E2 : triangulate H (n0 + fuel) p t = Ok t') by exact (rle_ok _ _ _ _ (triangulate_mono H fuel (n0 + fuel) ltac:(lia) p t) Hr). congruence. }
  subst t2. assert (Hi : incl ins vs) by (intros w Hw'; apply (Permutation_in _ (Permutation_sym Hp)), in_or_app; auto).
  exists ins. split; [|split; [exact Hi|exact Hne]].
  assert (HRi : resolved (ins ++ l)) by (apply (resolved_incl _ _ HR); intros w Hw'; apply in_app_or in Hw'; apply in_or_app; destruct Hw' as [Hw'|Hw']; auto).
  destruct (start_framed l ins (t_trn t') Hc HRi) as [HF _]; [intros w Hw'; apply Hd, Hi, Hw'|exact HC|]. apply (fr_delaunay _ _ _ HF).
Qed.

Lemma same_mesh : forall (H H' : HashOrder) fuel fuel' p p' (t t' u u' : triangulator ArithR) l1 l2 vs vs', polygon_with t (l1 ++ l2) vs -> polygon_with u (l2 ++ l1) vs' ->
  convex_polygon (l1 ++ l2) -> NoDup vs -> Permutation vs vs' -> resolved (vs ++ l1 ++ l2) -> (forall w, In w vs -> deep (l1 ++ l2) w) -> no_four_on_a_circle (vs ++ l1 ++ l2) ->
  triangulate H fuel p t = Ok t' -> triangulate H' fuel' p' u = Ok u' ->
  (forall w, In w vs -> In w (trn_vertices (t_trn t')) <-> In w (trn_vertices (t_trn u'))) ->
  forall x, In x (tris (t_trn t')) -> exists y, In y (tris (t_trn u')) /\ same_triangle x y.
Proof.
  intros H H' fuel fuel' p p' t t' u u' l1 l2 vs vs' Ht Hu Hc Hv Hp HR Hd H4 R1 R2 Hsame.
  assert (Hl : forall w, In w (l2 ++ l1) <-> In w (l1 ++ l2)) by (intros w; rewrite !in_app_iff; tauto).
  assert (HR2 : resolved (vs' ++ l2 ++ l1)).
  { apply (resolved_incl _ _ HR). intros w Hw. apply in_app_or in Hw. apply in_or_app. destruct Hw as [Hw|Hw]; [left; apply (Permutation_in _ (Permutation_sym Hp) Hw)|right; apply Hl, Hw]. }
  destruct (run_delaunay H fuel p t t' _ vs Ht Hc Hv HR Hd R1) as (i1 & D1 & I1 & _).
  destruct (run_delaunay H' fuel' p' u u' _ vs' Hu (convex_rotate _ _ Hc) (Permutation_NoDup Hp Hv) HR2) as (i2 & D2 & I2 & _); [|exact R2|].
  { intros w Hw. apply deep_rotate, Hd, (Permutation_in _ (Permutation_sym Hp) Hw). }
  assert (G1 : forall w, In w (i1 ++ l1 ++ l2) -> In w (vs ++ l1 ++ l2)).
  { intros w Hw. apply in_app_or in Hw. apply in_or_app. destruct Hw as [Hw|Hw]; [left; apply I1, Hw|auto]. }
  assert (G2 : forall w, In w (i2 ++ l2 ++ l1) -> In w (vs ++ l1 ++ l2)).
  { intros w Hw. apply in_app_or in Hw. apply in_or_app. destruct Hw as [Hw|Hw]; [left; apply (Permutation_in _ (Permutation_sym Hp)), I2, Hw|right; apply Hl, Hw]. }
  assert (P1 : forall w, In w (trn_vertices (t_trn t')) <-> In w (i1 ++ l1 ++ l2)) by (apply delaunay_points; [exact D1|intros w Hw; apply (rs_plain _ HR), G1, Hw]).
  assert (P2 : forall w, In w (trn_vertices (t_trn u')) <-> In w (i2 ++ l2 ++ l1)) by (apply delaunay_points; [exact D2|intros w Hw; apply (rs_plain _ HR), G2, Hw]).
  apply (unique (i1 ++ l1 ++ l2)).
  - exact D1.
  - apply (delaunay_incl _ _ _ D2). intros w. rewrite <- P1, <- P2. split; intros Hw.
    + pose proof Hw as Hw'. apply P2, G2, in_app_or in Hw'. destruct Hw' as [Hw'|Hw']; [apply Hsame; assumption|apply P1, in_or_app; right; exact Hw'].
    + pose proof Hw as Hw'. apply P1, G1, in_app_or in Hw'. destruct Hw' as [Hw'|Hw']; [apply Hsame; assumption|apply P2, in_or_app; right; apply Hl, Hw'].
  - apply (resolved_incl _ _ HR), G1.
  - intros o a b c d Ha Hb Hc' Hd'. apply H4; apply G1; assumption.
Qed.

Lemma polygon_with_only : forall (t : triangulator ArithR) l, only_polygon t l -> polygon_with t l [].
Proof. intros t l [B Ho Sg Ve]. split; assumption. Qed.
Lemma same_polygon : forall (H H' : HashOrder) fuel fuel' p p' (t t' u u' : triangulator ArithR) l1 l2, only_polygon t (l1 ++ l2) -> only_polygon u (l2 ++ l1) ->
  convex_polygon (l1 ++ l2) -> resolved (l1 ++ l2) -> no_four_on_a_circle (l1 ++ l2) -> triangulate H fuel p t = Ok t' -> triangulate H' fuel' p' u = Ok u' ->
  forall x, In x (tris (t_trn t')) -> exists y, In y (tris (t_trn u')) /\ same_triangle x y.
Proof.
  intros H H' fuel fuel' p p' t t' u u' l1 l2 Ht Hu Hc HR H4 R1 R2.
  apply (same_mesh H H' fuel fuel' p p' t t' u u' l1 l2 [] []); auto using polygon_with_only, NoDup_nil, perm_nil; intros w [].
Qed.
Lemma same_one : forall (H H' : HashOrder) fuel fuel' p p' (t t' u u' : triangulator ArithR) l1 l2 v, polygon_with t (l1 ++ l2) [v] -> polygon_with u (l2 ++ l1) [v] ->
  convex_polygon (l1 ++ l2) -> resolved (v :: l1 ++ l2) -> deep (l1 ++ l2) v -> no_four_on_a_circle (v :: l1 ++ l2) -> triangulate H fuel p t = Ok t' -> triangulate H' fuel' p' u = Ok u' ->
  forall x, In x (tris (t_trn t')) -> exists y, In y (tris (t_trn u')) /\ same_triangle x y.
Proof.
  intros H H' fuel fuel' p p' t t' u u' l1 l2 v Ht Hu Hc HR Hd H4 R1 R2.
  assert (Hn : NoDup [v]) by (repeat constructor; intros []). assert (Hd' : forall w, In w [v] -> deep (l1 ++ l2) w) by (intros w [<-|[]]; exact Hd).
  assert (HR2 : resolved ([v] ++ l2 ++ l1)).
  { apply (resolved_incl _ _ HR). intros w [<-|Hw]; [left; reflexivity|right]. apply (Permutation_in _ (Permutation_app_comm l2 l1) Hw). }
  assert (one : forall i : list pnt, incl i [v] -> ([v] <> [] -> i <> []) -> In v i).
  { intros i Hi Hne. destruct i as [|x i]; [exfalso; apply Hne; [discriminate|reflexivity]|]. destruct (Hi x (or_introl eq_refl)) as [<-|[]]. left; reflexivity. }
  apply (same_mesh H H' fuel fuel' p p' t t' u u' l1 l2 [v] [v]); auto.
  destruct (run_delaunay H fuel p t t' _ [v] Ht Hc Hn HR Hd' R1) as (i1 & D1 & I1 & N1).
  destruct (run_delaunay H' fuel' p' u u' _ [v] Hu (convex_rotate _ _ Hc) Hn HR2) as (i2 & D2 & I2 & N2); [intros w Hw; apply deep_rotate, Hd', Hw|exact R2|].
  assert (used : forall i l (tr : mesh), delaunay (i ++ l) tr -> In v i -> In v (trn_vertices tr)).
  { intros i l tr D Hi. apply trn_vertices_In. split; [apply (rs_plain _ HR); left; reflexivity|]. apply (dl_used _ _ D). apply in_or_app; auto. }
  intros w [<-|[]]. split; intros _; [apply (used _ _ _ D2)|apply (used _ _ _ D1)]; apply one; assumption.
Qed.

(** ** A kite read from another corner, with one vertex and without *)
Definition kite_turned : list pnt := [pF; pC] ++ [pA; pB].
Definition kite_one : triangulator ArithR := TR trn_new (Poly ([pA; pB] ++ [pF; pC]) false) [] [pE] [].
Definition kite_two : triangulator ArithR := TR trn_new (Poly kite_turned false) [] [pE] [].
Lemma case_same : polygon_with kite_one ([pA; pB] ++ [pF; pC]) [pE] /\ polygon_with kite_two kite_turned [pE] /\ convex_polygon ([pA; pB] ++ [pF; pC]) /\ resolved (pE :: [pA; pB] ++ [pF; pC]) /\
  deep ([pA; pB] ++ [pF; pC]) pE /\ no_four_on_a_circle (pE :: [pA; pB] ++ [pF; pC]) /\
  exists n t' u', triangulate ho_id n [] kite_one = Ok t' /\ triangulate ho_rev n [] kite_two = Ok u' /\
    (In pE (trn_vertices (t_trn t')) <-> In pE (trn_vertices (t_trn u'))).
Proof.
  destruct case_kite_full as (_ & Hc & _ & HR0 & Hd & _). assert (Hd1 : deep kite pE) by (apply Hd; left; reflexivity).
  assert (HR : resolved (pE :: kite)) by (apply (resolved_incl _ _ HR0); intros w [<-|Hw]; [left; reflexivity|right; right; exact Hw]).
  assert (W1 : polygon_with kite_one kite [pE]) by (split; reflexivity). assert (W2 : polygon_with kite_two kite_turned [pE]) by (split; reflexivity).
  assert (H4 : no_four_on_a_circle (pE :: kite)).
  { intros o a b c d Ha Hb Hc' Hd'. destruct samples_apart as [_ Q]. assert (I : forall w, In w (pE :: kite) -> In w ([pC; pE; pF] ++ [pA; pB])) by (intros w; unfold kite; cbn; tauto).
    apply Q; apply I; assumption. }
  assert (Hc2 : convex_polygon kite_turned) by (apply (convex_rotate [pA; pB] [pF; pC]), Hc).
  assert (HR2 : resolved (pE :: kite_turned)) by (apply (resolved_incl _ _ HR); intros w; unfold kite, kite_turned; cbn; tauto).
  assert (Hd2 : deep kite_turned pE) by (apply (deep_rotate [pA; pB] [pF; pC]), Hd1).
  split; [exact W1|]. split; [exact W2|]. split; [exact Hc|]. split; [exact HR|]. split; [exact Hd1|]. split; [exact H4|].
  destruct (convex_with_one ho_id [] kite_one kite pE W1 Hc HR Hd1) as (n1 & t' & R1 & C1 & _).
  destruct (convex_with_one ho_rev [] kite_two kite_turned pE W2 Hc2 HR2 Hd2) as (n2 & u' & R2 & C2 & _).
  exists (n1 + n2)%nat, t', u'. split; [apply R1; lia|]. split; [apply R2; lia|].
  assert (P1 := cd_points _ _ _ C1 (rs_plain _ HR) pE). assert (P2 := cd_points _ _ _ C2 (rs_plain _ HR2) pE).
  rewrite P1, P2. split; intros _; left; reflexivity.
Qed.
