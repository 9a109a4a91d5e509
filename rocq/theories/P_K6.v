(** P_K6.v — end to end: what [Polyline::intersection] and
    [Polyline::subtraction] return for two polygons that cross. *)

From Coq Require Import Reals List ZArith Lra Lia Psatz Bool Permutation.
From Verif Require Import Base Arith Geometry Elements Polyline Procedures ArithR Spec SpecR SpecD SpecM SpecP SpecK
  P_Base P_Poly P_Trn P_Triangulator P_Contains P_R1 P_R2 P_R3 P_R4 P_R5 P_R6 P_D1 P_D2 P_D3 P_D4 P_D5 P_RX P_Fill P_Fill2 P_Slide P_Region2 P_E4 P_G1 P_Bool P_Nest P_J3
  P_K1 P_K2 P_K3 P_K4 P_K5.
Import ListNotations.
Local Open Scope R_scope.

Lemma closed_three : forall l : list pnt, (3 <= length l)%nat -> proper_closed (Poly l false).
Proof. intros l Hl. unfold proper_closed, new_closed. cbn [pverts]. rewrite (proj2 (Nat.ltb_ge (length l) 3) Hl). reflexivity. Qed.
Lemma three_some : forall l : list pnt, (3 <= length l)%nat -> l <> [].
Proof. intros [|a l] Hl; [cbn in Hl; lia|discriminate]. Qed.
Lemma bbox_some : forall l : list pnt, l <> [] -> exists b, bbox_from_vertices l = Some b.
Proof. intros [|a l] Hl; [congruence|]. unfold bbox_from_vertices. eauto. Qed.
Lemma unwrap_run : forall l (q : pnt) k, poly_contains (Poly l false) q = Ok (Some k) -> contains_unwrap (Poly l false) q = Ok k.
Proof. intros l q k Hk. unfold contains_unwrap. rewrite Hk. reflexivity. Qed.
Lemma outside_run : forall l (q : pnt) k, poly_contains (Poly l false) q = Ok (Some k) -> is_outside (Poly l false) q = Ok (cont_eqb k Outside).
Proof. intros l q k Hk. unfold is_outside. rewrite (unwrap_run l q k Hk). reflexivity. Qed.
Lemma sides_some : forall l : list pnt, l <> [] -> polygon_sides l <> [].
Proof. intros l Hl E. destruct (polygon_edges l Hl). revert E. destruct l as [|a l]; [congruence|]. change (polygon_sides (a :: l)) with (path_sides ((a :: l) ++ [a])). destruct l as [|b l]; discriminate. Qed.

Lemma pieces_some : forall l1 K2 E1 E2 (r : list (edge ArithR)), l1 <> [] -> two_cuts (polygon_sides l1) K2 E1 E2 -> Permutation r (E1 ++ E2) -> r <> [].
Proof.
  intros l1 K2 E1 E2 r Hl HT HP E. subst r. apply Permutation_nil in HP. apply app_eq_nil in HP. destruct HP as [-> _].
  pose proof (sides_some l1 Hl) as Hs. destruct (polygon_sides l1) as [|s K] eqn:EK; [congruence|].
  destruct (tc_cov1 _ _ _ _ HT s (fst s) (or_introl eq_refl)) as (e & He & _); [|destruct He].
  exists 0. split; [lra|]. split; ring.
Qed.

Lemma sum_weights : forall E1 E2 (f g h : edge ArithR -> Z), (forall e, In e E1 -> f e = g e) -> (forall e, In e E2 -> f e = h e) -> zsum f (E1 ++ E2) = (zsum g E1 + zsum h E2)%Z.
Proof. intros E1 E2 f g h H1 H2. rewrite zsum_app. f_equal; apply zsum_ext; assumption. Qed.

Definition said (o : res bool) : bool := match o with Ok b => b | _ => false end.

Theorem intersection_surrounds : forall H Z l1 l2 fuel p, (3 <= length l1)%nat -> (3 <= length l2)%nat ->
  laid_out Z (polygon_sides l1) (polygon_sides l2) -> no_counter Z (polygon_sides l1 ++ polygon_sides l2) ->
  middles_clear Z (polygon_sides l1) (polygon_sides l2) -> middles_clear Z (polygon_sides l2) (polygon_sides l1) ->
  filled_once l1 -> filled_once l2 -> (enough Z <= fuel)%nat ->
  exists pls u, poly_intersection H fuel p (Poly l1 false) (Poly l2 false) = Ok (pls, u) /\ (forall pl, In pl pls -> proper_closed pl) /\
    forall q, (forall s, In s (polygon_sides l1 ++ polygon_sides l2) -> ~ on_segment (fst s) (snd s) q) ->
      winding_all q pls = (winding q (polygon_sides l1) * winding q (polygon_sides l2))%Z.
Proof.
  intros H Z l1 l2 fuel p L1 L2 HL HN HM1 HM2 F1 F2 Hf. pose proof (three_some _ L1) as N1. pose proof (three_some _ L2) as N2.
  destruct (split_pieces Z _ _ HL fuel Hf) as (E1 & E2 & r & Hr & HP & HT & Hlen & HE1 & HE2).
  unfold poly_intersection.
  assert (P1 : poly_pairs (Poly l1 false) = Ok (polygon_sides l1)) by (apply polygon_edges, N1).
  assert (P2 : poly_pairs (Poly l2 false) = Ok (polygon_sides l2)) by (apply polygon_edges, N2).
  rewrite P1, P2. cbn [bind]. rewrite Hr. cbn [bind popened orb]. unfold poly_bbox. cbn [pverts].
  destruct (bbox_some l1 N1) as [b1 B1]. destruct (bbox_some l2 N2) as [b2 B2]. rewrite B1, B2. cbn [unwrap bind].
  pose proof (bbox_intersection_spec b1 b2) as Hbb. destruct (bbox_intersection b1 b2) as [b|].
  2:{ exists [], []. split; [reflexivity|]. split; [intros pl []|]. intros q _. unfold winding_all. cbn [map fold_right].
      destruct (Z.eq_dec (winding q (polygon_sides l1)) 0) as [-> | W1]; [reflexivity|].
      destruct (Z.eq_dec (winding q (polygon_sides l2)) 0) as [-> | W2]; [rewrite Z.mul_0_r; reflexivity|].
      exfalso. apply (Hbb q). split; [exact (winding_box l1 b1 q B1 W1)|exact (winding_box l2 b2 q B2 W2)]. }
  assert (Hsm : (length r < fuel)%nat) by (unfold enough in Hf; lia).
  assert (Hc : cancel_opposed fuel (Poly l1 false) (Poly l2 false) r = Ok (rev r, [])).
  { rewrite <- (rev_involutive r) at 1. apply cancel_opposed_calm.
    - apply closed_three, L1.
    - apply closed_three, L2.
    - intros E. apply (pieces_some l1 _ E1 E2 r N1 HT HP). rewrite <- (rev_involutive r), E. reflexivity.
    - intros s s' Hs Hs'. apply (calm_pieces Z l1 l2 E1 E2 r HP HE1 HE2 HN); apply in_rev; assumption.
    - rewrite rev_length. exact Hsm. }
  rewrite Hc. cbn [bind]. rewrite rev_involutive.
  set (g := fun e : edge ArithR => said (keep_intersection (Poly l1 false) (Poly l2 false) (mid e))).
  assert (G1 : forall e, In e E1 -> keep_intersection (Poly l1 false) (Poly l2 false) (mid e) = Ok (g e) /\ b2z (g e) = winding (mid e) (polygon_sides l2)).
  { intros e He. destruct (first_piece Z l1 l2 HM1 N2 E1 E2 HT HE1 e He) as (C1 & Ho & k & C2 & Nb & Wi & Wo). unfold g, keep_intersection.
    rewrite (outside_run _ _ _ C1), (outside_run _ _ _ C2). cbn. destruct k; cbn.
    all: try (exfalso; apply Nb; reflexivity). all: split; [reflexivity|]. all: cbn.
    - destruct (F2 (mid e) Ho) as [W|W]; [exfalso; apply (Wi eq_refl W)|symmetry; exact W].
    - symmetry. apply Wo. reflexivity. }
  assert (G2 : forall e, In e E2 -> keep_intersection (Poly l1 false) (Poly l2 false) (mid e) = Ok (g e) /\ b2z (g e) = winding (mid e) (polygon_sides l1)).
  { intros e He. destruct (second_piece Z l1 l2 HM2 N1 E1 E2 HT HE2 e He) as (C1 & Ho & k & C2 & Nb & Wi & Wo). unfold g, keep_intersection.
    rewrite (outside_run _ _ _ C1), (outside_run _ _ _ C2). cbn. destruct k; cbn.
    all: try (exfalso; apply Nb; reflexivity). all: split; [reflexivity|]. all: cbn.
    - destruct (F1 (mid e) Ho) as [W|W]; [exfalso; apply (Wi eq_refl W)|symmetry; exact W].
    - symmetry. apply Wo. reflexivity. }
  destruct (by_midpoint_exact (keep_intersection (Poly l1 false) (Poly l2 false)) g r [] []) as [unused Hb].
  { intros e He. apply (Permutation_in _ HP) in He. rewrite (mid_midpoint Z l1 l2 HL E1 E2 HE1 HE2 e He). apply in_app_or in He. destruct He as [He|He]; [apply G1, He|apply G2, He]. }
  rewrite Hb. cbn [bind app].
  destruct (chosen_joined Z l1 l2 HL E1 E2 r HP HT HE1 HE2 H fuel p g unused Hsm) as (pls & Hj & Hcl & Hw).
  - intros v. rewrite (sum_weights E1 E2 _ (fun e => (winding (mid e) (polygon_sides l2) * (same_place v (snd e) - same_place v (fst e)))%Z) (fun e => (winding (mid e) (polygon_sides l1) * (same_place v (snd e) - same_place v (fst e)))%Z)).
    + apply (two_balance l1 l2 E1 E2 HT v).
    + intros e He. rewrite (proj2 (G1 e He)). reflexivity.
    + intros e He. rewrite (proj2 (G2 e He)). reflexivity.
  - exists pls, unused. split; [exact Hj|]. split; [exact Hcl|]. intros q Hq. rewrite Hw.
    rewrite (two_product Z l1 l2 E1 E2 HT HE1 HE2 q Hq). apply sum_weights.
    + intros e He. rewrite (proj2 (G1 e He)). ring.
    + intros e He. rewrite (proj2 (G2 e He)). ring.
Qed.
