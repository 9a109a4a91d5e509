(** P_K7.v — subtraction and union of two polygons that cross. *)

From Coq Require Import Reals List ZArith Lra Lia Psatz Bool Permutation.
From Verif Require Import Base Arith Geometry Elements Polyline Procedures ArithR Spec SpecR SpecD SpecM SpecP SpecK
  P_Base P_Poly P_Trn P_Triangulator P_Contains P_R1 P_R2 P_R3 P_R4 P_R5 P_R6 P_D1 P_D2 P_D3 P_D4 P_D5 P_RX P_Fill P_Fill2 P_Slide P_Region2 P_E4 P_G1 P_Bool P_Nest P_J3
  P_K1 P_K2 P_K3 P_K4 P_K5 P_K6.
Import ListNotations.
Local Open Scope R_scope.

(** ** Sides run the other way *)
Lemma turn_turn : forall s, turn (turn s) = s. Proof. intros [a b]. reflexivity. Qed.
Lemma sides_turned : forall l : list pnt, Permutation (polygon_sides (rev l)) (map turn (polygon_sides l)).
Proof.
  intros [|a l]; [constructor|]. cbn [rev].
  assert (Q : Permutation (polygon_sides (rev l ++ [a])) (polygon_sides (a :: rev l))).
  { destruct (rev l) as [|b m]; [constructor; constructor|].
    change (Permutation (consecutive (A:=ArithR) (((b :: m) ++ [a]) ++ [b])) (consecutive (A:=ArithR) ((a :: b :: m) ++ [a]))).
    replace (((b :: m) ++ [a]) ++ [b]) with ((b :: m) ++ a :: ([] ++ [b])) by (rewrite <- app_assoc; reflexivity).
    change ((a :: b :: m) ++ [a]) with ([a] ++ b :: (m ++ [a])). rewrite consecutive_app, (consecutive_app [a]). apply Permutation_app_comm. }
  rewrite Q. change (polygon_sides (a :: rev l)) with (consecutive (A:=ArithR) ((a :: rev l) ++ [a])).
  change (polygon_sides (a :: l)) with (consecutive (A:=ArithR) ((a :: l) ++ [a])).
  replace ((a :: rev l) ++ [a]) with (rev ((a :: l) ++ [a])) by (rewrite rev_app_distr; reflexivity).
  rewrite consecutive_rev. apply Permutation_sym, Permutation_rev.
Qed.
Lemma side_turned : forall (l : list pnt) s, In s (polygon_sides (rev l)) -> In (turn s) (polygon_sides l).
Proof.
  intros l s Hs. apply (Permutation_in _ (sides_turned l)) in Hs. apply in_map_iff in Hs. destruct Hs as (s' & <- & Hs'). rewrite turn_turn. exact Hs'.
Qed.
Lemma turned_side : forall (l : list pnt) s, In s (polygon_sides l) -> In (turn s) (polygon_sides (rev l)).
Proof. intros l s Hs. apply (Permutation_in _ (Permutation_sym (sides_turned l))). apply in_map, Hs. Qed.
Lemma winding_rev : forall (l : list pnt) q, winding q (polygon_sides (rev l)) = (- winding q (polygon_sides l))%Z.
Proof.
  intros l q. rewrite !winding_zsum, (zsum_perm _ _ _ _ (sides_turned l)), zsum_map, <- zsum_opp. apply zsum_ext. intros [a b] _. apply rc_flip.
Qed.

Lemma on_turn : forall s p, on_segment (fst s) (snd s) p -> on_segment (fst (turn s)) (snd (turn s)) p.
Proof. intros [a b] p Hp. apply on_segment_flip, Hp. Qed.
Lemma end_turn : forall s p, end_of (turn s) p -> end_of s p.
Proof. intros [a b] p [E|E]; [right|left]; exact E. Qed.
Lemma nearly_turn : forall s s' p, nearly_meet s s' p -> nearly_meet s (turn s') p.
Proof.
  intros s [c d] p (A & B & C & D & E). unfold nearly_meet, turn, on_line in *. cbn [fst snd] in *. split; [unfold crossp in *; lra|]. split; [exact B|].
  split; [unfold area2 in *; lra|]. split; [exact D|apply near_box_sym, E].
Qed.
Lemma nearly_turn_both : forall s s' p, nearly_meet s s' p -> nearly_meet (turn s) (turn s') p.
Proof. intros s s' p Hn. apply nearly_turn, nearly_sym, nearly_turn, nearly_sym, Hn. Qed.
Lemma touches_turn : forall v s, touches_side v s -> touches_side v (turn s).
Proof.
  intros v [a b] (A & B & C). unfold touches_side, turn. cbn [fst snd]. rewrite (Rmin_comm (X b)), (Rmax_comm (X b)), (Rmin_comm (Y b)), (Rmax_comm (Y b)).
  split; [exact A|]. split; [unfold area2 in *; lra|]. intros E. apply C. symmetry. exact E.
Qed.
Lemma part_turn : forall s u v, part_of s u v -> part_of (turn s) v u.
Proof.
  intros [a b] u v (t & t' & T0 & T1 & T2 & [F1 F2] & [G1 G2]). exists (1 - t'), (1 - t). cbn [turn fst snd] in *. unfold at_ratio.
  split; [lra|]. split; [lra|]. split; [lra|]. split; (split; [rewrite ?F1, ?G1|rewrite ?F2, ?G2]; ring).
Qed.

Lemma laid_turned : forall Z K1 l2, laid_out Z K1 (polygon_sides l2) -> laid_out Z K1 (polygon_sides (rev l2)).
Proof.
  intros Z K1 l2 HL. constructor.
  - apply (lo_plain _ _ _ HL).
  - apply (lo_apart _ _ _ HL).
  - intros s Hs. apply in_app_or in Hs. destruct Hs as [Hs|Hs].
    + apply (lo_ends _ _ _ HL s). apply in_or_app. left. exact Hs.
    + apply side_turned in Hs. destruct (lo_ends _ _ _ HL (turn s)) as (A & B & C); [apply in_or_app; right; exact Hs|]. cbn [turn fst snd] in *. auto.
  - apply (lo_first _ _ _ HL).
  - destruct (lo_second _ _ _ HL) as [Ho Hs]. constructor.
    + apply (Permutation_NoDup (Permutation_sym (sides_turned l2))). apply FinFun.Injective_map_NoDup; [|exact Ho].
      intros x y E. rewrite <- (turn_turn x), <- (turn_turn y), E. reflexivity.
    + intros s s' p I1 I2 N Q. destruct (Hs (turn s) (turn s') p (side_turned _ _ I1) (side_turned _ _ I2)) as [A B].
      * intros E. apply N. rewrite <- (turn_turn s), <- (turn_turn s'), E. reflexivity.
      * destruct Q as [[Q1 Q2]|Q]; [left; split; apply on_turn; assumption|right; apply nearly_turn_both, Q].
      * split; apply end_turn; assumption.
  - intros s s' p I1 I2 Hn. destruct (lo_meet _ _ _ HL s (turn s') p I1 (side_turned _ _ I2) (nearly_turn _ _ _ Hn)) as (A & B & C). split; [exact A|]. split; [|exact C].
    rewrite <- (turn_turn s'). apply on_turn, B.
  - intros s s' p I1 I2 Hc O1 O2. destruct (lo_across _ _ _ HL s (turn s') p I1 (side_turned _ _ I2)) as [A B].
    + unfold crossp, turn in *. cbn [fst snd]. lra.
    + exact O1.
    + apply on_turn, O2.
    + split; [exact A|apply end_turn, B].
Qed.
Lemma clear_turned_second : forall Z K l2, middles_clear Z K (polygon_sides l2) -> middles_clear Z K (polygon_sides (rev l2)).
Proof.
  intros Z K l2 HM s u v m Hs Hu Hv Hp Hm Ho s' Hs' Ht. apply (HM s u v m Hs Hu Hv Hp Hm) with (s' := turn s').
  - intros x Hx Hq. apply (Ho (turn x) (turned_side _ _ Hx)). apply on_turn, Hq.
  - apply side_turned, Hs'.
  - apply touches_turn, Ht.
Qed.
Lemma clear_turned_first : forall Z K l2, middles_clear Z (polygon_sides l2) K -> middles_clear Z (polygon_sides (rev l2)) K.
Proof.
  intros Z K l2 HM s u v m Hs Hu Hv Hp [M1 M2]. apply (HM (turn s) v u m (side_turned _ _ Hs) Hv Hu (part_turn _ _ _ Hp)).
  split; [rewrite M1|rewrite M2]; field.
Qed.

(** ** The position of the second polygon within the first *)
Lemma loop1_inside : forall (p1 : polyline ArithR) vs pc pb, continence_loop1 p1 vs pc pb = Ok (Some (Some Inside, Open)) ->
  (forall v, In v vs -> contains_unwrap p1 v = Ok Inside) /\ pb = Open.
Proof.
  intros p1 vs. induction vs as [|v vs IH]; intros pc pb Hr; cbn [continence_loop1] in Hr.
  - injection Hr as -> ->. split; [intros v []|reflexivity].
  - destruct (contains_unwrap p1 v) as [c| |] eqn:Hc; try discriminate. cbn [bind] in Hr. destruct (cont_eqb c Boundary) eqn:Hb.
    + destruct (IH _ _ Hr) as [_ E]. discriminate.
    + destruct pc as [c'|].
      * destruct (cont_eqb c' c) eqn:E; [|discriminate]. destruct (IH _ _ Hr) as [A B]. split; [|exact B]. intros w [<-|Hw]; [|apply A, Hw].
        rewrite Hc. f_equal. clear - Hr E Hb. assert (Q : c' = Inside).
        { revert Hr. clear. revert c' pb. induction vs as [|v vs IH]; intros c' pb Hr; cbn [continence_loop1] in Hr; [congruence|].
          destruct (contains_unwrap p1 v) as [c| |]; try discriminate. cbn [bind] in Hr. destruct (cont_eqb c Boundary); [apply (IH _ _ Hr)|]. destruct (cont_eqb c' c); [apply (IH _ _ Hr)|discriminate]. }
        subst c'. destruct c; try reflexivity; discriminate.
      * destruct (IH _ _ Hr) as [A B]. split; [|exact B]. intros w [<-|Hw]; [|apply A, Hw].
        rewrite Hc. f_equal. revert Hr. clear. revert pb. induction vs as [|v vs IH]; intros pb Hr; cbn [continence_loop1] in Hr; [congruence|].
        destruct (contains_unwrap p1 v) as [c'| |]; try discriminate. cbn [bind] in Hr. destruct (cont_eqb c' Boundary); [apply (IH _ Hr)|]. destruct (cont_eqb c c'); [apply (IH _ Hr)|discriminate].
Qed.
Lemma corner_first : forall (l : list pnt) v, In v l -> exists s, In s (polygon_sides l) /\ fst s = v.
Proof.
  intros [|a l] v Hv; [destruct Hv|]. change (polygon_sides (a :: l)) with (path_sides ((a :: l) ++ [a])).
  rewrite <- (path_fst (a :: l) a) in Hv. apply in_map_iff in Hv. destruct Hv as (s & E & Hs). exists s. auto.
Qed.
Lemma continence_run : forall Z l1 l2 fuel, l1 <> [] -> l2 <> [] -> laid_out Z (polygon_sides l1) (polygon_sides l2) -> (enough Z <= fuel)%nat ->
  (exists v, In v l2 /\ poly_contains (Poly l1 false) v <> Ok (Some Inside)) ->
  exists o, poly_continence fuel (Poly l1 false) (Poly l2 false) = Ok o /\ continence_is o Inside Open = false.
Proof.
  intros Z l1 l2 fuel N1 N2 HL Hf (v & Hv & Hc). unfold poly_continence. cbn [popened].
  rewrite (polygon_edges l2 N2). cbn [bind].
  assert (P1 : poly_pairs (Poly l1 false) = Ok (polygon_sides l1)) by (apply polygon_edges, N1).
  assert (P2 : poly_pairs (Poly l2 false) = Ok (polygon_sides l2)) by (apply polygon_edges, N2).
  set (crit := flat_map _ _). assert (Hvc : In v crit).
  { destruct (corner_first l2 v Hv) as (s & Hs & E). unfold crit. apply in_flat_map. exists s. split; [exact Hs|]. right. left. exact E. }
  destruct (continence_loop1_total (Poly l1 false) N1 eq_refl crit None Open) as (o & Ho & Hn). rewrite Ho. cbn [bind].
  destruct o as [[pc pb]|]; [|exists None; split; reflexivity].
  rewrite P1, P2. cbn [bind]. destruct (split_pieces Z _ _ HL fuel Hf) as (E1 & E2 & r & Hr & _). rewrite Hr. cbn [bind].
  destruct (continence_loop2_total (Poly l1 false) N1 eq_refl r pc) as [b Hb]. rewrite Hb. cbn [bind].
  destruct b; cbn [negb]; [|exists None; split; reflexivity].
  destruct pc as [c|].
  - exists (Some (c, pb)). split; [reflexivity|]. destruct c, pb; try reflexivity. exfalso.
    destruct (loop1_inside _ _ _ _ Ho) as [A _]. specialize (A v Hvc). apply Hc. unfold contains_unwrap in A.
    destruct (poly_contains (Poly l1 false) v) as [[k|]| |]; try discriminate. cbn in A. congruence.
  - destruct (Hn None pb eq_refl eq_refl) as [_ Q]. rewrite Q; [|left; intros E; rewrite E in Hvc; destruct Hvc]. exists (Some (Boundary, Closed)). split; reflexivity.
Qed.

Theorem subtraction_surrounds : forall H Z l1 l2 fuel p, (3 <= length l1)%nat -> (3 <= length l2)%nat ->
  laid_out Z (polygon_sides l1) (polygon_sides l2) -> no_counter Z (polygon_sides l1 ++ polygon_sides (rev l2)) ->
  middles_clear Z (polygon_sides l1) (polygon_sides l2) -> middles_clear Z (polygon_sides l2) (polygon_sides l1) ->
  filled_once l1 -> filled_once l2 -> boxes_meet (Poly l1 false) (Poly l2 false) ->
  (exists v, In v l2 /\ poly_contains (Poly l1 false) v <> Ok (Some Inside)) -> (enough Z <= fuel)%nat ->
  exists pls u, poly_subtraction H fuel p (Poly l1 false) (Poly l2 false) = Ok (pls, u) /\ (forall pl, In pl pls -> proper_closed pl) /\
    forall q, (forall s, In s (polygon_sides l1 ++ polygon_sides l2) -> ~ on_segment (fst s) (snd s) q) ->
      winding_all q pls = (winding q (polygon_sides l1) * (1 - winding q (polygon_sides l2)))%Z.
Proof.
  intros H Z l1 l2 fuel p L1 L2 HL HN HM1 HM2 F1 F2 (b1 & b2 & b & B1 & B2 & B3) Hex Hf. pose proof (three_some _ L1) as N1. pose proof (three_some _ L2) as N2.
  assert (N2' : rev l2 <> []) by (intros E; apply N2; rewrite <- (rev_involutive l2), E; reflexivity).
  pose proof (laid_turned _ _ _ HL) as HL'. pose proof (clear_turned_second _ _ _ HM1) as HM1'. pose proof (clear_turned_first _ _ _ HM2) as HM2'.
  destruct (split_pieces Z _ _ HL' fuel Hf) as (E1 & E2 & r & Hr & HP & HT & Hlen & HE1 & HE2).
  destruct (continence_run Z l1 l2 fuel N1 N2 HL Hf Hex) as (o & Ho & Hno).
  unfold poly_subtraction.
  assert (P1 : poly_pairs (Poly l1 false) = Ok (polygon_sides l1)) by (apply polygon_edges, N1).
  assert (P2 : vertex_pairs (rev (pverts (Poly l2 false))) (popened (Poly l2 false)) = Ok (polygon_sides (rev l2))) by (apply (polygon_edges (rev l2)), N2').
  rewrite P1, P2. cbn [bind]. rewrite Hr. cbn [bind]. rewrite B1, B2. cbn [unwrap bind]. rewrite B3, Ho. cbn [bind popened orb]. rewrite Hno.
  assert (Hsm : (length r < fuel)%nat) by (unfold enough in Hf; lia).
  assert (Hc : cancel_opposed fuel (Poly l1 false) (Poly l2 false) r = Ok (rev r, [])).
  { rewrite <- (rev_involutive r) at 1. apply cancel_opposed_calm.
    - apply closed_three, L1.
    - apply closed_three, L2.
    - intros E. apply (pieces_some l1 _ E1 E2 r N1 HT HP). rewrite <- (rev_involutive r), E. reflexivity.
    - intros s s' Hs Hs'. apply (calm_pieces Z l1 (rev l2) E1 E2 r HP HE1 HE2 HN); apply in_rev; assumption.
    - rewrite rev_length. exact Hsm. }
  rewrite Hc. cbn [bind]. rewrite rev_involutive.
  set (g := fun e : edge ArithR => said (keep_subtraction (Poly l1 false) (Poly l2 false) (mid e))).
  assert (G1 : forall e, In e E1 -> keep_subtraction (Poly l1 false) (Poly l2 false) (mid e) = Ok (g e) /\ b2z (g e) = (1 + winding (mid e) (polygon_sides (rev l2)))%Z).
  { intros e He. destruct (first_piece Z l1 (rev l2) HM1' N2' E1 E2 HT HE1 e He) as (C1 & Ho' & k & C2 & Nb & Wi & Wo). rewrite contains_reverse in C2. unfold g, keep_subtraction.
    rewrite (unwrap_run _ _ _ C1), (unwrap_run _ _ _ C2). cbn [bind]. cbv beta in Wi, Wo. rewrite winding_rev in *. destruct k; cbn.
    all: try (exfalso; apply Nb; reflexivity). all: split; [reflexivity|]. all: cbn.
    - assert (Q : forall s, In s (polygon_sides l2) -> ~ on_segment (fst s) (snd s) (mid e)) by (intros s Hs Hq; apply (Ho' (turn s) (turned_side _ _ Hs)); apply on_turn, Hq).
      specialize (Wi eq_refl). destruct (F2 (mid e) Q) as [W|W]; rewrite W in *; [exfalso; apply Wi; reflexivity|reflexivity].
    - rewrite (Wo eq_refl). reflexivity. }
  assert (G2 : forall e, In e E2 -> keep_subtraction (Poly l1 false) (Poly l2 false) (mid e) = Ok (g e) /\ b2z (g e) = winding (mid e) (polygon_sides l1)).
  { intros e He. destruct (second_piece Z l1 (rev l2) HM2' N1 E1 E2 HT HE2 e He) as (C1 & Ho' & k & C2 & Nb & Wi & Wo). rewrite contains_reverse in C1. unfold g, keep_subtraction.
    rewrite (unwrap_run _ _ _ C1), (unwrap_run _ _ _ C2). cbn [bind]. destruct k; cbn.
    all: try (exfalso; apply Nb; reflexivity). all: split; [reflexivity|]. all: cbn.
    - destruct (F1 (mid e) Ho') as [W|W]; [exfalso; apply (Wi eq_refl W)|symmetry; exact W].
    - symmetry. apply Wo. reflexivity. }
  destruct (by_midpoint_exact (keep_subtraction (Poly l1 false) (Poly l2 false)) g r [] []) as [unused Hb].
  { intros e He. apply (Permutation_in _ HP) in He. rewrite (mid_midpoint Z l1 (rev l2) HL' E1 E2 HE1 HE2 e He). apply in_app_or in He. destruct He as [He|He]; [apply G1, He|apply G2, He]. }
  rewrite Hb. cbn [bind app].
  destruct (chosen_joined Z l1 (rev l2) HL' E1 E2 r HP HT HE1 HE2 H fuel p g unused Hsm) as (pls & Hj & Hcl & Hw).
  - intros v. rewrite (sum_weights E1 E2 _ (fun e => ((same_place v (snd e) - same_place v (fst e)) + winding (mid e) (polygon_sides (rev l2)) * (same_place v (snd e) - same_place v (fst e)))%Z) (fun e => (winding (mid e) (polygon_sides l1) * (same_place v (snd e) - same_place v (fst e)))%Z)).
    + assert (Q : zsum (fun e : edge ArithR => (same_place v (snd e) - same_place v (fst e))%Z) E1 = 0%Z) by exact (proj1 (piece_sum l1 (rev l2) E1 E2 HT v)).
      rewrite zsum_add, Q, <- Z.add_assoc. apply (two_balance l1 (rev l2) E1 E2 HT v).
    + intros e He. rewrite (proj2 (G1 e He)). ring.
    + intros e He. rewrite (proj2 (G2 e He)). reflexivity.
  - exists pls, unused. split; [exact Hj|]. split; [exact Hcl|]. intros q Hq. rewrite Hw.
    assert (Hq' : forall s, In s (polygon_sides l1 ++ polygon_sides (rev l2)) -> ~ on_segment (fst s) (snd s) q).
    { intros s Hs Hs'. apply in_app_or in Hs. destruct Hs as [Hs|Hs]; [apply (Hq s); [apply in_or_app; left; exact Hs|exact Hs']|].
      apply (Hq (turn s)); [apply in_or_app; right; apply side_turned, Hs|apply on_turn, Hs']. }
    pose proof (two_product Z l1 (rev l2) E1 E2 HT HE1 HE2 q Hq') as Hpr. cbv beta in Hpr.
    rewrite (sum_weights E1 E2 _ (fun e => (rc q e + rc q e * winding (mid e) (polygon_sides (rev l2)))%Z) (fun e => (rc q e * winding (mid e) (polygon_sides l1))%Z)).
    + rewrite zsum_add, <- Z.add_assoc, <- Hpr, <- winding_zsum, (tc_W1 _ _ _ _ HT q), winding_rev. ring.
    + intros e He. rewrite (proj2 (G1 e He)). ring.
    + intros e He. rewrite (proj2 (G2 e He)). ring.
Qed.
