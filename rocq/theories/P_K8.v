(** P_K8.v — union of two polygons that cross. *)

From Coq Require Import Reals List ZArith Lra Lia Psatz Bool Permutation.
From Verif Require Import Base Arith Geometry Elements Polyline Procedures ArithR Spec SpecR SpecD SpecM SpecP SpecK
  P_Base P_Poly P_Trn P_Triangulator P_Contains P_R1 P_R2 P_R3 P_R4 P_R5 P_R6 P_D1 P_D2 P_D3 P_D4 P_D5 P_RX P_Fill P_Fill2 P_Slide P_Region2 P_E4 P_G1 P_Bool P_Nest P_J3
  P_K1 P_K2 P_K3 P_K4 P_K5 P_K6 P_K7.
Import ListNotations.

Section Rings.
  Variable H : HashOrder.
  Variable M : list (edge ArithR).
  Hypothesis Hends : forall e f u w, In e M -> In f M -> u = fst e \/ u = snd e -> w = fst f \/ w = snd f -> veqb u w = true -> u = w.
  Hypothesis Hproper : forall e, In e M -> fst e <> snd e.
  Hypothesis Hflip : forall e, In e M -> ~ In (snd e, fst e) M.

  Definition ring_area (c : list (edge ArithR)) : R := area_segments c.
  Definition outcome (o : res (option (polyline ArithR * list (edge ArithR)))) (unused : list (edge ArithR)) (chains : list (list (edge ArithR))) : Prop :=
    (exists cs c cs' u, chains = cs ++ c :: cs' /\ o = Ok (Some (Poly (map fst c) false, u)) /\ (ring_area c < 0)%R /\ incl unused u /\ forall x, In x (cs ++ cs') -> incl x u) \/
    (o = Panic /\ exists c, In c chains /\ ring_area c = 0%R) \/
    (o = Ok None /\ forall c, In c chains -> (0 < ring_area c)%R).

  Lemma union_closing : forall fuel p poss unused, incl poss M -> NoDup poss -> Permutation (map fst poss) (map snd poss) -> length poss < fuel ->
    exists chains : list (list (edge ArithR)), Permutation (concat chains) poss /\ (forall c, In c chains -> polygon_sides (map fst c) = c /\ 3 <= length c) /\
      outcome (union_loop H fuel p poss unused) unused chains.
  Proof.
    induction fuel as [|fuel IH]; intros p poss unused Hi Hnd Hb Hf; [lia|]. cbn [union_loop].
    destruct (ho H (1 :: p) _ poss) as [|[v1 v2] l0] eqn:Hh.
    - apply ho_nil_inv in Hh. subst poss. exists []. split; [reflexivity|]. split; [intros c []|]. right. right. split; [reflexivity|intros c []].
    - assert (Hin : In (v1, v2) (ho H (1 :: p) _ poss)) by (rewrite Hh; left; reflexivity). apply ho_In in Hin.
      destruct (in_split _ _ Hin) as (l1 & l2 & Ep). assert (P : Permutation poss ((v1, v2) :: (l1 ++ l2))) by (rewrite Ep; apply Permutation_sym, Permutation_middle).
      pose proof (hdel_perm (v1, v2) poss (l1 ++ l2) Hnd P) as Pd.
      destruct (chain_closing H M Hends Hproper Hflip fuel (2 :: p) true [] v1 v2 (hdel edec (v1, v2) poss) v1) as (new & poss' & Hr & Pn & Hl & Hb' & Hnd').
      + apply Hi, Hin.
      + intros x Hx. apply hdel_In in Hx. apply Hi, Hx.
      + apply hdel_NoDup, Hnd.
      + cbn. auto.
      + rewrite (Permutation_map fst Pd), (Permutation_map snd Pd). rewrite (Permutation_map fst P), (Permutation_map snd P) in Hb. exact Hb.
      + rewrite (Permutation_length Pd). rewrite (Permutation_length P) in Hf. cbn in Hf. lia.
      + match type of Hr with ?L = _ => match goal with |- context [chain_loop ?a ?b ?c ?d ?e ?f] => change (chain_loop a b c d e f) with L end end. rewrite Hr. cbn [bind]. set (ch := rev (new ++ [(v1, v2)])) in *.
        assert (Hsub : incl (new ++ [(v1, v2)]) M).
        { intros x Hx. apply in_app_or in Hx. destruct Hx as [Hx|[<-|[]]]; [|apply Hi, Hin]. apply Hi. apply (Permutation_in _ (Permutation_sym P)). right. apply (Permutation_in _ Pd), (Permutation_in _ (Permutation_sym Pn)), in_or_app. left. exact Hx. }
        assert (Hlen : 3 <= length (new ++ [(v1, v2)])).
        { revert Hl Hsub. unfold ch. clear - Hproper Hflip. intros Hl Hsub. destruct new as [|[a b] [|e new]]; [| |cbn; rewrite app_length; cbn; lia]; exfalso.
          - cbn in Hl. destruct Hl as [_ E]. apply (Hproper (v1, v2)); [apply Hsub; left; reflexivity|cbn; congruence].
          - cbn in Hl. destruct Hl as (_ & E1 & E2). subst a b. apply (Hflip (v1, v2)); [apply Hsub; right; left; reflexivity|]. apply Hsub. left. reflexivity. }
        assert (Hcc : chain_closed (new ++ [(v1, v2)]) = true) by (apply chain_closed_leads; assumption).
        rewrite Hcc. assert (Hne : ch <> []) by (intros E; apply (f_equal (@length _)) in E; unfold ch in E; rewrite rev_length in E; cbn in E; lia).
        assert (Hnc : new_closed (map ev1 ch) = Some (Poly (map fst ch) false)).
        { change (map ev1 ch) with (map (@fst pnt pnt) ch). unfold new_closed. destruct (Nat.ltb_spec (length (map fst ch)) 3) as [L|L]; [|reflexivity]. rewrite map_length in L. unfold ch in L. rewrite rev_length in L. lia. }
        assert (Hp' : incl poss' poss) by (intros x Hx; apply (Permutation_in _ (Permutation_sym P)); right; apply (Permutation_in _ Pd), (Permutation_in _ (Permutation_sym Pn)), in_or_app; right; exact Hx).
        assert (Hring : polygon_sides (map fst ch) = ch /\ 3 <= length ch) by (split; [apply (ring_sides ch v1); assumption|unfold ch; rewrite rev_length; exact Hlen]).
        assert (Pall : forall chains, Permutation (concat chains) poss' -> Permutation (concat (ch :: chains)) poss).
        { intros chains Pc. cbn. rewrite Pc, P, <- Pd, Pn. unfold ch. rewrite <- (Permutation_rev (new ++ [(v1, v2)])). rewrite <- app_assoc. cbn. apply Permutation_sym, Permutation_middle. }
        assert (Hmore : exists chains : list (list (edge ArithR)), Permutation (concat chains) poss' /\ forall c, In c chains -> polygon_sides (map fst c) = c /\ 3 <= length c).
        { destruct (build_closing H M Hends Hproper Hflip (Datatypes.S (length poss')) [] poss' [] []) as (chains & _ & A & B); [intros x Hx; apply Hi, Hp', Hx|exact Hnd'|exact Hb'|apply Nat.lt_succ_diag_r|eauto]. }
        assert (Ho : segments_orientation ch = if Rlt_dec (ring_area ch) 0 then Ok CCW else if Rlt_dec 0 (ring_area ch) then Ok CW else Panic).
        { unfold segments_orientation, ring_area. cbn. unfold Rltb. destruct (Rlt_dec _ _); [reflexivity|]. destruct (Rlt_dec _ _); reflexivity. }
        match goal with |- context [segments_orientation ?x] => change (segments_orientation x) with (segments_orientation ch) end. rewrite Ho.
        destruct (Rlt_dec (ring_area ch) 0) as [La|La]; [|destruct (Rlt_dec 0 (ring_area ch)) as [Lb|Lb]]; cbn [bind orient_eqb].
        * rewrite Hnc. cbn [unwrap bind]. destruct Hmore as (chains & Pc & Hc). exists (ch :: chains). split; [apply Pall, Pc|]. split; [intros c [<-|Hc']; [exact Hring|apply Hc, Hc']|].
          left. exists [], ch, chains. eexists. split; [reflexivity|]. split; [reflexivity|]. split; [exact La|]. split.
          -- intros x Hx. apply hset_In, in_or_app. right. exact Hx.
          -- cbn [app]. intros x Hx y Hy. apply hset_In, in_or_app. left. apply (Permutation_in _ Pc). apply in_concat. eauto.
        * destruct (IH (0 :: p) poss' (hset edec (unused ++ ch))) as (chains & Pc & Hc & Hout).
          -- intros x Hx. apply Hi, Hp', Hx.
          -- exact Hnd'.
          -- exact Hb'.
          -- assert (Q : length poss' <= length (l1 ++ l2)) by (rewrite <- (Permutation_length Pd), (Permutation_length Pn), app_length; apply Nat.le_add_l). rewrite (Permutation_length P) in Hf. exact (Nat.le_lt_trans _ _ _ Q (proj2 (Nat.succ_lt_mono _ _) Hf)).
          -- exists (ch :: chains). split; [apply Pall, Pc|]. split; [intros c [<-|Hc']; [exact Hring|apply Hc, Hc']|].
             destruct Hout as [(cs & c & cs' & u & E1 & E2 & E3 & E4 & E5)|[(E1 & c & E2 & E3)|(E1 & E2)]].
             ++ left. exists (ch :: cs), c, cs', u. split; [rewrite E1; reflexivity|]. split; [exact E2|]. split; [exact E3|]. split.
                ** intros x Hx. apply E4, hset_In, in_or_app. left. exact Hx.
                ** intros x [<-|Hx]; [intros y Hy; apply E4, hset_In, in_or_app; right; exact Hy|apply E5, Hx].
             ++ right. left. split; [exact E1|]. exists c. split; [right; exact E2|exact E3].
             ++ right. right. split; [exact E1|]. intros c [<-|Hc']; [exact Lb|apply E2, Hc'].
        * destruct Hmore as (chains & Pc & Hc). exists (ch :: chains). split; [apply Pall, Pc|]. split; [intros c [<-|Hc']; [exact Hring|apply Hc, Hc']|].
          right. left. split; [reflexivity|]. exists ch. split; [left; reflexivity|]. lra.
  Qed.
End Rings.

Local Open Scope R_scope.

Theorem union_rings : forall H Z l1 l2 fuel p, (3 <= length l1)%nat -> (3 <= length l2)%nat ->
  laid_out Z (polygon_sides l1) (polygon_sides l2) ->
  middles_clear Z (polygon_sides l1) (polygon_sides l2) -> middles_clear Z (polygon_sides l2) (polygon_sides l1) ->
  filled_once l1 -> filled_once l2 -> boxes_meet (Poly l1 false) (Poly l2 false) -> (enough Z <= fuel)%nat ->
  exists chains : list (list (edge ArithR)), (forall c, In c chains -> polygon_sides (map fst c) = c /\ (3 <= length c)%nat) /\
    (forall q, (forall s, In s (polygon_sides l1 ++ polygon_sides l2) -> ~ on_segment (fst s) (snd s) q) ->
      winding_all q (map (fun c => Poly (map fst c) false) chains) =
        (winding q (polygon_sides l1) + winding q (polygon_sides l2) - winding q (polygon_sides l1) * winding q (polygon_sides l2))%Z) /\
    (forall c e, In c chains -> In e c -> poly_contains (Poly l1 false) (midpoint (fst e) (snd e)) <> Ok (Some Inside) /\ poly_contains (Poly l2 false) (midpoint (fst e) (snd e)) <> Ok (Some Inside)) /\
    outcome (poly_union H fuel p (Poly l1 false) (Poly l2 false)) [] chains.
Proof.
  intros H Z l1 l2 fuel p L1 L2 HL HM1 HM2 F1 F2 (b1 & b2 & b & B1 & B2 & B3) Hf. pose proof (three_some _ L1) as N1. pose proof (three_some _ L2) as N2.
  destruct (split_pieces Z _ _ HL fuel Hf) as (E1 & E2 & r & Hr & HP & HT & Hlen & HE1 & HE2).
  unfold poly_union. cbn [popened orb].
  assert (P1 : poly_pairs (Poly l1 false) = Ok (polygon_sides l1)) by (apply polygon_edges, N1).
  assert (P2 : poly_pairs (Poly l2 false) = Ok (polygon_sides l2)) by (apply polygon_edges, N2).
  rewrite B1, B2. cbn [unwrap bind]. rewrite B3, P1, P2. cbn [bind]. rewrite Hr. cbn [bind].
  assert (Hsm : (length r < fuel)%nat) by (unfold enough in Hf; lia).
  set (g := fun e : edge ArithR => said (keep_union (Poly l1 false) (Poly l2 false) (mid e))).
  assert (G1 : forall e, In e E1 -> keep_union (Poly l1 false) (Poly l2 false) (mid e) = Ok (g e) /\ b2z (g e) = (1 - winding (mid e) (polygon_sides l2))%Z /\
    (g e = true -> poly_contains (Poly l1 false) (mid e) <> Ok (Some Inside) /\ poly_contains (Poly l2 false) (mid e) <> Ok (Some Inside))).
  { intros e He. destruct (first_piece Z l1 l2 HM1 N2 E1 E2 HT HE1 e He) as (C1 & Ho & k & C2 & Nb & Wi & Wo). unfold g, keep_union. cbv beta in Wi, Wo.
    rewrite (outside_run _ _ _ C1), (outside_run _ _ _ C2), C1, C2. destruct k; cbn -[Z.sub].
    all: try (exfalso; apply Nb; reflexivity). all: split; [reflexivity|]. all: split; [|try discriminate; intros _; split; discriminate].
    - destruct (F2 (mid e) Ho) as [W|W]; [exfalso; apply (Wi eq_refl W)|rewrite W; reflexivity].
    - rewrite (Wo eq_refl). reflexivity. }
  assert (G2 : forall e, In e E2 -> keep_union (Poly l1 false) (Poly l2 false) (mid e) = Ok (g e) /\ b2z (g e) = (1 - winding (mid e) (polygon_sides l1))%Z /\
    (g e = true -> poly_contains (Poly l1 false) (mid e) <> Ok (Some Inside) /\ poly_contains (Poly l2 false) (mid e) <> Ok (Some Inside))).
  { intros e He. destruct (second_piece Z l1 l2 HM2 N1 E1 E2 HT HE2 e He) as (C1 & Ho & k & C2 & Nb & Wi & Wo). unfold g, keep_union. cbv beta in Wi, Wo.
    rewrite (outside_run _ _ _ C1), (outside_run _ _ _ C2), C1, C2. destruct k; cbn -[Z.sub].
    all: try (exfalso; apply Nb; reflexivity). all: split; [reflexivity|]. all: split; [|try discriminate; intros _; split; discriminate].
    - destruct (F1 (mid e) Ho) as [W|W]; [exfalso; apply (Wi eq_refl W)|rewrite W; reflexivity].
    - rewrite (Wo eq_refl). reflexivity. }
  assert (HPr : Permutation (rev r) (E1 ++ E2)) by (rewrite <- HP; apply Permutation_sym, Permutation_rev).
  destruct (by_midpoint_exact (keep_union (Poly l1 false) (Poly l2 false)) g (rev r) [] []) as [unused Hb].
  { intros e He. apply (Permutation_in _ HPr) in He. rewrite (mid_midpoint Z l1 l2 HL E1 E2 HE1 HE2 e He). apply in_app_or in He. destruct He as [He|He]; [apply G1, He|apply G2, He]. }
  rewrite Hb. cbn [bind app].
  assert (Hnd : NoDup (filter g (rev r))). { apply NoDup_filter. apply (Permutation_NoDup (Permutation_sym HPr)). apply FOP_NoDup. apply (tc_once _ _ _ _ HT). }
  rewrite (hset_NoDup_id edec _ Hnd).
  assert (Hin : forall e, In e (rev r) -> In e (E1 ++ E2)) by (intros e He; apply (Permutation_in _ HPr He)).
  destruct (union_closing H (rev r)) with (fuel := fuel) (p := p) (poss := filter g (rev r)) (unused := unused) as (chains & Pc & Hc & Hout).
  - intros e f u w He Hf' Hu Hw Hv. destruct (piece_Z Z l1 l2 HL E1 E2 HE1 HE2 e (Hin e He)) as (A & B & _). destruct (piece_Z Z l1 l2 HL E1 E2 HE1 HE2 f (Hin f Hf')) as (A' & B' & _).
    apply (Z_veqb Z _ _ HL u w); [destruct Hu; subst; assumption|destruct Hw; subst; assumption|exact Hv].
  - intros e He. apply (piece_Z Z l1 l2 HL E1 E2 HE1 HE2 e (Hin e He)).
  - intros e He He'. destruct (piece_Z Z l1 l2 HL E1 E2 HE1 HE2 e (Hin e He)) as (_ & _ & N).
    apply (FOP_in (E1 ++ E2) e (snd e, fst e) (tc_once _ _ _ _ HT) (Hin _ He) (Hin _ He')) with (p := mid e).
    + intros E. apply N. exact (f_equal fst E).
    + apply mid_inner.
    + cbn [fst snd]. apply inner_flip, mid_inner.
  - intros e He. apply filter_In in He. apply He.
  - exact Hnd.
  - apply (chosen_balanced Z l1 l2 HL E1 E2 (rev r) HPr HE1 HE2 g). intros v.
    rewrite (sum_weights E1 E2 _ (fun e => ((same_place v (snd e) - same_place v (fst e)) - winding (mid e) (polygon_sides l2) * (same_place v (snd e) - same_place v (fst e)))%Z) (fun e => ((same_place v (snd e) - same_place v (fst e)) - winding (mid e) (polygon_sides l1) * (same_place v (snd e) - same_place v (fst e)))%Z)).
    + assert (Q1 : zsum (fun e : edge ArithR => (same_place v (snd e) - same_place v (fst e))%Z) E1 = 0%Z) by exact (proj1 (piece_sum l1 l2 E1 E2 HT v)).
      assert (Q2 : zsum (fun e : edge ArithR => (same_place v (snd e) - same_place v (fst e))%Z) E2 = 0%Z) by exact (proj2 (piece_sum l1 l2 E1 E2 HT v)).
      assert (Q3 : (zsum (fun e : edge ArithR => winding (mid e) (polygon_sides l2) * (same_place v (snd e) - same_place v (fst e))) E1 + zsum (fun e : edge ArithR => winding (mid e) (polygon_sides l1) * (same_place v (snd e) - same_place v (fst e))) E2 = 0)%Z) by exact (two_balance l1 l2 E1 E2 HT v).
      rewrite (zsum_sub _ _ _ E1), (zsum_sub _ _ _ E2), Q1, Q2. lia.
    + intros e He. rewrite (proj1 (proj2 (G1 e He))). ring.
    + intros e He. rewrite (proj1 (proj2 (G2 e He))). ring.
  - pose proof (filter_shorter _ g (rev r)) as Q. rewrite rev_length in Q. exact (Nat.le_lt_trans _ _ _ Q Hsm).
  - exists chains. split; [exact Hc|]. split; [|split].
    + intros q Hq. assert (Q : winding_all q (map (fun c => Poly (map fst c) false) chains) = zsum (rc q) (concat chains)).
      { rewrite zsum_concat. clear - Hc. unfold winding_all. induction chains as [|c chains IH]; [reflexivity|].
        cbn [map fold_right]. rewrite zsum_cons, IH by (intros c' Hc'; apply Hc; right; exact Hc'). cbn [pverts]. destruct (Hc c (or_introl eq_refl)) as [E _]. rewrite E, winding_zsum. reflexivity. }
      rewrite Q, (zsum_perm _ _ _ _ Pc). rewrite zsum_filter, (zsum_perm _ _ _ _ HPr).
      pose proof (two_product Z l1 l2 E1 E2 HT HE1 HE2 q Hq) as Hpr. cbv beta in Hpr.
      rewrite (sum_weights E1 E2 _ (fun e => (rc q e - rc q e * winding (mid e) (polygon_sides l2))%Z) (fun e => (rc q e - rc q e * winding (mid e) (polygon_sides l1))%Z)).
      * rewrite !zsum_sub, Hpr, <- (tc_W1 _ _ _ _ HT q), <- (tc_W2 _ _ _ _ HT q), !winding_zsum. ring.
      * intros e He. rewrite (proj1 (proj2 (G1 e He))). ring.
      * intros e He. rewrite (proj1 (proj2 (G2 e He))). ring.
    + intros c e Hcc He. assert (Q : In e (filter g (rev r))) by (apply (Permutation_in _ Pc), in_concat; eauto). apply filter_In in Q. destruct Q as [Q Hg].
      apply Hin in Q. rewrite (mid_midpoint Z l1 l2 HL E1 E2 HE1 HE2 e Q). apply in_app_or in Q. destruct Q as [Q|Q]; [apply (G1 e Q), Hg|apply (G2 e Q), Hg].
    + destruct Hout as [(cs & c & cs' & u & Q1 & Q2 & Q3 & Q4 & Q5)|[Q|Q]]; [left|right; left; exact Q|right; right; exact Q].
      exists cs, c, cs', u. split; [exact Q1|]. split; [exact Q2|]. split; [exact Q3|]. split; [intros x []|exact Q5].
Qed.
